(** Properties of the functions a user calls, [cmf_aoadmm] and [parafac2_aoadmm]: C27, C32, C33, C34
    and C51 in terms of arguments and returned values, C40, C41, C49.

    [cmf_aoadmm V IE rnd a] is a call with arguments [a]; [V] and [IE] are the external
    routines, [rnd] is the random state.  Specifications: FitSpec.v. *)
From Coq Require Import Reals Lra Lia List Arith Bool ZArith.
From Verif Require Import Num Numpy RFacts Spec SpecFacts MatFacts ModelSpec Penalties PenaltySpec CoupledMatrices CmfSpec CmfProofs Decomp DecompSpec
  DecompFacts AdmmOne AoLoop AoMain TotalRun InitVars InitSpec InitProofs Parse ParseSpec ParseProofs P05_Runs P06_Init P07_Parse Fit FitSpec FitProofs Ideal.
Import ListNotations.
Local Open Scope R_scope.

Notation randR := (rand (N:=RNum)).

(** ** C27: every constraint that is asked for holds exactly for one of the returned
    auxiliary variables of its mode. *)
(** user's PARAFAC2 penalties that update their bases *)
Definition user_parafac2_ready (a : fitR) : Prop :=
  forall u, user_penalties (f_regs a) 1 u -> Forall (fun o => updates_basis (o_pen o)) u.

Lemma mode_value_unique k m kw kw' : mode_values k m kw -> mode_values k m kw' -> kw = kw'.
Proof.
  intros (M1 & M2 & M3 & M4 & M5 & M6 & M7 & M8 & M9) (N1 & N2 & N3 & N4 & N5 & N6 & N7 & N8 & N9). destruct kw, kw'. cbn in *.
  pose proof (means_fun _ _ _ _ M1 N1). pose proof (means_fun _ _ _ _ M2 N2). pose proof (means_fun _ _ _ _ M3 N3). pose proof (means_fun _ _ _ _ M4 N4).
  pose proof (means_fun _ _ _ _ M5 N5). pose proof (means_fun _ _ _ _ M6 N6). pose proof (means_fun _ _ _ _ M7 N7). pose proof (means_fun _ _ _ _ M8 N8). congruence.
Qed.
Lemma user_unique regs m (u u' : list pobjR) : user_penalties regs m u -> user_penalties regs m u' -> u = u'.
Proof.
  destruct regs as [| |es]; cbn; [congruence|contradiction|]. intros H1 H2. rewrite H1 in H2. injection H2 as H2. 
  rewrite <- (pens_map u), <- (pens_map u'). now rewrite H2.
Qed.
Lemma ready_of_parsed V (a : fitR) t n J c (l : list bregR) : parse_all V (f_kw a) (f_regs a) (f_aux a) (f_dual a) = Ok t -> user_parafac2_ready a ->
  map b_pen l = map o_pen (if f_updB a then pick t 1 else []) -> Forall (b_ready n J c) l.
Proof.
  intros EP HU EM. assert (K : Forall (fun o : pobjR => updates_basis (o_pen o)) (if f_updB a then pick t 1 else [])).
  { destruct (f_updB a); [|constructor]. destruct (parse_all_ok _ _ _ _ _ _ EP 1%nat ltac:(lia)) as (kw & pa & u & MV & PM & U & ->).
    apply Forall_app. split; [|now apply HU]. apply parse_mode_iff in PM as (_ & gl & GL & ->).
    assert (G : Forall (fun o : pobjR => updates_basis (o_pen o)) gl).
    { unfold gl_ok in GL. destruct (k_gl2 kw) as [[|M|]|]; subst; try constructor; try contradiction. destruct GL as (U0 & s & -> & _). repeat constructor. }
    repeat (apply Forall_app; split); try exact G;
      [unfold s_pf2; destruct (k_pf2 kw)|unfold s_uni; destruct (btruthy (k_uni kw))|unfold s_ball; destruct (k_norm kw) as [b|]; [destruct (ntruthy b)|]
      |unfold s_tv; destruct (k_tv kw) as [b|]; [destruct (ntruthy b)|]|unfold s_l1; match goal with |- context[if ?b then _ else _] => destruct b end
      |unfold s_box; destruct (k_lower kw), (k_upper kw)|unfold s_non; match goal with |- context[if ?b then _ else _] => destruct b end];
      repeat constructor; cbn; try exact Logic.I; discriminate. }
  clear - K EM. revert EM. generalize dependent (if f_updB a then pick t 1 else []). induction l as [|g l IH]; intros [|o os] K EM; try discriminate; [constructor|].
  inversion K; subst. injection EM as E0 EM. constructor; [|now apply (IH os)]. left. now rewrite E0.
Qed.

(** Positions of auxiliary variables and penalties correspond. *)
Lemma F2_of_maps {A B C} (f : A -> C) (g : B -> C) (Q : B -> Prop) (l : list A) : forall gs, map g gs = map f l -> Forall Q gs ->
  Forall2 (fun x y => g y = f x /\ Q y) l gs.
Proof. induction l as [|x l IH]; intros [|y gs] E0 F; try discriminate; [constructor|]. injection E0 as E0 E1. inversion F; subst. constructor; auto. Qed.
Lemma F2_map_r {A B C} (f : B -> C) (Q : A -> C -> Prop) l gs : Forall2 (fun x y => Q x (f y)) l gs -> Forall2 Q l (map f gs).
Proof. induction 1; constructor; auto. Qed.
Lemma Exists_F2 {A B} (P : A -> Prop) (Q : A -> B -> Prop) (R0 : B -> Prop) l gs : Forall2 Q l gs -> Exists P l -> (forall x y, P x -> Q x y -> R0 y) -> Exists R0 gs.
Proof. induction 1; intros E0 H1; inversion E0; subst; [left; eauto|right; auto]. Qed.

(** The final state of a fit. *)
Lemma fit_final V IE rnd (a : fitR) rank out : sensible V a rank -> ranks_kept IE -> svd_correct (e_ext V) rank -> 0 < data_sumsq (f_data a) ->
  cmf_aoadmm V IE rnd a = Ok out ->
  exists s l2 flags s' d t, setup V IE rnd a = Ok (s, l2) /\ listify (f_l2 a) = Ok l2 /\ const_flags (f_const a) = Ok flags /\
    valid_state (f_data a) s /\ st_inter s = None /\ mc (cA (st_cmf s)) = rank /\ params_ok (fit_params a l2 flags) /\
    (exists pos, initialize_cmf (e_ext V) IE rnd (f_data a) (f_rank a) (f_init a) 0 = Ok (st_cmf s, pos)) /\
    run (e_ext V) (fit_params a l2 flags) (f_data a) (f_n_iter a) s = Ok (s', d) /\ out = Output (st_cmf s') (if f_return_vars a then Some (vars_of s') else None) d /\
    parsed_as V a t s /\ parsed_as V a t s' /\ frozen (fit_params a l2 flags) s s' /\ same_sizes (st_cmf s) (st_cmf s').
Proof.
  intros HS RK HE HD H. destruct (fit_run _ _ _ _ _ H) as (s & l2 & flags & s' & d & ES & EF & ER & EO).
  destruct (setup_ok _ _ _ _ _ _ _ HS RK ES) as (VS & SI & MC & EL & EI & t & PA).
  assert (PO := fit_params_ok _ _ _ _ flags HS EL). rewrite <- MC in HE.
  destruct (C32_frozen_modes _ _ _ _ _ _ _ PO VS SI HE HD ER) as (FR & SS & (SP1 & SP2 & SP3)).
  exists s, l2, flags, s', d, t. repeat (split; [assumption|]). split; [|auto].
  destruct PA as (P0 & P1 & P2 & P3). repeat (split; [assumption || congruence|]). congruence.
Qed.
Lemma sizes_of_data Xs s c' : valid_state Xs s -> same_sizes (st_cmf s) c' ->
  mr (cA c') = length Xs /\ mr (cC c') = colsX Xs /\ length (cBs c') = length Xs /\ (forall i, (i < length Xs)%nat -> rowsB c' i = rowsX Xs i) /\ mc (cA c') = mc (cA (st_cmf s)).
Proof.
  intros (((_ & _ & _ & RA & _) & DL & DS) & (N1 & _) & _) (S1 & S2 & S3 & S4 & S5). rewrite S1, S2, S3, S4, RA, DL.
  split; [reflexivity|]. split; [unfold colsX; rewrite <- DL in N1; now destruct (DS 0%nat N1) as (_ & _ & ->)|]. split; [reflexivity|]. split; [|reflexivity].
  intros i Hi. rewrite <- DL in Hi. rewrite S5. unfold rowsX, rowsB. now destruct (DS i Hi) as (_ & -> & _).
Qed.

(** All penalties, in the order of their variables. *)
Lemma fit_exact V IE rnd (a : fitR) rank out : sensible V a rank -> ranks_kept IE -> svd_correct (e_ext V) rank -> 0 < data_sumsq (f_data a) ->
  user_parafac2_ready a -> (0 < f_n_iter a)%Z -> (0 < f_inner a)%Z -> f_return_vars a = true ->
  cmf_aoadmm V IE rnd a = Ok out ->
  exists v t, out_vars out = Some v /\ parse_all V (f_kw a) (f_regs a) (f_aux a) (f_dual a) = Ok t /\
    (f_updA a = true -> Forall2 (fun o X => exact_domain (o_pen o) (length (f_data a)) rank (mget X)) (pick t 0) (v_auxA v)) /\
    (f_updB a = true -> Forall2 (fun o x =>
       match o_pen o with
       | Parafac2 _ _ _ => exists Phi, forall i, (i < length (f_data a))%nat -> same rank rank (cross (rowsX (f_data a) i) (aux_entry x i)) Phi
       | p => forall i, (i < length (f_data a))%nat -> exact_domain p (rowsX (f_data a) i) rank (aux_entry x i)
       end) (pick t 1) (v_auxB v)) /\
    (f_updC a = true -> Forall2 (fun o X => exact_domain (o_pen o) (colsX (f_data a)) rank (mget X)) (pick t 2) (v_auxC v)).
Proof.
  intros HS RK HE HD HU HN HI HV H.
  destruct (fit_final _ _ _ _ _ _ HS RK HE HD H) as (s & l2 & flags & s' & d & t & ES & EL & EF & VS & SI & MC & PO & _ & ER & EO & PA & PA' & FR & SS).
  destruct (fit_params_fields a l2 flags) as (F1 & F2 & F3 & F4 & _).
  destruct (sizes_of_data _ _ _ VS SS) as (Z1 & Z2 & Z3 & Z4 & Z5).
  assert (RD : ready_state s) by (eapply ready_of_parsed; [apply PA|exact HU|apply PA]).
  assert (EX : exact_state (fit_params a l2 flags) s').
  { refine (C27_exact_constraints _ _ _ _ _ _ _ PO VS SI _ HD RD HN _ ER); [now rewrite MC|]. rewrite F4. lia. }
  destruct EX as (XA & XB & XC). rewrite F1 in XA. rewrite F2 in XB. rewrite F3 in XC. rewrite MC in Z5.
  destruct PA' as (EP & MA & MB & MCc). rewrite HV in EO. exists (vars_of s'), t. split; [now rewrite EO|]. split; [exact EP|]. split; [|split].
  - intros U. rewrite U in MA. unfold vars_of. cbn [v_auxA]. apply F2_map_r. specialize (XA U). rewrite Z1, Z5 in XA.
    eapply F2_impl; [|exact (F2_of_maps _ _ _ _ _ MA XA)]. intros o g (E0 & K). now rewrite <- E0.
  - intros U. rewrite U in MB. unfold vars_of. cbn [v_auxB]. apply F2_map_r. specialize (XB U). rewrite Z3, Z5 in XB.
    eapply F2_impl; [|exact (F2_of_maps _ _ _ _ _ MB XB)]. intros o g (E0 & K). rewrite <- E0. unfold b_exact in K.
    destruct (b_pen g); try (intros i Hi; specialize (K i Hi); rewrite Z4 in K by exact Hi; exact K).
    destruct K as (Phi & K). exists Phi. intros i Hi. specialize (K i Hi). rewrite Z4 in K by exact Hi. exact K.
  - intros U. rewrite U in MCc. unfold vars_of. cbn [v_auxC]. apply F2_map_r. specialize (XC U). rewrite Z2, Z5 in XC.
    eapply F2_impl; [|exact (F2_of_maps _ _ _ _ _ MCc XC)]. intros o g (E0 & K). now rewrite <- E0.
Qed.

Theorem C27_fit_constraints V IE rnd (a : fitR) rank out :
  sensible V a rank -> ranks_kept IE -> svd_correct (e_ext V) rank -> 0 < data_sumsq (f_data a) ->
  user_parafac2_ready a -> (0 < f_n_iter a)%Z -> (0 < f_inner a)%Z -> f_return_vars a = true ->
  cmf_aoadmm V IE rnd a = Ok out ->
  exists v, out_vars out = Some v /\
    (f_updA a = true -> forall kw, mode_values (f_kw a) 0 kw -> constraints_met kw rank (fun Q => some_aux (v_auxA v) (Q (length (f_data a))))) /\
    (f_updB a = true -> forall kw, mode_values (f_kw a) 1 kw -> constraints_met kw rank (some_auxes (f_data a) (v_auxB v))) /\
    (f_updB a = true -> a_pf2 (f_kw a) = true -> constant_cross (f_data a) rank (v_auxB v)) /\
    (f_updC a = true -> forall kw, mode_values (f_kw a) 2 kw -> constraints_met kw rank (fun Q => some_aux (v_auxC v) (Q (colsX (f_data a))))).
Proof.
  intros HS RK HE HD HU HN HI HV H. destruct (fit_exact _ _ _ _ _ _ HS RK HE HD HU HN HI HV H) as (v & t & EV & EP & XA & XB & XC).
  exists v. split; [exact EV|].
  assert (MONO : forall kw c (S1 S2 : (nat -> ent -> Prop) -> Prop), (forall Q, S1 Q -> S2 Q) -> constraints_met kw c S1 -> constraints_met kw c S2).
  { intros kw c S1 S2 K (C1 & C2 & C3 & C4 & C5). unfold constraints_met.
    split; [intros; apply K; auto|]. split; [intros; apply K; auto|]. split; [intros; apply K; auto|]. split; [intros; apply K; auto|]. intros; apply K; auto. }
  assert (HAS : forall m kw, (m < 3)%nat -> mode_values (f_kw a) m kw ->
    constraints_met kw rank (fun Q => Exists (fun o => ~ is_parafac2 (o_pen o) /\ forall r X, exact_domain (o_pen o) r rank X -> Q r X) (pick t m))).
  { intros m kw Hm MV. destruct (parse_all_ok _ _ _ _ _ _ EP m Hm) as (kw' & pa & u & MV' & PM & U & ->).
    rewrite <- (mode_value_unique _ _ _ _ MV MV') in PM. eapply MONO; [|exact (parsed_has _ _ _ _ _ PM rank)]. intros Q K. apply Exists_app. now left. }
  split; [|split; [|split]].
  - intros U kw MV. eapply MONO; [|exact (HAS 0%nat kw ltac:(lia) MV)]. intros Q K. unfold some_aux.
    eapply Exists_F2; [exact (XA U)|exact K|]. intros o X (_ & K1) K2. now apply K1.
  - intros U kw MV. eapply MONO; [|exact (HAS 1%nat kw ltac:(lia) MV)]. intros Q K. unfold some_auxes.
    eapply Exists_F2; [exact (XB U)|exact K|]. intros o x (NP & K1) K2 i Hi. apply K1. destruct (o_pen o); try now apply K2. now destruct NP.
  - intros U PF. destruct (C38_penalties_are_those_requested _ _ _ _ _ _ EP 1%nat ltac:(lia)) as (kw & pa & u & MV & _ & E1 & _ & _ & _ & K & _).
    destruct (K ltac:(destruct MV as (_ & _ & _ & _ & _ & _ & _ & _ & ->); now rewrite PF)) as (n & b1 & b2 & tail & ->).
    unfold constant_cross. eapply (Exists_F2 (fun o => is_parafac2 (o_pen o))); [exact (XB U)|rewrite E1; left; exact Logic.I|].
    intros o x YP K2. unfold is_parafac2 in YP. cbv beta in K2, YP. revert YP K2. destruct (o_pen o); intros YP K2; try contradiction. exact K2.
  - intros U kw MV. eapply MONO; [|exact (HAS 2%nat kw ltac:(lia) MV)]. intros Q K. unfold some_aux.
    eapply Exists_F2; [exact (XC U)|exact K|]. intros o X (_ & K1) K2. now apply K1.
Qed.
Print Assumptions C27_fit_constraints.

(** All penalties, also the user's own: the last auxiliary variables of a mode belong to
    the user's penalties, in their order. *)
Theorem C27_fit_user_penalties V IE rnd (a : fitR) rank out :
  sensible V a rank -> ranks_kept IE -> svd_correct (e_ext V) rank -> 0 < data_sumsq (f_data a) ->
  user_parafac2_ready a -> (0 < f_n_iter a)%Z -> (0 < f_inner a)%Z -> f_return_vars a = true ->
  cmf_aoadmm V IE rnd a = Ok out ->
  exists v, out_vars out = Some v /\
    (f_updA a = true -> forall u, user_penalties (f_regs a) 0 u -> exists l1 l2, v_auxA v = l1 ++ l2 /\
       Forall2 (fun o X => exact_domain (o_pen o) (length (f_data a)) rank (mget X)) u l2) /\
    (f_updB a = true -> forall u, user_penalties (f_regs a) 1 u -> exists l1 l2, v_auxB v = l1 ++ l2 /\
       Forall2 (fun o x => (~ is_parafac2 (o_pen o) -> forall i, (i < length (f_data a))%nat -> exact_domain (o_pen o) (rowsX (f_data a) i) rank (aux_entry x i)) /\
                           (is_parafac2 (o_pen o) -> constant_cross (f_data a) rank [x])) u l2) /\
    (f_updC a = true -> forall u, user_penalties (f_regs a) 2 u -> exists l1 l2, v_auxC v = l1 ++ l2 /\
       Forall2 (fun o X => exact_domain (o_pen o) (colsX (f_data a)) rank (mget X)) u l2).
Proof.
  intros HS RK HE HD HU HN HI HV H. destruct (fit_exact _ _ _ _ _ _ HS RK HE HD HU HN HI HV H) as (v & t & EV & EP & XA & XB & XC).
  exists v. split; [exact EV|].
  assert (SPL : forall m u, (m < 3)%nat -> user_penalties (f_regs a) m u -> exists pa, pick t m = pa ++ u).
  { intros m u Hm HU0. destruct (parse_all_ok _ _ _ _ _ _ EP m Hm) as (kw & pa & u' & _ & _ & U & ->). exists pa. now rewrite (user_unique _ _ _ _ HU0 U). }
  split; [|split].
  - intros U u HU0. destruct (SPL 0%nat u ltac:(lia) HU0) as (pa & E0). specialize (XA U). rewrite E0 in XA.
    apply Forall2_app_inv_l in XA as (l1 & l2 & _ & K & E1). eauto.
  - intros U u HU0. destruct (SPL 1%nat u ltac:(lia) HU0) as (pa & E0). specialize (XB U). rewrite E0 in XB.
    apply Forall2_app_inv_l in XB as (l1 & l2 & _ & K & E1). exists l1, l2. split; [exact E1|]. eapply F2_impl; [|exact K].
    intros o x K1. cbv beta in K1. unfold is_parafac2. revert K1. destruct (o_pen o); intros K1; (split; [intros NP|intros IP]); try contradiction; try exact K1.
    left. exact K1.
  - intros U u HU0. destruct (SPL 2%nat u ltac:(lia) HU0) as (pa & E0). specialize (XC U). rewrite E0 in XC.
    apply Forall2_app_inv_l in XC as (l1 & l2 & _ & K & E1). eauto.
Qed.
Print Assumptions C27_fit_user_penalties.

(** ** C32: a mode that is not updated keeps its initial factor and has no variables. *)
Theorem C32_fit_frozen V IE rnd (a : fitR) rank out :
  sensible V a rank -> ranks_kept IE -> svd_correct (e_ext V) rank -> 0 < data_sumsq (f_data a) ->
  cmf_aoadmm V IE rnd a = Ok out ->
  (exists c0 pos, initialize_cmf (e_ext V) IE rnd (f_data a) (f_rank a) (f_init a) 0 = Ok (c0, pos) /\
    (f_updA a = false -> cA (out_cmf out) = cA c0) /\ (f_updB a = false -> cBs (out_cmf out) = cBs c0) /\ (f_updC a = false -> cC (out_cmf out) = cC c0)) /\
  (forall v, out_vars out = Some v ->
    (f_updA a = false -> v_auxA v = [] /\ v_dualA v = []) /\ (f_updB a = false -> v_auxB v = [] /\ v_dualB v = []) /\
    (f_updC a = false -> v_auxC v = [] /\ v_dualC v = [])) /\
  (forall d g, out_diag out = Some d -> In g (d_gaps d) ->
    (f_updA a = false -> fst (fst g) = []) /\ (f_updB a = false -> snd (fst g) = []) /\ (f_updC a = false -> snd g = [])).
Proof.
  intros HS RK HE HD H.
  destruct (fit_final _ _ _ _ _ _ HS RK HE HD H) as (s & l2 & flags & s' & d & t & ES & EL & EF & VS & SI & MC & PO & (pos & EI) & ER & EO & PA & PA' & FR & SS).
  assert (HE' : svd_correct (e_ext V) (mc (cA (st_cmf s)))) by now rewrite MC.
  destruct (fit_params_fields a l2 flags) as (F1 & F2 & F3 & F4 & _ & _ & _ & _ & F9 & _).
  destruct FR as (FA & FB & FC). rewrite F1 in FA. rewrite F2 in FB. rewrite F3 in FC.
  assert (NIL : forall st, map g_pen (st_rA st) = map g_pen (st_rA s) -> map b_pen (st_rB st) = map b_pen (st_rB s) -> map g_pen (st_rC st) = map g_pen (st_rC s) ->
    (f_updA a = false -> st_rA st = []) /\ (f_updB a = false -> st_rB st = []) /\ (f_updC a = false -> st_rC st = [])).
  { intros st E1 E2 E3. destruct PA as (_ & P1 & P2 & P3). rewrite P1 in E1. rewrite P2 in E2. rewrite P3 in E3.
    split; [|split]; intros U; rewrite U in *; [destruct (st_rA st)|destruct (st_rB st)|destruct (st_rC st)]; auto; discriminate. }
  split; [|split].
  - exists (st_cmf s), pos. split; [exact EI|]. rewrite EO. cbn [out_cmf]. split; [|split]; intros U; [now apply FA|now apply FB|now apply FC].
  - intros v HV. rewrite EO in HV. cbn [out_vars] in HV. destruct (f_return_vars a); [|discriminate]. injection HV as <-.
    destruct (C32_frozen_modes _ _ _ _ _ _ _ PO VS SI HE' HD ER) as (_ & _ & S1 & S2 & S3).
    destruct (NIL s' S1 S2 S3) as (N1 & N2 & N3). unfold vars_of. cbn.
    split; [|split]; intros U; [rewrite N1|rewrite N2|rewrite N3]; auto.
  - intros d0 g HV HG. rewrite EO in HV. cbn [out_diag] in HV.
    destruct (C34_stopping _ _ _ _ _ _ _ PO VS SI HE' HD ER) as (m & tr & pv & msg & Hm & T0 & Tm & HT & _ & R1 & R2).
    destruct (p_return_errors (fit_params a l2 flags)) eqn:EE; [|rewrite R1 in HV; [discriminate|reflexivity]].
    destruct (R2 eq_refl) as (_ & d1 & E1 & _ & (_ & _ & HL & HGs & _) & _). rewrite E1 in HV. injection HV as HV. subst d0.
    apply (In_nth _ _ ([], [], [])) in HG as (j & Hj0 & EG). assert (Hj : (j < S m)%nat) by (rewrite <- HL; exact Hj0). assert (HGs' : gaps_of (tr j) g) by (rewrite <- EG; apply HGs; lia).
    subst s. destruct (trajectory_ok _ _ _ PO m tr HT VS HE' j ltac:(lia)) as ((_ & _ & (S1 & S2 & S3) & _) & _).
    destruct (NIL (tr j) S1 S2 S3) as (N1 & N2 & N3). clear EG HGs. destruct g as [[gA gB] gC].
    destruct HGs' as ((L1 & _) & (L2 & _) & (L3 & _)). cbn [fst snd].
    split; [|split]; intros U; [rewrite (N1 U) in L1; now destruct gA|rewrite (N2 U) in L2; now destruct gB|rewrite (N3 U) in L3; now destruct gC].
Qed.
Print Assumptions C32_fit_frozen.

(** ** C33: what is reported *)
Lemma total_penalty_app (l1 l2 : list pobjR) r c X : total_penalty (l1 ++ l2) r c X = total_penalty l1 r c X + total_penalty l2 r c X.
Proof. induction l1 as [|o l IH]; cbn; [lra|]. rewrite IH. lra. Qed.
Lemma penalty_of_regs (l : list mregR) : forall (os : list pobjR) r c X, map g_pen l = map o_pen os ->
  Sum (length l) (fun q => doc_penalty (g_pen (nth_reg l q)) r c X) = total_penalty os r c X.
Proof.
  induction l as [|g l IH]; intros [|o os] r c X E0; try discriminate; [reflexivity|]. injection E0 as E0 E1. cbn [length total_penalty].
  rewrite Sum_rsum, rsum_head, <- Sum_rsum. unfold nth_reg at 1. cbn [nth]. rewrite E0. f_equal. now apply (IH os).
Qed.
Lemma penalty_of_bregs (l : list bregR) : forall (os : list pobjR) r c X, map b_pen l = map o_pen os ->
  Sum (length l) (fun q => doc_penalty (b_pen (nth_breg l q)) r c X) = total_penalty os r c X.
Proof.
  induction l as [|g l IH]; intros [|o os] r c X E0; try discriminate; [reflexivity|]. injection E0 as E0 E1. cbn [length total_penalty].
  rewrite Sum_rsum, rsum_head, <- Sum_rsum. unfold nth_breg at 1. cbn [nth]. rewrite E0. f_equal. now apply (IH os).
Qed.

Lemma loss_of_arguments V (a : fitR) l2 flags t (s : stateR) l kw u : listify (f_l2 a) = Ok l2 -> parsed_as V a t s -> arguments a l kw u ->
  loss (fit_params a l2 flags) (f_data a) s = fit_loss a l kw u (st_cmf s).
Proof.
  intros EL (EP & PA & PB & PC) HA.
  assert (TP : forall m, (m < 3)%nat -> forall r c X, total_penalty (pick t m) r c X = requested_penalty (kw m) r c X + total_penalty (u m) r c X).
  { intros m Hm r c X. destruct (HA m Hm) as (_ & MV & U). destruct (C38_penalties_are_those_requested _ _ _ _ _ _ EP m Hm) as (kw' & pa & u' & MV' & U' & -> & _ & K & _).
    rewrite (mode_value_unique _ _ _ _ MV MV'), (user_unique _ _ _ _ U U'). now rewrite total_penalty_app, K. }
  assert (MP : forall m b, (m < 3)%nat -> forall r c X, total_penalty (if (b : bool) then pick t m else []) r c X = mode_penalty b (kw m) (u m) r c X).
  { intros m b Hm r c X. unfold mode_penalty. destruct b; [now apply TP|reflexivity]. }
  unfold loss, fit_loss, penalty_sum, l2_sum. cbv zeta. destruct l2 as [[x y] z]. apply listify_iff in EL as (M0 & M1 & M2).
  assert (LV : forall m v, (m < 3)%nat -> means (f_l2 a) m v -> l m = l2_value (N:=RNum) v).
  { intros m v Hm Mv. destruct (HA m Hm) as ((v' & Mv' & ->) & _). rewrite (means_fun _ _ _ _ Mv Mv'). now destruct v'. }
  rewrite (LV 0%nat x), (LV 1%nat y), (LV 2%nat z) by (auto; lia). cbn [fit_params p_l2A p_l2B p_l2C].
  f_equal. f_equal; [f_equal|].
  - rewrite (penalty_of_regs _ _ _ _ _ PA). apply (MP 0%nat). lia.
  - rewrite !Sum_rsum. erewrite rsum_ext; [|intros q Hq; rewrite Sum_rsum; reflexivity]. rewrite rsum_swap. apply rsum_ext. intros i Hi.
    rewrite <- Sum_rsum. rewrite (penalty_of_bregs _ _ _ _ _ PB). apply (MP 1%nat). lia.
  - rewrite (penalty_of_regs _ _ _ _ _ PC). apply (MP 2%nat). lia.
Qed.

Lemma last_seq {B} (f : nat -> B) m d : last (map f (seq 0 (S m))) d = f m.
Proof. rewrite seq_S, map_app. cbn. now rewrite last_last. Qed.
Theorem C33_fit_reports V IE rnd (a : fitR) rank out :
  sensible V a rank -> ranks_kept IE -> svd_correct (e_ext V) rank -> 0 < data_sumsq (f_data a) ->
  cmf_aoadmm V IE rnd a = Ok out ->
  (f_return_vars a = true <-> out_vars out <> None) /\ (f_return_errors a = true <-> out_diag out <> None) /\
  (forall d, out_diag out = Some d ->
     let n := d_n_iter d in
     length (d_errors d) = S n /\ length (d_losses d) = S n /\ length (d_gaps d) = S n /\ (n <= Z.to_nat (f_n_iter a))%nat /\
     (* the last entries belong to the returned factorization, the first ones to the initial one *)
     exists c0 pos, initialize_cmf (e_ext V) IE rnd (f_data a) (f_rank a) (f_init a) 0 = Ok (c0, pos) /\
       nth 0 (d_errors d) NaN = Fin (rel_error (f_data a) c0) /\ nth n (d_errors d) NaN = Fin (rel_error (f_data a) (out_cmf out)) /\
       forall l kw u, arguments a l kw u ->
         nth 0 (d_losses d) NaN = Fin (fit_loss a l kw u c0) /\ nth n (d_losses d) NaN = Fin (fit_loss a l kw u (out_cmf out))).
Proof.
  intros HS RK HE HD H.
  destruct (fit_final _ _ _ _ _ _ HS RK HE HD H) as (s & l2 & flags & s' & od & t & ES & EL & EF & VS & SI & MC & PO & (pos & EI) & ER & EO & PA & PA' & FR & SS).
  assert (HE' : svd_correct (e_ext V) (mc (cA (st_cmf s)))) by now rewrite MC.
  destruct (fit_params_fields a l2 flags) as (_ & _ & _ & _ & _ & _ & _ & _ & F9 & _).
  destruct (C34_stopping _ _ _ _ _ _ _ PO VS SI HE' HD ER) as (m & tr & pv & msg & Hm & T0 & Tm & HT & _ & R1 & R2).
  rewrite F9 in R1, R2. rewrite EO. cbn [out_vars out_diag out_cmf]. split; [|split].
  - destruct (f_return_vars a); split; congruence.
  - destruct (f_return_errors a); split; try congruence; [intros _|intros K]; [destruct (R2 eq_refl) as (_ & d & -> & _); discriminate|].
    now rewrite R1 in K.
  - intros d Ed. rewrite Ed in *. destruct (f_return_errors a); [|now specialize (R1 eq_refl)].
    destruct (R2 eq_refl) as (_ & d' & E1 & _ & (HE1 & HL1 & HG1 & _ & HN1) & _). injection E1 as E1. subst d'. rewrite HN1. cbv zeta.
    split; [now rewrite HE1, map_length, seq_length|]. split; [now rewrite HL1, map_length, seq_length|]. split; [exact HG1|]. split; [exact Hm|].
    exists (st_cmf s), pos. split; [exact EI|]. rewrite HE1, HL1.
    assert (NTH : forall (f : nat -> xnumR) j, (j <= m)%nat -> nth j (map f (seq 0 (S m))) NaN = f j).
    { intros f j Hj. rewrite (nth_indep _ NaN (f 0%nat)) by (rewrite map_length, seq_length; lia). rewrite map_nth, seq_nth by lia. reflexivity. }
    rewrite !NTH by lia. rewrite T0, Tm. split; [reflexivity|]. split; [reflexivity|].
    intros l kw u HA. split; f_equal; eapply loss_of_arguments; eauto.
Qed.
Print Assumptions C33_fit_reports.

(** ** C34: a fit with diagnostics stops at the first iteration that meets the criteria *)
Lemma gap_below_iff x p n t : is_ratio x p n -> 0 <= p -> 0 <= n -> x <> NaN -> (below t x <-> p < t * n).
Proof.
  intros (I1 & I2 & I3) Hp Hn NN. destruct (Req_dec n 0) as [Z|NZ].
  - assert (PZ : p <> 0) by (intros PZ; apply NN, I3; auto). rewrite (I2 Z PZ), Z. split; [intros (g & K & _); discriminate|intros K; exfalso; nra].
  - rewrite (I1 NZ). split.
    + intros (g & K & L). injection K as <-. apply (Rmult_lt_compat_r n) in L; [|lra]. replace (p / n * n) with p in L by now field. exact L.
    + intros K. eexists. split; [reflexivity|]. apply (Rmult_lt_reg_r n); [lra|]. replace (p / n * n) with p by now field. exact K.
Qed.
Lemma dists_nonneg (s : stateR) : (forall q, 0 <= dist_A s q /\ 0 <= dist_B s q /\ 0 <= dist_C s q) /\ 0 <= norm_A (st_cmf s) /\ 0 <= norm_B (st_cmf s) /\ 0 <= norm_C (st_cmf s).
Proof. unfold dist_A, dist_B, dist_C, norm_A, norm_B, norm_C, fdist, ldist, fnorm, lnorm. repeat split; apply sqrt_pos. Qed.
Lemma gaps_no_nan (s : stateR) g : gaps_of s g -> all_gaps not_nan g -> no_nan s.
Proof.
  destruct g as [[gA gB] gC]. intros ((L1 & K1) & (L2 & K2) & (L3 & K3)) (N1 & N2 & N3). rewrite Forall_forall in N1, N2, N3.
  split; [|split]; intros q Hq Z D; [apply (N1 (nth q gA NaN)); [apply nth_In; lia|]|apply (N2 (nth q gB NaN)); [apply nth_In; lia|]|apply (N3 (nth q gC NaN)); [apply nth_In; lia|]];
    [apply K1|apply K2|apply K3]; auto; lia.
Qed.
Lemma gaps_feasible (s : stateR) g t : gaps_of s g -> all_gaps not_nan g -> (all_gaps (below t) g <-> feasible_state t s).
Proof.
  destruct (dists_nonneg s) as (DN & NA & NB & NC). destruct g as [[gA gB] gC]. intros ((L1 & K1) & (L2 & K2) & (L3 & K3)) (N1 & N2 & N3).
  assert (ONE : forall (g : list xnumR) n0 (f : nat -> R) (nn : R), length g = n0 -> (forall q, (q < length g)%nat -> is_ratio (nth q g NaN) (f q) nn) ->
    (forall q, 0 <= f q) -> 0 <= nn -> Forall not_nan g -> (Forall (below t) g <-> forall q, (q < n0)%nat -> f q < t * nn)).
  { intros g n0 f nn <- HK Hf Hnn HN. rewrite Forall_forall in HN. rewrite Forall_forall. split.
    - intros HB q Hq. apply (gap_below_iff (nth q g NaN) _ _ _ (HK q Hq)); auto; [apply HN|apply HB]; now apply nth_In.
    - intros HB x Hx. apply (In_nth _ _ NaN) in Hx as (q & Hq & <-). apply (gap_below_iff _ _ _ _ (HK q Hq)); auto. apply HN. now apply nth_In. }
  unfold all_gaps, feasible_state. rewrite (ONE gA _ _ _ L1 K1), (ONE gB _ _ _ L2 K2), (ONE gC _ _ _ L3 K3); auto; try tauto; intros q; apply DN.
Qed.
Theorem C34_fit_stopping V IE rnd (a : fitR) rank out d :
  sensible V a rank -> ranks_kept IE -> svd_correct (e_ext V) rank -> 0 < data_sumsq (f_data a) ->
  cmf_aoadmm V IE rnd a = Ok out -> out_diag out = Some d -> Forall (all_gaps not_nan) (d_gaps d) ->
  let n := d_n_iter d in
  (forall j, (0 < j < n)%nat -> ~ (diag_feasible a d j /\ (diag_relative a d j \/ diag_absolute a d j))) /\
  match d_message d with
  | MaxIter => n = Z.to_nat (f_n_iter a) /\ ((0 < n)%nat -> ~ (diag_feasible a d n /\ (diag_relative a d n \/ diag_absolute a d n)))
  | RelLoss => (0 < n)%nat /\ diag_feasible a d n /\ diag_relative a d n
  | AbsLoss => (0 < n)%nat /\ diag_feasible a d n /\ ~ diag_relative a d n /\ diag_absolute a d n
  end /\
  stopped_flag (f_tol a) (f_abs_tol a) (d_message d) (d_stopped d) /\
  (forall b, d_feasible d = Some b -> (b = true <-> diag_feasible a d n)) /\
  (tol_set (f_feas_tol a) <-> d_feasible d <> None).
Proof.
  intros HS RK HE HD H HDg NN.
  destruct (fit_final _ _ _ _ _ _ HS RK HE HD H) as (s & l2 & flags & s' & od & t & ES & EL & EF & VS & SI & MC & PO & (pos & EI) & ER & EO & PA & PA' & FR & SS).
  assert (HE' : svd_correct (e_ext V) (mc (cA (st_cmf s)))) by now rewrite MC.
  destruct (fit_params_fields a l2 flags) as (_ & _ & _ & _ & _ & F6 & F7 & F8 & F9 & _).
  destruct (C34_stopping _ _ _ _ _ _ _ PO VS SI HE' HD ER) as (m & tr & pv & msg & Hm & T0 & Tm & HT & ST & R1 & R2).
  rewrite F9 in R1, R2. rewrite EO in HDg. cbn [out_diag] in HDg. destruct (f_return_errors a) eqn:ERR; [|rewrite R1 in HDg; [discriminate|reflexivity]].
  destruct (R2 eq_refl) as (PV & d' & E1 & EM & (HE1 & HL1 & HG1 & HG2 & HN1) & FL). rewrite E1 in HDg. injection HDg as HDg. subst d'. cbv zeta. rewrite HN1.
  set (P := fit_params a l2 flags) in *. rewrite Forall_forall in NN.
  assert (NAN : forall j, (j <= m)%nat -> all_gaps not_nan (gaps_at d j)) by (intros j Hj; apply NN, nth_In; rewrite HG1; lia).
  assert (NO : forall j, (j <= m)%nat -> no_nan (tr j)) by (intros j Hj; apply (gaps_no_nan _ _ (HG2 j Hj)), (NAN j Hj)).
  destruct (ST ltac:(intros j Hj; apply NO; lia)) as (_ & S1 & S2 & S3 & S4).
  assert (FE : forall j, (j <= m)%nat -> (diag_feasible a d j <-> feasible_by P (tr j))).
  { intros j Hj. unfold diag_feasible, feasible_by. rewrite F8. split; intros (x & X1 & X2 & X3); exists x; (split; [exact X1|]); (split; [exact X2|]);
      apply (gaps_feasible _ _ x (HG2 j Hj) (NAN j Hj)); exact X3. }
  assert (LA : forall j l, (j <= m)%nat -> (loss_at d j l <-> l = loss P (f_data a) (tr j))).
  { intros j l Hj. unfold loss_at. rewrite HL1, (map_nth_error _ j _ (d := j)); [|rewrite (nth_error_nth' _ 0%nat); [rewrite seq_nth by lia; reflexivity|rewrite seq_length; lia]].
    split; [intros K; injection K as <-; reflexivity|intros ->; reflexivity]. }
  assert (RE : forall j, (0 < j <= m)%nat -> (diag_relative a d j <-> rel_stop P (loss P (f_data a) (pv (j - 1)%nat)) (loss P (f_data a) (tr j)))).
  { intros j Hj. unfold diag_relative, rel_stop. rewrite F6, PV by lia. split.
    - intros (x & p & l & X1 & X2 & X3 & X4 & X5). apply LA in X3; [|lia]. apply LA in X4; [|lia]. subst p l. eauto.
    - intros (x & X1 & X2 & X3). exists x. do 2 eexists. split; [exact X1|]. split; [exact X2|]. split; [apply LA; [lia|reflexivity]|].
      split; [apply LA; [lia|reflexivity]|exact X3]. }
  assert (AB : forall j, (j <= m)%nat -> (diag_absolute a d j <-> abs_stop P (loss P (f_data a) (tr j)))).
  { intros j Hj. unfold diag_absolute, abs_stop. rewrite F6, F7. split.
    - intros (X1 & x & l & X2 & X3 & X4). split; [exact X1|]. apply LA in X3; [|lia]. subst l. eauto.
    - intros (X1 & x & X2 & X3). split; [exact X1|]. exists x, (loss P (f_data a) (tr j)). split; [exact X2|]. split; [now apply LA|exact X3]. }
  assert (CR : forall j, (0 < j <= m)%nat -> (diag_feasible a d j /\ (diag_relative a d j \/ diag_absolute a d j) <-> stops P (f_data a) (pv (j - 1)%nat) (tr j))).
  { intros j Hj. unfold stops. rewrite FE, RE, AB by lia. tauto. }
  split; [|split].
  - intros [|j] Hj K; [lia|]. apply CR in K; [|lia]. cbn [Nat.sub] in K. rewrite Nat.sub_0_r in K. now apply (S1 j ltac:(lia)).
  - rewrite EM. destruct m as [|k].
    + rewrite (S3 eq_refl). split; [|lia]. destruct (Nat.eq_dec 0 (Z.to_nat (f_n_iter a))) as [Z|NZ]; [exact Z|]. exfalso. apply S2; [lia|auto].
    + pose proof (S4 k eq_refl) as K. specialize (CR (S k) ltac:(lia)). specialize (RE (S k) ltac:(lia)). specialize (AB (S k) ltac:(lia)). specialize (FE (S k) ltac:(lia)).
      cbn [Nat.sub] in *. rewrite Nat.sub_0_r in *. unfold message_ok in K. destruct msg.
      * split; [|intros _ K'; apply K, CR, K']. destruct (Nat.eq_dec (S k) (Z.to_nat (f_n_iter a))) as [Z|NZ]; [exact Z|]. exfalso. apply S2; [lia|auto].
      * split; [lia|]. rewrite FE, RE. exact K.
      * split; [lia|]. rewrite FE, RE, AB. exact K.
  - rewrite <- Tm in FL. destruct (FL (NO m (le_n _))) as (L1 & L2 & L3). rewrite F6, F7 in L1. rewrite F8 in L3. split; [exact L1|]. split; [|exact L3].
    intros b Hb. rewrite (L2 b Hb), FE by lia. tauto.
Qed.
Print Assumptions C34_fit_stopping.
