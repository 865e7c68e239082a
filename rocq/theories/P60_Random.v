(** C104: random numbers are drawn where they are asked for, and nowhere else. *)
From Coq Require Import QArith Reals Lra Lia List Arith Bool ZArith.
From Verif Require Import Num Numpy Penalties CoupledMatrices Decomp InitVars InitSpec Parse ParseSpec ParseProofs Fit FitSpec DecompExamples Ideal P11_Total FitExamples OrderSpec DrawSpec P08_Fit P09_Calls ExplainSpec P54_Explained P59_Defaults.
Import ListNotations.
Local Open Scope nat_scope.

Section Random.
Context {N : Num}.
Variables rnd rnd' : rand.

Lemma draw_agree d r c pos : (forall i, i < pos + r * Z.to_nat c -> rnd d i = rnd' d i) -> draw_mat rnd d r c pos = draw_mat rnd' d r c pos.
Proof.
  intros H. unfold draw_mat. destruct (c <? 0)%Z; [reflexivity|]. cbv zeta. f_equal. f_equal. unfold mbuild. f_equal. apply map_ext_in. intros i Hi. apply in_seq in Hi.
  apply map_ext_in. intros j Hj. apply in_seq in Hj. apply H. nia.
Qed.
Lemma draw_pos d r c pos M p : draw_mat rnd d r c pos = Ok (M, p) -> p = pos + r * Z.to_nat c.
Proof. unfold draw_mat. destruct (c <? 0)%Z; [discriminate|]. intros H. now injection H as _ <-. Qed.
Lemma draws_agree d c : forall Xs pos, (forall i, i < pos + list_sum (map mr Xs) * Z.to_nat c -> rnd d i = rnd' d i) ->
  mapS (fun X => draw_mat rnd d (mr X) c) Xs pos = mapS (fun X => draw_mat rnd' d (mr X) c) Xs pos.
Proof.
  induction Xs as [|X Xs IH]; intros pos H; cbn [mapS]; [reflexivity|]. cbn [map list_sum fold_right] in H. change (fold_right Nat.add 0 (map mr Xs)) with (list_sum (map mr Xs)) in H.
  rewrite <- (draw_agree d (mr X) c pos) by (intros i Hi; apply H; nia). destruct (draw_mat rnd d (mr X) c pos) as [[M p]|] eqn:E; [|reflexivity]. cbn [bind]. apply draw_pos in E.
  rewrite IH; [reflexivity|]. intros i Hi. apply H. nia.
Qed.
Lemma mapS_agree {A B} (f g : A -> nat -> res (B * nat)) : forall l pos, (forall x p, In x l -> f x p = g x p) -> mapS f l pos = mapS g l pos.
Proof.
  induction l as [|x l IH]; intros pos H; cbn [mapS]; [reflexivity|]. rewrite (H x pos) by now left. destruct (g x pos) as [[y p]|]; [|reflexivity]. cbn [bind].
  rewrite IH; [reflexivity|]. intros z q Hz. apply H. now right.
Qed.
Lemma common_agree v Xs rank mode pos : ~ asks_random v -> init_common rnd v Xs rank mode pos = init_common rnd' v Xs rank mode pos.
Proof. intros H. destruct v as [[| | |]| | | |]; try reflexivity; exfalso; apply H; [now left|now right]. Qed.
Lemma aux_agree o Xs rank mode pos : ~ asks_random (o_aux o) -> init_aux rnd true o Xs rank mode pos = init_aux rnd' true o Xs rank mode pos.
Proof.
  intros H. unfold init_aux. destruct (o_pen o); try now apply common_agree.
  destruct (o_aux o) as [[| | |]| | | |]; try reflexivity; exfalso; apply H; [now left|now right].
Qed.
Definition fixed_obj (o : pobj) : Prop := ~ asks_random (o_aux o) /\ ~ asks_random (o_dual o).
Lemma initialize_agree (f g : pobj -> list mat -> pyint -> pyint -> nat -> res (auxval * nat)) Xs rank rA rB rC pos :
  (forall o mode p, In o rA \/ In o rB \/ In o rC -> f o Xs rank mode p = g o Xs rank mode p) -> initialize f Xs rank (rA, rB, rC) pos = initialize g Xs rank (rA, rB, rC) pos.
Proof.
  intros H. unfold initialize.
  rewrite (mapS_agree (fun o => f o Xs rank (PyInt 0)) (fun o => g o Xs rank (PyInt 0))) by (intros; apply H; auto).
  destruct (mapS _ rA pos) as [[a p]|]; [|reflexivity]. cbn [bind].
  rewrite (mapS_agree (fun o => f o Xs rank (PyInt 1)) (fun o => g o Xs rank (PyInt 1))) by (intros; apply H; auto).
  destruct (mapS _ rB p) as [[b q]|]; [|reflexivity]. cbn [bind].
  rewrite (mapS_agree (fun o => f o Xs rank (PyInt 2)) (fun o => g o Xs rank (PyInt 2))) by (intros; apply H; auto). reflexivity.
Qed.
Lemma parsed_inits V k ai di l : parse_mode V k ai di = Ok l -> Forall (fun o => o_aux o = ai /\ o_dual o = di) l.
Proof.
  intros H. unfold parse_mode in H. cbv zeta in H.
  assert (O : forall p, Forall (fun o : pobj => o_aux o = ai /\ o_dual o = di) [PObj p ai di]) by (intros p; constructor; [now split|constructor]).
  assert (Z : Forall (fun o : pobj => o_aux o = ai /\ o_dual o = di) []) by constructor.
  match type of H with (let* gl := ?x in _) = _ => destruct x as [gl|] eqn:EG; [|discriminate] end. cbn [bind] in H.
  match type of H with (let* gl := ?x in _) = _ => destruct x as [ball|] eqn:EB; [|discriminate] end. cbn [bind] in H.
  match type of H with (let* gl := ?x in _) = _ => destruct x as [tv|] eqn:ET; [|discriminate] end. cbn [bind] in H.
  match type of H with (let* gl := ?x in _) = _ => destruct x as [lone|] eqn:EL; [|discriminate] end. cbn [bind] in H. injection H as <-. rewrite !Forall_app.
  assert (R1 : forall (r : res penalty) l0, (let* p := r in Ok [PObj p ai di]) = Ok l0 -> Forall (fun o : pobj => o_aux o = ai /\ o_dual o = di) l0).
  { intros [p|] l0 K; [|discriminate]. cbn [bind] in K. injection K as <-. apply O. }
  split; [destruct (k_pf2 k); auto|]. split; [destruct (btruthy (k_uni k)); auto|].
  split; [destruct (k_gl2 k) as [[|M|]|]; try discriminate; try (now injection EG as <-); exact (R1 _ _ EG)|].
  split; [destruct (k_norm k) as [b|]; [destruct (ntruthy b); [exact (R1 _ _ EB)|]|]; now injection EB as <-|].
  split; [destruct (k_tv k) as [b|]; [destruct (ntruthy b); [exact (R1 _ _ ET)|]|]; now injection ET as <-|].
  split; [match type of EL with (if ?b then _ else _) = _ => destruct b; [exact (R1 _ _ EL)|now injection EL as <-] end|].
  split; [destruct (k_lower k), (k_upper k); auto|]. match goal with |- Forall _ (if ?b then _ else _) => destruct b; auto end.
Qed.

Lemma start_agree E IE (a : fitargs) : own_start (f_init a) -> (forall i, i < entries_drawn a -> rnd Uniform i = rnd' Uniform i) ->
  initialize_cmf E IE rnd (f_data a) (f_rank a) (f_init a) 0 = initialize_cmf E IE rnd' (f_data a) (f_rank a) (f_init a) 0.
Proof.
  unfold entries_drawn. destruct (f_init a) as [l|m]; [reflexivity|]. destruct m; cbn [own_start]; try tauto; try reflexivity. intros _ H. unfold initialize_cmf.
  destruct (f_data a) as [|X Xs] eqn:EX; [reflexivity|]. rewrite <- EX in *. assert (FC : first_cols (f_data a) = Ok (mc X)) by now rewrite EX. rewrite FC. cbn [bind].
  destruct (f_rank a) as [z|]; [|reflexivity]. cbn [as_rank]. destruct (z <? 0)%Z; [reflexivity|]. cbn [bind]. set (r := Z.to_nat z) in *.
  assert (ER : Z.to_nat (Z.of_nat r) = r) by lia.
  rewrite <- (draw_agree Uniform (length (f_data a)) (Z.of_nat r) 0) by (intros i Hi; apply H; rewrite ER in Hi; nia).
  destruct (draw_mat rnd Uniform (length (f_data a)) (Z.of_nat r) 0) as [[A p]|] eqn:DA; [|reflexivity]. cbn [bind]. apply draw_pos in DA. rewrite ER in DA.
  rewrite <- (draw_agree Uniform (mc X) (Z.of_nat r) p) by (intros i Hi; apply H; rewrite ER in Hi; nia).
  destruct (draw_mat rnd Uniform (mc X) (Z.of_nat r) p) as [[C q]|] eqn:DC; [|reflexivity]. cbn [bind]. apply draw_pos in DC. rewrite ER in DC.
  rewrite <- (draws_agree Uniform (Z.of_nat r) (f_data a) q) by (intros i Hi; apply H; rewrite ER in Hi; nia). reflexivity.
Qed.

Lemma run_agree V IE (a : fitargs) : own_start (f_init a) -> (forall i, i < entries_drawn a -> rnd Uniform i = rnd' Uniform i) ->
  (forall t, parse_all V (f_kw a) (f_regs a) (f_aux a) (f_dual a) = Ok t -> forall m, m < 3 -> mode_updated a m = true -> Forall fixed_obj (pick t m)) ->
  cmf_aoadmm V IE rnd a = cmf_aoadmm V IE rnd' a.
Proof.
  intros HO H HP.
  assert (ES : setup V IE rnd a = setup V IE rnd' a).
  { unfold setup. destruct (negb (f_svd a)); [reflexivity|]. rewrite (start_agree _ IE a HO H). destruct (initialize_cmf _ _ _ _ _ _ _) as [[c pos]|]; [|reflexivity]. cbn [bind].
    destruct (listify (f_l2 a)) as [l2|]; [|reflexivity]. cbn [bind]. destruct (parse_all _ _ _ _ _) as [t|] eqn:EP; [|reflexivity]. specialize (HP _ eq_refl).
    destruct t as [[rA rB] rC]. cbn [bind].
    assert (F0 := HP 0 ltac:(lia)). assert (F1 := HP 1 ltac:(lia)). assert (F2 := HP 2 ltac:(lia)). cbn [pick mode_updated] in F0, F1, F2.
    set (qA := if f_updA a then rA else []). set (qB := if f_updB a then rB else []). set (qC := if f_updC a then rC else []).
    assert (G0 : Forall fixed_obj qA) by (unfold qA; destruct (f_updA a); [now apply F0|constructor]).
    assert (G1 : Forall fixed_obj qB) by (unfold qB; destruct (f_updB a); [now apply F1|constructor]).
    assert (G2 : Forall fixed_obj qC) by (unfold qC; destruct (f_updC a); [now apply F2|constructor]).
    rewrite Forall_forall in G0, G1, G2.
    assert (GO : forall o, In o qA \/ In o qB \/ In o qC -> fixed_obj o) by (intros o [K|[K|K]]; auto). clearbody qA qB qC.
    unfold initialize_aux, initialize_dual.
    rewrite (initialize_agree (init_aux rnd true) (init_aux rnd' true)) by (intros o mode p K; apply aux_agree, (GO o K)).
    destruct (initialize (init_aux rnd' true) _ _ _ _) as [[[[aA aB] aC] p1]|]; [|reflexivity]. cbn [bind].
    rewrite (initialize_agree (init_dual rnd) (init_dual rnd')) by (intros o mode p K; apply common_agree, (GO o K)). reflexivity. }
  unfold cmf_aoadmm. now rewrite ES.
Qed.

(** If no auxiliary or dual variable is to start from random numbers, then the outcome of a call (result or exception) depends on
    the random state through the entries of the random start only; not at all if the start is given or made of singular vectors. *)
Theorem C104_random_numbers V IE (a : fitargs) : own_start (f_init a) -> fixed_variables a ->
  (forall i, i < entries_drawn a -> rnd Uniform i = rnd' Uniform i) ->
  cmf_aoadmm V IE rnd a = cmf_aoadmm V IE rnd' a /\ parafac2_aoadmm V IE rnd a = parafac2_aoadmm V IE rnd' a.
Proof.
  intros HO HF H.
  assert (G : forall b, f_init b = f_init a -> fixed_variables b -> entries_drawn b = entries_drawn a -> cmf_aoadmm V IE rnd b = cmf_aoadmm V IE rnd' b).
  { intros b Eb (HA & HD & HU) Ed. apply run_agree; [now rewrite Eb|now rewrite Ed|]. intros t EP m Hm UM.
    destruct (parse_all_ok _ _ _ _ _ _ EP m Hm) as (kw & pa & u & _ & PM & UP & ->). apply Forall_app. split; [|exact (HU m u Hm UM UP)].
    apply parsed_inits in PM. eapply Forall_impl; [|exact PM]. intros o (E1 & E2). unfold fixed_obj. rewrite E1, E2. now split. }
  split; [now apply G|]. unfold parafac2_aoadmm. now apply G.
Qed.

End Random.
Print Assumptions C104_random_numbers.

(** Without penalties on the updated modes there are no such variables, whatever [aux_init] and [dual_init] say. *)
Theorem C104_no_penalties (rnd rnd' : rand (N:=RNum)) V IE (a : fitargs (N:=RNum)) : own_start (f_init a) ->
  (forall m, m < 3 -> mode_updated a m = true -> free_mode a m) -> (forall i, i < entries_drawn a -> rnd Uniform i = rnd' Uniform i) ->
  cmf_aoadmm V IE rnd a = cmf_aoadmm V IE rnd' a.
Proof.
  intros HO HF H. apply run_agree; [exact HO|exact H|]. intros t EP m Hm UM. destruct (HF m Hm UM) as (U1 & U2).
  destruct (parse_all_ok _ _ _ _ _ _ EP m Hm) as (kw & pa & u & MV & PM & UP & ->).
  rewrite (asks_nothing_parsed _ _ _ _ _ (U1 kw MV) PM), (U2 u UP). constructor.
Qed.
Print Assumptions C104_no_penalties.

(** The hypotheses are met: a random start with penalties on every mode, whose auxiliary and dual variables start at zero. *)
Local Open Scope R_scope.
Definition fixed_user : list (pobj (N:=RNum)) := [PObj (N:=RNum) (L2Ball 3 true) (IStr Zeros) (IStr Zeros)].
Definition fixed_args : fitargs (N:=RNum) :=
  FitArgs (N:=RNum) [Mat (N:=RNum) 2 1 [[1]; [2]]; m11 3] (PyInt 1) (InitName MRandom) 7 (AOne (Some (1 / 10))) ex_kw
    (RList [EList []; EList []; EList (map RPen fixed_user)]) 1 CB (IStr Zeros) (IStr Zeros) true
    (Some (1 / 100)) (Some (1 / 1000)) (Some (1 / 10000)) None 5 true true true true true.
Lemma fixed_dependable E : dependable (Env (N:=RNum) E (fun _ => []) true) fixed_args 1.
Proof.
  assert (UPX : forall m u, (m < 3)%nat -> user_penalties (f_regs fixed_args) m u -> u = if (m =? 2)%nat then fixed_user else []).
  { intros m u Hm H. eapply user_unique; [exact H|]. destruct m as [|[|[|m]]]; [reflexivity|reflexivity|reflexivity|lia]. }
  assert (KWX : forall m kw, mode_values (f_kw fixed_args) m kw -> k_nn kw = Some true /\ k_lower kw = None /\ (forall hi, k_upper kw = Some hi -> hi = 5) /\ k_norm kw = None /\
     (k_uni kw = if (m =? 1)%nat then Some true else None) /\ k_l1 kw = None /\ k_tv kw = Some 0 /\ k_gl2 kw = Some GFalse /\ k_pf2 kw = false).
  { intros m kw (M1 & M2 & M3 & M4 & M5 & M6 & M7 & M8 & M9). cbn in M1, M2, M4, M6, M7, M8, M9. do 2 (split; [assumption|]). split; [|split; [assumption|split; [|auto]]].
    - intros hi E0. rewrite E0 in M3. cbn in M3. destruct (m =? 1)%nat; destruct M3 as [K|(K & K')]; congruence.
    - destruct M5 as (_ & K). destruct m as [|[|[|m]]]; cbn in K |- *; try congruence. destruct m; discriminate. }
  split.
  { unfold sensible. cbn [f_data f_rank f_init f_scale f_l2 fixed_args]. split; [discriminate|]. split.
    { repeat constructor. }
    split; [reflexivity|]. split; [lia|]. split; [exact Logic.I|]. split; [lra|]. split; [intros m v _ ->; cbn; lra|]. split.
    - intros m r kw Hm _ MV. destruct (KWX m kw MV) as (K1 & K2 & K3 & K4 & K5 & K6 & K7 & K8 & K9). split.
      + intros hi E0. apply K3 in E0. subst hi. split; [intros lo E1; congruence|intros _; lra].
      + intros M E0. congruence.
    - split.
      + intros m r u Hm _ HU. rewrite (UPX m u Hm HU). destruct (m =? 2)%nat; repeat constructor; cbn; lra.
      + intros [K|(u & HU & K)]; [discriminate K|]. rewrite (UPX 1%nat u ltac:(lia) HU) in K. inversion K. }
  split; [intros X [<-|[<-|[]]]; reflexivity|]. split; [exact Logic.I|]. split; [reflexivity|]. split; [discriminate|].
  split; [eexists; split; [reflexivity|discriminate]|]. split; [eexists; split; [reflexivity|discriminate]|].
  split; [exact Logic.I|]. split; [repeat split; exact Logic.I|]. split.
  { cbn. split.
    - intros e [<-|[<-|[<-|[]]]]; [exists []|exists []|exists fixed_user]; now left.
    - intros [|[|[|m]]] Hm; [exists []|exists []|exists fixed_user|lia]; reflexivity. }
  split.
  { intros m kw Hm MV. destruct (KWX m kw MV) as (K1 & K2 & K3 & K4 & K5 & K6 & K7 & K8 & K9). unfold acceptable. rewrite K4, K6, K7, K8. cbn.
    split; [lra|]. split; [lra|]. split; [congruence|]. split; [lra|exact Logic.I]. }
  split.
  { intros m Hm _. split; [intros v ->; cbn; lra|]. split.
    - intros kw MV. destruct (KWX m kw MV) as (K1 & K2 & K3 & K4 & K5 & K6 & K7 & K8 & K9). unfold asks_plain. rewrite K6, K7, K8, K9. cbn. auto.
    - intros u HU. rewrite (UPX m u Hm HU). destruct (m =? 2)%nat; [|constructor]. constructor; [|constructor].
      split; [exact Logic.I|]. split; eexists; (split; [reflexivity|discriminate]). }
  split.
  { intros _ _ [(kw & MV & K)|(u & HU & K)].
    - destruct (KWX 0%nat kw MV) as (K1 & K2 & K3 & K4 & K5 & K6 & K7 & K8 & K9). unfold asks_matrixwise in K. rewrite K4, K5, K7, K8 in K. cbn in K.
      destruct K as [K|[K|[K|(M & K)]]]; try discriminate K; lra.
    - rewrite (UPX 0%nat u ltac:(lia) HU) in K. inversion K. }
  intros _. discriminate.
Qed.
Example C104_nonvacuous rnd : exists V out, own_start (f_init fixed_args) /\ fixed_variables fixed_args /\ entries_drawn fixed_args = 6%nat /\ cmf_aoadmm V no_ext rnd fixed_args = Ok out.
Proof.
  destruct ideal_exists as (E & HE & _). exists (Env (N:=RNum) E (fun _ => []) true).
  destruct (C51_fit_total _ no_ext rnd _ 1 (fixed_dependable E) no_ext_ranks (HE 1%nat)) as (out & HA). exists out.
  split; [exact Logic.I|]. split; [|split; [reflexivity|exact HA]].
  assert (Z : ~ asks_random (N:=RNum) (IStr Zeros)) by (intros [K|K]; discriminate).
  split; [exact Z|]. split; [exact Z|]. intros m u Hm _ HU. assert (u = if (m =? 2)%nat then fixed_user else []) as ->.
  { eapply user_unique; [exact HU|]. destruct m as [|[|[|m]]]; [reflexivity|reflexivity|reflexivity|lia]. }
  destruct (m =? 2)%nat; [|constructor]. constructor; [|constructor]. now split.
Qed.
(** A call with only data and rank, whose auxiliary variables would be random. *)
Example C104_defaults_free (Xs : list (mat (N:=RNum))) rank l2 : let a := DefaultSpec.reporting l2 (cmf_defaults Xs rank) in
  own_start (f_init a) /\ f_aux a = IStr RandomUniform /\ forall m, (m < 3)%nat -> mode_updated a m = true -> free_mode a m.
Proof. split; [exact Logic.I|]. split; [reflexivity|]. intros m _ _. apply free_plain. Qed.

(** Fixed variables are needed: by default they are random, and with a given start the random state still matters. *)
Local Close Scope R_scope.
Local Open Scope Q_scope.
Definition q1 (x : Q) : mat (N:=QNum) := Mat (N:=QNum) 1 1 [[x]].
Definition q_env : env (N:=QNum) := Env (N:=QNum) (Ext (N:=QNum) (fun M _ => (q1 1, [mget (N:=QNum) M 0 0], q1 1)) (fun v _ => v)) (fun _ => []) true.
Definition q_init : initext (N:=QNum) := InitExt (N:=QNum) (fun _ _ _ => Err ValueError) (fun _ _ _ => Err ValueError) (fun _ _ _ => Err ValueError).
Definition q_kw : kwargs (N:=QNum) := KwArgs (N:=QNum) (AOne (Some true)) (AOne None) (AOne None) (AOne None) (AOne None) false (AOne None) (AOne None) (AOne None).
Definition q_args (aux : initval (N:=QNum)) : fitargs (N:=QNum) :=
  FitArgs (N:=QNum) [q1 2] (PyInt 1) (InitSeq [PNone; PSeq [py_of_mat (q1 1); PSeq [py_of_mat (q1 1)]; py_of_mat (q1 1)]]) 1 (AOne None) q_kw
    RNone 1%Q (CBool false) aux (IStr Zeros) true None None None None 1 true false false false false.
Definition q_run (aux : initval (N:=QNum)) (x : Q) : option Q :=
  match cmf_aoadmm q_env q_init (fun _ _ => x) (q_args aux) with Ok out => Some (mget (N:=QNum) (cA (out_cmf out)) 0 0) | Err _ => None end.
Example C104_random_variables_matter : own_start (f_init (q_args (IStr RandomUniform))) /\
  (exists x y, q_run (IStr RandomUniform) 0 = Some x /\ q_run (IStr RandomUniform) 1 = Some y /\ ~ x == y) /\
  (exists x, q_run (IStr Zeros) 0 = Some x /\ q_run (IStr Zeros) 1 = Some x).
Proof.
  split; [exact Logic.I|]. split.
  - eexists _, _. split; [vm_compute; reflexivity|]. split; [vm_compute; reflexivity|]. intros H. vm_compute in H. discriminate.
  - eexists. split; vm_compute; reflexivity.
Qed.
