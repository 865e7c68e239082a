(** More properties of calls of [cmf_aoadmm] and [parafac2_aoadmm]: C29 in terms of
    arguments and reports, C40, C41, C49, C51 (whole calls) and C52 (padding). *)
From Coq Require Import Reals Lra Lia List Arith Bool ZArith.
From Verif Require Import Num Numpy RFacts Spec SpecFacts MatFacts ModelSpec Penalties PenaltySpec CoupledMatrices CmfSpec CmfProofs Decomp DecompSpec
  DecompFacts AdmmProofs AdmmOne AoLoop AoRun AoMain AoMono TotalRun InitVars InitSpec InitProofs Parse ParseSpec ParseProofs P05_Runs P06_Init P07_Parse Fit FitSpec
  FitProofs P08_Fit DecompExamples Ideal.
Import ListNotations.
Local Open Scope R_scope.

(** ** C49: [parafac2_aoadmm] is [cmf_aoadmm] with parafac2=True *)
Theorem C49_parafac2_is_cmf V IE rnd (a b : fitR) :
  same_but_kw a b -> f_l2 b = f_l2 a -> same_kw_but_parafac2 (f_kw a) (f_kw b) -> a_pf2 (f_kw b) = true ->
  parafac2_aoadmm V IE rnd a = cmf_aoadmm V IE rnd b.
Proof.
  intros HS HL (K1 & K2 & K3 & K4 & K5 & K6 & K7 & K8) HP. unfold parafac2_aoadmm. f_equal.
  destruct HS as (S1 & S2 & S3 & S4 & S5 & S6 & S7 & S8 & S9 & S10 & S11 & S12 & S13 & S14 & S15 & S16 & S17 & S18 & S19 & S20).
  destruct a as [ a1 a2 a3 a4 a5 a6 a7 a8 a9 a10 a11 a12 a13 a14 a15 a16 a17 a18 a19 a20 a21 a22], b as [ b1 b2 b3 b4 b5 b6 b7 b8 b9 b10 b11 b12 b13 b14 b15 b16 b17 b18 b19 b20 b21 b22]. cbn in *. subst. unfold with_parafac2, with_pf2. cbn. f_equal. destruct b6. cbn in *. subst. reflexivity.
Qed.
Print Assumptions C49_parafac2_is_cmf.

(** The defaults of l2_penalty differ, None and 0, without consequences: *)
Theorem C49_l2_default V IE rnd (a b : fitR) :
  same_but_kw a b -> f_kw b = f_kw a -> f_l2 a = AOne (Some 0) -> f_l2 b = AOne None ->
  cmf_aoadmm V IE rnd b = cmf_aoadmm V IE rnd a.
Proof.
  intros HS HK LA LB.
  destruct HS as (S1 & S2 & S3 & S4 & S5 & S6 & S7 & S8 & S9 & S10 & S11 & S12 & S13 & S14 & S15 & S16 & S17 & S18 & S19 & S20).
  destruct a as [ a1 a2 a3 a4 a5 a6 a7 a8 a9 a10 a11 a12 a13 a14 a15 a16 a17 a18 a19 a20 a21 a22], b as [ b1 b2 b3 b4 b5 b6 b7 b8 b9 b10 b11 b12 b13 b14 b15 b16 b17 b18 b19 b20 b21 b22]. cbn in *. subst. unfold cmf_aoadmm, setup. cbn [f_data f_rank f_init f_n_iter f_l2 f_kw f_regs f_scale f_const f_aux f_dual f_svd f_updA f_updB f_updC f_return_vars listify].
  destruct (negb _); [reflexivity|]. destruct (initialize_cmf _ _ _ _ _ _ _) as [[c pos]|]; [|reflexivity]. cbn [bind].
  destruct (parse_all _ _ _ _ _) as [[[rA rB] rC]|]; [|reflexivity]. cbn [bind]. cbv zeta.
  destruct (initialize_aux _ _ _ _ _) as [[[[aA aB] aC] pos1]|]; [|reflexivity]. cbn [bind].
  destruct (initialize_dual _ _ _ _ _) as [[[[dA dB] dC] pos2]|]; [|reflexivity]. cbn [bind].
  destruct (negb (shapes_match _ _ _ _)); [reflexivity|].
  destruct (make_mregs _ aA _) as [gA|]; [|reflexivity]. cbn [bind]. destruct (make_bregs _ _ _) as [gB|]; [|reflexivity]. cbn [bind].
  destruct (make_mregs _ aC _) as [gC|]; reflexivity.
Qed.
Print Assumptions C49_l2_default.
(** hence calls with only data and rank given agree with the PARAFAC2 constraint added *)
Theorem C49_default_calls V IE rnd (Xs : list matR) rank b :
  same_but_kw (cmf_defaults Xs rank) b -> f_l2 b = AOne None -> same_kw_but_parafac2 no_kw (f_kw b) -> a_pf2 (f_kw b) = true ->
  parafac2_aoadmm V IE rnd (parafac2_defaults Xs rank) = cmf_aoadmm V IE rnd b.
Proof.
  intros HS HL HK HP. set (b' := with_parafac2 (parafac2_defaults Xs rank)).
  rewrite (C49_parafac2_is_cmf V IE rnd (parafac2_defaults Xs rank) b'); [|repeat split|reflexivity|repeat split|reflexivity].
  symmetry. apply C49_l2_default; [exact HS| |reflexivity|exact HL].
  destruct HK as (K1 & K2 & K3 & K4 & K5 & K6 & K7 & K8). destruct (f_kw b). cbn in *. subst. reflexivity.
Qed.
Print Assumptions C49_default_calls.

(** ** C52: the padded data tensor *)
Theorem C52_padding (Xs : list matR) :
  match create_padded_tensor Xs with
  | Ok t => Xs <> [] /\ same_columns Xs /\ t0 t = length Xs /\ t2 t = colsX Xs /\
      (exists i, (i < length Xs)%nat /\ t1 t = rowsX Xs i) /\ (forall i, (i < length Xs)%nat -> (rowsX Xs i <= t1 t)%nat) /\
      forall i j k, (i < t0 t)%nat -> (j < t1 t)%nat -> (k < t2 t)%nat -> tget t i j k = padded_data Xs i j k
  | Err IndexError => Xs = []
  | Err ValueError => Xs <> [] /\ ~ same_columns Xs
  | Err _ => False
  end.
Proof.
  unfold create_padded_tensor, get_padded_tensor_shape. destruct Xs as [|X0 Xs0]; [reflexivity|].
  set (Xs := X0 :: Xs0) in *. cbn [first_cols bind]. change (first_cols Xs) with (Ok (mc X0)). cbn [bind].
  assert (CX : colsX Xs = mc X0) by reflexivity.
  destruct (forallb (fun X : matR => (mc X =? mc X0)%nat) Xs) eqn:EF.
  2:{ cbn [bind]. split; [discriminate|]. intros K. assert (Y : forallb (fun X : matR => (mc X =? mc X0)%nat) Xs = true).
      { apply forallb_forall. intros X HX. apply Nat.eqb_eq. rewrite <- CX. now apply K. } congruence. }
  cbn [bind]. set (J := fold_left Nat.max (map mr Xs) 0%nat).
  set (l := combine Xs (map mr Xs)). set (t := tzeros (length Xs) J (mc X0)).
  assert (Ll : length l = length Xs) by (unfold l; rewrite combine_length, map_length; lia).
  assert (Lt : length (tslices t) = length Xs) by (cbn; now rewrite repeat_length).
  destruct (fill_dims t 0 l) as (D0 & D1 & D2 & D3).
  destruct (fold_max_spec (map mr Xs) 0%nat) as (M1 & M2 & M3). fold J in M1, M2, M3.
  assert (JM : forall i, (i < length Xs)%nat -> (rowsX Xs i <= J)%nat).
  { intros i Hi. apply M2. unfold rowsX, nthX. apply in_map. now apply nth_In. }
  split; [discriminate|]. split; [intros X HX; rewrite CX; apply Nat.eqb_eq; rewrite forallb_forall in EF; now apply EF|].
  rewrite D0, D1, D2. cbn [t tzeros t0 t1 t2]. split; [reflexivity|]. split; [now rewrite CX|]. split.
  { destruct M3 as [M3|M3].
    - exists 0%nat. split; [cbn; lia|]. specialize (JM 0%nat ltac:(cbn; lia)). lia.
    - apply in_map_iff in M3 as (X & E0 & HX). apply (In_nth _ _ no_mat) in HX as (i & Hi & EX). exists i. split; [exact Hi|]. unfold rowsX, nthX. now rewrite EX. }
  split; [exact JM|].
  intros i j k Hi Hj Hk. unfold tget. rewrite (fill_nth t 0 l i (no_mat, 0%nat)) by lia.
  replace ((0 <=? i)%nat && (i <? 0 + length l)%nat) with true.
  2:{ symmetry. apply andb_true_iff. split; [apply Nat.leb_le; lia|apply Nat.ltb_lt; lia]. }
  rewrite Nat.sub_0_r. unfold l. rewrite combine_nth by now rewrite map_length. cbn [fst snd].
  rewrite (nth_map_lt mr Xs i 0%nat no_mat) by assumption. cbn [t t1 t2 tzeros tslices].
  rewrite mget_mbuild by assumption. unfold padded_data, rowsX, nthX. destruct (j <? mr (nth i Xs no_mat))%nat; [reflexivity|].
  rewrite nth_repeat_lt by assumption. now rewrite mget_mzeros.
Qed.
Print Assumptions C52_padding.

(** ** C29: without penalties and ridge terms the reported errors and losses never increase *)
Lemma asks_nothing_parsed V kw ai di l : asks_nothing kw -> parse_mode (N:=RNum) V kw ai di = Ok l -> l = [].
Proof.
  intros (A1 & A2 & A3 & A4 & A5 & A6 & A7 & A8 & A9) H. apply parse_mode_iff in H as (_ & gl & GL & ->).
  assert (B1 : btruthy (k_nn kw) = false) by (destruct (k_nn kw) as [[]|]; try reflexivity; now destruct A1).
  assert (B5 : btruthy (k_uni kw) = false) by (destruct (k_uni kw) as [[]|]; try reflexivity; now destruct A5).
  assert (Z : ntruthy (N:=RNum) 0 = false).
  { destruct (ntruthy (N:=RNum) 0) eqn:E0; [|reflexivity]. apply ntruthy_true in E0. now destruct E0. }
  assert (G : gl = []) by (unfold gl_ok in GL; now destruct A8 as [A8|A8]; rewrite A8 in GL). subst gl.
  assert (S4 : s_ball kw ai di = []).
  { unfold s_ball. destruct (k_norm kw) as [b|]; [|reflexivity]. cbn in A4. subst b. now rewrite Z. }
  assert (S5 : s_tv kw ai di = []).
  { unfold s_tv. destruct (k_tv kw) as [b|]; [|reflexivity]. cbn in A7. subst b. now rewrite Z. }
  assert (S6 : s_l1 kw ai di = []).
  { unfold s_l1. replace (ntruthy (N:=RNum) _) with false; [reflexivity|]. symmetry.
    destruct (k_tv kw) as [b|]; cbn in A7; [subst b|]; cbn [otruthy]; rewrite ?Z; destruct (k_l1 kw) as [b|]; cbn in A6; try subst b; exact Z. }
  assert (S7 : s_box kw ai di = []) by (unfold s_box; now rewrite A2, A3).
  unfold s_pf2, s_uni, s_non. rewrite A9, B5, S4, S5, S6, S7, B1. reflexivity.
Qed.
Lemma unpenalised_parsed V a t s : unpenalised a -> parsed_as V a t s -> no_penalties s.
Proof.
  intros HU (EP & M0 & M1 & M2).
  assert (K : forall m, (m < 3)%nat -> updates a m = true -> pick t m = []).
  { intros m Hm Um. destruct (HU m Hm Um) as (U1 & U2). destruct (parse_all_ok _ _ _ _ _ _ EP m Hm) as (kw & pa & u & MV & PM & UP & ->).
    rewrite (asks_nothing_parsed _ _ _ _ _ (U1 kw MV) PM). now rewrite (U2 u UP). }
  assert (N : forall {A B} (f : A -> B) l, map f l = [] -> l = []) by (intros A B f [|x l]; [auto|discriminate]).
  split; [|split].
  - destruct (f_updA a) eqn:E0; [rewrite (K 0%nat ltac:(lia) E0) in M0|]; now apply N in M0.
  - destruct (f_updB a) eqn:E0; [rewrite (K 1%nat ltac:(lia) E0) in M1|]; now apply N in M1.
  - destruct (f_updC a) eqn:E0; [rewrite (K 2%nat ltac:(lia) E0) in M2|]; now apply N in M2.
Qed.
Theorem C29_fit_errors_never_increase V IE rnd (a : fitR) rank out d :
  sensible V a rank -> ranks_kept IE -> svd_correct (e_ext V) rank -> 0 < data_sumsq (f_data a) ->
  unpenalised a -> without_ridge a -> (0 < f_inner a)%Z ->
  cmf_aoadmm V IE rnd a = Ok out -> out_diag out = Some d ->
  forall i j, (i <= j <= d_n_iter d)%nat -> exists ei ej li lj,
    nth i (d_errors d) NaN = Fin ei /\ nth j (d_errors d) NaN = Fin ej /\ ej <= ei /\
    nth i (d_losses d) NaN = Fin li /\ nth j (d_losses d) NaN = Fin lj /\ lj <= li.
Proof.
  intros HS RK HE HD HU HW HIn H Ed.
  destruct (fit_final _ _ _ _ _ _ HS RK HE HD H) as (s & l2 & flags & s' & od & t & ES & EL & EF & VS & SI & MC & PO & (pos & EI) & ER & EO & PA & PA' & FR & SS).
  assert (HE' : svd_correct (e_ext V) (mc (cA (st_cmf s)))) by now rewrite MC.
  destruct (fit_params_fields a l2 flags) as (_ & _ & _ & F4 & _ & _ & _ & _ & F9 & _).
  destruct (C34_stopping _ _ _ _ _ _ _ PO VS SI HE' HD ER) as (m & tr & pv & msg & Hm & T0 & Tm & HT & _ & R1 & R2).
  rewrite F9 in R1, R2. rewrite EO in Ed. cbn [out_diag] in Ed. subst od. destruct (f_return_errors a); [|now specialize (R1 eq_refl)].
  destruct (R2 eq_refl) as (_ & d' & E1 & _ & (HE1 & HL1 & HG1 & _ & HN1) & _). injection E1 as E1. subst d'.
  intros i j Hij. rewrite HN1 in Hij. rewrite HE1, HL1.
  assert (NTH : forall (f : nat -> xnumR) j, (j <= m)%nat -> nth j (map f (seq 0 (S m))) NaN = f j).
  { intros f k Hk. rewrite (nth_indep _ NaN (f 0%nat)) by (rewrite map_length, seq_length; lia). rewrite map_nth, seq_nth by lia. reflexivity. }
  assert (NR : no_ridge (fit_params a l2 flags)).
  { destruct l2 as [[x y] z]. apply listify_iff in EL as (M0 & M1 & M2). unfold no_ridge, fit_params. cbn [p_l2A p_l2B p_l2C].
    repeat split; [apply (HW 0%nat x)|apply (HW 1%nat y)|apply (HW 2%nat z)]; auto; lia. }
  subst s. assert (NP : no_penalties (tr 0%nat)) by (eapply unpenalised_parsed; eauto).
  destruct (C29_errors_never_increase _ _ _ m tr PO NR VS HE' NP HD HT i j Hij) as (K1 & K2); [right; right; rewrite F4; lia|].
  do 4 eexists. rewrite !NTH by lia. split; [reflexivity|]. split; [reflexivity|]. split; [exact K1|]. split; [reflexivity|]. split; [reflexivity|]. exact K2.
Qed.
Print Assumptions C29_fit_errors_never_increase.

(** ** C40: penalties that a mode cannot have *)
Lemma make_mregs_pens (l : list pobjR) : forall a d gs, make_mregs l a d = Ok gs -> map g_pen gs = map o_pen l.
Proof.
  induction l as [|o l IH]; intros [|[M|x] a] [|[D|y] d] gs H; try discriminate; cbn [make_mregs] in H; [now injection H as <-|].
  destruct (make_mregs l a d) as [r|] eqn:ER; [|discriminate]. cbn [bind] in H. injection H as <-. cbn [map g_pen]. f_equal. now apply (IH a d).
Qed.
(** What is known about the starting point of any call that gets there. *)
Lemma setup_any V IE rnd (a : fitR) s l2 : setup V IE rnd a = Ok (s, l2) ->
  length (cBs (st_cmf s)) = length (f_data a) /\
  exists rA rB rC, parse_all V (f_kw a) (f_regs a) (f_aux a) (f_dual a) = Ok (rA, rB, rC) /\
    map g_pen (st_rA s) = map o_pen (if f_updA a then rA else []) /\
    exists pos x, initialize_aux rnd (f_data a) (f_rank a) (if f_updA a then rA else [], if f_updB a then rB else [], if f_updC a then rC else []) pos = Ok x.
Proof.
  intros H. unfold setup in H. destruct (negb (f_svd a)); [discriminate|].
  destruct (initialize_cmf _ _ _ _ _ _ _) as [[c pos]|]; [|discriminate]. cbn [bind] in H.
  destruct (listify (f_l2 a)) as [l2'|]; [|discriminate]. cbn [bind] in H.
  destruct (parse_all V _ _ _ _) as [[[rA rB] rC]|] eqn:EP; [|discriminate]. cbn [bind] in H. cbv zeta in H.
  destruct (initialize_aux _ _ _ _ _) as [[[[aA aB] aC] pos1]|] eqn:EX; [|discriminate]. cbn [bind] in H.
  destruct (initialize_dual _ _ _ _ _) as [[[[dA dB] dC] pos2]|]; [|discriminate]. cbn [bind] in H.
  match type of H with (if negb ?b then _ else _) = _ => destruct b eqn:ES; [|discriminate H] end. cbn [negb] in H.
  destruct (make_mregs _ aA dA) as [gA|] eqn:GA; [|discriminate]. cbn [bind] in H.
  destruct (make_bregs _ _ _) as [gB|]; [|discriminate]. cbn [bind] in H.
  destruct (make_mregs _ aC dC) as [gC|]; [|discriminate]. cbn [bind] in H. injection H as <- <-. cbn [st_cmf st_rA].
  unfold shapes_match in ES. apply andb_prop in ES as (ES & _). apply andb_prop in ES as (ES & _). apply Nat.eqb_eq in ES.
  split; [auto|]. exists rA, rB, rC. split; [reflexivity|]. split; [eapply make_mregs_pens; exact GA|]. eauto.
Qed.
(** PARAFAC2 on mode 0 or 2 is rejected before the first iteration, whatever the other arguments are. *)
Theorem C40_parafac2_mode V IE rnd (a : fitR) m u :
  m = 0%nat \/ m = 2%nat -> updates a m = true -> user_penalties (f_regs a) m u -> Exists (fun o => is_parafac2 (o_pen o)) u ->
  (exists e, setup V IE rnd a = Err e) /\ forall out, cmf_aoadmm V IE rnd a <> Ok out.
Proof.
  intros Hm Um HU HX.
  assert (NO : forall r, setup V IE rnd a <> Ok r).
  { intros [s l2] ES. destruct (setup_any _ _ _ _ _ _ ES) as (_ & rA & rB & rC & EP & _ & pos & [[[aA aB] aC] q] & EX).
    assert (Hm3 : (m < 3)%nat) by lia. destruct (parse_all_ok _ _ _ _ _ _ EP m Hm3) as (kw & pa & u' & _ & _ & U' & PE).
    rewrite (user_unique _ _ _ _ U' HU) in PE.
    assert (HE : Exists (fun o => is_parafac2 (o_pen o)) (pick (rA, rB, rC) m)) by (rewrite PE; apply Exists_app; now right).
    assert (QA : forall o z p0 v q0, init_aux rnd true o (f_data a) (f_rank a) (PyInt z) p0 = Ok (v, q0) -> is_parafac2 (o_pen o) -> z = 1%Z).
    { intros o z p0 v q0 K IP. destruct (C17_init_aux_shapes _ _ _ _ _ _ _ _ _ K) as (r' & m' & E1 & E2 & FM & B).
      injection E2 as <-. apply B in IP. destruct v as [|[|]]; try contradiction. apply FM. }
    destruct (initialize_Forall2 _ _ _ _ _ _ _ _ _ _ _ (fun m o v => is_parafac2 (o_pen o) -> m = 1%Z) QA EX) as (F0 & _ & F2).
    assert (BAD : forall z l (vs : list auxvalR), z <> 1%Z -> Forall2 (fun (o : pobjR) (v : auxvalR) => is_parafac2 (o_pen o) -> z = 1%Z) l vs -> Exists (fun o => is_parafac2 (o_pen o)) l -> False).
    { intros z l vs Hz F X. induction F as [|o v l vs K F IH]; inversion X; subst; [now apply Hz, K|auto]. }
    destruct Hm as [->| ->]; cbn [updates pick] in *; rewrite Um in *; [eapply (BAD 0%Z)|eapply (BAD 2%Z)]; eauto; discriminate. }
  split.
  - destruct (setup V IE rnd a) as [r|e]; [now destruct (NO r)|eauto].
  - intros out H. destruct (fit_run _ _ _ _ _ H) as (s & l2 & flags & s' & d & ES & _). now apply NO in ES.
Qed.
Print Assumptions C40_parafac2_mode.

Lemma not_rowwise_fails (p : penalty (N:=RNum)) row rho : ~ rowwise p -> row_update p row rho = Err AttributeError.
Proof. destruct p; cbn; try reflexivity; intros K; now destruct K. Qed.
Lemma mapM_fails {A B} (f : A -> res B) l r : Exists (fun x => forall y, f x <> Ok y) l -> mapM f l <> Ok r.
Proof.
  intros HX H. apply AdmmLoop.mapM_Forall2 in H. induction H as [|x y l r K F IH]; inversion HX; subst; [|now apply IH].
  match goal with X : forall y, f x <> Ok y |- _ => now apply X in K end.
Qed.
Lemma A_step_fails E svds fps rhses A (regs : list (mreg (N:=RNum))) r : fps <> [] -> Exists (fun g => ~ rowwise (g_pen g)) regs ->
  A_step E false svds fps rhses (A, regs) <> Ok r.
Proof.
  intros HF HX H. unfold A_step in H. destruct (shifted_mats regs) as [sh|]; [|discriminate]. cbn [bind] in H.
  match type of H with context[mapM ?f (seq 0 (mr A))] => destruct (mapM f (seq 0 (mr A))) as [rows|]; [|discriminate H] end. cbn [bind] in H. cbv zeta in H.
  match type of H with context[mapM ?f regs] => destruct (mapM f regs) as [regs'|] eqn:EM; [|discriminate H] end.
  revert EM. apply mapM_fails. eapply Exists_impl; [|exact HX]. intros g NR y K. unfold A_reg_step, rows_update in K. cbv zeta in K.
  destruct fps as [|fp fps]; [congruence|]. cbn [length seq mapM] in K. rewrite not_rowwise_fails in K by exact NR. discriminate K.
Qed.
Lemma inner_loop_len E svds fps rhses conv : forall n Bs regs Bs' regs',
  inner_loop (B_step (N:=RNum) E svds fps rhses) conv n (Bs, regs) = Ok (Bs', regs') -> length Bs' = length Bs.
Proof.
  induction n as [|n IH]; intros Bs regs Bs' regs' H; cbn [inner_loop] in H; [now injection H as <- _|].
  destruct (B_step E svds fps rhses (Bs, regs)) as [[B1 r1]|] eqn:EB; [|discriminate]. cbn [bind] in H.
  assert (L : length B1 = length Bs).
  { unfold B_step in EB. destruct (shifted_lists regs) as [sh|]; [|discriminate]. cbn [bind] in EB.
    match type of EB with context[mapM ?f (seq 0 (length Bs))] => destruct (mapM f (seq 0 (length Bs))) as [rows|] eqn:EM; [|discriminate EB] end. cbn [bind] in EB.
    match type of EB with context[mapM ?f regs] => destruct (mapM f regs) as [regs1|]; [|discriminate EB] end. cbn [bind] in EB. injection EB as <- _.
    apply AdmmLoop.mapM_Forall2 in EM. pose proof (F2_length _ _ _ EM) as K. now rewrite seq_length in K. }
  destruct (conv (Bs, regs) (B1, r1)) as [b|]; [|discriminate]. cbn [bind] in H. destruct b; [injection H as <- _; exact L|]. rewrite <- L. eapply IH; eassumption.
Qed.
Lemma upd_A_fails E P (Xs : list matR) (s : state (N:=RNum)) r : p_updA P = true -> p_constA P = false -> (0 < p_inner P)%nat -> Xs <> [] -> cBs (st_cmf s) <> [] ->
  Exists (fun g => ~ rowwise (g_pen g)) (st_rA s) -> upd_A E P Xs s <> Ok r.
Proof.
  intros U C0 HI HX HB HR H. unfold upd_A in H. rewrite U in H. unfold admm_update_A in H. rewrite C0 in H. cbn [feas_penalties bind] in H. cbv zeta in H.
  destruct (p_inner P) as [|n]; [lia|]. cbn [inner_loop] in H.
  match type of H with context[A_step ?e ?b ?sv ?fp ?rh ?st] => destruct (A_step e b sv fp rh st) as [x|] eqn:EA; [|discriminate H] end.
  revert EA. apply A_step_fails; [|exact HR]. unfold A_cross. destruct Xs; [congruence|]. destruct (cBs (st_cmf s)); [congruence|]. discriminate.
Qed.
Lemma outer_fails E P (Xs : list matR) (s : state (N:=RNum)) r : p_updA P = true -> p_constA P = false -> (0 < p_inner P)%nat -> Xs <> [] -> cBs (st_cmf s) <> [] ->
  Exists (fun g => ~ rowwise (g_pen g)) (st_rA s) -> outer_step E P Xs s <> Ok r.
Proof.
  intros U C0 HI HX HB HR H. unfold outer_step in H.
  destruct (upd_B E P Xs s) as [s1|] eqn:E1; [|discriminate]. cbn [bind] in H. destruct (upd_C E P Xs s1) as [s2|] eqn:E2; [|discriminate]. cbn [bind] in H.
  assert (K1 : st_rA s1 = st_rA s /\ cBs (st_cmf s1) <> []).
  { unfold upd_B in E1. destruct (p_updB P); [|now injection E1 as <-].
    unfold admm_update_B in E1. cbv zeta in E1. match type of E1 with context[feas_penalties ?x ?y ?z] => destruct (feas_penalties x y z); [|discriminate E1] end. cbn [bind] in E1.
    match type of E1 with context[inner_loop ?x ?y ?z ?w] => destruct (inner_loop x y z w) as [[B1 r1]|] eqn:EL; [|discriminate E1] end. cbn [bind] in E1. injection E1 as <-.
    split; [reflexivity|]. cbn [st_cmf cBs]. apply inner_loop_len in EL. intros ->. destruct (cBs (st_cmf s)); [congruence|discriminate]. }
  destruct K1 as (RA & CB).
  assert (K2 : st_rA s2 = st_rA s /\ cBs (st_cmf s2) <> []).
  { unfold upd_C in E2. destruct (p_updC P); [|injection E2 as <-; auto].
    unfold admm_update_C in E2. destruct (msum_list (C_lhs_terms _ _ _)); [|discriminate]. destruct (msum_list (C_rhs_terms _ _ _)); [|discriminate]. cbv zeta in E2.
    match type of E2 with context[inner_loop ?x ?y ?z ?w] => destruct (inner_loop x y z w) as [[B1 r1]|] eqn:EL; [|discriminate E2] end. cbn [bind] in E2. injection E2 as <-.
    cbn [st_cmf st_rA cBs]. auto. }
  destruct K2 as (RA2 & CB2). revert H. apply upd_A_fails; auto. now rewrite RA2.
Qed.
Lemma matrixwise_parsed V kw ai di l : asks_matrixwise kw -> parse_mode (N:=RNum) V kw ai di = Ok l -> Exists (fun o => ~ rowwise (o_pen o)) l.
Proof.
  intros HM H. apply parse_mode_iff in H as (_ & gl & GL & ->). rewrite !Exists_app.
  destruct HM as [HM|[HM|[HM|(M & HM)]]].
  - right; right; right; left. unfold s_ball. destruct (k_norm kw) as [b|]; [|now destruct HM]. cbn in HM. apply ntruthy_true in HM. rewrite HM. left. auto.
  - right; left. apply btruthy_wants in HM. unfold s_uni. rewrite HM. left. auto.
  - do 4 right; left. unfold s_tv. destruct (k_tv kw) as [b|]; [|now destruct HM]. cbn in HM. apply ntruthy_true in HM. rewrite HM. left. auto.
  - do 2 right; left. unfold gl_ok in GL. rewrite HM in GL. destruct GL as (U & s & -> & _). left. auto.
Qed.
(** A matrix-wise penalty on A without a constant feasibility penalty for A: no call succeeds
    that performs an iteration. *)
Theorem C40_matrix_penalty_on_A V IE rnd (a : fitR) :
  f_data a <> [] -> f_updA a = true -> needs_constant_A a -> constant_for_A (f_const a) = false ->
  (0 < f_n_iter a)%Z -> (0 < f_inner a)%Z ->
  forall out, cmf_aoadmm V IE rnd a <> Ok out.
Proof.
  intros HX HA HN HC HI HJ out H. destruct (fit_run _ _ _ _ _ H) as (s & l2 & flags & s' & d & ES & EF & ER & _).
  destruct (setup_any _ _ _ _ _ _ ES) as (LB & rA & rB & rC & EP & MA & _). rewrite HA in MA.
  destruct (parse_all_ok _ _ _ _ _ _ EP 0%nat ltac:(lia)) as (kw & pa & u & MV & PM & UP & PE). cbn [pick] in PE.
  assert (NR : Exists (fun o => ~ rowwise (o_pen o)) rA).
  { rewrite PE. apply Exists_app. destruct HN as [(kw' & MV' & K)|(u' & UP' & K)].
    - left. rewrite (mode_value_unique _ _ _ _ MV' MV) in K. eapply matrixwise_parsed; eauto.
    - right. now rewrite (user_unique _ _ _ _ UP UP'). }
  assert (NG : Exists (fun g => ~ rowwise (g_pen g)) (st_rA s)).
  { clear - NR MA. revert MA. generalize (st_rA s). induction NR as [o l Ho|o l Ho IH]; intros [|g gs] MA; try discriminate; injection MA as E0 MA.
    - left. now rewrite E0.
    - right. now apply IH. }
  destruct (fit_params_fields a l2 flags) as (F1 & _ & _ & F4 & _ & _ & _ & _ & _ & F10 & _).
  assert (FA : fst flags = false) by (destruct (f_const a) as [[]| | |]; try discriminate; now injection EF as <-).
  unfold run in ER. destruct (init_hist _ _ _) as [h0|]; [|discriminate]. cbn [bind] in ER.
  destruct (Z.to_nat (f_n_iter a)) as [|n] eqn:EN; [lia|]. cbn [ao_loop] in ER.
  destruct (outer_step (e_ext V) (fit_params a l2 flags) (f_data a) s) as [s1|] eqn:EO; [|discriminate].
  revert EO. apply outer_fails; auto.
  - now rewrite F1.
  - now rewrite F10.
  - rewrite F4. lia.
  - intros K. rewrite K in LB. destruct (f_data a); [congruence|discriminate].
Qed.
Print Assumptions C40_matrix_penalty_on_A.
