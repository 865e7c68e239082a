(** Recorded quantities of valid states. *)
From Coq Require Import Reals Lra Lia List Arith Bool Classical_Prop FunctionalExtensionality ZArith.
From Verif Require Import Num Numpy Unimodal RFacts Spec SpecFacts MatFacts SvdFacts ModelSpec Penalties PenaltySpec
  ProxProofs TVProofs GenL2Proofs SimplexProofs Parafac2Proofs PenaltyMain CoupledMatrices CmfSpec CmfProofs
  Decomp DecompSpec DecompFacts AdmmProofs AdmmB AdmmA AdmmRegs AdmmLoop AdmmOne AoState AoLoop.
Import ListNotations.
Local Open Scope R_scope.

Lemma root_data (Xs : list rmat) : root_sum_squared (N:=RNum) Xs = sqrt (data_sumsq Xs).
Proof.
  unfold root_sum_squared. rn0. f_equal. rewrite (lsum_map _ _ (length Xs) no_mat) by reflexivity.
  unfold data_sumsq. apply rsum_Sum_ext. intros i Hi. rewrite msumsq_nsq. symmetry. now apply sumsq_nsq.
Qed.
Lemma state_error_sqrt (Xs : list rmat) s : data_fits Xs (st_cmf s) -> inter_ok Xs s ->
  rec_error Xs (st_cmf s) (root_sum_squared Xs) (st_inter s) = sqrt (residual Xs (st_cmf s)).
Proof.
  intros HF [->|(H1 & ->)]; [now apply rec_error_plain|now apply rec_error_inter].
Qed.
Lemma state_error_ok (Xs : list rmat) s : data_fits Xs (st_cmf s) -> inter_ok Xs s -> 0 < data_sumsq Xs ->
  state_error Xs s = Fin (rel_error Xs (st_cmf s)).
Proof.
  intros HF HI HD. unfold state_error. rewrite state_error_sqrt by assumption. rewrite root_data. rewrite xdiv_pos; [reflexivity|].
  now apply sqrt_lt_R0.
Qed.
Lemma l2_reg_ok (P : params (N:=RNum)) c : l2_reg c (p_l2A P) (p_l2B P) (p_l2C P) = l2_sum P c.
Proof.
  assert (K : forall l x : R, (if ntruthy (N:=RNum) l then nmul (Num:=RNum) (nmul (Num:=RNum) nhalf l) x else n0) = l / 2 * x).
  { intros l x. destruct (ntruthy (N:=RNum) l) eqn:T; rewrite ?nhalf_R; rn; [field|]. apply ntruthy_R_false in T. rewrite T. field. }
  unfold l2_reg, l2_sum. rewrite !K. rn0. rewrite !msumsq_nsq. f_equal; [f_equal|]; f_equal.
  - symmetry. now apply sumsq_nsq.
  - rewrite (lsum_map _ _ (length (cBs c)) no_mat) by reflexivity. apply rsum_Sum_ext. intros i Hi. rewrite msumsq_nsq. symmetry. now apply sumsq_nsq.
  - symmetry. now apply sumsq_nsq.
Qed.
Lemma penalty_mats_ok (M : rmat) r c (regs : list mregR) : shaped M r c -> Forall (mreg_valid r c) regs ->
  mapM (fun g => penalty_mat (N:=RNum) (g_pen g) M) regs = Ok (map (fun g => doc_penalty (g_pen g) (mr M) (mc M) (rget M)) regs).
Proof.
  intros (W & S1 & S2) H. apply mapM_ok. intros g Hg. rewrite Forall_forall in H. destruct (H g Hg) as (NP & V & _).
  apply penalty_value; [now rewrite S1|]. intros n a b E. apply NP. now rewrite E.
Qed.
Lemma breg_valid_pen n J c (g : bregR) : breg_valid n J c g -> forall i, (i < n)%nat -> valid_penalty (b_pen g) (J i).
Proof.
  intros (_ & H) i Hi. destruct (b_pen g), (b_aux g); try contradiction; try (now apply H); exact I.
Qed.
Lemma penalty_lists_ok (c : rcmf) (regs : list bregR) : Forall (breg_valid (length (cBs c)) (rowsB c) (mc (cA c))) regs ->
  mapM (fun g => penalty_list (N:=RNum) (b_pen g) (cBs c)) regs =
  Ok (map (fun g => Sum (length (cBs c)) (fun i => doc_penalty (b_pen g) (mr (nthB c i)) (mc (nthB c i)) (rget (nthB c i)))) regs).
Proof.
  intros H. apply mapM_ok. intros g Hg. rewrite Forall_forall in H. specialize (H g Hg).
  apply penalty_list_value. apply (in_nth _ _ no_mat). intros i Hi. now apply (breg_valid_pen _ _ _ _ H i).
Qed.
Lemma state_loss_ok (P : params (N:=RNum)) (Xs : list rmat) s : valid_state Xs s -> inter_ok Xs s -> 0 < data_sumsq Xs ->
  state_loss P Xs s = Ok (Fin (loss P Xs s)).
Proof.
  intros (V1 & V2 & V3 & V4 & V5) HI HD. unfold state_loss, reg_penalty.
  pose proof V1 as ((WA & WC & HC & HA & HB & Hw) & _).
  rewrite (penalty_mats_ok (cA (st_cmf s)) _ _ _ (conj WA (conj eq_refl eq_refl)) V3). cbn [bind].
  rewrite penalty_lists_ok by assumption. cbn [bind].
  rewrite (penalty_mats_ok (cC (st_cmf s)) (mr (cC (st_cmf s))) (mc (cA (st_cmf s)))); [|split; [|split]; auto|assumption]. cbn [bind].
  rewrite state_error_ok by assumption. rewrite l2_reg_ok. f_equal. f_equal. unfold loss. rewrite nhalf_R. rn0.
  f_equal; [f_equal; field|]. unfold penalty_sum.
  f_equal; [f_equal|].
  - rewrite (lsum_map _ _ (length (st_rA s)) (MReg NonNegativity no_mat no_mat)) by reflexivity. reflexivity.
  - rewrite (lsum_map _ _ (length (st_rB s)) (BReg NonNegativity (AList []) [])) by reflexivity. reflexivity.
  - rewrite (lsum_map _ _ (length (st_rC s)) (MReg NonNegativity no_mat no_mat)) by reflexivity. reflexivity.
Qed.
(** gaps *)
Lemma is_ratio_xdiv (a b : R) : is_ratio (xdiv (N:=RNum) a b) a b.
Proof.
  unfold is_ratio, xdiv. destruct (neqb (N:=RNum) b n0) eqn:Eb.
  - apply neqb_true in Eb. rn. split; [intros; contradiction|]. destruct (neqb (N:=RNum) a 0) eqn:Ea.
    + apply neqb_true in Ea. split; [intros; contradiction|reflexivity].
    + split; [reflexivity|]. intros _ X. apply (neqb_true a 0) in X. rn. congruence.
  - split; [reflexivity|]. assert (b <> 0) by (intros X; apply (neqb_true b 0) in X; rn; congruence). split; intros; contradiction.
Qed.
Lemma is_ratio_fun x y a b : is_ratio x a b -> is_ratio y a b -> x = y.
Proof.
  intros (A1 & A2 & A3) (B1 & B2 & B3). destruct (Req_dec b 0) as [Z|Z]; [|now rewrite A1, B1].
  destruct (Req_dec a 0) as [Y|Y]; [now rewrite A3, B3|now rewrite A2, B2].
Qed.
Definition gapsA (s : state (N:=RNum)) : list xnumR :=
  map (fun g => xdiv (N:=RNum) (fdist (mr (cA (st_cmf s))) (mc (cA (st_cmf s))) (rget (g_aux g)) (rget (cA (st_cmf s)))) (norm_A (st_cmf s))) (st_rA s).
Definition gapsB (s : state (N:=RNum)) : list xnumR :=
  map (fun g => xdiv (N:=RNum) (ldist (length (cBs (st_cmf s))) (rowsB (st_cmf s)) (mc (cA (st_cmf s))) (baux g) (entB (cBs (st_cmf s)))) (norm_B (st_cmf s))) (st_rB s).
Definition gapsC (s : state (N:=RNum)) : list xnumR :=
  map (fun g => xdiv (N:=RNum) (fdist (mr (cC (st_cmf s))) (mc (cC (st_cmf s))) (rget (g_aux g)) (rget (cC (st_cmf s)))) (norm_C (st_cmf s))) (st_rC s).
Lemma state_gaps_val (Xs : list rmat) s : valid_state Xs s -> state_gaps s = Ok (gapsA s, gapsB s, gapsC s).
Proof.
  intros (V1 & V2 & V3 & V4 & V5). pose proof V1 as ((WA & WC & HC & HA & HB & Hw) & _).
  unfold state_gaps, compute_gaps. rewrite Forall_forall in V3, V4, V5.
  rewrite (mapM_ok (gap_mat (cA (st_cmf s))) _ _ (fun g Hg => gap_mat_ok _ g _ _ (conj WA (conj eq_refl eq_refl)) (V3 g Hg))). cbn [bind].
  assert (SB : list_shaped (length (cBs (st_cmf s))) (rowsB (st_cmf s)) (mc (cA (st_cmf s))) (cBs (st_cmf s))).
  { split; [reflexivity|]. intros i Hi. destruct (HB i Hi) as (W & S). split; [|split]; auto. }
  rewrite (mapM_ok (gap_list (cBs (st_cmf s))) _ _ (fun g Hg => gap_list_ok _ _ _ _ g SB (V4 g Hg))). cbn [bind].
  assert (SC : shaped (cC (st_cmf s)) (mr (cC (st_cmf s))) (mc (cA (st_cmf s)))) by (split; [|split]; auto).
  rewrite (mapM_ok (gap_mat (cC (st_cmf s))) _ _ (fun g Hg => gap_mat_ok _ g _ _ SC (V5 g Hg))). cbn [bind].
  unfold gapsA, gapsB, gapsC, norm_A, norm_B, norm_C. now rewrite HC.
Qed.
Lemma state_gaps_ok (Xs : list rmat) s : valid_state Xs s -> exists g, state_gaps s = Ok g /\ gaps_of s g.
Proof.
  intros V. exists (gapsA s, gapsB s, gapsC s). split; [now apply (state_gaps_val Xs)|].
  unfold gaps_of, gapsA, gapsB, gapsC. rewrite !map_length.
  split; [|split]; (split; [reflexivity|]); intros q Hq.
  - rewrite (nth_map_lt _ _ q NaN (MReg NonNegativity no_mat no_mat)) by assumption. apply is_ratio_xdiv.
  - rewrite (nth_map_lt _ _ q NaN (BReg NonNegativity (AList []) [])) by assumption. apply is_ratio_xdiv.
  - rewrite (nth_map_lt _ _ q NaN (MReg NonNegativity no_mat no_mat)) by assumption. apply is_ratio_xdiv.
Qed.
(** Python's max over the modes *)
Lemma xmax_no_nan (l : list xnumR) : (forall x, In x l -> x <> NaN) -> match xmax_list l with Some m => m <> NaN | None => l = [] end.
Proof.
  destruct l as [|x l]; intros H; [reflexivity|]. cbn [xmax_list].
  assert (Hx : x <> NaN) by (apply H; now left). assert (Hl : forall y, In y l -> y <> NaN) by (intros; apply H; now right). clear H.
  revert x Hx. induction l as [|y l IH]; intros x Hx; cbn [fold_left]; [assumption|].
  apply IH; [intros; apply Hl; now right|]. destruct (xgt y x); [apply Hl; now left|assumption].
Qed.
Definition olt (t : R) (m : option xnumR) : Prop := match m with None => True | Some x => xlt x t = true end.
Lemma feas_acc_lt (t : R) (l : list xnumR) m : (forall x, In x l -> x <> NaN) -> m <> Some NaN ->
  feas_acc l m <> Some NaN /\ (olt t (feas_acc l m) <-> olt t (xmax_list l) /\ olt t m).
Proof.
  intros Hl Hm. pose proof (xmax_no_nan l Hl) as Hx. unfold feas_acc. destruct (xmax_list l) as [x|]; [|split; [assumption|cbn; tauto]].
  destruct m as [y|]; [|split; [congruence|cbn; tauto]].
  destruct (xgt y x) eqn:G; (split; [congruence|]); cbn [olt].
  - destruct x as [a| |], y as [b| |]; cbn in G |- *; try congruence; rewrite ?nltb_true in *; try (split; [discriminate|intros (_ & X); discriminate X]).
    split; [intros; split; lra|tauto].
  - destruct x as [a| |], y as [b| |]; cbn in G |- *; try congruence; rewrite ?nltb_true in *; try (split; [discriminate|intros (X & _); discriminate X]).
    apply nltb_false in G. split; [intros; split; lra|tauto].
Qed.
Lemma olt_gaps {G} (d : G -> R) (M t : R) (l : list G) : 0 <= M -> (forall g, 0 <= d g) ->
  (olt t (xmax_list (map (fun g => xdiv (N:=RNum) (d g) M) l)) <-> Forall (fun g => d g < t * M) l).
Proof.
  intros HM Hd. rewrite <- gaps_all_lt by assumption. unfold olt. destruct (xmax_list _); [reflexivity|tauto].
Qed.
Lemma Forall_nth_iff {G} (P : G -> Prop) (l : list G) d : Forall P l <-> forall q, (q < length l)%nat -> P (nth q l d).
Proof. rewrite Forall_nth. split; intros H; [intros q Hq; now apply H|]. intros i d' Hi. rewrite (nth_indep _ d' d) by assumption. now apply H. Qed.
Lemma not_nan_map {G} (d : G -> R) (M : R) (l : list G) dg : (forall q, (q < length l)%nat -> M = 0 -> d (nth q l dg) <> 0) ->
  forall x, In x (map (fun g => xdiv (N:=RNum) (d g) M) l) -> x <> NaN.
Proof.
  intros H x Hx. apply in_map_iff in Hx. destruct Hx as (g & <- & Hg). destruct (In_nth l g dg Hg) as (q & Hq & <-). specialize (H q Hq).
  destruct (is_ratio_xdiv (d (nth q l dg)) M) as (R1 & R2 & R3). destruct (Req_dec M 0) as [Z|Z]; [|rewrite R1 by assumption; discriminate].
  rewrite R2 by auto. discriminate.
Qed.
Lemma check_feasibility_ok (Xs : list rmat) s t : valid_state Xs s -> no_nan s ->
  (check_feasibility (gapsA s, gapsB s, gapsC s) t = true <-> feasible_state t s).
Proof.
  intros V (N1 & N2 & N3). unfold check_feasibility.
  assert (NA : forall x, In x (gapsA s) -> x <> NaN) by (apply (not_nan_map _ _ _ (MReg NonNegativity no_mat no_mat)); exact N1).
  assert (NB : forall x, In x (gapsB s) -> x <> NaN) by (apply (not_nan_map _ _ _ (BReg NonNegativity (AList []) [])); exact N2).
  assert (NC : forall x, In x (gapsC s) -> x <> NaN) by (apply (not_nan_map _ _ _ (MReg NonNegativity no_mat no_mat)); exact N3).
  destruct (feas_acc_lt t (gapsA s) None NA ltac:(discriminate)) as (X1 & Y1).
  destruct (feas_acc_lt t (gapsB s) _ NB X1) as (X2 & Y2).
  destruct (feas_acc_lt t (gapsC s) _ NC X2) as (X3 & Y3).
  transitivity (olt t (feas_acc (gapsC s) (feas_acc (gapsB s) (feas_acc (gapsA s) None)))).
  { unfold olt. destruct (feas_acc (gapsC s) _); [reflexivity|tauto]. }
  rewrite Y3, Y2, Y1. unfold gapsA, gapsB, gapsC.
  rewrite (olt_gaps (fun g : mregR => fdist _ _ (rget (g_aux g)) _) _ _ (st_rC s)) by (intros; apply sqrt_pos).
  rewrite (olt_gaps (fun g : bregR => ldist _ _ _ (baux g) _) _ _ (st_rB s)) by (intros; apply sqrt_pos).
  rewrite (olt_gaps (fun g : mregR => fdist _ _ (rget (g_aux g)) _) _ _ (st_rA s)) by (intros; apply sqrt_pos).
  rewrite (Forall_nth_iff _ (st_rA s) (MReg NonNegativity no_mat no_mat)), (Forall_nth_iff _ (st_rB s) (BReg NonNegativity (AList []) [])),
    (Forall_nth_iff _ (st_rC s) (MReg NonNegativity no_mat no_mat)).
  unfold feasible_state, dist_A, dist_B, dist_C, nth_reg, nth_breg. cbn [olt]. tauto.
Qed.
