(** The orthonormal matrix nearest to a matrix with independent columns does not depend on the svd
    it is computed from, and turns with the matrix.  An svd routine that refuses matrices with
    dependent columns. *)
From Coq Require Import Reals Lra Lia List Arith Bool ZArith Classical.
From Verif Require Import Num Numpy RFacts MatFacts Spec SpecFacts ModelSpec SvdFacts Penalties PenaltySpec ProxProofs Parafac2Proofs Decomp DecompSpec Parse ParseSpec Fit FitSpec SymSpec SymFacts TurnSpec TurnFacts TurnRun.
Import ListNotations.
Local Open Scope R_scope.
Local Notation shaped := PenaltySpec.shaped.

Section Polar.
Variables (M U Vh : rmat) (s : list R) (k : nat).
Hypothesis WM : mwf M.
Hypothesis HM : mc M = k.
Hypothesis H : has_svd M k (U, s, Vh).
Hypothesis HI : independent M.
(** M Vh^T = U diag s *)
Lemma svd_pos a : (a < k)%nat -> 0 < vg s a.
Proof.
  intros Ha. pose proof (svd_eq _ _ _ _ _ WM H) as E. pose proof (svd_Vh_rows _ _ _ _ _ H) as OV. pose proof (svd_Vh _ _ _ _ _ H) as OC.
  destruct H as (W1 & S1 & S2 & L & W2 & S3 & S4 & O1 & O2 & Sn & _). destruct (Rle_lt_or_eq_dec _ _ (Sn a Ha)) as [G|G]; [exact G|]. exfalso.
  assert (EV : mmul M (mtrans Vh) = mmul U (mdiagm (N:=RNum) s)).
  { rewrite E. rewrite mmul_assoc by mlia. rewrite OV. apply mmul_eye_r; [auto with mwf|mlia]. }
  assert (Z : forall j, (j < mc M)%nat -> rget Vh a j = 0).
  { apply HI. intros i Hi. etransitivity; [apply Sum_rsum|].
    assert (E1 : rsum (mc M) (fun j => rget M i j * rget Vh a j) = rget (mmul M (mtrans Vh)) i a).
    { rewrite mget_mmul by mlia. apply rsum_ext. intros j Hj. now rewrite mget_mtrans by mlia. }
    rewrite E1, EV, mget_mmul by mlia. apply rsum_zero. intros b Hb. rewrite mget_mdiagm by mlia. destruct (Nat.eqb_spec b a); [|rn; ring]. subst b. change (vg s a) with (at_ s a). rewrite <- G. rn. ring. }
  pose proof (orthocols_col _ a OC ltac:(mlia)) as ON. mshape. rewrite (rsum_zero (mc Vh)) in ON; [lra|]. intros j Hj. rewrite mget_mtrans, Z by mlia. ring.
Qed.
Lemma polar_best (W : rmat) : mwf W -> mr W = mr M -> mc W = k -> orthocols W -> mip M (mmul U Vh) <= mip M W -> W = mmul U Vh.
Proof.
  intros WW R0 C0 OW LE. destruct (proc_shape _ _ _ _ _ HM H) as (Q1 & Q2 & Q3 & Q4). rewrite !(proc_ip _ _ _ _ _ WM HM H) in LE by assumption.
  pose proof (svd_U _ _ _ _ _ H) as OU. pose proof (svd_Vh _ _ _ _ _ H) as OV. pose proof (svd_Vh_rows _ _ _ _ _ H) as OV2. pose proof (svd_VhtVh _ _ _ _ _ H HM) as V1. pose proof svd_pos as SP.
  destruct H as (W1 & S1 & S2 & L & W2 & S3 & S4 & O1 & O2 & Sn & _). rn.
  assert (R1 : forall a, (a < k)%nat -> rget (mmul (mmul (mtrans U) (mmul U Vh)) (mtrans Vh)) a a = 1).
  { intros a Ha. rewrite <- (mmul_assoc (mtrans U)) by mlia. rewrite OU. rewrite mmul_eye_l by (auto; mlia). rewrite OV2. rewrite mget_meye, Nat.eqb_refl by mlia. reflexivity. }
  assert (OPV : orthocols (mmul W (mtrans Vh))) by (apply orthocols_mmul; auto with mwf; mlia).
  assert (R2 : forall a, (a < k)%nat -> rget (mmul (mmul (mtrans U) W) (mtrans Vh)) a a = rsum (mr U) (fun i => rget U i a * rget (mmul W (mtrans Vh)) i a)).
  { intros a Ha. rewrite mmul_assoc by mlia. rewrite mget_mmul by mlia. mshape. apply rsum_ext. intros i Hi. rewrite mget_mtrans by mlia. reflexivity. }
  assert (N1 : forall a, (a < k)%nat -> rsum (mr U) (fun i => rget U i a * rget U i a) = 1) by (intros a Ha; apply orthocols_col; [assumption|mlia]).
  assert (N2 : forall a, (a < k)%nat -> rsum (mr U) (fun i => rget (mmul W (mtrans Vh)) i a * rget (mmul W (mtrans Vh)) i a) = 1).
  { intros a Ha. pose proof (orthocols_col _ a OPV ltac:(mlia)) as E. mshape. rewrite R0, <- S1 in E. exact E. }
  assert (LE1 : forall a, (a < k)%nat -> rsum (mr U) (fun i => rget U i a * rget (mmul W (mtrans Vh)) i a) <= 1) by (intros a Ha; apply col_ip_le; [mlia|mlia|mlia|now apply N1|now apply N2]).
  rewrite (rsum_ext k _ (fun a => vg s a)) in LE by (intros a Ha; rewrite R1 by assumption; rn; ring).
  rewrite (rsum_ext k (fun a => vg s a * rget (mmul (mmul (mtrans U) W) (mtrans Vh)) a a) (fun a => vg s a * rsum (mr U) (fun i => rget U i a * rget (mmul W (mtrans Vh)) i a))) in LE by (intros a Ha; now rewrite R2).
  assert (Z : rsum k (fun a => vg s a * (1 - rsum (mr U) (fun i => rget U i a * rget (mmul W (mtrans Vh)) i a))) = 0).
  { apply Rle_antisym.
    - rewrite (rsum_ext k _ (fun a => vg s a - vg s a * rsum (mr U) (fun i => rget U i a * rget (mmul W (mtrans Vh)) i a))) by (intros; ring). rewrite rsum_sub. apply Rle_minus. exact LE.
    - apply rsum_nonneg. intros a Ha. specialize (SP a Ha). specialize (LE1 a Ha). nra. }
  assert (ONE : forall a, (a < k)%nat -> rsum (mr U) (fun i => rget U i a * rget (mmul W (mtrans Vh)) i a) = 1).
  { intros a Ha. assert (Z1 := rsum_nonneg_zero k _ (fun a Ha => Rmult_le_pos _ _ (Rlt_le _ _ (SP a Ha)) (Rge_le _ _ (Rge_minus _ _ (Rle_ge _ _ (LE1 a Ha))))) Z a Ha). cbv beta in Z1. specialize (SP a Ha). nra. }
  assert (EU : mmul W (mtrans Vh) = U).
  { apply mat_ext; [auto with mwf|exact W1|mlia|mlia|]. mshape. intros i a Hi Ha.
    assert (D : rsum (mr U) (fun i => (rget U i a - rget (mmul W (mtrans Vh)) i a) * (rget U i a - rget (mmul W (mtrans Vh)) i a)) = 0).
    { specialize (ONE a ltac:(lia)). specialize (N1 a ltac:(lia)). specialize (N2 a ltac:(lia)).
      rewrite (rsum_ext (mr U) _ (fun i => rget U i a * rget U i a - 2 * (rget U i a * rget (mmul W (mtrans Vh)) i a) + rget (mmul W (mtrans Vh)) i a * rget (mmul W (mtrans Vh)) i a)) by (intros; ring).
      rewrite rsum_add, rsum_sub, rsum_scal. lra. }
    pose proof (rsum_nonneg_zero (mr U) _ (fun i _ => Rle_0_sqr (rget U i a - rget (mmul W (mtrans Vh)) i a)) D i ltac:(lia)) as Z2. unfold Rsqr in Z2. cbv beta in Z2. nra. }
  rewrite <- EU. rewrite mmul_assoc by mlia. rewrite V1. symmetry. apply mmul_eye_r; [assumption|mlia].
Qed.
End Polar.
Lemma polar_unique (M U Vh U' Vh' : rmat) (s s' : list R) k : mwf M -> mc M = k -> independent M -> has_svd M k (U, s, Vh) -> has_svd M k (U', s', Vh') -> mmul U' Vh' = mmul U Vh.
Proof.
  intros WM HM HI H H'. destruct (proc_shape _ _ _ _ _ HM H) as (Q1 & Q2 & Q3 & Q4), (proc_shape _ _ _ _ _ HM H') as (Q1' & Q2' & Q3' & Q4').
  apply (polar_best M U Vh s k WM HM H HI); auto; [exact (proc_orth _ _ _ _ _ HM H')|]. apply (proc_opt M U' Vh' s' k WM HM H'); auto. exact (proc_orth _ _ _ _ _ HM H).
Qed.
(** ** Turned matrices *)
Lemma mget_tm (Q M : rmat) i j : mc Q = mr M -> (i < mr Q)%nat -> (j < mc M)%nat -> rget (mmul Q M) i j = rsum (mr M) (fun k => rget Q i k * rget M k j).
Proof. intros. rewrite mget_mmul by mlia. now rewrite H. Qed.
Lemma frame_orth (Q : rmat) r : frame Q r -> orthocols Q.
Proof. intros (W & E & O). apply ortho_cols_mat. now rewrite E. Qed.
Lemma svd_turned (Q M : rmat) r k U s Vh : frame Q r -> mwf M -> mr M = r -> has_svd M k (U, s, Vh) -> has_svd (mmul Q M) k (mmul Q U, s, Vh).
Proof.
  intros HQ WM RM H. pose proof (frame_orth _ _ HQ) as OQ. destruct HQ as (WQ & CQ & _). pose proof (svd_U _ _ _ _ _ H) as OU.
  destruct H as (W1 & S1 & S2 & L & W2 & S3 & S4 & O1 & O2 & Sn & EM). unfold has_svd. mshape.
  split; [auto with mwf|]. split; [reflexivity|]. split; [exact S2|]. split; [exact L|]. split; [exact W2|]. split; [exact S3|]. split; [exact S4|].
  split; [|split; [exact O2|split; [exact Sn|]]].
  - assert (O : orthocols (mmul Q U)) by (apply orthocols_mmul; auto; congruence). apply ortho_cols_mat in O. mshape. now rewrite S2 in O.
  - intros i j Hi Hj. rewrite mget_mmul by mlia. etransitivity; [|symmetry; apply Sum_rsum].
    transitivity (rsum (mc Q) (fun l => rsum k (fun a => rget Q i l * (rget U l a * at_ s a * rget Vh a j)))).
    { apply rsum_ext. intros l Hl. rewrite rsum_scal. f_equal. etransitivity; [apply EM; lia|apply Sum_rsum]. }
    rewrite rsum_swap. apply rsum_ext. intros a Ha. rewrite mget_mmul by mlia. rewrite (rsum_ext _ _ (fun l => (at_ s a * rget Vh a j) * (rget Q i l * rget U l a))) by (intros; rn; ring). rewrite rsum_scal. rn. ring.
Qed.
Lemma independent_turned (Q M : rmat) r : frame Q r -> mr M = r -> (independent (mmul Q M) <-> independent M).
Proof.
  intros HQ RM. pose proof (frame_orth _ _ HQ) as OQ. destruct HQ as (WQ & CQ & O). unfold independent. mshape.
  assert (MV : forall v i, (i < mr Q)%nat -> Sum (mc M) (fun j => rget (mmul Q M) i j * v j) = rsum r (fun l => rget Q i l * rsum (mc M) (fun j => rget M l j * v j))).
  { intros v i Hi. etransitivity; [apply Sum_rsum|]. rewrite (rsum_ext _ _ (fun j => rsum r (fun l => rget Q i l * (rget M l j * v j)))).
    2:{ intros j Hj. rewrite mget_tm by congruence. rewrite RM. rewrite Rmult_comm, <- rsum_scal. apply rsum_ext. intros l Hl. rn. ring. }
    rewrite rsum_swap. apply rsum_ext. intros l Hl. now rewrite rsum_scal. }
  split; intros HI v Hv; apply HI; intros i Hi.
  - rewrite MV by assumption. apply rsum_zero. intros l Hl. assert (Z0 : rsum (mc M) (fun j => rget M l j * v j) = 0) by (etransitivity; [symmetry; apply Sum_rsum|apply (Hv l); lia]). rewrite Z0. ring.
  - (* M v = Q^T Q M v *)
    assert (E : rsum (mr Q) (fun x => rget Q x i * Sum (mc M) (fun j => rget (mmul Q M) x j * v j)) = rsum (mc M) (fun j => rget M i j * v j)).
    { rewrite (rsum_ext _ _ (fun x => rsum r (fun l => rget Q x i * rget Q x l * rsum (mc M) (fun j => rget M l j * v j)))).
      2:{ intros x Hx. rewrite MV by assumption. rewrite <- rsum_scal. apply rsum_ext. intros. ring. }
      rewrite rsum_swap. rewrite (rsum_ext r _ (fun l => kron i l * rsum (mc M) (fun j => rget M l j * v j))).
      2:{ intros l Hl. assert (OK : rsum (mr Q) (fun x => rget Q x i * rget Q x l) = kron i l) by (etransitivity; [symmetry; apply Sum_rsum|apply (O i l); lia]). rewrite <- OK. rewrite (rsum_ext (mr Q) _ (fun x => rsum (mc M) (fun j => rget M l j * v j) * (rget Q x i * rget Q x l))) by (intros; ring). rewrite rsum_scal. ring. }
      rewrite (rsum_single _ i) by (lia || (intros l Hl Hne; unfold kron; destruct (Nat.eqb_spec i l); [congruence|ring])). unfold kron. rewrite Nat.eqb_refl. ring. }
    etransitivity; [apply Sum_rsum|]. rewrite <- E. apply rsum_zero. intros x Hx. rewrite Hv by assumption. ring.
Qed.

(** Orthonormal columns are no more than the rows. *)
Lemma orthocols_tall (Q : rmat) : mwf Q -> orthocols Q -> (mc Q <= mr Q)%nat.
Proof.
  intros W O. apply INR_le. assert (E1 : nsq Q = INR (mc Q)).
  { rewrite <- (mmul_eye_r Q (mc Q)) by auto. rewrite orthocols_nsq by (auto with mwf; mlia). apply meye_nsq. }
  assert (E2 : nsq (mmul Q (mtrans Q)) = nsq Q) by (rewrite orthocols_nsq by (auto with mwf; mlia); apply nsq_mtrans).
  assert (E3 : mip (meye (mr Q)) (mmul Q (mtrans Q)) = nsq Q).
  { rewrite mip_sym by mlia. rewrite mip_mmul_l by mlia. rewrite mtrans_involutive by assumption. rewrite mmul_eye_l by auto. reflexivity. }
  pose proof (nsq_msub (meye (mr Q)) (mmul Q (mtrans Q)) ltac:(mlia) ltac:(mlia)) as E4. rewrite E2, E3, meye_nsq in E4.
  pose proof (nsq_nonneg (msub (meye (mr Q)) (mmul Q (mtrans Q)))). lra.
Qed.
(** ** Routines *)
Lemma refused_err d : refused d -> (let '(U, _, Vh) := d in matmul (N:=RNum) U Vh) = Err ValueError.
Proof. destruct d as [[U s] Vh]. intros (H & _). unfold matmul. destruct (Nat.eqb_spec (mc U) (mr Vh)); [contradiction|reflexivity]. Qed.
Lemma refused_infinite d : refused d -> finite_svd (N:=RNum) d = false.
Proof.
  destruct d as [[U s] Vh]. intros (_ & H). unfold finite_svd. destruct (forallb (ntruthy (N:=RNum)) s) eqn:E; [|reflexivity]. rewrite forallb_forall in E. specialize (E _ H). apply (proj1 (ntruthy_R 0)) in E. now destruct E.
Qed.
Lemma svd_width (E : ext (N:=RNum)) rank : svd_correct E rank -> forall G : rmat, shaped G rank rank -> finite_svd (x_svd E G rank) = true -> mc (snd (x_svd E G rank)) = rank.
Proof.
  intros HE G (W & R0 & C0) _. specialize (HE G W C0 ltac:(lia)). destruct (x_svd E G rank) as [[U s] Vh]. destruct HE as (_ & _ & _ & _ & _ & _ & S & _). cbn [snd]. congruence.
Qed.
Lemma refusing_width V Vc rank : svd_correct (e_ext V) rank -> refuses_dependent V Vc rank ->
  forall G : rmat, shaped G rank rank -> finite_svd (x_svd (e_ext Vc) G rank) = true -> mc (snd (x_svd (e_ext Vc) G rank)) = rank.
Proof.
  intros HE (_ & _ & _ & HV) G SG HF. destruct (classic (mc G = rank -> independent G)) as [HI|HI].
  - rewrite (proj2 (HV G rank) HI) in *. now apply svd_width.
  - assert (HI2 : mc G = rank /\ ~ independent G) by tauto. pose proof (refused_infinite _ (proj1 (HV G rank) (proj1 HI2) (proj2 HI2))). congruence.
Qed.
Lemma straight_pol (E : ext (N:=RNum)) z t : svd_correct E (z_rank z) -> frames z t -> rows_straight z t -> (forall i, (i < z_n z)%nat -> (z_rank z <= z_rows z i)%nat) -> pol_ok E z t.
Proof.
  intros HE HF RS HJ i M Hi SM. rewrite (straight_eye _ _ (proj2 HF i Hi) (RS i Hi)). pose proof SM as (W & R0 & C0). rewrite mmul_eye_l by auto.
  assert (SV := HE M W C0 ltac:(rewrite R0; auto)). unfold polar. destruct (x_svd E M (z_rank z)) as [[U s] Vh]. unfold matmul. destruct (proc_shape _ _ _ _ _ C0 SV) as (Q1 & Q2 & Q3 & Q4). rewrite Q4, Nat.eqb_refl. cbn [res_rel].
  apply tm_same; [reflexivity|]. split; [exact Q1|]. split; congruence.
Qed.
Lemma refusing_pol V Vc z t : svd_correct (e_ext V) (z_rank z) -> refuses_dependent V Vc (z_rank z) -> frames z t -> (forall i, (i < z_n z)%nat -> (z_rank z <= z_rows z i)%nat) -> pol_ok (e_ext Vc) z t.
Proof.
  intros HE (_ & _ & _ & HV) HF HJ i M Hi SM. pose proof (proj2 HF i Hi) as FP. pose proof SM as (W & R0 & C0). pose proof (independent_turned _ M _ FP R0) as IT.
  assert (RP : (z_rows z i <= mr (t_rows t i))%nat).
  { pose proof (frame_orth _ _ FP) as O. destruct FP as (WP & CP & _). rewrite <- CP. now apply orthocols_tall. }
  unfold polar. destruct (classic (independent M)) as [HI|HI].
  - rewrite (proj2 (HV M _)) by auto. rewrite (proj2 (HV (mmul (t_rows t i) M) _)) by (intros _; now apply IT).
    assert (SV := HE M W C0 ltac:(rewrite R0; auto)). assert (SV' := HE (mmul (t_rows t i) M) ltac:(auto with mwf) ltac:(mshape; auto) ltac:(mshape; specialize (HJ i Hi); lia)).
    destruct (x_svd (e_ext V) M (z_rank z)) as [[U s] Vh], (x_svd (e_ext V) (mmul (t_rows t i) M) (z_rank z)) as [[U' s'] Vh']. pose proof (svd_turned _ M _ _ _ _ _ FP W R0 SV) as SV2.
    destruct (proc_shape _ _ _ _ _ C0 SV) as (Q1 & Q2 & Q3 & Q4). destruct (proc_shape _ _ _ _ _ (C0 : mc (mmul (t_rows t i) M) = _) SV') as (Q1' & Q2' & Q3' & Q4'). unfold matmul. rewrite Q4, Q4', !Nat.eqb_refl. cbn [res_rel].
    split; [split; [exact Q1|split; congruence]|]. rewrite (polar_unique (mmul (t_rows t i) M) (mmul (t_rows t i) U) Vh U' Vh' s s' (z_rank z)); auto with mwf; [|now apply IT].
    destruct SV as (W1 & S1 & S2 & _). destruct FP as (_ & CP & _). apply mmul_assoc. congruence.
  - pose proof (refused_err _ (proj1 (HV M (z_rank z)) C0 HI)) as R1. pose proof (refused_err _ (proj1 (HV (mmul (t_rows t i) M) (z_rank z)) C0 ltac:(tauto))) as R2.
    destruct (x_svd (e_ext Vc) M (z_rank z)) as [[U s] Vh], (x_svd (e_ext Vc) (mmul (t_rows t i) M) (z_rank z)) as [[U' s'] Vh']. rewrite R1, R2. reflexivity.
Qed.
