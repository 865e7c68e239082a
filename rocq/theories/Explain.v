(** Proofs for C98: the update of a mode without penalties explains as much of the data as the
    other factor matrices allow, so data, model and residual satisfy Pythagoras' theorem. *)
From Coq Require Import Reals Lra Lia List Arith Bool Classical_Prop FunctionalExtensionality ZArith.
From Verif Require Import Num Numpy Unimodal RFacts Spec SpecFacts MatFacts SvdFacts ModelSpec Penalties PenaltySpec
  ProxProofs TVProofs GenL2Proofs SimplexProofs Parafac2Proofs PenaltyMain CoupledMatrices CmfSpec CmfProofs
  Decomp DecompSpec DecompFacts AdmmProofs AdmmB AdmmA AdmmRegs AdmmLoop AdmmOne AoState AoLoop AoMono Fit FitSpec OptSpec ExplainSpec.
Import ListNotations.
Local Open Scope R_scope.

(** A parabola with its lowest point at 1. *)
Lemma parabola a b k z l : 0 <= k + l * z ->
  (forall t, 1 / 2 * (a - 2 * b * 1 + k * 1 ^ 2) + l / 2 * (z * 1 ^ 2) <= 1 / 2 * (a - 2 * b * t + k * t ^ 2) + l / 2 * (z * t ^ 2)) -> b = k + l * z.
Proof.
  intros HK H. set (K := k + l * z) in *. set (D := K - b).
  assert (Q : forall s, 0 <= s * D + s ^ 2 / 2 * K).
  { intros s. specialize (H (1 + s)). unfold D, K in *. nra. }
  destruct (Req_dec D 0) as [E0|HD]; [unfold D in E0; lra|exfalso].
  specialize (Q (- D / (K + 1))).
  assert (E : - D / (K + 1) * D + (- D / (K + 1)) ^ 2 / 2 * K = - (D ^ 2 * (K + 2)) / (2 * (K + 1) ^ 2)) by (field; lra).
  rewrite E in Q.
  assert (0 < D ^ 2 * (K + 2) / (2 * (K + 1) ^ 2)).
  { apply Rdiv_lt_0_compat; [apply Rmult_lt_0_compat; [nra|lra]|nra]. }
  unfold Rdiv in *. lra.
Qed.

(** The residual as a polynomial in a common factor of the model. *)
Definition inner (Xs : list rmat) (K : nat) (M : nat -> ent) : R :=
  Sum (length Xs) (fun i => Sum (mr (nthX Xs i)) (fun j => Sum K (fun k => rget (nthX Xs i) j k * M i j k))).
Definition norm2 (Xs : list rmat) (K : nat) (M : nat -> ent) : R := Sum (length Xs) (fun i => sumsq (mr (nthX Xs i)) K (M i)).
Lemma dist_poly (Xs : list rmat) K (M : nat -> ent) t :
  Sum (length Xs) (fun i => dist2 (mr (nthX Xs i)) K (rget (nthX Xs i)) (fun j k => t * M i j k)) =
  norm2 Xs K (fun i => rget (nthX Xs i)) - 2 * inner Xs K M * t + norm2 Xs K M * t ^ 2.
Proof.
  unfold norm2, inner, dist2, sumsq. rewrite !Sum_rsum.
  assert (G : forall n f g h e, (forall i, f i = g i - 2 * h i * t + e i * t ^ 2) -> rsum n f = rsum n g - 2 * rsum n h * t + rsum n e * t ^ 2).
  { intros n f g h e He. induction n as [|n IH]; [rewrite !rsum_0; ring|]. rewrite !rsum_S. rewrite IH, He. ring. }
  apply G. intros i. rewrite !Sum_rsum. apply G. intros j. rewrite !Sum_rsum. apply G. intros k. ring.
Qed.
Lemma norm2_data (Xs : list rmat) (c : rcmf) : data_fits Xs c -> norm2 Xs (mr (cC c)) (fun i => rget (nthX Xs i)) = data_sumsq Xs.
Proof.
  intros (_ & _ & HX). unfold norm2, data_sumsq. rewrite !Sum_rsum. apply rsum_ext. intros i Hi. destruct (HX i Hi) as (_ & _ & ->). reflexivity.
Qed.
Lemma sumsq_scale r n (X : ent) t : sumsq r n (fun i j => t * X i j) = sumsq r n X * t ^ 2.
Proof.
  unfold sumsq. rewrite !Sum_rsum.
  assert (G : forall n f g, (forall i, f i = g i * t ^ 2) -> rsum n f = rsum n g * t ^ 2).
  { intros m f g He. induction m as [|m IH]; [rewrite !rsum_0; ring|]. rewrite !rsum_S. rewrite IH, He. ring. }
  apply G. intros i. rewrite !Sum_rsum. apply G. intros j. ring.
Qed.
Lemma norm2_nonneg (Xs : list rmat) K (M : nat -> ent) : 0 <= norm2 Xs K M.
Proof.
  unfold norm2, sumsq. rewrite Sum_rsum. apply rsum_nonneg. intros i Hi. rewrite Sum_rsum. apply rsum_nonneg. intros j Hj. rewrite Sum_rsum.
  apply rsum_nonneg. intros k Hk. apply pow2_ge_0.
Qed.

Lemma one_scale (X : ent) : (fun k r => 1 * X k r) = X.
Proof. do 2 (apply functional_extensionality; intros). ring. Qed.

Lemma one_scale3 (X : nat -> ent) : (fun i k r => 1 * X i k r) = X.
Proof. do 3 (apply functional_extensionality; intros). ring. Qed.

(** ** The three modes *)
Section Modes.
Variables (E : ext (N:=RNum)) (P : params (N:=RNum)) (Xs : list rmat).
Hypothesis HP : params_ok P.

Lemma opt_C c c' regs' n tol : data_fits Xs c -> nonempty c -> svd_correct E (mc (cA c)) -> (0 < n)%nat ->
  admm_update_C E Xs c [] (p_l2C P) n tol (p_scale P) = Ok (c', regs') ->
  residual Xs c' + model_sumsq Xs c' + 2 * p_l2C P * mode_sumsq c' 2 = data_sumsq Xs.
Proof.
  intros HF HN Hsvd Hn H. destruct HP as (PA & PB & PC & PS).
  destruct (update_C_trace E Xs c _ _ HF HN PC PS Hsvd [] regs' c' n tol (Forall_nil _) H) as (m & tr & HI & Hinv).
  pose proof HI as (I1 & I2 & I3 & I4 & _ & I6).
  assert (HE : forall i, (i <= m)%nat -> C_inv c (tr i) /\ snd (tr i) = []).
  { apply (iterates_inv _ _ _ _ _ _ _ (fun s => C_inv c s /\ snd s = []) HI).
    - split; [rewrite <- I2; apply Hinv; lia|reflexivity].
    - intros a b (A1 & A2) Hs. destruct (C_inv_step E Xs c _ _ HF HN PC PS Hsvd a b A1 Hs) as (B1 & B2 & _). split; [assumption|].
      rewrite A2 in B2. now apply F2_nil in B2. }
  assert (Hm : m <> 0%nat) by (intros ->; apply I6 in Hn; lia).
  destruct (HE (m - 1)%nat ltac:(lia)) as (J1 & J2).
  assert (HS := I4 (m - 1)%nat ltac:(lia)). replace (S (m - 1)) with m in HS by lia. rewrite I3 in HS.
  destruct (C_inv_step E Xs c _ _ HF HN PC PS Hsvd _ _ J1 HS) as ((B1 & (_ & S1 & S2) & _) & _ & B3). cbn [fst snd] in *.
  rewrite J2 in B3. unfold obj_C in B3. cbn [length] in B3. assert (Z0 : forall f, Sum 0 f = 0) by reflexivity.
  set (M := fun i j k => Sum (mc (cA c)) (fun r => entB (cBs c) i j r * rget (cA c) i r * rget (cC c') k r)).
  assert (FT : forall t, fit Xs (mr (cC c)) (mc (cA c)) (rget (cA c)) (entB (cBs c)) (fun k r => t * rget (cC c') k r) =
    data_sumsq Xs - 2 * inner Xs (mr (cC c)) M * t + norm2 Xs (mr (cC c)) M * t ^ 2).
  { intros t. rewrite <- (norm2_data Xs c HF), <- dist_poly. unfold fit. apply Sum_ext. intros i Hi. apply dist2_ext; intros j k Hj Hk; [reflexivity|].
    unfold M. rewrite !Sum_rsum. rewrite <- rsum_scal. apply rsum_ext. intros r Hr. rn. ring. }
  assert (NN : 0 <= norm2 Xs (mr (cC c)) M) by apply norm2_nonneg.
  assert (ZN : 0 <= sumsq (mr (cC c)) (mc (cA c)) (rget (cC c'))).
  { unfold sumsq. rewrite Sum_rsum. apply rsum_nonneg. intros j Hj. rewrite Sum_rsum. apply rsum_nonneg. intros; apply pow2_ge_0. }
  assert (KEY := parabola (data_sumsq Xs) (inner Xs (mr (cC c)) M) (norm2 Xs (mr (cC c)) M) (sumsq (mr (cC c)) (mc (cA c)) (rget (cC c'))) (p_l2C P)).
  lapply KEY; [clear KEY; intros KEY|rn; nra].
  lapply KEY; [clear KEY; intros KEY|].
  2:{ intros t. specialize (B3 (fun k r => t * rget (cC c') k r)). rewrite !Z0, FT, sumsq_scale in B3. rewrite <- FT, <- (sumsq_scale _ _ _ 1).
      rewrite !one_scale. rn. lra. }
  assert (RS : residual Xs c' = data_sumsq Xs - 2 * inner Xs (mr (cC c)) M * 1 + norm2 Xs (mr (cC c)) M * 1 ^ 2).
  { rewrite <- FT, one_scale. rewrite (residual_fit Xs c') by (now rewrite B1). rewrite B1 at 1 2 3 4. cbn [cA cBs cC]. rewrite S1. reflexivity. }
  assert (MS : model_sumsq Xs c' = norm2 Xs (mr (cC c)) M).
  { unfold model_sumsq, norm2. rewrite S1. apply Sum_ext. intros i Hi. unfold sumsq. apply Sum_ext. intros j Hj. apply Sum_ext. intros k Hk. f_equal.
    unfold M, cmf_entry, weight. rewrite B1. cbn [cw cA cBs cC]. apply Sum_ext. intros r Hr. unfold entB, nthB. cbn [cBs]. rn. ring. }
  rewrite RS, MS. unfold mode_sumsq. rewrite S1, S2. rn. lra.
Qed.
Lemma opt_A c c' regs' n tol inter0 : data_fits Xs c -> nonempty c -> svd_correct E (mc (cA c)) -> (0 < n)%nat ->
  admm_update_A E Xs c [] (p_l2A P) n tol (p_scale P) (p_constA P) = Ok (c', regs', inter0) ->
  residual Xs c' + model_sumsq Xs c' + 2 * p_l2A P * mode_sumsq c' 0 = data_sumsq Xs.
Proof.
  intros HF HN Hsvd Hn H. destruct HP as (PA & PB & PC & PS).
  destruct (update_A_trace E Xs c _ _ _ HF HN PA PS Hsvd [] regs' c' n tol inter0 (Forall_nil _) H) as (_ & m & tr & HI & Hinv).
  pose proof HI as (I1 & I2 & I3 & I4 & _ & I6).
  assert (HE : forall i, (i <= m)%nat -> A_inv c (tr i) /\ snd (tr i) = []).
  { apply (iterates_inv _ _ _ _ _ _ _ (fun s => A_inv c s /\ snd s = []) HI).
    - split; [rewrite <- I2; apply Hinv; lia|reflexivity].
    - intros a b (A1 & A2) Hs. destruct (A_inv_step E Xs c _ _ _ HF HN PA PS Hsvd a b A1 Hs) as (B1 & B2 & _). split; [assumption|].
      rewrite A2 in B2. now apply F2_nil in B2. }
  assert (Hm : m <> 0%nat) by (intros ->; apply I6 in Hn; lia).
  destruct (HE (m - 1)%nat ltac:(lia)) as (J1 & J2).
  assert (HS := I4 (m - 1)%nat ltac:(lia)). replace (S (m - 1)) with m in HS by lia. rewrite I3 in HS.
  destruct (A_inv_step E Xs c _ _ _ HF HN PA PS Hsvd _ _ J1 HS) as ((B1 & (_ & S1 & S2) & _) & _ & rho & _ & B3). cbn [fst snd] in *.
  rewrite J2 in B3. unfold obj_A in B3. cbn [length] in B3. assert (Z0 : forall f, Sum 0 f = 0) by reflexivity.
  set (M := fun i j k => Sum (mc (cA c)) (fun r => entB (cBs c) i j r * rget (cA c') i r * rget (cC c) k r)).
  assert (FT : forall t, fit Xs (mr (cC c)) (mc (cA c)) (fun i r => t * rget (cA c') i r) (entB (cBs c)) (rget (cC c)) =
    data_sumsq Xs - 2 * inner Xs (mr (cC c)) M * t + norm2 Xs (mr (cC c)) M * t ^ 2).
  { intros t. rewrite <- (norm2_data Xs c HF), <- dist_poly. unfold fit. apply Sum_ext. intros i Hi. apply dist2_ext; intros j k Hj Hk; [reflexivity|].
    unfold M. rewrite !Sum_rsum. rewrite <- rsum_scal. apply rsum_ext. intros r Hr. rn. ring. }
  assert (NN : 0 <= norm2 Xs (mr (cC c)) M) by apply norm2_nonneg.
  assert (ZN : 0 <= sumsq (mr (cA c)) (mc (cA c)) (rget (cA c'))).
  { unfold sumsq. rewrite Sum_rsum. apply rsum_nonneg. intros j Hj. rewrite Sum_rsum. apply rsum_nonneg. intros; apply pow2_ge_0. }
  assert (KEY := parabola (data_sumsq Xs) (inner Xs (mr (cC c)) M) (norm2 Xs (mr (cC c)) M) (sumsq (mr (cA c)) (mc (cA c)) (rget (cA c'))) (p_l2A P)).
  lapply KEY; [clear KEY; intros KEY|rn; nra].
  lapply KEY; [clear KEY; intros KEY|].
  2:{ intros t. specialize (B3 (fun i r => t * rget (cA c') i r)). rewrite !Z0, FT, sumsq_scale in B3. rewrite <- FT, <- (sumsq_scale _ _ _ 1).
      rewrite !one_scale. rn. lra. }
  assert (RS : residual Xs c' = data_sumsq Xs - 2 * inner Xs (mr (cC c)) M * 1 + norm2 Xs (mr (cC c)) M * 1 ^ 2).
  { rewrite <- FT, one_scale. rewrite (residual_fit Xs c') by (now rewrite B1). rewrite S2. rewrite B1 at 1 3 4. cbn [cA cBs cC]. reflexivity. }
  assert (MS : model_sumsq Xs c' = norm2 Xs (mr (cC c)) M).
  { unfold model_sumsq, norm2. replace (cC c') with (cC c) by (now rewrite B1). apply Sum_ext. intros i Hi. unfold sumsq. apply Sum_ext. intros j Hj. apply Sum_ext. intros k Hk. f_equal.
    unfold M, cmf_entry, weight, nthB, entB. rewrite S2. replace (cw c') with (@None (list (@num RNum))) by (now rewrite B1). replace (cBs c') with (cBs c) by (now rewrite B1).
    replace (cC c') with (cC c) by (now rewrite B1). apply Sum_ext. intros r Hr. rn. ring. }
  rewrite RS, MS. unfold mode_sumsq. rewrite S1, S2. rn. lra.
Qed.
Lemma opt_B c c' regs' n tol : data_fits Xs c -> nonempty c -> svd_correct E (mc (cA c)) -> (0 < n)%nat ->
  admm_update_B E Xs c [] (p_l2B P) n tol (p_scale P) (p_constB P) = Ok (c', regs') ->
  residual Xs c' + model_sumsq Xs c' + 2 * p_l2B P * mode_sumsq c' 1 = data_sumsq Xs.
Proof.
  intros HF HN Hsvd Hn H. destruct HP as (PA & PB & PC & PS).
  destruct (update_B_trace E Xs c _ _ _ HF HN PB PS Hsvd [] regs' c' n tol (Forall_nil _) H) as (m & tr & HI & Hinv).
  pose proof HI as (I1 & I2 & I3 & I4 & _ & I6).
  assert (HE : forall i, (i <= m)%nat -> B_inv Xs c (tr i) /\ snd (tr i) = []).
  { apply (iterates_inv _ _ _ _ _ _ _ (fun s => B_inv Xs c s /\ snd s = []) HI).
    - split; [rewrite <- I2; apply Hinv; lia|reflexivity].
    - intros a b (A1 & A2) Hs. destruct (B_inv_step E Xs c _ _ _ HF HN PB PS Hsvd a b A1 Hs) as (B1 & B2 & _). split; [assumption|].
      rewrite A2 in B2. now apply F2_nil in B2. }
  assert (Hm : m <> 0%nat) by (intros ->; apply I6 in Hn; lia).
  destruct (HE (m - 1)%nat ltac:(lia)) as (J1 & J2).
  assert (HS := I4 (m - 1)%nat ltac:(lia)). replace (S (m - 1)) with m in HS by lia. rewrite I3 in HS.
  destruct (B_inv_step E Xs c _ _ _ HF HN PB PS Hsvd _ _ J1 HS) as ((B1 & (L & S1) & _) & _ & rho & _ & B3). cbn [fst snd] in *.
  rewrite J2 in B3. unfold obj_B in B3. cbn [length] in B3. assert (Z0 : forall f, Sum 0 f = 0) by reflexivity.
  set (M := fun i j k => Sum (mc (cA c)) (fun r => entB (cBs c') i j r * rget (cA c) i r * rget (cC c) k r)).
  assert (FT : forall t, fit Xs (mr (cC c)) (mc (cA c)) (rget (cA c)) (fun i j r => t * entB (cBs c') i j r) (rget (cC c)) =
    data_sumsq Xs - 2 * inner Xs (mr (cC c)) M * t + norm2 Xs (mr (cC c)) M * t ^ 2).
  { intros t. rewrite <- (norm2_data Xs c HF), <- dist_poly. unfold fit. apply Sum_ext. intros i Hi. apply dist2_ext; intros j k Hj Hk; [reflexivity|].
    unfold M. rewrite !Sum_rsum. rewrite <- rsum_scal. apply rsum_ext. intros r Hr. rn. ring. }
  assert (NN : 0 <= norm2 Xs (mr (cC c)) M) by apply norm2_nonneg.
  assert (ZN : 0 <= Sum (length (cBs c)) (fun i => sumsq (mr (nthB c i)) (mc (cA c)) (entB (cBs c') i))).
  { rewrite Sum_rsum. apply rsum_nonneg. intros i Hi. unfold sumsq. rewrite Sum_rsum. apply rsum_nonneg. intros j Hj. rewrite Sum_rsum. apply rsum_nonneg. intros; apply pow2_ge_0. }
  assert (KEY := parabola (data_sumsq Xs) (inner Xs (mr (cC c)) M) (norm2 Xs (mr (cC c)) M) (Sum (length (cBs c)) (fun i => sumsq (mr (nthB c i)) (mc (cA c)) (entB (cBs c') i))) (p_l2B P)).
  lapply KEY; [clear KEY; intros KEY|rn; nra].
  lapply KEY; [clear KEY; intros KEY|].
  2:{ intros t. specialize (B3 (fun i j r => t * entB (cBs c') i j r)). rewrite !Z0, FT in B3. rewrite <- FT, one_scale3.
      assert (SC : Sum (length (cBs c)) (fun i => sumsq (mr (nthB c i)) (mc (cA c)) (fun j r => t * entB (cBs c') i j r)) =
                   Sum (length (cBs c)) (fun i => sumsq (mr (nthB c i)) (mc (cA c)) (entB (cBs c') i)) * t ^ 2).
      { rewrite !Sum_rsum. rewrite <- rsum_scal_r. apply rsum_ext. intros i Hi. apply sumsq_scale. }
      rewrite SC in B3. rn. lra. }
  assert (RS : residual Xs c' = data_sumsq Xs - 2 * inner Xs (mr (cC c)) M * 1 + norm2 Xs (mr (cC c)) M * 1 ^ 2).
  { rewrite <- FT, one_scale3. rewrite (residual_fit Xs c') by (now rewrite B1). rewrite B1 at 1 2 3 5. cbn [cA cBs cC]. reflexivity. }
  assert (MS : model_sumsq Xs c' = norm2 Xs (mr (cC c)) M).
  { unfold model_sumsq, norm2. replace (cC c') with (cC c) by (now rewrite B1). apply Sum_ext. intros i Hi. unfold sumsq. apply Sum_ext. intros j Hj. apply Sum_ext. intros k Hk. f_equal.
    unfold M, cmf_entry, weight, nthB, entB. replace (cw c') with (@None (list (@num RNum))) by (now rewrite B1). replace (cA c') with (cA c) by (now rewrite B1).
    replace (cC c') with (cC c) by (now rewrite B1). apply Sum_ext. intros r Hr. rn. ring. }
  assert (Q1 : mode_sumsq c' 1 = Sum (length (cBs c)) (fun i => sumsq (mr (nthB c i)) (mc (cA c)) (entB (cBs c') i))).
  { pose proof HF as (_ & EL & _). unfold mode_sumsq. rewrite L, EL. apply Sum_ext. intros i Hi. unfold nthB at 1 2 3. destruct (S1 i ltac:(rn; lia)) as (_ & -> & ->). reflexivity. }
  rewrite RS, MS, Q1. rn. lra.
Qed.
End Modes.
