(** Existence, uniqueness, multipliers and limits for the subproblems of the three modes. *)
From Coq Require Import Reals Lra Lia List Arith Bool.
From Verif Require Import Num Numpy Unimodal RFacts Spec SpecFacts MatFacts SvdFacts ModelSpec Penalties PenaltySpec
  ProxProofs TVProofs GenL2Proofs SimplexProofs Parafac2Proofs PenaltyMain CoupledMatrices CmfSpec CmfProofs
  Decomp DecompSpec DecompFacts AdmmProofs AdmmB AdmmA AdmmRegs AdmmLoop AdmmOne AoState OptSpec AdmmConv AdmmFix AdmmFixB AdmmOpt
  AdmmRate ConvSpec AdmmExist AdmmSlater PenConvex AdmmCvg.
Import ListNotations.
Local Open Scope R_scope.

(** ** Numbers *)
Lemma sq_close a e : 0 < e -> a ^ 2 <= e ^ 2 -> Rabs a <= e.
Proof.
  intros He H. destruct (Rle_lt_dec (Rabs a) e) as [|L]; [assumption|]. rewrite <- (pow2_abs a) in H.
  assert (e * e < Rabs a * Rabs a) by (apply Rmult_le_0_lt_compat; lra). lra.
Qed.
Lemma INR_unb A : exists n, A < INR n.
Proof.
  exists (Z.to_nat (up A)). rewrite INR_IZR_INZ. destruct (archimed A) as (H & _). eapply Rlt_le_trans; [exact H|]. apply IZR_le. lia.
Qed.
Lemma large_sqrt v : exists N, forall k, (N <= k)%nat -> v <= sqrt (INR k).
Proof.
  destruct (INR_unb (Rmax v 0 ^ 2)) as (N & HN). exists N. intros k Hk. apply Rle_trans with (Rmax v 0); [apply Rmax_l|].
  rewrite <- (sqrt_pow2 (Rmax v 0)) by apply Rmax_r. apply sqrt_le_1_alt. apply le_INR in Hk. lra.
Qed.
Lemma low_weight n (rho : nat -> R) : (forall i, (i < n)%nat -> 0 < rho i) -> exists m, 0 < m /\ forall i, (i < n)%nat -> m <= rho i.
Proof.
  induction n as [|n IH]; intros H; [exists 1; split; [lra|intros; lia]|]. destruct IH as (m & M0 & HM); [intros; apply H; lia|].
  exists (Rmin m (rho n)). split; [apply Rmin_glb_lt; [assumption|apply H; lia]|]. intros i Hi. destruct (Nat.eq_dec i n) as [->|]; [apply Rmin_r|].
  eapply Rle_trans; [apply Rmin_l|]. apply HM. lia.
Qed.

(** ** The smooth parts: non-negative, continuous *)
Lemma fit_nonneg Xs K n A B C : 0 <= fit Xs K n A B C.
Proof. unfold fit. rewrite Sum_rsum. apply rsum_nonneg; intros i Hi. rewrite ProxProofs.dist2_rsum. apply rsum_nonneg; intros. apply rsum_nonneg; intros. apply pow2_ge_0. Qed.
Lemma dist2_cv r c X Y (Yk : nat -> ent) : ecv r c Yk Y -> Un_cv (fun k => dist2 r c X (Yk k)) (dist2 r c X Y).
Proof.
  intros H. apply (cv_ext (fun k => rsum r (fun i => rsum c (fun j => (X i j - Yk k i j) ^ 2)))); [intros; now rewrite ProxProofs.dist2_rsum|].
  rewrite ProxProofs.dist2_rsum. apply cv_rsum; intros i Hi. apply cv_rsum; intros j Hj. apply (cv_sq (fun k => X i j - Yk k i j)).
  apply (CV_minus (fun _ => X i j)); [apply cv_const|now apply H].
Qed.
Lemma sumsq_cv r c (Yk : nat -> ent) Y : ecv r c Yk Y -> Un_cv (fun k => sumsq r c (Yk k)) (sumsq r c Y).
Proof.
  intros H. apply (cv_ext (fun k => rsum r (fun i => rsum c (fun j => Yk k i j ^ 2)))); [intros; now rewrite sumsq_rsum|].
  rewrite sumsq_rsum. apply cv_rsum; intros i Hi. apply cv_rsum; intros j Hj. apply cv_sq. now apply H.
Qed.
Lemma fit_cv Xs K n (A : nat -> ent) (B : nat -> nat -> ent) (C : nat -> ent) A' B' C' :
  (forall i r, (i < length Xs)%nat -> (r < n)%nat -> Un_cv (fun k => A k i r) (A' i r)) ->
  (forall i j r, (i < length Xs)%nat -> (j < mr (nthX Xs i))%nat -> (r < n)%nat -> Un_cv (fun k => B k i j r) (B' i j r)) ->
  (forall l r, (l < K)%nat -> (r < n)%nat -> Un_cv (fun k => C k l r) (C' l r)) ->
  Un_cv (fun k => fit Xs K n (A k) (B k) (C k)) (fit Xs K n A' B' C').
Proof.
  intros HA HB HC. unfold fit. eapply cv_ext; [intros; symmetry; apply Sum_rsum|]. rewrite Sum_rsum. apply cv_rsum; intros i Hi.
  apply dist2_cv. intros j l Hj Hl. eapply cv_ext; [intros; symmetry; apply Sum_rsum|]. rewrite Sum_rsum. apply cv_rsum; intros r Hr.
  apply (CV_mult (fun k => B k i j r * A k i r) (fun k => C k l r)); [|now apply HC]. apply (CV_mult (fun k => B k i j r) (fun k => A k i r)); auto.
Qed.
Section Smooth.
Variables (Xs : list rmat) (c : rcmf) (l2 : R).
Hypothesis HF : data_fits Xs c.
Hypothesis Hl2 : 0 <= l2.
Lemma smooth_A_nonneg Z : 0 <= smooth_A Xs c l2 Z.
Proof.
  unfold smooth_A. pose proof (fit_nonneg Xs (mr (cC c)) (mc (cA c)) Z (entB (cBs c)) (rget (cC c))). pose proof (sumsq_nonneg (mr (cA c)) (mc (cA c)) Z).
  rn. nra.
Qed.
Lemma smooth_C_nonneg Z : 0 <= smooth_C Xs c l2 Z.
Proof.
  unfold smooth_C. pose proof (fit_nonneg Xs (mr (cC c)) (mc (cA c)) (rget (cA c)) (entB (cBs c)) Z). pose proof (sumsq_nonneg (mr (cC c)) (mc (cA c)) Z).
  rn. nra.
Qed.
Lemma smooth_B_nonneg Z : 0 <= smooth_B Xs c l2 Z.
Proof.
  unfold smooth_B. pose proof (fit_nonneg Xs (mr (cC c)) (mc (cA c)) (rget (cA c)) Z (rget (cC c))).
  assert (0 <= Sum (length (cBs c)) (fun i => sumsq (mr (nthB c i)) (mc (cA c)) (Z i))) by (rewrite Sum_rsum; apply rsum_nonneg; intros; apply sumsq_nonneg).
  rn. nra.
Qed.
Lemma smooth_A_cv Zk Z : ecv (mr (cA c)) (mc (cA c)) Zk Z -> Un_cv (fun k => smooth_A Xs c l2 (Zk k)) (smooth_A Xs c l2 Z).
Proof.
  intros H. unfold smooth_A. refine (CV_plus _ _ _ _ (cv_scal _ _ _ _) (cv_scal _ _ _ (sumsq_cv _ _ _ _ H))).
  apply (fit_cv Xs (mr (cC c)) (mc (cA c)) Zk (fun _ => entB (cBs c)) (fun _ => rget (cC c))); intros; try apply cv_const.
  apply H; [|assumption]. rewrite (RX Xs c HF). assumption.
Qed.
Lemma smooth_C_cv Zk Z : ecv (mr (cC c)) (mc (cA c)) Zk Z -> Un_cv (fun k => smooth_C Xs c l2 (Zk k)) (smooth_C Xs c l2 Z).
Proof.
  intros H. unfold smooth_C. refine (CV_plus _ _ _ _ (cv_scal _ _ _ _) (cv_scal _ _ _ (sumsq_cv _ _ _ _ H))).
  apply (fit_cv Xs (mr (cC c)) (mc (cA c)) (fun _ => rget (cA c)) (fun _ => entB (cBs c)) Zk); intros; try apply cv_const. now apply H.
Qed.
Lemma smooth_B_cv (Zk : nat -> nat -> ent) Z : (forall i, (i < length Xs)%nat -> ecv (rowsB c i) (mc (cA c)) (fun k => Zk k i) (Z i)) ->
  Un_cv (fun k => smooth_B Xs c l2 (Zk k)) (smooth_B Xs c l2 Z).
Proof.
  intros H. destruct HF as (_ & HL & HX). unfold smooth_B. refine (CV_plus _ _ _ _ (cv_scal _ _ _ _) (cv_scal _ _ _ _)).
  - apply (fit_cv Xs (mr (cC c)) (mc (cA c)) (fun _ => rget (cA c)) Zk (fun _ => rget (cC c))); intros; try apply cv_const.
    apply H; try assumption. destruct (HX i H0) as (_ & E & _). rewrite E in H1. exact H1.
  - eapply cv_ext; [intros; symmetry; apply Sum_rsum|]. rewrite Sum_rsum. apply cv_rsum; intros i Hi. rewrite <- HL in Hi.
    exact (sumsq_cv _ _ (fun k => Zk k i) _ (H i Hi)).
Qed.
End Smooth.

(** ** One factor matrix *)
Section Rows.
Variables (r c : nat) (rho : nat -> R) (f spread : ent -> R) (mu : R) (regs : list mregR).
Hypothesis Hrho : forall i, (i < r)%nat -> 0 < rho i.
Hypothesis Hq : quadratic_with (fun p => f (p2e p)) (fun p => spread (p2e p)).
Hypothesis Hsp : forall D, 0 <= spread D.
Hypothesis Hv : Forall (fun g => valid_penalty (g_pen g) r) regs.
Hypothesis Hc : Forall (fun g => convex_pen (g_pen g)) regs.
Notation one := (fun _ : nat => 1%nat).
Lemma pen_at_valid q : (q < length regs)%nat -> valid_penalty (pen_at regs q) r.
Proof. intros H. apply (proj1 (Forall_forall _ _) Hv), nth_In, H. Qed.
Lemma pen_at_convex q : (q < length regs)%nat -> convex_pen (pen_at regs q).
Proof. intros H. apply (proj1 (Forall_forall _ _) Hc), nth_In, H. Qed.
Lemma psame_same (x z : pt) : psame r one c x z -> same r c (p2e x) (p2e z).
Proof. intros H i j Hi Hj. apply H; lia. Qed.
Lemma rows_multipliers x : compatible r c regs -> optimal r c f regs x -> exists us, certified r c rho f regs x us.
Proof.
  intros (x0 & q0 & delta & D0 & M0 & MI) (OM & OO).
  destruct (slater_multipliers r one c rho Hrho (length regs) (fun p => f (p2e p)) (rpen r c regs) (rdom r c regs)) with
    (x := e2p x) (x0 := e2p x0) (q0 := q0) (delta := delta) as (us & S1 & S2).
  - intros y z t Ht. rewrite Hq. assert (0 <= t * (1 - t) * spread (p2e (psub z y))) by (apply Rmult_le_pos; [nra|apply Hsp]). lra.
  - intros q y z t Hq' _ _ Ht. apply (doc_penalty_convex _ r c (p2e y) (p2e z) t (pen_at_valid q Hq') Ht).
  - intros q y z t Hq' Hy Hz Ht. apply (doc_domain_convex _ r c (p2e y) (p2e z) t (pen_at_convex q Hq') Ht Hy Hz).
  - intros q y z Hq' S. apply doc_domain_ext; [now apply pen_at_convex|now apply psame_same].
  - intros q y z Hq' S. apply doc_penalty_ext. now apply psame_same.
  - exact OM.
  - intros z Hz. specialize (OO (p2e z) Hz). unfold penalised in OO. rewrite !Sum_rsum in OO. exact OO.
  - assumption.
  - exact M0.
  - intros q z Hq' N HN. apply (MI q (p2e z) Hq' N). intros i j Hi Hj. apply (HN i 0%nat j); lia.
  - exists (fun q => p2e (us q)). split.
    + intros Z. specialize (S1 (e2p Z)). change (p2e (e2p x)) with x in S1. change (p2e (e2p Z)) with Z in S1. eapply Rle_trans; [exact S1|]. right. f_equal.
      symmetry. apply Sum_rsum_ext. intros q Hq'. rewrite wdot_ws. apply wsum_ext. intros i j k Hi Hj Hk. replace j with 0%nat by lia. reflexivity.
    + intros q Hq'. destruct (S2 q Hq') as (A1 & A2). split; [exact A1|]. intros Z HZ. specialize (A2 (e2p Z) HZ). rewrite wdot_ws.
      eapply Rle_trans; [|exact A2]. right. unfold rpen. change (p2e (e2p x)) with x. f_equal.
Qed.
Hypothesis Hmu : 0 < mu.
Hypothesis Hst : forall D, mu * sumsq r c D <= spread D.
Lemma penalised_mid x z : meets r c regs x -> meets r c regs z ->
  meets r c regs (eseg (1 / 2) x z) /\ penalised r c f regs (eseg (1 / 2) x z) <= (penalised r c f regs x + penalised r c f regs z) / 2 - spread (esub z x) / 4.
Proof.
  intros Hx Hz. split.
  - intros q Hq'. apply doc_domain_convex; [now apply pen_at_convex|lra|now apply Hx|now apply Hz].
  - unfold penalised. rewrite (Sum_rsum _ (fun q => doc_penalty (pen_at regs q) r c x)), (Sum_rsum _ (fun q => doc_penalty (pen_at regs q) r c z)),
      (Sum_rsum _ (fun q => doc_penalty (pen_at regs q) r c (eseg (1 / 2) x z))). pose proof (Hq (e2p x) (e2p z) (1 / 2)) as Q.
    change (f (eseg (1 / 2) x z) = (1 - 1 / 2) * f x + 1 / 2 * f z - 1 / 2 * (1 - 1 / 2) * spread (esub z x)) in Q. rewrite Q.
    assert (rsum (length regs) (fun q => doc_penalty (pen_at regs q) r c (eseg (1 / 2) x z)) <=
      (1 - 1 / 2) * rsum (length regs) (fun q => doc_penalty (pen_at regs q) r c x) + 1 / 2 * rsum (length regs) (fun q => doc_penalty (pen_at regs q) r c z)).
    { rewrite <- !rsum_scal, <- rsum_add. apply rsum_le; intros q Hq'. apply doc_penalty_convex; [now apply pen_at_valid|lra]. }
    lra.
Qed.
Lemma sumsq_entry D i j : (i < r)%nat -> (j < c)%nat -> D i j ^ 2 <= sumsq r c D.
Proof.
  intros Hi Hj. rewrite sumsq_rsum. apply Rle_trans with (rsum c (fun j => D i j ^ 2)).
  - apply (rsum_le_one c (fun j => D i j ^ 2) j); [intros; apply pow2_ge_0|assumption].
  - apply (rsum_le_one r (fun i => rsum c (fun j => D i j ^ 2)) i); [|assumption]. intros. apply rsum_nonneg; intros; apply pow2_ge_0.
Qed.
Lemma rows_unique x y : optimal r c f regs x -> optimal r c f regs y -> same r c x y.
Proof.
  intros (X1 & X2) (Y1 & Y2) i j Hi Hj. destruct (penalised_mid x y X1 Y1) as (M1 & M2). specialize (X2 y Y1) as A. specialize (Y2 _ M1) as B.
  specialize (X2 _ M1). pose proof (Hst (esub y x)) as S. pose proof (sumsq_entry (esub y x) i j Hi Hj) as N. unfold esub in N at 1.
  assert (mu * (y i j - x i j) ^ 2 <= 0) by nra. assert (0 <= (y i j - x i j) ^ 2) by apply pow2_ge_0.
  assert ((y i j - x i j) ^ 2 = 0) by nra. nra.
Qed.
Hypothesis Hf0 : forall Z, 0 <= f Z.
Hypothesis Hfc : forall Zk Z, ecv r c Zk Z -> Un_cv (fun k => f (Zk k)) (f Z).
Lemma rows_exists x0 : meets r c regs x0 -> exists x, optimal r c f regs x.
Proof.
  intros M0.
  destruct (minimiser_exists r one c (fun p => penalised r c f regs (p2e p)) (fun p => meets r c regs (p2e p)) (mu / 4) 0) as (x & X1 & X2).
  - lra.
  - intros x Hx. unfold penalised. rewrite Sum_rsum. assert (0 <= rsum (length regs) (fun q => doc_penalty (pen_at regs q) r c (p2e x))).
    { apply rsum_nonneg; intros q Hq'. apply doc_penalty_nonneg. now apply pen_at_valid. }
    specialize (Hf0 (p2e x)). lra.
  - intros x z Hx Hz. destruct (penalised_mid (p2e x) (p2e z) Hx Hz) as (A & B). split; [exact A|]. eapply Rle_trans; [exact B|].
    assert (E : pdist r one c x z = sumsq r c (esub (p2e z) (p2e x))).
    { unfold pdist, wsum. rewrite sumsq_rsum. apply rsum_ext; intros i Hi. rewrite rsum_one, Rmult_1_l. reflexivity. }
    rewrite E. specialize (Hst (esub (p2e z) (p2e x))). lra.
  - intros X x HX CX q Hq'. apply (doc_domain_closed _ r c (fun k => p2e (X k))); [now apply pen_at_convex| |intros k; now apply HX].
    intros i j Hi Hj. apply CX; lia.
  - intros X x HX CX. assert (CE : ecv r c (fun k => p2e (X k)) (p2e x)) by (intros i j Hi Hj; apply CX; lia).
    unfold penalised. refine (CV_plus _ _ _ _ (Hfc (fun k => p2e (X k)) _ CE) _). eapply cv_ext; [intros; symmetry; apply Sum_rsum|]. rewrite Sum_rsum.
    apply cv_rsum; intros q Hq'. exact (doc_penalty_cv _ r c (fun k => p2e (X k)) _ CE).
  - now exists (e2p x0).
  - exists (p2e x). split; [exact X1|]. intros Z HZ. exact (X2 (e2p Z) HZ).
Qed.
Lemma rows_limit x us eps : 0 < eps -> exists N, forall k X regs', (N <= k)%nat -> length regs' = length regs ->
  nearly_solved r c rho f spread regs x us k X regs' ->
  close r c eps X x /\ forall q, (q < length regs')%nat -> close r c eps (aux_at regs' q) x.
Proof.
  intros He. set (e := energy r c rho x us regs). set (u := multipliers_sq r c rho (length regs) us).
  destruct (low_weight r rho Hrho) as (w & W0 & HW).
  destruct (large_sqrt ((2 * u + 7 * e) / (mu * (eps / 2) ^ 2))) as (N1 & HN1). destruct (INR_unb (e / (w * (eps / 2) ^ 2))) as (N2 & HN2).
  exists (max (S N1) (S N2)). intros k X regs' Hk HL (_ & I & _ & S). fold e u in I, S.
  assert (E2 : 0 < (eps / 2) ^ 2) by (apply pow_lt; lra).
  assert (K0 : 0 < INR k) by (apply lt_0_INR; lia). pose proof (sqrt_lt_R0 _ K0) as Q0.
  assert (C1 : close r c (eps / 2) X x).
  { intros i j Hi Hj. apply sq_close; [lra|]. pose proof (sumsq_entry (esub X x) i j Hi Hj) as N. unfold esub in N at 1. specialize (Hst (esub X x)).
    specialize (HN1 k ltac:(lia)). assert (M0 : 0 < mu * (eps / 2) ^ 2) by (apply Rmult_lt_0_compat; lra).
    assert (A : 2 * u + 7 * e <= sqrt (INR k) * (mu * (eps / 2) ^ 2)).
    { apply Rmult_le_compat_r with (r := mu * (eps / 2) ^ 2) in HN1; [|lra]. unfold Rdiv at 1 in HN1. rewrite Rmult_assoc, Rinv_l, Rmult_1_r in HN1 by lra. exact HN1. }
    assert (B : sqrt (INR k) * (mu * (X i j - x i j) ^ 2) <= sqrt (INR k) * (mu * (eps / 2) ^ 2)).
    { apply Rle_trans with (sqrt (INR k) * spread (esub X x)); [apply Rmult_le_compat_l; [lra|]|lra]. eapply Rle_trans; [|exact Hst]. apply Rmult_le_compat_l; lra. }
    apply Rmult_le_reg_l in B; [|assumption]. now apply Rmult_le_reg_l in B. }
  split; [intros i j Hi Hj; specialize (C1 i j Hi Hj); lra|].
  intros q Hq'. assert (C2 : close r c (eps / 2) X (aux_at regs' q)).
  { intros i j Hi Hj. apply sq_close; [lra|].
    assert (A : w * (X i j - aux_at regs' q i j) ^ 2 <= infeasibility r c rho regs' X).
    { unfold infeasibility. rewrite Sum_rsum. eapply Rle_trans; [|apply (rsum_le_one _ (fun q => wsq r c rho X (aux_at regs' q)) q); [|assumption]].
      2:{ intros. now apply wsq_nonneg. }
      rewrite wsq_ws. unfold wsum. 
      apply Rle_trans with (rho i * rsum 1 (fun _ => rsum c (fun k => (X i k - aux_at regs' q i k) ^ 2))).
      2:{ apply (rsum_le_one r (fun i => rho i * rsum 1 (fun _ => rsum c (fun k => (X i k - aux_at regs' q i k) ^ 2))) i); [|assumption]. intros i' Hi'. apply Rmult_le_pos; [left; auto|].
          apply rsum_nonneg; intros. apply rsum_nonneg; intros; apply pow2_ge_0. }
      rewrite rsum_one. assert (B : (X i j - aux_at regs' q i j) ^ 2 <= rsum c (fun k => (X i k - aux_at regs' q i k) ^ 2)).
      { apply (rsum_le_one c (fun k => (X i k - aux_at regs' q i k) ^ 2) j); [intros; apply pow2_ge_0|assumption]. }
      pose proof (HW i Hi). assert (0 <= (X i j - aux_at regs' q i j) ^ 2) by apply pow2_ge_0. apply Rmult_le_compat; lra. }
    assert (KN : INR N2 <= INR k) by (apply le_INR; lia). assert (M0 : 0 < w * (eps / 2) ^ 2) by (apply Rmult_lt_0_compat; lra).
    assert (B : e < INR k * (w * (eps / 2) ^ 2)).
    { assert (HN3 : e / (w * (eps / 2) ^ 2) < INR k) by lra. apply Rmult_lt_compat_r with (r := w * (eps / 2) ^ 2) in HN3; [|lra]. unfold Rdiv at 1 in HN3. rewrite Rmult_assoc, Rinv_l, Rmult_1_r in HN3 by lra. exact HN3. }
    assert (D : INR k * (w * (X i j - aux_at regs' q i j) ^ 2) <= INR k * (w * (eps / 2) ^ 2)).
    { apply Rle_trans with (INR k * infeasibility r c rho regs' X); [apply Rmult_le_compat_l; lra|lra]. }
    apply Rmult_le_reg_l in D; [|assumption]. now apply Rmult_le_reg_l in D. }
  intros i j Hi Hj. specialize (C1 i j Hi Hj). specialize (C2 i j Hi Hj).
  replace (aux_at regs' q i j - x i j) with (- (X i j - aux_at regs' q i j) + (X i j - x i j)) by ring.
  eapply Rle_trans; [apply Rabs_triang|]. rewrite Rabs_Ropp. lra.
Qed.
End Rows.

(** ** n factor matrices *)
Section Lists.
Variables (n : nat) (J : nat -> nat) (c : nat) (rho : nat -> R) (f spread : (nat -> ent) -> R) (mu : R) (regs : list bregR).
Hypothesis Hrho : forall i, (i < n)%nat -> 0 < rho i.
Hypothesis Hq : quadratic_with (fun p => f p) (fun p => spread p).
Hypothesis Hsp : forall D, 0 <= spread D.
Hypothesis Hv : Forall (fun g => forall i, (i < n)%nat -> valid_penalty (b_pen g) (J i)) regs.
Hypothesis Hc : Forall (fun g => convex_pen (b_pen g)) regs.
Lemma bpen_at_valid q i : (q < length regs)%nat -> (i < n)%nat -> valid_penalty (bpen_at regs q) (J i).
Proof. intros H. pose proof (proj1 (Forall_forall _ _) Hv _ (nth_In _ (BReg NonNegativity (AList []) []) H)) as K. intros. now apply K. Qed.
Lemma bpen_at_convex q : (q < length regs)%nat -> convex_pen (bpen_at regs q).
Proof. intros H. apply (proj1 (Forall_forall _ _) Hc), nth_In, H. Qed.
Lemma pen_l_convex q x z t : (q < length regs)%nat -> 0 <= t <= 1 ->
  pen_l n J c (bpen_at regs q) (pseg t x z) <= (1 - t) * pen_l n J c (bpen_at regs q) x + t * pen_l n J c (bpen_at regs q) z.
Proof.
  intros Hq' Ht. unfold pen_l. rewrite (Sum_rsum n (fun i => doc_penalty (bpen_at regs q) (J i) c (x i))), (Sum_rsum n (fun i => doc_penalty (bpen_at regs q) (J i) c (z i))),
    (Sum_rsum n (fun i => doc_penalty (bpen_at regs q) (J i) c (pseg t x z i))).
  rewrite <- !rsum_scal, <- rsum_add. apply rsum_le; intros i Hi. apply (doc_penalty_convex _ (J i) c (x i) (z i) t (bpen_at_valid q i Hq' Hi) Ht).
Qed.
Lemma dom_l_convex q x z t : (q < length regs)%nat -> 0 <= t <= 1 -> dom_l n J c (bpen_at regs q) x -> dom_l n J c (bpen_at regs q) z ->
  dom_l n J c (bpen_at regs q) (pseg t x z).
Proof. intros Hq' Ht Hx Hz i Hi. apply (doc_domain_convex _ (J i) c (x i) (z i) t (bpen_at_convex q Hq') Ht (Hx i Hi) (Hz i Hi)). Qed.
Lemma lists_multipliers x : compatible_l n J c regs -> optimal_l n J c f regs x -> exists us, certified_l n J c rho f regs x us.
Proof.
  intros (x0 & q0 & delta & D0 & M0 & MI) (OM & OO).
  destruct (slater_multipliers n J c rho Hrho (length regs) f (lpen n J c regs) (ldom n J c regs)) with
    (x := x) (x0 := x0) (q0 := q0) (delta := delta) as (us & S1 & S2).
  - intros y z t Ht. rewrite Hq. assert (0 <= t * (1 - t) * spread (psub z y)) by (apply Rmult_le_pos; [nra|apply Hsp]). lra.
  - intros q y z t Hq' _ _ Ht. now apply pen_l_convex.
  - intros q y z t Hq' Hy Hz Ht. now apply dom_l_convex.
  - intros q y z Hq' S D i Hi. apply (doc_domain_ext _ (J i) c (y i)); [now apply bpen_at_convex|intros j k Hj Hk; now apply S|now apply D].
  - intros q y z Hq' S. unfold lpen, pen_l. rewrite (Sum_rsum n (fun i => doc_penalty (bpen_at regs q) (J i) c (z i))). apply Sum_rsum_ext. intros i Hi. apply doc_penalty_ext. intros j k Hj Hk. now apply S.
  - exact OM.
  - intros z Hz. specialize (OO z Hz). unfold penalised_l in OO. rewrite !Sum_rsum in OO. exact OO.
  - assumption.
  - exact M0.
  - intros q z Hq' N HN. apply (MI q z Hq' N). intros i Hi j k Hj Hk. now apply HN.
  - exists us. split; [|exact S2]. intros Z. specialize (S1 Z). eapply Rle_trans; [exact S1|]. right. f_equal.
Qed.
Hypothesis Hmu : 0 < mu.
Definition total_sq (D : nat -> ent) : R := Sum n (fun i => sumsq (J i) c (D i)).
Hypothesis Hst : forall D, mu * total_sq D <= spread D.
Lemma penalised_mid_l x z : meets_l n J c regs x -> meets_l n J c regs z ->
  meets_l n J c regs (pseg (1 / 2) x z) /\ penalised_l n J c f regs (pseg (1 / 2) x z) <= (penalised_l n J c f regs x + penalised_l n J c f regs z) / 2 - spread (lsub z x) / 4.
Proof.
  intros Hx Hz. split.
  - intros q Hq'. apply dom_l_convex; [assumption|lra|now apply Hx|now apply Hz].
  - unfold penalised_l. rewrite (Sum_rsum _ (fun q => pen_l n J c (bpen_at regs q) x)), (Sum_rsum _ (fun q => pen_l n J c (bpen_at regs q) z)),
      (Sum_rsum _ (fun q => pen_l n J c (bpen_at regs q) (pseg (1 / 2) x z))). pose proof (Hq x z (1 / 2)) as Q.
    change (f (pseg (1 / 2) x z) = (1 - 1 / 2) * f x + 1 / 2 * f z - 1 / 2 * (1 - 1 / 2) * spread (lsub z x)) in Q. rewrite Q.
    assert (rsum (length regs) (fun q => pen_l n J c (bpen_at regs q) (pseg (1 / 2) x z)) <=
      (1 - 1 / 2) * rsum (length regs) (fun q => pen_l n J c (bpen_at regs q) x) + 1 / 2 * rsum (length regs) (fun q => pen_l n J c (bpen_at regs q) z)).
    { rewrite <- !rsum_scal, <- rsum_add. apply rsum_le; intros q Hq'. apply pen_l_convex; [assumption|lra]. }
    lra.
Qed.
Lemma total_entry D i j k : (i < n)%nat -> (j < J i)%nat -> (k < c)%nat -> D i j k ^ 2 <= total_sq D.
Proof.
  intros Hi Hj Hk. unfold total_sq. rewrite Sum_rsum. eapply Rle_trans; [exact (sumsq_entry (J i) c (D i) j k Hj Hk)|].
  apply (rsum_le_one n (fun i => sumsq (J i) c (D i)) i); [intros; apply sumsq_nonneg|assumption].
Qed.
Lemma lists_unique x y : optimal_l n J c f regs x -> optimal_l n J c f regs y -> forall i, (i < n)%nat -> same (J i) c (x i) (y i).
Proof.
  intros (X1 & X2) (Y1 & Y2) i Hi j k Hj Hk. destruct (penalised_mid_l x y X1 Y1) as (M1 & M2). specialize (X2 y Y1) as A. specialize (Y2 _ M1) as B.
  specialize (X2 _ M1). pose proof (Hst (lsub y x)) as S. pose proof (total_entry (lsub y x) i j k Hi Hj Hk) as N. unfold lsub in N at 1.
  assert (mu * (y i j k - x i j k) ^ 2 <= 0) by nra. assert (0 <= (y i j k - x i j k) ^ 2) by apply pow2_ge_0.
  assert ((y i j k - x i j k) ^ 2 = 0) by nra. nra.
Qed.
Hypothesis Hf0 : forall Z, 0 <= f Z.
Hypothesis Hfc : forall (Zk : nat -> nat -> ent) Z, (forall i, (i < n)%nat -> ecv (J i) c (fun k => Zk k i) (Z i)) -> Un_cv (fun k => f (Zk k)) (f Z).
Lemma lists_exists x0 : meets_l n J c regs x0 -> exists x, optimal_l n J c f regs x.
Proof.
  intros M0.
  destruct (minimiser_exists n J c (fun p => penalised_l n J c f regs p) (fun p => meets_l n J c regs p) (mu / 4) 0) as (x & X1 & X2).
  - lra.
  - intros x Hx. unfold penalised_l. rewrite Sum_rsum. assert (0 <= rsum (length regs) (fun q => pen_l n J c (bpen_at regs q) x)).
    { apply rsum_nonneg; intros q Hq'. unfold pen_l. rewrite Sum_rsum. apply rsum_nonneg; intros i Hi. apply doc_penalty_nonneg. now apply bpen_at_valid. }
    specialize (Hf0 x). lra.
  - intros x z Hx Hz. destruct (penalised_mid_l x z Hx Hz) as (A & B). split; [exact A|]. eapply Rle_trans; [exact B|].
    assert (E : pdist n J c x z = total_sq (lsub z x)).
    { unfold pdist, wsum, total_sq. symmetry. apply Sum_rsum_ext; intros i Hi. rewrite sumsq_rsum, Rmult_1_l. reflexivity. }
    rewrite E. specialize (Hst (lsub z x)). lra.
  - intros X x HX CX q Hq' i Hi. apply (doc_domain_closed _ (J i) c (fun k => X k i)); [now apply bpen_at_convex| |intros k; now apply HX].
    intros j k Hj Hk. now apply CX.
  - intros X x HX CX. assert (CE : forall i, (i < n)%nat -> ecv (J i) c (fun k => X k i) (x i)) by (intros i Hi j k Hj Hk; now apply CX).
    unfold penalised_l. refine (CV_plus _ _ _ _ (Hfc X _ CE) _). eapply cv_ext; [intros; symmetry; apply Sum_rsum|]. rewrite Sum_rsum.
    apply cv_rsum; intros q Hq'. unfold pen_l. eapply cv_ext; [intros; symmetry; apply Sum_rsum|]. rewrite Sum_rsum. apply cv_rsum; intros i Hi.
    exact (doc_penalty_cv _ (J i) c (fun k => X k i) _ (CE i Hi)).
  - now exists x0.
  - exists x. split; [exact X1|exact X2].
Qed.
Lemma lists_limit x us eps : 0 < eps -> exists N, forall k X regs', (N <= k)%nat -> length regs' = length regs ->
  nearly_solved_l n J c rho f spread regs x us k X regs' ->
  close_l n J c eps X x /\ forall q, (q < length regs')%nat -> close_l n J c eps (baux_at regs' q) x.
Proof.
  intros He. set (e := energy_l n J c rho x us regs). set (u := multipliers_sq_l n J c rho (length regs) us).
  destruct (low_weight n rho Hrho) as (w & W0 & HW).
  destruct (large_sqrt ((2 * u + 7 * e) / (mu * (eps / 2) ^ 2))) as (N1 & HN1). destruct (INR_unb (e / (w * (eps / 2) ^ 2))) as (N2 & HN2).
  exists (max (S N1) (S N2)). intros k X regs' Hk HL (_ & I & _ & S). fold e u in I, S.
  assert (E2 : 0 < (eps / 2) ^ 2) by (apply pow_lt; lra).
  assert (K0 : 0 < INR k) by (apply lt_0_INR; lia). pose proof (sqrt_lt_R0 _ K0) as Q0.
  assert (C1 : close_l n J c (eps / 2) X x).
  { intros i Hi j s Hj Hs. apply sq_close; [lra|]. pose proof (total_entry (lsub X x) i j s Hi Hj Hs) as N. unfold lsub in N at 1. specialize (Hst (lsub X x)).
    specialize (HN1 k ltac:(lia)). assert (M0 : 0 < mu * (eps / 2) ^ 2) by (apply Rmult_lt_0_compat; lra).
    assert (A : 2 * u + 7 * e <= sqrt (INR k) * (mu * (eps / 2) ^ 2)).
    { apply Rmult_le_compat_r with (r := mu * (eps / 2) ^ 2) in HN1; [|lra]. unfold Rdiv at 1 in HN1. rewrite Rmult_assoc, Rinv_l, Rmult_1_r in HN1 by lra. exact HN1. }
    assert (B : sqrt (INR k) * (mu * (X i j s - x i j s) ^ 2) <= sqrt (INR k) * (mu * (eps / 2) ^ 2)).
    { apply Rle_trans with (sqrt (INR k) * spread (lsub X x)); [apply Rmult_le_compat_l; [lra|]|lra]. eapply Rle_trans; [|exact Hst]. apply Rmult_le_compat_l; lra. }
    apply Rmult_le_reg_l in B; [|assumption]. now apply Rmult_le_reg_l in B. }
  split; [intros i Hi j s Hj Hs; specialize (C1 i Hi j s Hj Hs); lra|].
  intros q Hq'. assert (C2 : close_l n J c (eps / 2) X (baux_at regs' q)).
  { intros i Hi j s Hj Hs. apply sq_close; [lra|].
    assert (A : w * (X i j s - baux_at regs' q i j s) ^ 2 <= infeasibility_l n J c rho regs' X).
    { unfold infeasibility_l. rewrite Sum_rsum. eapply Rle_trans; [|apply (rsum_le_one _ (fun q => wsq_l n J c rho X (baux_at regs' q)) q); [|assumption]].
      2:{ intros. rewrite wsq_l_ws. apply wsum_nonneg; [intros; left; auto|intros; apply pow2_ge_0]. }
      rewrite wsq_l_ws. unfold wsum.
      apply Rle_trans with (rho i * rsum (J i) (fun j => rsum c (fun k => (X i j k - baux_at regs' q i j k) ^ 2))).
      2:{ apply (rsum_le_one n (fun i => rho i * rsum (J i) (fun j => rsum c (fun k => (X i j k - baux_at regs' q i j k) ^ 2))) i); [|assumption]. intros i' Hi'. apply Rmult_le_pos; [left; auto|].
          apply rsum_nonneg; intros. apply rsum_nonneg; intros; apply pow2_ge_0. }
      assert (B : (X i j s - baux_at regs' q i j s) ^ 2 <= rsum (J i) (fun j => rsum c (fun k => (X i j k - baux_at regs' q i j k) ^ 2))).
      { eapply Rle_trans; [|apply (rsum_le_one (J i) (fun j => rsum c (fun k => (X i j k - baux_at regs' q i j k) ^ 2)) j); [|assumption]].
        - apply (rsum_le_one c (fun k => (X i j k - baux_at regs' q i j k) ^ 2) s); [intros; apply pow2_ge_0|assumption].
        - intros. apply rsum_nonneg; intros; apply pow2_ge_0. }
      pose proof (HW i Hi). assert (0 <= (X i j s - baux_at regs' q i j s) ^ 2) by apply pow2_ge_0. apply Rmult_le_compat; lra. }
    assert (KN : INR N2 <= INR k) by (apply le_INR; lia). assert (M0 : 0 < w * (eps / 2) ^ 2) by (apply Rmult_lt_0_compat; lra).
    assert (B : e < INR k * (w * (eps / 2) ^ 2)).
    { assert (HN3 : e / (w * (eps / 2) ^ 2) < INR k) by lra. apply Rmult_lt_compat_r with (r := w * (eps / 2) ^ 2) in HN3; [|lra]. unfold Rdiv at 1 in HN3. rewrite Rmult_assoc, Rinv_l, Rmult_1_r in HN3 by lra. exact HN3. }
    assert (D : INR k * (w * (X i j s - baux_at regs' q i j s) ^ 2) <= INR k * (w * (eps / 2) ^ 2)).
    { apply Rle_trans with (INR k * infeasibility_l n J c rho regs' X); [apply Rmult_le_compat_l; lra|lra]. }
    apply Rmult_le_reg_l in D; [|assumption]. now apply Rmult_le_reg_l in D. }
  intros i Hi j s Hj Hs. specialize (C1 i Hi j s Hj Hs). specialize (C2 i Hi j s Hj Hs).
  replace (baux_at regs' q i j s - x i j s) with (- (X i j s - baux_at regs' q i j s) + (X i j s - x i j s)) by ring.
  eapply Rle_trans; [apply Rabs_triang|]. rewrite Rabs_Ropp. lra.
Qed.
End Lists.
