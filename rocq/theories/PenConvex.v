(** The documented penalties with convex feasible sets: convexity, closedness and continuity. *)
From Coq Require Import Reals Lra Lia List Arith Bool.
From Verif Require Import Num Numpy RFacts Spec SpecFacts MatFacts ModelSpec Penalties PenaltySpec ProxProofs OptSpec AdmmConv AdmmExist AdmmFix.
Import ListNotations.
Local Open Scope R_scope.

Definition eseg (t : R) (X Z : ent) : ent := fun i j => (1 - t) * X i j + t * Z i j.
Definition ecv (r c : nat) (X : nat -> ent) (x : ent) : Prop := forall i j, (i < r)%nat -> (j < c)%nat -> Un_cv (fun k => X k i j) (x i j).
Lemma Rabs_convex a b t : 0 <= t <= 1 -> Rabs ((1 - t) * a + t * b) <= (1 - t) * Rabs a + t * Rabs b.
Proof.
  intros H. eapply Rle_trans; [apply Rabs_triang|]. rewrite !Rabs_mult, (Rabs_pos_eq (1 - t)), (Rabs_pos_eq t) by lra. lra.
Qed.
Lemma abs_sum_rsum r c X : abs_sum r c X = rsum r (fun i => rsum c (fun j => Rabs (X i j))).
Proof. apply Sum_rsum_ext. intros. apply Sum_rsum. Qed.
Lemma abs_sum_nonneg r c X : 0 <= abs_sum r c X.
Proof. rewrite abs_sum_rsum. apply rsum_nonneg; intros. apply rsum_nonneg; intros. apply Rabs_pos. Qed.
Lemma abs_sum_convex r c X Z t : 0 <= t <= 1 -> abs_sum r c (eseg t X Z) <= (1 - t) * abs_sum r c X + t * abs_sum r c Z.
Proof.
  intros H. rewrite !abs_sum_rsum, <- !rsum_scal, <- rsum_add. apply rsum_le; intros i Hi. rewrite <- !rsum_scal, <- rsum_add.
  apply rsum_le; intros j Hj. now apply Rabs_convex.
Qed.
Lemma tv_rsum r c X : total_variation r c X = rsum c (fun j => rsum (r - 1) (fun i => Rabs (X (S i) j - X i j))).
Proof. apply Sum_rsum_ext. intros. apply Sum_rsum. Qed.
Lemma tv_nonneg r c X : 0 <= total_variation r c X.
Proof. rewrite tv_rsum. apply rsum_nonneg; intros. apply rsum_nonneg; intros. apply Rabs_pos. Qed.
Lemma tv_convex r c X Z t : 0 <= t <= 1 -> total_variation r c (eseg t X Z) <= (1 - t) * total_variation r c X + t * total_variation r c Z.
Proof.
  intros H. rewrite !tv_rsum, <- !rsum_scal, <- rsum_add. apply rsum_le; intros j Hj. rewrite <- !rsum_scal, <- rsum_add.
  apply rsum_le; intros i Hi. unfold eseg. replace ((1 - t) * X (S i) j + t * Z (S i) j - ((1 - t) * X i j + t * Z i j)) with
    ((1 - t) * (X (S i) j - X i j) + t * (Z (S i) j - Z i j)) by ring. now apply Rabs_convex.
Qed.
Lemma quad_rsum r c M X : quad r c M X = rsum c (fun j => rsum r (fun i => rsum r (fun k => X i j * M i k * X k j))).
Proof. unfold quad. apply Sum_rsum_ext. intros. apply Sum_rsum_ext. intros. apply Sum_rsum. Qed.
Lemma quad_nonneg r c M X : psd r M -> 0 <= quad r c M X.
Proof.
  intros H. unfold quad. rewrite Sum_rsum. apply rsum_nonneg; intros j Hj. exact (H (fun i => X i j)).
Qed.
Lemma quad_convex r c M X Z t : psd r M -> 0 <= t <= 1 -> quad r c M (eseg t X Z) <= (1 - t) * quad r c M X + t * quad r c M Z.
Proof.
  intros HP H. assert (E : quad r c M (eseg t X Z) = (1 - t) * quad r c M X + t * quad r c M Z - t * (1 - t) * quad r c M (fun i j => Z i j - X i j)).
  { rewrite !quad_rsum, <- !rsum_scal, <- rsum_add, <- rsum_sub. apply rsum_ext; intros j Hj.
    rewrite <- !rsum_scal, <- rsum_add, <- rsum_sub. apply rsum_ext; intros i Hi.
    rewrite <- !rsum_scal, <- rsum_add, <- rsum_sub. apply rsum_ext; intros k Hk. unfold eseg. ring. }
  rewrite E. pose proof (quad_nonneg r c M (fun i j => Z i j - X i j) HP). assert (0 <= t * (1 - t)) by nra. nra.
Qed.
Lemma doc_penalty_nonneg p r c X : valid_penalty p r -> 0 <= doc_penalty p r c X.
Proof.
  destruct p as [|lo hi|reg nn|M U s|reg l1|b nn| |nn|m ub uc]; cbn; intros H; try apply Rle_refl.
  - apply Rmult_le_pos; [assumption|apply abs_sum_nonneg].
  - apply quad_nonneg. apply H.
  - pose proof (tv_nonneg r c X). pose proof (abs_sum_nonneg r c X). destruct H. rn. nra.
Qed.
Lemma doc_penalty_convex p r c X Z t : valid_penalty p r -> 0 <= t <= 1 ->
  doc_penalty p r c (eseg t X Z) <= (1 - t) * doc_penalty p r c X + t * doc_penalty p r c Z.
Proof.
  destruct p as [|lo hi|reg nn|M U s|reg l1|b nn| |nn|m ub uc]; cbn; intros H Ht; try lra.
  - pose proof (abs_sum_convex r c X Z t Ht). rn. nra.
  - apply quad_convex; [apply H|assumption].
  - pose proof (abs_sum_convex r c X Z t Ht). pose proof (tv_convex r c X Z t Ht). destruct H. rn. nra.
Qed.
Lemma entries_convex r c (P : R -> Prop) X Z t : (forall a b, P a -> P b -> P ((1 - t) * a + t * b)) -> entries r c P X -> entries r c P Z -> entries r c P (eseg t X Z).
Proof. intros H A B i j Hi Hj. apply H; auto. Qed.
Lemma nonneg_seg t a b : 0 <= t <= 1 -> 0 <= a -> 0 <= b -> 0 <= (1 - t) * a + t * b.
Proof. intros. nra. Qed.
Lemma doc_domain_convex p r c X Z t : convex_pen p -> 0 <= t <= 1 -> doc_domain p r c X -> doc_domain p r c Z -> doc_domain p r c (eseg t X Z).
Proof.
  intros HC Ht. destruct p as [|lo hi|reg nn|M U s|reg l1|b nn| |nn|m ub uc]; try contradiction; cbn; try (intros; exact I).
  - apply entries_convex. intros. now apply nonneg_seg.
  - apply entries_convex. unfold within. intros a b (A1 & A2) (B1 & B2).
    split; intros l El; [specialize (A1 l El); specialize (B1 l El)|specialize (A2 l El); specialize (B2 l El)]; nra.
  - intros A B Hn. apply entries_convex; auto. intros. now apply nonneg_seg.
  - intros (A1 & A2) (B1 & B2). split.
    + intros j Hj. specialize (A1 j Hj). specialize (B1 j Hj). rewrite Sum_rsum in *.
      assert (rsum r (fun i => eseg t X Z i j ^ 2) <= (1 - t) * rsum r (fun i => X i j ^ 2) + t * rsum r (fun i => Z i j ^ 2)).
      { rewrite <- !rsum_scal, <- rsum_add. apply rsum_le; intros i Hi. unfold eseg. pose proof (sq_convex 0 (X i j) (Z i j) t Ht). nra. }
      nra.
    + intros Hn. apply entries_convex; auto. intros. now apply nonneg_seg.
Qed.
(** limits *)
Lemma abs_sum_cv r c X x : ecv r c X x -> Un_cv (fun k => abs_sum r c (X k)) (abs_sum r c x).
Proof.
  intros H. apply (cv_ext (fun k => rsum r (fun i => rsum c (fun j => Rabs (X k i j))))); [intros; now rewrite abs_sum_rsum|]. rewrite abs_sum_rsum.
  apply cv_rsum; intros i Hi. apply cv_rsum; intros j Hj. apply cv_cvabs. now apply H.
Qed.
Lemma tv_cv r c X x : ecv r c X x -> Un_cv (fun k => total_variation r c (X k)) (total_variation r c x).
Proof.
  intros H. apply (cv_ext (fun k => rsum c (fun j => rsum (r - 1) (fun i => Rabs (X k (S i) j - X k i j))))); [intros; now rewrite tv_rsum|]. rewrite tv_rsum.
  apply cv_rsum; intros j Hj. apply cv_rsum; intros i Hi. apply (cv_cvabs (fun k => X k (S i) j - X k i j)). apply CV_minus; apply H; lia.
Qed.
Lemma quad_cv r c M X x : ecv r c X x -> Un_cv (fun k => quad r c M (X k)) (quad r c M x).
Proof.
  intros H. apply (cv_ext (fun k => rsum c (fun j => rsum r (fun i => rsum r (fun l => X k i j * M i l * X k l j))))); [intros; now rewrite quad_rsum|]. rewrite quad_rsum.
  apply cv_rsum; intros j Hj. apply cv_rsum; intros i Hi. apply cv_rsum; intros l Hl. apply (CV_mult (fun k => X k i j * M i l) (fun k => X k l j)); [|now apply H].
  apply (CV_mult (fun k => X k i j) (fun _ => M i l)); [now apply H|apply cv_const].
Qed.
Lemma doc_penalty_cv p r c X x : ecv r c X x -> Un_cv (fun k => doc_penalty p r c (X k)) (doc_penalty p r c x).
Proof.
  intros H. destruct p as [|lo hi|reg nn|M U s|reg l1|b nn| |nn|m ub uc]; cbn; try apply cv_const.
  - apply cv_scal, abs_sum_cv, H.
  - apply quad_cv, H.
  - apply (CV_plus (fun k => reg * total_variation r c (X k)) (fun k => l1 * abs_sum r c (X k))); apply cv_scal; [apply tv_cv, H|apply abs_sum_cv, H].
Qed.
Lemma entries_closed r c X x a : ecv r c X x -> (forall k, entries r c (fun y => a <= y) (X k)) -> entries r c (fun y => a <= y) x.
Proof. intros H K i j Hi Hj. apply (cv_le (fun _ => a) (fun k => X k i j)); [intros k; now apply K|apply cv_const|now apply H]. Qed.
Lemma entries_closed_up r c X x a : ecv r c X x -> (forall k, entries r c (fun y => y <= a) (X k)) -> entries r c (fun y => y <= a) x.
Proof. intros H K i j Hi Hj. apply (cv_le (fun k => X k i j) (fun _ => a)); [intros k; now apply K|now apply H|apply cv_const]. Qed.
Lemma doc_domain_closed p r c X x : convex_pen p -> ecv r c X x -> (forall k, doc_domain p r c (X k)) -> doc_domain p r c x.
Proof.
  intros HC H. destruct p as [|lo hi|reg nn|M U s|reg l1|b nn| |nn|m ub uc]; try contradiction; cbn; try (intros; exact I).
  - now apply entries_closed.
  - intros K i j Hi Hj. split.
    + intros a Ea. apply (entries_closed r c X x a H); auto. intros k i' j' Hi' Hj'. now apply (K k i' j' Hi' Hj').
    + intros a Ea. apply (entries_closed_up r c X x a H); auto. intros k i' j' Hi' Hj'. now apply (K k i' j' Hi' Hj').
  - intros K Hn. apply (entries_closed r c X x 0 H). intros k. now apply K.
  - intros K. split.
    + intros j Hj. rewrite Sum_rsum. apply (cv_le (fun k => rsum r (fun i => X k i j ^ 2)) (fun _ => b ^ 2)).
      * intros k. destruct (K k) as (K1 & _). specialize (K1 j Hj). rewrite Sum_rsum in K1. exact K1.
      * apply cv_rsum. intros i Hi. apply cv_sq. now apply H.
      * apply cv_const.
    + intros Hn. apply (entries_closed r c X x 0 H). intros k. now apply (K k).
Qed.
(** Every one of them is feasible on its own. *)
Lemma doc_domain_point p r : convex_pen p -> valid_penalty p r -> exists v, forall r' c, doc_domain p r' c (fun _ _ => v).
Proof.
  intros HC HV. destruct p as [|lo hi|reg nn|M U s|reg l1|b nn| |nn|m ub uc]; try contradiction; cbn in *.
  - exists 0. intros r' c i j _ _. lra.
  - destruct HV as (HV & _). unfold bounds_ok in HV. destruct lo as [a|]; [|destruct hi as [a|]]; [exists a|exists a|exists 0]; intros r' c i j _ _; split; intros l El; try discriminate.
    + injection El as <-. lra.
    + now apply HV.
    + injection El as <-. lra.
  - exists 0. intros r' c _ i j _ _. lra.
  - exists 0. intros. exact I.
  - exists 0. intros. exact I.
  - exists 0. intros r' c. split; [|intros _ i j _ _; lra]. intros j Hj. rewrite Sum_rsum, rsum_zero by (intros; ring). apply pow2_ge_0.
Qed.
