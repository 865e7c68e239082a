(** Existence of solutions of strongly convex penalised problems, in the abstract (points
    as in AdmmConv.v). *)
From Coq Require Import Reals Lra Lia List Arith Bool IndefiniteDescription.
From Verif Require Import Num Numpy RFacts Spec SpecFacts AdmmConv AdmmRate.
Import ListNotations.
Local Open Scope R_scope.

(** ** Limits *)
Lemma cv_const a : Un_cv (fun _ => a) a.
Proof. intros e He. exists 0%nat. intros. unfold R_dist. rewrite Rminus_diag_eq, Rabs_R0 by reflexivity. assumption. Qed.
Lemma cv_ext f g l : (forall k, f k = g k) -> Un_cv f l -> Un_cv g l.
Proof. intros H K e He. destruct (K e He) as (N & HN). exists N. intros m Hm. rewrite <- H. auto. Qed.
Lemma cv_rsum n (F : nat -> nat -> R) (G : nat -> R) : (forall i, (i < n)%nat -> Un_cv (fun k => F k i) (G i)) -> Un_cv (fun k => rsum n (F k)) (rsum n G).
Proof.
  induction n as [|n IH]; intros H.
  - apply (cv_ext (fun _ => 0)); [intros; now rewrite rsum_0|]. rewrite rsum_0. apply cv_const.
  - apply (cv_ext (fun k => rsum n (F k) + F k n)); [intros; now rewrite rsum_S|]. rewrite rsum_S. apply CV_plus; [apply IH; intros; apply H; lia|apply H; lia].
Qed.
Lemma cv_scal a f l : Un_cv f l -> Un_cv (fun k => a * f k) (a * l).
Proof. intros H. apply CV_mult; [apply cv_const|assumption]. Qed.
Lemma cv_sq f l : Un_cv f l -> Un_cv (fun k => f k ^ 2) (l ^ 2).
Proof. intros H. apply (cv_ext (fun k => f k * f k)); [intros; ring|]. replace (l ^ 2) with (l * l) by ring. now apply CV_mult. Qed.
Lemma cv_le f g a b : (forall k, f k <= g k) -> Un_cv f a -> Un_cv g b -> a <= b.
Proof.
  intros H Hf Hg. destruct (Rle_lt_dec a b) as [|L]; [assumption|exfalso].
  destruct (Hf ((a - b) / 2) ltac:(lra)) as (N1 & H1). destruct (Hg ((a - b) / 2) ltac:(lra)) as (N2 & H2).
  set (m := max N1 N2). specialize (H1 m ltac:(unfold m; lia)). specialize (H2 m ltac:(unfold m; lia)). specialize (H m).
  unfold R_dist in *. apply Rabs_def2 in H1. apply Rabs_def2 in H2. lra.
Qed.
Lemma cv_inv_S : Un_cv (fun k => / INR (S k)) 0.
Proof.
  intros e He. destruct (archimed_cor1 e He) as (N & HN & HN0). exists N. intros m Hm. unfold R_dist. rewrite Rminus_0_r.
  rewrite Rabs_pos_eq by (left; apply Rinv_0_lt_compat, lt_0_INR; lia). eapply Rle_lt_trans; [|exact HN].
  apply Rinv_le_contravar; [apply lt_0_INR; lia|apply le_INR; lia].
Qed.

Section Exist.
Variables (n : nat) (J : nat -> nat) (c : nat).
Notation ps F := (wsum n J c (fun _ => 1) F).
Definition pcv (X : nat -> pt) (x : pt) : Prop :=
  forall i j r, (i < n)%nat -> (j < J i)%nat -> (r < c)%nat -> Un_cv (fun k => X k i j r) (x i j r).
Definition pdist (x z : pt) : R := ps (fun i j r => (z i j r - x i j r) ^ 2).
Lemma ps_one F i j r : (forall i j r, 0 <= F i j r) -> (i < n)%nat -> (j < J i)%nat -> (r < c)%nat -> F i j r <= ps F.
Proof.
  intros HF Hi Hj Hr. unfold wsum.
  assert (A : forall i, 0 <= rsum (J i) (fun j => rsum c (fun r => F i j r))) by (intros; apply rsum_nonneg; intros; apply rsum_nonneg; intros; apply HF).
  apply Rle_trans with (1 * rsum (J i) (fun j => rsum c (fun r => F i j r))).
  2:{ apply (rsum_le_one n (fun i => 1 * rsum (J i) (fun j => rsum c (fun r => F i j r))) i); [|assumption]. intros; rewrite Rmult_1_l; apply A. }
  rewrite Rmult_1_l. apply Rle_trans with (rsum c (fun r => F i j r)).
  2:{ apply (rsum_le_one (J i) (fun j => rsum c (fun r => F i j r)) j); [|assumption]. intros; apply rsum_nonneg; intros; apply HF. }
  apply (rsum_le_one c (fun r => F i j r) r); [|assumption]. intros; apply HF.
Qed.
Variables (F : pt -> R) (dom : pt -> Prop) (mu low : R).
Hypothesis Hmu : 0 < mu.
Hypothesis Hlow : forall x, dom x -> low <= F x.
Hypothesis Hconv : forall x z, dom x -> dom z -> dom (pseg (1 / 2) x z) /\ F (pseg (1 / 2) x z) <= (F x + F z) / 2 - mu * pdist x z.
Hypothesis Hclosed : forall X x, (forall k, dom (X k)) -> pcv X x -> dom x.
Hypothesis Hcont : forall X x, (forall k, dom (X k)) -> pcv X x -> Un_cv (fun k => F (X k)) (F x).
Theorem minimiser_exists : (exists x0, dom x0) -> exists x, dom x /\ forall z, dom z -> F x <= F z.
Proof.
  intros (x0 & D0).
  assert (HI : exists m, (forall x, dom x -> m <= F x) /\ forall e, 0 < e -> exists x, dom x /\ F x <= m + e).
  { destruct (completeness (fun v => exists x, dom x /\ v = - F x)) as (s & S1 & S2).
    - exists (- low). intros v (x & Hx & ->). specialize (Hlow x Hx). lra.
    - exists (- F x0), x0. auto.
    - exists (- s). split.
      + intros x Hx. specialize (S1 (- F x) (ex_intro _ x (conj Hx eq_refl))). lra.
      + intros e He. destruct (Classical_Prop.classic (exists x, dom x /\ F x <= - s + e)) as [|N]; [assumption|exfalso].
        assert (s <= s - e); [|lra]. apply S2. intros v (x & Hx & ->). destruct (Rle_lt_dec (F x) (- s + e)) as [L|L]; [exfalso; apply N; now exists x|lra]. }
  destruct HI as (m & HM & HE).
  assert (HX : forall k : nat, exists x, dom x /\ F x <= m + / INR (S k)) by (intros k; apply HE, Rinv_0_lt_compat, lt_0_INR; lia).
  set (X := fun k => proj1_sig (constructive_indefinite_description _ (HX k))).
  assert (XD : forall k, dom (X k)) by (intros k; exact (proj1 (proj2_sig (constructive_indefinite_description _ (HX k))))).
  assert (XF : forall k, F (X k) <= m + / INR (S k)) by (intros k; exact (proj2 (proj2_sig (constructive_indefinite_description _ (HX k))))).
  clearbody X.
  assert (DD : forall k l, pdist (X k) (X l) <= (/ INR (S k) + / INR (S l)) / (2 * mu)).
  { intros k l. destruct (Hconv _ _ (XD k) (XD l)) as (D & K). specialize (HM _ D). pose proof (XF k). pose proof (XF l).
    apply Rmult_le_reg_l with (2 * mu); [lra|]. replace (2 * mu * ((/ INR (S k) + / INR (S l)) / (2 * mu))) with (/ INR (S k) + / INR (S l)) by (field; split; [|split]; try (apply not_0_INR; lia); lra). lra. }
  assert (CC : forall i j r, (i < n)%nat -> (j < J i)%nat -> (r < c)%nat -> Cauchy_crit (fun k => X k i j r)).
  { intros i j r Hi Hj Hr e He. assert (He2 : 0 < e ^ 2 * mu) by (apply Rmult_lt_0_compat; [apply pow_lt|]; assumption).
    destruct (archimed_cor1 _ He2) as (N & HN & HN0). exists N. intros k l Hk Hl. unfold R_dist.
    assert (IN : forall k, (k >= N)%nat -> / INR (S k) <= / INR N) by (intros k' Hk'; apply Rinv_le_contravar; [apply lt_0_INR; lia|apply le_INR; lia]).
    assert (B : (X k i j r - X l i j r) ^ 2 < e ^ 2).
    { apply Rle_lt_trans with (pdist (X l) (X k)).
      - apply (ps_one (fun i j r => (X k i j r - X l i j r) ^ 2)); auto. intros. apply pow2_ge_0.
      - eapply Rle_lt_trans; [apply DD|]. pose proof (IN k Hk). pose proof (IN l Hl).
        apply Rmult_lt_reg_l with (2 * mu); [lra|]. replace (2 * mu * ((/ INR (S l) + / INR (S k)) / (2 * mu))) with (/ INR (S l) + / INR (S k)) by (field; split; [|split]; try (apply not_0_INR; lia); lra). lra. }
    destruct (Rle_lt_dec e (Rabs (X k i j r - X l i j r))) as [L|L]; [exfalso|assumption].
    rewrite <- (pow2_abs (X k i j r - X l i j r)) in B. assert (e ^ 2 <= Rabs (X k i j r - X l i j r) ^ 2) by (apply pow_incr; lra). lra. }
  set (x := fun i j r : nat => match lt_dec i n with left Hi => match lt_dec j (J i) with left Hj => match lt_dec r c with
     left Hr => proj1_sig (R_complete _ (CC i j r Hi Hj Hr)) | right _ => 0 end | right _ => 0 end | right _ => 0 end).
  assert (XC : pcv X x).
  { intros i j r Hi Hj Hr. unfold x. destruct (lt_dec i n) as [Hi'|]; [|contradiction]. destruct (lt_dec j (J i)) as [Hj'|]; [|contradiction].
    destruct (lt_dec r c) as [Hr'|]; [|contradiction]. exact (proj2_sig (R_complete _ (CC i j r Hi' Hj' Hr'))). }
  exists x. split; [exact (Hclosed X x XD XC)|]. intros z Hz.
  assert (F x <= m); [|specialize (HM z Hz); lra].
  apply (cv_le (fun k => F (X k)) (fun k => m + / INR (S k))); [exact XF|exact (Hcont X x XD XC)|].
  rewrite <- (Rplus_0_r m) at 1. exact (CV_plus _ _ _ _ (cv_const m) cv_inv_S).
Qed.
End Exist.
