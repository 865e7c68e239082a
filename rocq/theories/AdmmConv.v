(** Scaled-form ADMM in the abstract: variational inequalities of one iteration,
    optimality of fixed points, Fejer monotonicity.  Points are families of
    matrices; the inner product is weighted by the feasibility penalties. *)
From Coq Require Import Reals Lra Lia List Arith Bool.
From Verif Require Import Num Numpy RFacts Spec SpecFacts.
Import ListNotations.
Local Open Scope R_scope.

Definition pt := nat -> ent.
(** weighted sum over all entries of n matrices of sizes J i x c *)
Definition wsum (n : nat) (J : nat -> nat) (c : nat) (rho : nat -> R) (F : nat -> nat -> nat -> R) : R :=
  rsum n (fun i => rho i * rsum (J i) (fun j => rsum c (fun r => F i j r))).
Definition pseg (t : R) (x z : pt) : pt := fun i j r => (1 - t) * x i j r + t * z i j r.
Definition psame (n : nat) (J : nat -> nat) (c : nat) (x y : pt) : Prop :=
  forall i j r, (i < n)%nat -> (j < J i)%nat -> (r < c)%nat -> x i j r = y i j r.

Section W.
Variables (n : nat) (J : nat -> nat) (c : nat) (rho : nat -> R).
Notation ws := (wsum n J c rho).
Lemma wsum_ext F G : (forall i j r, (i < n)%nat -> (j < J i)%nat -> (r < c)%nat -> F i j r = G i j r) -> ws F = ws G.
Proof.
  intros H. unfold wsum. apply rsum_ext; intros i Hi. f_equal. apply rsum_ext; intros j Hj. apply rsum_ext; intros r Hr. auto.
Qed.
Lemma wsum_add F G : ws (fun i j r => F i j r + G i j r) = ws F + ws G.
Proof.
  unfold wsum. rewrite <- rsum_add. apply rsum_ext; intros i Hi. rewrite <- Rmult_plus_distr_l, <- rsum_add. f_equal.
  apply rsum_ext; intros j Hj. apply rsum_add.
Qed.
Lemma wsum_scal a F : ws (fun i j r => a * F i j r) = a * ws F.
Proof.
  unfold wsum. rewrite <- rsum_scal. apply rsum_ext; intros i Hi.
  transitivity (rho i * (a * rsum (J i) (fun j => rsum c (fun r => F i j r)))); [|ring]. f_equal.
  rewrite <- rsum_scal. apply rsum_ext; intros j Hj. apply rsum_scal.
Qed.
Lemma wsum_sub F G : ws (fun i j r => F i j r - G i j r) = ws F - ws G.
Proof.
  rewrite (wsum_ext _ (fun i j r => F i j r + (-1) * G i j r)) by (intros; ring).
  rewrite wsum_add, wsum_scal. ring.
Qed.
Hypothesis Hrho : forall i, (i < n)%nat -> 0 <= rho i.
Lemma wsum_nonneg F : (forall i j r, (i < n)%nat -> (j < J i)%nat -> (r < c)%nat -> 0 <= F i j r) -> 0 <= ws F.
Proof.
  intros H. apply rsum_nonneg. intros i Hi. apply Rmult_le_pos; [auto|]. apply rsum_nonneg; intros j Hj.
  apply rsum_nonneg; intros r Hr. auto.
Qed.
End W.
Lemma wsum_zero n J c rho F : (forall i, (i < n)%nat -> 0 < rho i) ->
  (forall i j r, (i < n)%nat -> (j < J i)%nat -> (r < c)%nat -> 0 <= F i j r) -> wsum n J c rho F <= 0 ->
  forall i j r, (i < n)%nat -> (j < J i)%nat -> (r < c)%nat -> F i j r = 0.
Proof.
  intros Hr HF H0 i j r Hi Hj Hr'.
  assert (P1 : forall i, (i < n)%nat -> 0 <= rsum (J i) (fun j => rsum c (fun r => F i j r)))
    by (intros; apply rsum_nonneg; intros; apply rsum_nonneg; intros; auto).
  assert (E1 : rsum n (fun i => rho i * rsum (J i) (fun j => rsum c (fun r => F i j r))) = 0).
  { apply Rle_antisym; [exact H0|]. apply rsum_nonneg; intros k Hk. apply Rmult_le_pos; [left; auto|auto]. }
  assert (E2 := rsum_nonneg_zero n _ (fun k Hk => Rmult_le_pos _ _ (Rlt_le _ _ (Hr k Hk)) (P1 k Hk)) E1 i Hi).
  cbv beta in E2. apply Rmult_integral in E2. destruct E2 as [E2|E2]; [pose proof (Hr i Hi); lra|].
  assert (E3 := rsum_nonneg_zero (J i) (fun j => rsum c (fun r => F i j r))
                 (fun k Hk => rsum_nonneg _ _ (fun l Hl => HF i k l Hi Hk Hl)) E2 j Hj). cbv beta in E3.
  exact (rsum_nonneg_zero c (fun r => F i j r) (fun l Hl => HF i j l Hi Hj Hl) E3 r Hr').
Qed.

Section Abs.
Variables (n : nat) (J : nat -> nat) (c : nat) (rho : nat -> R).
Hypothesis Hrho : forall i, (i < n)%nat -> 0 <= rho i.
Notation ws := (wsum n J c rho).
Variables (Q : nat) (f : pt -> R) (pen : nat -> pt -> R) (dom : nat -> pt -> Prop).
Definition convex_fun (h : pt -> R) : Prop := forall x z t, 0 <= t <= 1 -> h (pseg t x z) <= (1 - t) * h x + t * h z.

Lemma small_t D S2 : 0 <= S2 -> (forall t, 0 < t <= 1 -> 0 <= t * D + t ^ 2 / 2 * S2) -> 0 <= D.
Proof.
  intros H2 H. destruct (Rle_lt_dec 0 D) as [|Hn]; [assumption|exfalso].
  set (t := Rmin 1 (- D / (S2 + 1))).
  assert (Hd : 0 < - D / (S2 + 1)) by (apply Rdiv_lt_0_compat; lra).
  assert (Ht : 0 < t <= 1). { split; [apply Rmin_glb_lt; lra|apply Rmin_l]. }
  assert (Ht2 : t * (S2 + 1) <= - D).
  { apply Rle_trans with (- D / (S2 + 1) * (S2 + 1)); [apply Rmult_le_compat_r; [lra|apply Rmin_r]|].
    right. field. lra. }
  pose proof (H t Ht). nra.
Qed.

(** the factor step: minimiser of f plus half the weighted squared distances *)
Lemma min_vi (b : nat -> pt) (x : pt) : convex_fun f ->
  (forall z, f x + rsum Q (fun q => / 2 * ws (fun i j r => (x i j r - b q i j r) ^ 2)) <=
             f z + rsum Q (fun q => / 2 * ws (fun i j r => (z i j r - b q i j r) ^ 2))) ->
  forall z, 0 <= f z - f x + rsum Q (fun q => ws (fun i j r => (x i j r - b q i j r) * (z i j r - x i j r))).
Proof.
  intros Hc Hm z.
  set (S2 := rsum Q (fun _ => ws (fun i j r => (z i j r - x i j r) ^ 2))).
  apply (small_t _ S2).
  { apply rsum_nonneg; intros. apply wsum_nonneg; [assumption|]. intros. apply pow2_ge_0. }
  intros t Ht. specialize (Hm (pseg t x z)). pose proof (Hc x z t ltac:(lra)) as H1.
  assert (E : rsum Q (fun q => / 2 * ws (fun i j r => (pseg t x z i j r - b q i j r) ^ 2)) =
    rsum Q (fun q => / 2 * ws (fun i j r => (x i j r - b q i j r) ^ 2)) +
    t * rsum Q (fun q => ws (fun i j r => (x i j r - b q i j r) * (z i j r - x i j r))) + t ^ 2 / 2 * S2).
  { unfold S2. rewrite <- !rsum_scal, <- !rsum_add. apply rsum_ext; intros q Hq.
    rewrite <- !wsum_scal, <- !wsum_add. apply wsum_ext; intros. unfold pseg. field. }
  lra.
Qed.

(** one scaled-form ADMM iteration: factor x', auxiliary z', dual u' *)
Definition astep (z u : nat -> pt) (x' : pt) (z' u' : nat -> pt) : Prop :=
  (forall y, 0 <= f y - f x' + rsum Q (fun q => ws (fun i j r => (x' i j r - (z q i j r - u q i j r)) * (y i j r - x' i j r)))) /\
  (forall q, (q < Q)%nat -> dom q (z' q) /\ forall y, dom q y ->
     pen q (z' q) + ws (fun i j r => (x' i j r + u q i j r - z' q i j r) * (y i j r - z' q i j r)) <= pen q y) /\
  (forall q, (q < Q)%nat -> psame n J c (u' q) (fun i j r => x' i j r - z' q i j r + u q i j r)).
(** a saddle point: x minimises f + sum pen over the domains, u are multipliers *)
Definition asaddle (x : pt) (u : nat -> pt) : Prop :=
  (forall y, f x <= f y + rsum Q (fun q => ws (fun i j r => u q i j r * (y i j r - x i j r)))) /\
  (forall q, (q < Q)%nat -> dom q x /\ forall y, dom q y -> pen q x + ws (fun i j r => u q i j r * (y i j r - x i j r)) <= pen q y).
Definition lyap (x : pt) (us z u : nat -> pt) : R :=
  rsum Q (fun q => ws (fun i j r => (z q i j r - x i j r) ^ 2 + (u q i j r - us q i j r) ^ 2)).
Definition moved (z u z' u' : nat -> pt) : R :=
  rsum Q (fun q => ws (fun i j r => (z' q i j r - z q i j r) ^ 2 + (u' q i j r - u q i j r) ^ 2)).

Lemma saddle_optimal x us : asaddle x us -> forall y, (forall q, (q < Q)%nat -> dom q y) ->
  f x + rsum Q (fun q => pen q x) <= f y + rsum Q (fun q => pen q y).
Proof.
  intros (H1 & H2) y Hy. specialize (H1 y).
  assert (rsum Q (fun q => pen q x + ws (fun i j r => us q i j r * (y i j r - x i j r))) <= rsum Q (fun q => pen q y)).
  { apply rsum_le. intros q Hq. apply H2; auto. }
  rewrite rsum_add in H. lra.
Qed.

Lemma fejer (z0 u0 z1 u1 z2 u2 : nat -> pt) (x1 x2 xs : pt) (us : nat -> pt) :
  astep z0 u0 x1 z1 u1 -> astep z1 u1 x2 z2 u2 -> asaddle xs us ->
  lyap xs us z2 u2 + moved z1 u1 z2 u2 <= lyap xs us z1 u1.
Proof.
  intros (_ & A2 & A3) (B1 & B2 & B3) (S1 & S2).
  specialize (B1 xs). specialize (S1 x2).
  (* summed inequalities, one weighted sum per penalty *)
  assert (K : rsum Q (fun q => ws (fun i j r =>
      (x2 i j r - (z1 q i j r - u1 q i j r)) * (xs i j r - x2 i j r) + us q i j r * (x2 i j r - xs i j r)
      - (x2 i j r + u1 q i j r - z2 q i j r) * (xs i j r - z2 q i j r)
      - us q i j r * (z2 q i j r - xs i j r)
      - (x2 i j r + u1 q i j r - z2 q i j r) * (z1 q i j r - z2 q i j r)
      - (x1 i j r + u0 q i j r - z1 q i j r) * (z2 q i j r - z1 q i j r))) >= 0).
  { assert (K1 : rsum Q (fun q =>
        - ws (fun i j r => (x2 i j r + u1 q i j r - z2 q i j r) * (xs i j r - z2 q i j r))
        - ws (fun i j r => us q i j r * (z2 q i j r - xs i j r))
        - ws (fun i j r => (x2 i j r + u1 q i j r - z2 q i j r) * (z1 q i j r - z2 q i j r))
        - ws (fun i j r => (x1 i j r + u0 q i j r - z1 q i j r) * (z2 q i j r - z1 q i j r))) >= 0).
    { apply Rle_ge, rsum_nonneg. intros q Hq. destruct (A2 q Hq) as (D1 & P1), (B2 q Hq) as (D2 & P2), (S2 q Hq) as (D3 & P3).
      pose proof (P2 xs D3). pose proof (P3 (z2 q) D2). pose proof (P2 (z1 q) D1). pose proof (P1 (z2 q) D2). lra. }
    assert (K2 : rsum Q (fun q => ws (fun i j r => (x2 i j r - (z1 q i j r - u1 q i j r)) * (xs i j r - x2 i j r))) +
                 rsum Q (fun q => ws (fun i j r => us q i j r * (x2 i j r - xs i j r))) >= 0) by lra.
    rewrite <- rsum_add in K2. pose proof (Rplus_ge_compat _ _ _ _ K2 K1) as K3. rewrite <- rsum_add in K3.
    rewrite Rplus_0_l in K3.
    erewrite rsum_ext; [exact K3|]. intros q Hq. cbv beta.
    rewrite !wsum_sub, wsum_add. ring. }
  enough (G : lyap xs us z1 u1 - lyap xs us z2 u2 - moved z1 u1 z2 u2 = 2 * rsum Q (fun q => ws (fun i j r =>
      (x2 i j r - (z1 q i j r - u1 q i j r)) * (xs i j r - x2 i j r) + us q i j r * (x2 i j r - xs i j r)
      - (x2 i j r + u1 q i j r - z2 q i j r) * (xs i j r - z2 q i j r)
      - us q i j r * (z2 q i j r - xs i j r)
      - (x2 i j r + u1 q i j r - z2 q i j r) * (z1 q i j r - z2 q i j r)
      - (x1 i j r + u0 q i j r - z1 q i j r) * (z2 q i j r - z1 q i j r)))) by lra.
  unfold lyap, moved. rewrite <- !rsum_sub, <- rsum_scal. apply rsum_ext; intros q Hq.
  rewrite <- !wsum_sub, <- wsum_scal. apply wsum_ext. intros i j r Hi Hj Hr.
  rewrite (B3 q Hq i j r Hi Hj Hr), (A3 q Hq i j r Hi Hj Hr). ring.
Qed.
End Abs.
