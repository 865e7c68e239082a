(** Scaled-form ADMM in the abstract, continued from AdmmConv.v: the movement never
    grows, hence the last iterate is nearly feasible and nearly optimal. *)
From Coq Require Import Reals Lra Lia List Arith Bool.
From Verif Require Import Num Numpy RFacts Spec SpecFacts AdmmConv.
Import ListNotations.
Local Open Scope R_scope.

Definition psub (x y : pt) : pt := fun i j r => x i j r - y i j r.

Section Rate.
Variables (n : nat) (J : nat -> nat) (c : nat) (rho : nat -> R).
Hypothesis Hrho : forall i, (i < n)%nat -> 0 <= rho i.
Notation ws := (wsum n J c rho).
Variables (Q : nat) (f : pt -> R) (pen : nat -> pt -> R) (dom : nat -> pt -> Prop).
Notation astep := (astep n J c rho Q f pen dom).
Notation asaddle := (asaddle n J c rho Q f pen dom).
Notation lyap := (lyap n J c rho Q).
Notation moved := (moved n J c rho Q).
(** sums over all penalties *)
Definition qs (F : nat -> nat -> nat -> nat -> R) : R := rsum Q (fun q => ws (F q)).
Lemma qs_ext (F G : nat -> nat -> nat -> nat -> R) :
  (forall q i j r, (q < Q)%nat -> (i < n)%nat -> (j < J i)%nat -> (r < c)%nat -> F q i j r = G q i j r) -> qs F = qs G.
Proof. intros H. unfold qs. apply rsum_ext; intros q Hq. apply wsum_ext; intros. auto. Qed.
Lemma qs_add (F G : nat -> nat -> nat -> nat -> R) : qs (fun q i j r => F q i j r + G q i j r) = qs F + qs G.
Proof. unfold qs. rewrite <- rsum_add. apply rsum_ext; intros q Hq. apply wsum_add. Qed.
Lemma qs_scal a (F : nat -> nat -> nat -> nat -> R) : qs (fun q i j r => a * F q i j r) = a * qs F.
Proof. unfold qs. rewrite <- rsum_scal. apply rsum_ext; intros q Hq. apply wsum_scal. Qed.
Lemma qs_nonneg (F : nat -> nat -> nat -> nat -> R) :
  (forall q i j r, (q < Q)%nat -> (i < n)%nat -> (j < J i)%nat -> (r < c)%nat -> 0 <= F q i j r) -> 0 <= qs F.
Proof. intros H. apply rsum_nonneg; intros q Hq. apply wsum_nonneg; [assumption|]. intros; auto. Qed.
Lemma qs_le (F G : nat -> nat -> nat -> nat -> R) :
  (forall q i j r, (q < Q)%nat -> (i < n)%nat -> (j < J i)%nat -> (r < c)%nat -> F q i j r <= G q i j r) -> qs F <= qs G.
Proof.
  intros H. assert (K : 0 <= qs (fun q i j r => G q i j r + (-1) * F q i j r)).
  { apply qs_nonneg. intros q i j r Hq Hi Hj Hr. specialize (H q i j r Hq Hi Hj Hr). lra. }
  rewrite qs_add, qs_scal in K. lra.
Qed.

(** ** The movement never grows *)
Lemma moved_mono (z0 u0 z1 u1 z2 u2 : nat -> pt) (x1 x2 : pt) :
  astep z0 u0 x1 z1 u1 -> astep z1 u1 x2 z2 u2 -> moved z1 u1 z2 u2 <= moved z0 u0 z1 u1.
Proof.
  intros (A1 & A2 & A3) (B1 & B2 & B3). specialize (A1 x2). specialize (B1 x1).
  change (0 <= f x2 - f x1 + qs (fun q i j r => (x1 i j r - (z0 q i j r - u0 q i j r)) * (x2 i j r - x1 i j r))) in A1.
  change (0 <= f x1 - f x2 + qs (fun q i j r => (x2 i j r - (z1 q i j r - u1 q i j r)) * (x1 i j r - x2 i j r))) in B1.
  assert (K : 0 <= qs (fun q i j r => (x2 i j r - x1 i j r) * ((z1 q i j r - z0 q i j r) - (u1 q i j r - u0 q i j r) - (x2 i j r - x1 i j r)))).
  { assert (E : qs (fun q i j r => (x2 i j r - x1 i j r) * ((z1 q i j r - z0 q i j r) - (u1 q i j r - u0 q i j r) - (x2 i j r - x1 i j r))) =
       qs (fun q i j r => (x1 i j r - (z0 q i j r - u0 q i j r)) * (x2 i j r - x1 i j r)) +
       qs (fun q i j r => (x2 i j r - (z1 q i j r - u1 q i j r)) * (x1 i j r - x2 i j r))).
    { rewrite <- qs_add. apply qs_ext. intros. ring. }
    rewrite E. lra. }
  assert (L : 0 <= qs (fun q i j r => (u2 q i j r - u1 q i j r) * (z2 q i j r - z1 q i j r))).
  { apply rsum_nonneg. intros q Hq. destruct (A2 q Hq) as (D1 & P1), (B2 q Hq) as (D2 & P2).
    specialize (P1 _ D2). specialize (P2 _ D1).
    assert (E : ws (fun i j r => (u2 q i j r - u1 q i j r) * (z2 q i j r - z1 q i j r)) =
       (-1) * ws (fun i j r => (x2 i j r + u1 q i j r - z2 q i j r) * (z1 q i j r - z2 q i j r)) +
       (-1) * ws (fun i j r => (x1 i j r + u0 q i j r - z1 q i j r) * (z2 q i j r - z1 q i j r))).
    { rewrite <- !wsum_scal, <- wsum_add. apply wsum_ext. intros i j r Hi Hj Hr.
      rewrite (B3 q Hq i j r Hi Hj Hr), (A3 q Hq i j r Hi Hj Hr). ring. }
    rewrite E. lra. }
  change (qs (fun q i j r => (z2 q i j r - z1 q i j r) ^ 2 + (u2 q i j r - u1 q i j r) ^ 2) <= qs (fun q i j r => (z1 q i j r - z0 q i j r) ^ 2 + (u1 q i j r - u0 q i j r) ^ 2)).
  assert (G : qs (fun q i j r => (z1 q i j r - z0 q i j r) ^ 2 + (u1 q i j r - u0 q i j r) ^ 2) =
     qs (fun q i j r => (z2 q i j r - z1 q i j r) ^ 2 + (u2 q i j r - u1 q i j r) ^ 2) +
     (2 * qs (fun q i j r => (x2 i j r - x1 i j r) * ((z1 q i j r - z0 q i j r) - (u1 q i j r - u0 q i j r) - (x2 i j r - x1 i j r))) +
     (2 * qs (fun q i j r => (u2 q i j r - u1 q i j r) * (z2 q i j r - z1 q i j r)) +
     qs (fun q i j r => ((z1 q i j r - z0 q i j r) + (u1 q i j r - u0 q i j r) - (z2 q i j r - z1 q i j r) - (u2 q i j r - u1 q i j r)) ^ 2)))).
  { rewrite <- !qs_scal, <- !qs_add. apply qs_ext. intros q i j r Hq Hi Hj Hr.
    rewrite (B3 q Hq i j r Hi Hj Hr), (A3 q Hq i j r Hi Hj Hr). ring. }
  rewrite G. pose proof (qs_nonneg (fun q i j r => ((z1 q i j r - z0 q i j r) + (u1 q i j r - u0 q i j r) - (z2 q i j r - z1 q i j r) - (u2 q i j r - u1 q i j r)) ^ 2) ltac:(intros; apply pow2_ge_0)).
  lra.
Qed.

(** ** No step moves away from a saddle point *)
Lemma lyap_mono (z0 u0 z1 u1 : nat -> pt) (x1 xs : pt) (us : nat -> pt) :
  astep z0 u0 x1 z1 u1 -> asaddle xs us -> lyap xs us z1 u1 <= lyap xs us z0 u0.
Proof.
  intros (A1 & A2 & A3) (S1 & S2). specialize (A1 xs). specialize (S1 x1).
  change (0 <= f xs - f x1 + qs (fun q i j r => (x1 i j r - (z0 q i j r - u0 q i j r)) * (xs i j r - x1 i j r))) in A1.
  change (f xs <= f x1 + qs (fun q i j r => us q i j r * (x1 i j r - xs i j r))) in S1.
  assert (K : 0 <= qs (fun q i j r => (x1 i j r - xs i j r) * ((z0 q i j r - xs i j r) - (u0 q i j r - us q i j r) - (x1 i j r - xs i j r)))).
  { assert (E : qs (fun q i j r => (x1 i j r - xs i j r) * ((z0 q i j r - xs i j r) - (u0 q i j r - us q i j r) - (x1 i j r - xs i j r))) =
       qs (fun q i j r => (x1 i j r - (z0 q i j r - u0 q i j r)) * (xs i j r - x1 i j r)) +
       qs (fun q i j r => us q i j r * (x1 i j r - xs i j r))).
    { rewrite <- qs_add. apply qs_ext. intros. ring. }
    rewrite E. lra. }
  assert (L : 0 <= qs (fun q i j r => (u1 q i j r - us q i j r) * (z1 q i j r - xs i j r))).
  { apply rsum_nonneg. intros q Hq. destruct (A2 q Hq) as (D1 & P1), (S2 q Hq) as (D2 & P2).
    specialize (P1 _ D2). specialize (P2 _ D1).
    assert (E : ws (fun i j r => (u1 q i j r - us q i j r) * (z1 q i j r - xs i j r)) =
       (-1) * ws (fun i j r => (x1 i j r + u0 q i j r - z1 q i j r) * (xs i j r - z1 q i j r)) +
       (-1) * ws (fun i j r => us q i j r * (z1 q i j r - xs i j r))).
    { rewrite <- !wsum_scal, <- wsum_add. apply wsum_ext. intros i j r Hi Hj Hr.
      rewrite (A3 q Hq i j r Hi Hj Hr). ring. }
    rewrite E. lra. }
  change (qs (fun q i j r => (z1 q i j r - xs i j r) ^ 2 + (u1 q i j r - us q i j r) ^ 2) <= qs (fun q i j r => (z0 q i j r - xs i j r) ^ 2 + (u0 q i j r - us q i j r) ^ 2)).
  assert (G : qs (fun q i j r => (z0 q i j r - xs i j r) ^ 2 + (u0 q i j r - us q i j r) ^ 2) =
     qs (fun q i j r => (z1 q i j r - xs i j r) ^ 2 + (u1 q i j r - us q i j r) ^ 2) +
     (2 * qs (fun q i j r => (x1 i j r - xs i j r) * ((z0 q i j r - xs i j r) - (u0 q i j r - us q i j r) - (x1 i j r - xs i j r))) +
     (2 * qs (fun q i j r => (u1 q i j r - us q i j r) * (z1 q i j r - xs i j r)) +
     qs (fun q i j r => ((z0 q i j r - xs i j r) - (x1 i j r - xs i j r)) ^ 2)))).
  { rewrite <- !qs_scal, <- !qs_add. apply qs_ext. intros q i j r Hq Hi Hj Hr.
    rewrite (A3 q Hq i j r Hi Hj Hr). ring. }
  rewrite G. pose proof (qs_nonneg (fun q i j r => ((z0 q i j r - xs i j r) - (x1 i j r - xs i j r)) ^ 2) ltac:(intros; apply pow2_ge_0)).
  lra.
Qed.

(** ** Objective values *)
(** [f] is quadratic with second-order part [curv] *)
Definition quadratic_with (curv : pt -> R) : Prop :=
  forall x z t, f (pseg t x z) = (1 - t) * f x + t * f z - t * (1 - t) * curv (psub z x).
Lemma saddle_curv curv xs us : quadratic_with curv -> asaddle xs us -> forall y,
  f xs + curv (psub y xs) <= f y + qs (fun q i j r => us q i j r * (y i j r - xs i j r)).
Proof.
  intros Hq (S1 & _) y. set (l := qs (fun q i j r => us q i j r * (y i j r - xs i j r))).
  destruct (Rle_lt_dec (f xs + curv (psub y xs)) (f y + l)) as [|Hn]; [assumption|exfalso].
  set (C := curv (psub y xs)) in *. set (d := f xs + C - f y - l) in *. assert (Hd : 0 < d) by (unfold d; lra).
  assert (K : forall t, 0 < t <= 1 -> d <= t * C).
  { intros t Ht. specialize (S1 (pseg t xs y)). rewrite Hq in S1.
    assert (E : qs (fun q i j r => us q i j r * (pseg t xs y i j r - xs i j r)) = t * l).
    { unfold l. rewrite <- qs_scal. apply qs_ext. intros. unfold pseg. ring. }
    change (rsum Q (fun q => ws (fun i j r => us q i j r * (pseg t xs y i j r - xs i j r)))) with (qs (fun q i j r => us q i j r * (pseg t xs y i j r - xs i j r))) in S1.
    rewrite E in S1. fold C in S1. unfold d.
    assert (t * (f xs + C - f y - l) <= t * (t * C)) by nra. apply Rmult_le_reg_l with t; lra. }
  assert (HC : 0 < C) by (specialize (K 1 ltac:(lra)); lra).
  assert (Ht : 0 < Rmin 1 (d / (2 * C)) <= 1).
  { split; [apply Rmin_glb_lt; [lra|apply Rdiv_lt_0_compat; lra]|apply Rmin_l]. }
  specialize (K _ Ht). assert (Rmin 1 (d / (2 * C)) * C <= d / (2 * C) * C) by (apply Rmult_le_compat_r; [lra|apply Rmin_r]).
  replace (d / (2 * C) * C) with (d / 2) in H by (field; lra). lra.
Qed.
Lemma value_lower curv (z u z' u' : nat -> pt) (x' xs : pt) us : quadratic_with curv -> asaddle xs us -> astep z u x' z' u' ->
  f xs + rsum Q (fun q => pen q xs) + curv (psub x' xs) <=
  f x' + rsum Q (fun q => pen q (z' q)) + qs (fun q i j r => us q i j r * (x' i j r - z' q i j r)).
Proof.
  intros Hq HS (A1 & A2 & A3). pose proof (saddle_curv curv xs us Hq HS x') as K. destruct HS as (_ & S2).
  assert (L : rsum Q (fun q => pen q xs + ws (fun i j r => us q i j r * (z' q i j r - xs i j r))) <= rsum Q (fun q => pen q (z' q))).
  { apply rsum_le. intros q Hq'. apply S2; [assumption|]. apply A2. assumption. }
  rewrite rsum_add in L.
  change (rsum Q (fun q => pen q xs) + qs (fun q i j r => us q i j r * (z' q i j r - xs i j r)) <= rsum Q (fun q => pen q (z' q))) in L.
  assert (E : qs (fun q i j r => us q i j r * (x' i j r - xs i j r)) =
     qs (fun q i j r => us q i j r * (x' i j r - z' q i j r)) + qs (fun q i j r => us q i j r * (z' q i j r - xs i j r))).
  { rewrite <- qs_add. apply qs_ext. intros. ring. }
  lra.
Qed.
Lemma value_upper (z u z' u' : nat -> pt) (x' xs : pt) us : asaddle xs us -> astep z u x' z' u' ->
  f x' + rsum Q (fun q => pen q (z' q)) <=
  f xs + rsum Q (fun q => pen q xs) + qs (fun q i j r => u' q i j r * (z' q i j r - x' i j r) + (z' q i j r - z q i j r) * (xs i j r - x' i j r)).
Proof.
  intros (_ & S2) (A1 & A2 & A3). specialize (A1 xs).
  change (0 <= f xs - f x' + qs (fun q i j r => (x' i j r - (z q i j r - u q i j r)) * (xs i j r - x' i j r))) in A1.
  assert (L : rsum Q (fun q => pen q (z' q) + ws (fun i j r => (x' i j r + u q i j r - z' q i j r) * (xs i j r - z' q i j r))) <= rsum Q (fun q => pen q xs)).
  { apply rsum_le. intros q Hq'. apply A2; [assumption|]. apply S2. assumption. }
  rewrite rsum_add in L.
  change (rsum Q (fun q => pen q (z' q)) + qs (fun q i j r => (x' i j r + u q i j r - z' q i j r) * (xs i j r - z' q i j r)) <= rsum Q (fun q => pen q xs)) in L.
  assert (E : qs (fun q i j r => u' q i j r * (z' q i j r - x' i j r) + (z' q i j r - z q i j r) * (xs i j r - x' i j r)) =
     qs (fun q i j r => (x' i j r - (z q i j r - u q i j r)) * (xs i j r - x' i j r)) +
     (-1) * qs (fun q i j r => (x' i j r + u q i j r - z' q i j r) * (xs i j r - z' q i j r))).
  { rewrite <- qs_scal, <- qs_add. apply qs_ext. intros q i j r Hq Hi Hj Hr. rewrite (A3 q Hq i j r Hi Hj Hr). ring. }
  lra.
Qed.

(** ** A sequence of iterations *)
Section Run.
Variables (m : nat) (z u : nat -> nat -> pt) (x : nat -> pt) (xs : pt) (us : nat -> pt) (curv : pt -> R).
Hypothesis Hst : forall i, (i < m)%nat -> astep (z i) (u i) (x (S i)) (z (S i)) (u (S i)).
Hypothesis Hsd : asaddle xs us.
Hypothesis Hqd : quadratic_with curv.
Let M0 := lyap xs us (z 0%nat) (u 0%nat).
Let U0 := qs (fun q i j r => us q i j r ^ 2).
Lemma run_lyap : forall i, (i <= m)%nat -> lyap xs us (z i) (u i) <= M0.
Proof.
  induction i as [|i IH]; intros Hi; [apply Rle_refl|]. eapply Rle_trans; [|apply IH; lia]. eapply lyap_mono; [apply Hst; lia|exact Hsd].
Qed.
Lemma lyap_nonneg (a b : nat -> pt) : 0 <= lyap xs us a b.
Proof. apply qs_nonneg. intros. apply Rplus_le_le_0_compat; apply pow2_ge_0. Qed.
Lemma moved_nonneg (a b a' b' : nat -> pt) : 0 <= moved a b a' b'.
Proof. apply qs_nonneg. intros. apply Rplus_le_le_0_compat; apply pow2_ge_0. Qed.
(** after k + 1 iterations the last movement is at most M0 / k *)
Lemma run_moved : forall k, (k < m)%nat -> INR k * moved (z k) (u k) (z (S k)) (u (S k)) <= M0.
Proof.
  assert (D : forall k, (k < m)%nat -> INR k * moved (z k) (u k) (z (S k)) (u (S k)) + lyap xs us (z (S k)) (u (S k)) <= M0).
  { induction k as [|k IH]; intros Hk.
    - cbn [INR]. rewrite Rmult_0_l, Rplus_0_l. apply run_lyap. lia.
    - specialize (IH ltac:(lia)). pose proof (fejer n J c rho Q f pen dom _ _ _ _ _ _ _ _ _ _ (Hst k ltac:(lia)) (Hst (S k) Hk) Hsd).
      pose proof (moved_mono _ _ _ _ _ _ _ _ (Hst k ltac:(lia)) (Hst (S k) Hk)) as MM.
      pose proof (Rmult_le_compat_l (INR k) _ _ (pos_INR k) MM). rewrite S_INR. lra. }
  intros k Hk. pose proof (D k Hk). pose proof (lyap_nonneg (z (S k)) (u (S k))). lra.
Qed.
(** the infeasibility is part of the movement of the duals *)
Lemma run_infeasible k : (k < m)%nat -> qs (fun q i j r => (x (S k) i j r - z (S k) q i j r) ^ 2) <= moved (z k) (u k) (z (S k)) (u (S k)).
Proof.
  intros Hk. destruct (Hst k Hk) as (_ & _ & A3). apply qs_le. intros q i j r Hq Hi Hj Hr. rewrite (A3 q Hq i j r Hi Hj Hr).
  pose proof (pow2_ge_0 (z (S k) q i j r - z k q i j r)). nra.
Qed.
Lemma young s a b : 0 < s -> a * b <= s / 2 * a ^ 2 + / (2 * s) * b ^ 2.
Proof.
  intros Hs. assert (K : 0 <= / (2 * s) * (s * a - b) ^ 2) by (apply Rmult_le_pos; [left; apply Rinv_0_lt_compat; lra|apply pow2_ge_0]).
  replace (/ (2 * s) * (s * a - b) ^ 2) with (s / 2 * a ^ 2 + / (2 * s) * b ^ 2 - a * b) in K by (field; lra). lra.
Qed.
Lemma qs_young s (a b : nat -> nat -> nat -> nat -> R) : 0 < s ->
  qs (fun q i j r => a q i j r * b q i j r) <= s / 2 * qs (fun q i j r => a q i j r ^ 2) + / (2 * s) * qs (fun q i j r => b q i j r ^ 2).
Proof. intros Hs. rewrite <- !qs_scal, <- qs_add. apply qs_le. intros. now apply young. Qed.
Notation obj k := (f (x k) + rsum Q (fun q => pen q (z k q))).
Notation opt := (f xs + rsum Q (fun q => pen q xs)).
(** both directions, for any weight s *)
Lemma run_value s k : 0 < s -> (k < m)%nat ->
  let mv := moved (z k) (u k) (z (S k)) (u (S k)) in
  obj (S k) - opt <= s * (U0 + 5 * M0) + mv / s /\ opt + curv (psub (x (S k)) xs) - obj (S k) <= s / 2 * U0 + mv / (2 * s).
Proof.
  intros Hs Hk mv. pose proof (run_infeasible k Hk) as HI. fold mv in HI.
  assert (HD : qs (fun q i j r => (z (S k) q i j r - z k q i j r) ^ 2) <= mv).
  { apply qs_le. intros. pose proof (pow2_ge_0 (u (S k) q i j r - u k q i j r)). lra. }
  assert (HM : mv <= 4 * M0 /\ 0 <= mv).
  { split; [|apply moved_nonneg]. pose proof (run_lyap k ltac:(lia)) as L1. pose proof (run_lyap (S k) ltac:(lia)) as L2.
    assert (mv <= 2 * lyap xs us (z k) (u k) + 2 * lyap xs us (z (S k)) (u (S k))); [|lra].
    change (qs (fun q i j r => (z (S k) q i j r - z k q i j r) ^ 2 + (u (S k) q i j r - u k q i j r) ^ 2) <= 2 * qs (fun q i j r => (z k q i j r - xs i j r) ^ 2 + (u k q i j r - us q i j r) ^ 2) + 2 * qs (fun q i j r => (z (S k) q i j r - xs i j r) ^ 2 + (u (S k) q i j r - us q i j r) ^ 2)). rewrite <- !qs_scal, <- qs_add. apply qs_le. intros.
    assert (Y : forall a b d : R, (a - b) ^ 2 <= 2 * (b - d) ^ 2 + 2 * (a - d) ^ 2) by (intros a b d; pose proof (pow2_ge_0 (a - d + (b - d))); nra).
    pose proof (Y (z (S k) q i j r) (z k q i j r) (xs i j r)). pose proof (Y (u (S k) q i j r) (u k q i j r) (us q i j r)). lra. }
  assert (Hinv : 0 < / (2 * s)) by (apply Rinv_0_lt_compat; lra).
  split.
  - pose proof (value_upper _ _ _ _ _ _ _ Hsd (Hst k Hk)) as V. rewrite qs_add in V.
    pose proof (qs_young s (fun q => u (S k) q) (fun q i j r => z (S k) q i j r - x (S k) i j r) Hs) as Y1. cbv beta in Y1.
    pose proof (qs_young s (fun _ i j r => xs i j r - x (S k) i j r) (fun q i j r => z (S k) q i j r - z k q i j r) Hs) as Y2. cbv beta in Y2.
    rewrite (qs_ext (fun q i j r => (xs i j r - x (S k) i j r) * (z (S k) q i j r - z k q i j r)) (fun q i j r => (z (S k) q i j r - z k q i j r) * (xs i j r - x (S k) i j r))) in Y2 by (intros; ring).
    rewrite (qs_ext (fun q i j r => (z (S k) q i j r - x (S k) i j r) ^ 2) (fun q i j r => (x (S k) i j r - z (S k) q i j r) ^ 2)) in Y1 by (intros; ring).
    (* sizes: |u'|^2 + |xs - x'|^2 <= 2 U0 + 2 lyap' + ... *)
    pose proof (run_lyap (S k) ltac:(lia)) as L2.
    assert (P : qs (fun q i j r => u (S k) q i j r ^ 2) + qs (fun _ i j r => (xs i j r - x (S k) i j r) ^ 2) <= 2 * U0 + 2 * M0 + 2 * mv).
    { assert (qs (fun q i j r => u (S k) q i j r ^ 2) + qs (fun _ i j r => (xs i j r - x (S k) i j r) ^ 2) <=
        2 * U0 + 2 * lyap xs us (z (S k)) (u (S k)) + 2 * qs (fun q i j r => (x (S k) i j r - z (S k) q i j r) ^ 2)); [|lra].
      change (lyap xs us (z (S k)) (u (S k))) with (qs (fun q i j r => (z (S k) q i j r - xs i j r) ^ 2 + (u (S k) q i j r - us q i j r) ^ 2)). unfold U0. rewrite <- !qs_scal, <- !qs_add. apply qs_le. intros.
      assert (Y : forall a b : R, a ^ 2 <= 2 * b ^ 2 + 2 * (a - b) ^ 2) by (intros a b; pose proof (pow2_ge_0 (a - 2 * b)); nra).
      pose proof (Y (u (S k) q i j r) (us q i j r)). pose proof (Y (xs i j r - x (S k) i j r) (xs i j r - z (S k) q i j r)).
      replace (xs i j r - x (S k) i j r - (xs i j r - z (S k) q i j r)) with (- (x (S k) i j r - z (S k) q i j r)) in H4 by ring.
      nra. }
    assert (R1 : s / 2 * (qs (fun q i j r => u (S k) q i j r ^ 2) + qs (fun _ i j r => (xs i j r - x (S k) i j r) ^ 2)) <= s / 2 * (2 * U0 + 2 * M0 + 2 * mv)) by (apply Rmult_le_compat_l; lra).
    assert (R2 : / (2 * s) * (qs (fun q i j r => (x (S k) i j r - z (S k) q i j r) ^ 2) + qs (fun q i j r => (z (S k) q i j r - z k q i j r) ^ 2)) <= / (2 * s) * (2 * mv)) by (apply Rmult_le_compat_l; lra).
    replace (/ (2 * s) * (2 * mv)) with (mv / s) in R2 by (field; lra).
    assert (R3 : s / 2 * (2 * U0 + 2 * M0 + 2 * mv) <= s * (U0 + 5 * M0)) by nra. lra.
  - pose proof (value_lower curv _ _ _ _ _ _ _ Hqd Hsd (Hst k Hk)) as V.
    pose proof (qs_young s (fun q => us q) (fun q i j r => x (S k) i j r - z (S k) q i j r) Hs) as Y1. cbv beta in Y1. fold U0 in Y1.
    assert (R2 : / (2 * s) * qs (fun q i j r => (x (S k) i j r - z (S k) q i j r) ^ 2) <= / (2 * s) * mv) by (apply Rmult_le_compat_l; lra).
    replace (/ (2 * s) * mv) with (mv / (2 * s)) in R2 by (field; lra). lra.
Qed.
End Run.
End Rate.
