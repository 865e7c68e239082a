(** The external routines exist: every matrix has a singular value decomposition
    and every vector a total-variation minimiser.  Used only to show that the
    hypotheses [svd_correct] and [tv_correct] can be met for all sizes. *)
From Coq Require Import Reals Lra Lia List Arith Bool.
From Verif Require Import Num Numpy RFacts Spec SpecFacts MatFacts ModelSpec Penalties PenaltySpec.
Import ListNotations.
Local Open Scope R_scope.

(** ** Minima of Lipschitz functions on boxes *)
Notation vecf := (nat -> R).
Definition inbox (n : nat) (B : R) (x : vecf) : Prop := forall i, (i < n)%nat -> - B <= x i <= B.
Definition lip (n : nat) (B : R) (f : vecf -> R) : Prop :=
  exists L, 0 <= L /\ forall x y, inbox n B x -> inbox n B y -> Rabs (f x - f y) <= L * rsum n (fun i => Rabs (x i - y i)).
Definition clip (B a : R) : R := Rmax (- B) (Rmin a B).
Lemma clip_in B a : 0 <= B -> - B <= clip B a <= B.
Proof. intros H. unfold clip. split; [apply Rmax_l|]. apply Rmax_lub; [lra|apply Rmin_r]. Qed.
Lemma clip_id B a : - B <= a <= B -> clip B a = a.
Proof. intros H. unfold clip. rewrite Rmin_left by lra. apply Rmax_right. lra. Qed.
Lemma clip_lip B a b : 0 <= B -> Rabs (clip B a - clip B b) <= Rabs (a - b).
Proof.
  intros H. apply Rabs_le.
  assert (K : forall u v, clip B u - clip B v <= Rabs (u - v)).
  { intros u v. pose proof (Rle_abs (u - v)). pose proof (Rabs_pos (u - v)). unfold clip, Rmin.
    destruct (Rle_dec u B), (Rle_dec v B); unfold Rmax; repeat match goal with |- context[Rle_dec ?x ?y] => destruct (Rle_dec x y) end; lra. }
  pose proof (K a b). pose proof (K b a). rewrite (Rabs_minus_sym b a) in *. lra.
Qed.
Definition upd (x : vecf) (n : nat) (a : R) : vecf := fun i => if (i =? n)%nat then a else x i.
Lemma upd_same x n a : upd x n a n = a. Proof. unfold upd. now rewrite Nat.eqb_refl. Qed.
Lemma upd_other x n a i : (i < n)%nat -> upd x n a i = x i.
Proof. intros H. unfold upd. destruct (Nat.eqb_spec i n); [lia|reflexivity]. Qed.
Lemma upd_box n B x a : inbox n B x -> - B <= a <= B -> inbox (S n) B (upd x n a).
Proof.
  intros H Ha i Hi. destruct (Nat.eq_dec i n) as [->|]; [now rewrite upd_same|]. rewrite upd_other by lia. apply H. lia.
Qed.
Lemma box_S n B x : inbox (S n) B x -> inbox n B x.
Proof. intros H i Hi. apply H. lia. Qed.
Lemma lip_continuous (g : R -> R) L : 0 <= L -> (forall a b, Rabs (g a - g b) <= L * Rabs (a - b)) -> forall a, continuity_pt g a.
Proof.
  intros HL H a. unfold continuity_pt, continue_in, limit1_in, limit_in. intros eps He.
  exists (eps / (L + 1)). split; [apply Rdiv_lt_0_compat; lra|]. intros x (_ & Hd). cbn in *. unfold R_dist in *.
  apply Rle_lt_trans with (L * Rabs (x - a)); [apply H|].
  apply Rle_lt_trans with (L * (eps / (L + 1))); [apply Rmult_le_compat_l; lra|].
  apply Rlt_le_trans with ((L + 1) * (eps / (L + 1))); [|right; field; lra].
  apply Rmult_lt_compat_r; [apply Rdiv_lt_0_compat; lra|lra].
Qed.
Lemma box_min n B : 0 <= B -> forall f, lip n B f -> exists x, inbox n B x /\ forall y, inbox n B y -> f x <= f y.
Proof.
  intros HB. induction n as [|n IH]; intros f (L & HL & Hf).
  - exists (fun _ => 0). split; [intros i Hi; lia|]. intros y Hy.
    specialize (Hf (fun _ => 0) y ltac:(intros i Hi; lia) Hy). rewrite rsum_0, Rmult_0_r in Hf.
    pose proof (Rle_abs (f (fun _ => 0) - f y)). lra.
  - assert (HS : forall a b x y, - B <= a <= B -> - B <= b <= B -> inbox n B x -> inbox n B y ->
       Rabs (f (upd x n a) - f (upd y n b)) <= L * (rsum n (fun i => Rabs (x i - y i)) + Rabs (a - b))).
    { intros a b x y Ha Hb Hx Hy. eapply Rle_trans; [apply Hf; now apply upd_box|]. right. f_equal.
      rewrite rsum_S, !upd_same. f_equal. apply rsum_ext. intros i Hi. now rewrite !upd_other. }
    assert (HA : forall a, - B <= a <= B -> exists x, inbox n B x /\ forall y, inbox n B y -> f (upd x n a) <= f (upd y n a)).
    { intros a Ha. apply (IH (fun x => f (upd x n a))). exists L. split; [assumption|]. intros x y Hx Hy.
      specialize (HS a a x y Ha Ha Hx Hy). rewrite Rminus_diag_eq with (r1 := a) in HS by reflexivity. rewrite Rabs_R0 in HS. lra. }
    assert (HG : forall a, exists v, (exists x, inbox n B x /\ v = f (upd x n (clip B a))) /\ forall y, inbox n B y -> v <= f (upd y n (clip B a))).
    { intros a. destruct (HA (clip B a) (clip_in B a HB)) as (x & Hx & Hm). exists (f (upd x n (clip B a))). split; [now exists x|]. exact Hm. }
    assert (HG' : forall a, { v | (exists x, inbox n B x /\ v = f (upd x n (clip B a))) /\ forall y, inbox n B y -> v <= f (upd y n (clip B a)) }).
    { intros a. destruct (completeness (fun w => exists x, inbox n B x /\ w = - f (upd x n (clip B a)))) as (m & Hm).
      - destruct (HG a) as (v & _ & Hv). exists (- v). intros w (x & Hx & ->). specialize (Hv x Hx). lra.
      - exists (- f (upd (fun _ => 0) n (clip B a))). exists (fun _ => 0). split; [intros i Hi; lra|reflexivity].
      - exists (- m). destruct Hm as (U & V). assert (E : exists v, (exists x, inbox n B x /\ v = f (upd x n (clip B a))) /\ (forall y, inbox n B y -> v <= f (upd y n (clip B a))) /\ - m = v).
        { destruct (HG a) as (v & (x & Hx & Ev) & Hv). exists v. split; [now exists x|]. split; [assumption|].
          assert (- v <= m) by (apply U; exists x; split; [assumption|now rewrite Ev]).
          assert (m <= - v) by (apply V; intros w (y & Hy & ->); specialize (Hv y Hy); lra). lra. }
        destruct E as (v & (E1 & E2 & ->)). now split. }
    set (g := fun a => proj1_sig (HG' a)).
    assert (Gp : forall a, (exists x, inbox n B x /\ g a = f (upd x n (clip B a))) /\ forall y, inbox n B y -> g a <= f (upd y n (clip B a)))
      by (intros a; exact (proj2_sig (HG' a))). clearbody g. clear HG HG'.
    assert (GL : forall a b, g a - g b <= L * Rabs (a - b)).
    { intros a b. destruct (Gp a) as (_ & Ga), (Gp b) as ((y & Hy & ->) & _). specialize (Ga y Hy).
      pose proof (HS (clip B a) (clip B b) y y (clip_in _ _ HB) (clip_in _ _ HB) Hy Hy) as X.
      rewrite rsum_zero in X by (intros; rewrite Rminus_diag_eq by reflexivity; apply Rabs_R0).
      pose proof (Rle_abs (f (upd y n (clip B a)) - f (upd y n (clip B b)))).
      assert (L * (0 + Rabs (clip B a - clip B b)) <= L * Rabs (a - b)) by (apply Rmult_le_compat_l; [assumption|]; rewrite Rplus_0_l; now apply clip_lip).
      lra. }
    destruct (continuity_ab_min g (- B) B ltac:(lra)) as (a & Hmin & Ha).
    { intros a _. apply (lip_continuous g L HL). intros u v. apply Rabs_le. pose proof (GL u v). pose proof (GL v u).
      rewrite (Rabs_minus_sym v u) in *. lra. }
    destruct (Gp a) as ((x & Hx & Ea) & _). rewrite (clip_id B a Ha) in Ea.
    exists (upd x n a). split; [now apply upd_box|]. intros y Hy.
    assert (Hyn := Hy n ltac:(lia)). specialize (Hmin (y n) Hyn). destruct (Gp (y n)) as (_ & Gy). rewrite (clip_id B (y n) Hyn) in Gy.
    specialize (Gy y (box_S _ _ _ Hy)). rewrite <- Ea.
    assert (EY : f (upd y n (y n)) = f y).
    { specialize (Hf (upd y n (y n)) y (upd_box _ _ _ _ (box_S _ _ _ Hy) Hyn) Hy).
      rewrite rsum_zero in Hf; [|intros i Hi; unfold upd; destruct (Nat.eqb_spec i n) as [->|]; rewrite Rminus_diag_eq by reflexivity; apply Rabs_R0].
      rewrite Rmult_0_r in Hf. pose proof (Rabs_pos (f (upd y n (y n)) - f y)).
      assert (Z : Rabs (f (upd y n (y n)) - f y) = 0) by lra. destruct (Req_dec (f (upd y n (y n)) - f y) 0) as [|N]; [lra|]. now apply Rabs_no_R0 in N. }
    lra.
Qed.
(** Lipschitz functions *)
Lemma lip_const n B c : lip n B (fun _ => c).
Proof. exists 0. split; [lra|]. intros. rewrite Rminus_diag_eq by reflexivity. rewrite Rabs_R0. lra. Qed.
Lemma lip_coord n B i : (i < n)%nat -> lip n B (fun x => x i).
Proof.
  intros Hi. exists 1. split; [lra|]. intros x y _ _. rewrite Rmult_1_l.
  apply (rsum_le_one n (fun i => Rabs (x i - y i))); [intros; apply Rabs_pos|assumption].
Qed.
Lemma l1_nonneg n (x y : vecf) : 0 <= rsum n (fun i => Rabs (x i - y i)).
Proof. apply rsum_nonneg. intros; apply Rabs_pos. Qed.
Lemma lip_add n B f g : lip n B f -> lip n B g -> lip n B (fun x => f x + g x).
Proof.
  intros (L & HL & Hf) (K & HK & Hg). exists (L + K). split; [lra|]. intros x y Hx Hy.
  replace (f x + g x - (f y + g y)) with ((f x - f y) + (g x - g y)) by ring.
  eapply Rle_trans; [apply Rabs_triang|]. specialize (Hf x y Hx Hy). specialize (Hg x y Hx Hy). lra.
Qed.
Lemma lip_bound n B f : 0 <= B -> lip n B f -> exists M, 0 <= M /\ forall x, inbox n B x -> Rabs (f x) <= M.
Proof.
  intros HB (L & HL & Hf). exists (Rabs (f (fun _ => 0)) + L * (INR n * B)).
  assert (0 <= L * (INR n * B)) by (apply Rmult_le_pos; [assumption|]; apply Rmult_le_pos; [apply pos_INR|assumption]).
  split; [pose proof (Rabs_pos (f (fun _ => 0))); lra|]. intros x Hx.
  assert (H0 : inbox n B (fun _ => 0)) by (intros i Hi; lra). specialize (Hf x (fun _ => 0) Hx H0).
  assert (rsum n (fun i => Rabs (x i - 0)) <= INR n * B).
  { rewrite <- rsum_const. apply rsum_le. intros i Hi. apply Rabs_le. specialize (Hx i Hi). lra. }
  assert (L * rsum n (fun i => Rabs (x i - 0)) <= L * (INR n * B)) by (apply Rmult_le_compat_l; assumption).
  replace (f x) with ((f x - f (fun _ => 0)) + f (fun _ => 0)) by ring. eapply Rle_trans; [apply Rabs_triang|]. lra.
Qed.
Lemma lip_mul n B f g : 0 <= B -> lip n B f -> lip n B g -> lip n B (fun x => f x * g x).
Proof.
  intros HB Hf Hg. destruct (lip_bound n B f HB Hf) as (M & HM & Bf), (lip_bound n B g HB Hg) as (K & HK & Bg).
  destruct Hf as (L1 & HL1 & Hf), Hg as (L2 & HL2 & Hg). exists (M * L2 + K * L1).
  split; [pose proof (Rmult_le_pos _ _ HM HL2); pose proof (Rmult_le_pos _ _ HK HL1); lra|]. intros x y Hx Hy.
  replace (f x * g x - f y * g y) with (f x * (g x - g y) + g y * (f x - f y)) by ring.
  eapply Rle_trans; [apply Rabs_triang|]. rewrite !Rabs_mult.
  pose proof (l1_nonneg n x y) as P. set (d := rsum n (fun i => Rabs (x i - y i))) in *.
  specialize (Hf x y Hx Hy). specialize (Hg x y Hx Hy). specialize (Bf x Hx). specialize (Bg y Hy).
  assert (Rabs (f x) * Rabs (g x - g y) <= M * (L2 * d)) by (apply Rmult_le_compat; auto using Rabs_pos).
  assert (Rabs (g y) * Rabs (f x - f y) <= K * (L1 * d)) by (apply Rmult_le_compat; auto using Rabs_pos). lra.
Qed.
Lemma lip_abs n B f : lip n B f -> lip n B (fun x => Rabs (f x)).
Proof.
  intros (L & HL & Hf). exists L. split; [assumption|]. intros x y Hx Hy. eapply Rle_trans; [apply Rabs_triang_inv2|]. now apply Hf.
Qed.
Lemma lip_sum n B m (f : nat -> vecf -> R) : (forall i, (i < m)%nat -> lip n B (f i)) -> lip n B (fun x => rsum m (fun i => f i x)).
Proof.
  induction m as [|m IH]; intros H; [apply (lip_const n B 0)|].
  assert (K : lip n B (fun x => rsum m (fun i => f i x) + f m x)) by (apply lip_add; [apply IH; intros; apply H; lia|apply H; lia]).
  destruct K as (L & HL & K). exists L. split; [assumption|]. intros x y Hx Hy. rewrite !rsum_S. now apply K.
Qed.
(** global minima *)
Lemma global_min n B f : 0 <= B -> lip n B f -> (forall y i, (i < n)%nat -> B < Rabs (y i) -> f (fun _ => 0) <= f y) ->
  exists x, forall y, f x <= f y.
Proof.
  intros HB Hf Ho. destruct (box_min n B HB f Hf) as (x & Hx & Hm). exists x. intros y.
  destruct (Exists_dec (fun i => B < Rabs (y i)) (seq 0 n)) as [E|E]; [intros i; apply Rlt_dec| |].
  - apply Exists_exists in E. destruct E as (i & Hi & Hy). apply in_seq in Hi.
    eapply Rle_trans; [apply Hm|apply (Ho y i); [lia|assumption]]. intros j Hj; lra.
  - apply Hm. intros i Hi. destruct (Rlt_dec B (Rabs (y i))) as [K|K].
    + exfalso. apply E. apply Exists_exists. exists i. split; [apply in_seq; lia|assumption].
    + apply Rnot_lt_le in K. pose proof (Rle_abs (y i)). pose proof (Rle_abs (- y i)). rewrite Rabs_Ropp in *. lra.
Qed.

(** ** Total variation minimisers *)
Lemma at_map_seq n (x : vecf) i : (i < n)%nat -> at_ (map x (seq 0 n)) i = x i.
Proof.
  intros H. unfold at_. rewrite (nth_indep _ 0 (x 0%nat)) by (rewrite map_length, seq_length; lia).
  rewrite map_nth, seq_nth by assumption. reflexivity.
Qed.
Lemma tv_exists (v : list R) lam : 0 < lam -> exists x, tv_minimiser v lam x.
Proof.
  intros Hl. set (n := length v).
  set (f := fun x : vecf => rsum n (fun i => (x i - at_ v i) * (x i - at_ v i)) + lam * rsum (n - 1) (fun i => Rabs (x (S i) - x i))).
  set (V := rsum n (fun i => at_ v i * at_ v i)).
  assert (HV : 0 <= V) by (apply rsum_nonneg; intros; apply Rle_0_sqr).
  set (W := rsum n (fun i => Rabs (at_ v i))).
  assert (HW : 0 <= W) by (apply rsum_nonneg; intros; apply Rabs_pos).
  destruct (global_min n (1 + V + W) f) as (x & Hx); [lra| | |].
  - unfold f. apply lip_add.
    + apply lip_sum. intros i Hi. apply lip_mul; [lra| |]; (apply lip_add; [now apply lip_coord|apply lip_const]).
    + apply lip_mul; [lra|apply lip_const|]. apply lip_sum. intros i Hi. apply lip_abs.
      apply (lip_add _ _ (fun x => x (S i)) (fun x => - x i)); [apply lip_coord; lia|].
      destruct (lip_coord n (1 + V + W) i ltac:(lia)) as (L & HL & H). exists L. split; [assumption|]. intros a b Ha Hb. specialize (H a b Ha Hb).
      replace (- a i - - b i) with (- (a i - b i)) by ring. now rewrite Rabs_Ropp.
  - intros y i Hi Hy. unfold f. rewrite (rsum_zero (n - 1)) by (intros; rewrite Rminus_diag_eq by reflexivity; apply Rabs_R0).
    assert (P : 0 <= lam * rsum (n - 1) (fun i => Rabs (y (S i) - y i))) by (apply Rmult_le_pos; [lra|]; apply rsum_nonneg; intros; apply Rabs_pos).
    assert (Q : (y i - at_ v i) * (y i - at_ v i) <= rsum n (fun i => (y i - at_ v i) * (y i - at_ v i))).
    { apply (rsum_le_one n (fun i => (y i - at_ v i) * (y i - at_ v i))); [intros; apply Rle_0_sqr|assumption]. }
    assert (Q2 : Rabs (at_ v i) <= W) by (apply (rsum_le_one n (fun i => Rabs (at_ v i))); [intros; apply Rabs_pos|assumption]).
    assert (Q3 : 1 + V < Rabs (y i - at_ v i)) by (pose proof (Rabs_triang_inv (y i) (at_ v i)); lra).
    assert (Q4 : (1 + V) * (1 + V) <= (y i - at_ v i) * (y i - at_ v i)).
    { rewrite <- (Rabs_pos_eq ((y i - at_ v i) * (y i - at_ v i))) by apply Rle_0_sqr. rewrite Rabs_mult. apply Rmult_le_compat; lra. }
    assert (E0 : rsum n (fun i => (0 - at_ v i) * (0 - at_ v i)) = V) by (apply rsum_ext; intros; ring). rewrite E0. nra.
  - assert (F : forall z, length z = n -> sqdist z v + lam * vtv z = f (at_ z)).
    { intros z Lz. unfold sqdist, vtv, f. rewrite Lz. fold n. f_equal. symmetry. apply rsum_Sum_ext. intros; ring. }
    exists (map x (seq 0 n)). assert (L : length (map x (seq 0 n)) = n) by (now rewrite map_length, seq_length).
    split; [exact L|]. intros z Lz. rewrite !F by assumption. eapply Rle_trans; [|apply (Hx (at_ z))]. right. unfold f. f_equal.
    + apply rsum_ext. intros i Hi. now rewrite at_map_seq.
    + f_equal. apply rsum_ext. intros i Hi. now rewrite !at_map_seq by lia.
Qed.

(** ** Orthonormal families *)
Definition dot (n : nat) (x y : vecf) : R := rsum n (fun i => x i * y i).
Lemma dot_comm n x y : dot n x y = dot n y x.
Proof. apply rsum_ext. intros; ring. Qed.
Lemma dot_add n x y z : dot n (fun i => x i + y i) z = dot n x z + dot n y z.
Proof. unfold dot. rewrite <- rsum_add. apply rsum_ext. intros; ring. Qed.
Lemma dot_sub n x y z : dot n (fun i => x i - y i) z = dot n x z - dot n y z.
Proof. unfold dot. rewrite <- rsum_sub. apply rsum_ext. intros; ring. Qed.
Lemma dot_scal n t x z : dot n (fun i => t * x i) z = t * dot n x z.
Proof. unfold dot. rewrite <- rsum_scal. apply rsum_ext. intros; ring. Qed.
Lemma dot_sum n m (c : nat -> R) (u : nat -> vecf) z : dot n (fun i => rsum m (fun a => c a * u a i)) z = rsum m (fun a => c a * dot n (u a) z).
Proof.
  unfold dot. transitivity (rsum n (fun i => rsum m (fun a => c a * (u a i * z i)))).
  - apply rsum_ext. intros i Hi. rewrite <- rsum_scal_r. apply rsum_ext. intros; ring.
  - rewrite rsum_swap. apply rsum_ext. intros a Ha. apply rsum_scal.
Qed.
Lemma dot_nonneg n x : 0 <= dot n x x.
Proof. apply rsum_nonneg. intros. apply Rle_0_sqr. Qed.
Lemma dot_ext n x x' y y' : (forall i, (i < n)%nat -> x i = x' i) -> (forall i, (i < n)%nat -> y i = y' i) -> dot n x y = dot n x' y'.
Proof. intros H K. apply rsum_ext. intros i Hi. now rewrite H, K. Qed.
Lemma dot_zero n x : dot n x x = 0 -> forall i, (i < n)%nat -> x i = 0.
Proof.
  intros H i Hi. pose proof (rsum_nonneg_zero _ _ (fun i _ => Rle_0_sqr (x i)) H i Hi) as K. unfold Rsqr in K. cbv beta in K.
  destruct (Req_dec (x i) 0); [assumption|]. exfalso. apply (Rmult_integral_contrapositive_currified (x i) (x i)); assumption.
Qed.
(** [k] pairwise orthogonal vectors of norm 1 or 0 *)
Definition semi (n k : nat) (d : nat -> R) (u : nat -> vecf) : Prop :=
  (forall a, (a < k)%nat -> d a = 0 \/ d a = 1) /\
  forall a b, (a < k)%nat -> (b < k)%nat -> dot n (u a) (u b) = if (a =? b)%nat then d a else 0.
Lemma semi_zero n k d u a i : semi n k d u -> (a < k)%nat -> d a = 0 -> (i < n)%nat -> u a i = 0.
Proof. intros (_ & H) Ha Hd Hi. apply (dot_zero n); [|assumption]. rewrite H, Nat.eqb_refl by assumption. exact Hd. Qed.
(** coefficient sum against a semi-orthonormal family *)
Lemma semi_coeff n k d u c b : semi n k d u -> (b < k)%nat -> rsum k (fun a => c a * dot n (u a) (u b)) = c b * d b.
Proof.
  intros (_ & H) Hb. rewrite (rsum_single k b); [|assumption|].
  - now rewrite H, Nat.eqb_refl by assumption.
  - intros a Ha Hne. rewrite H by assumption. destruct (Nat.eqb_spec a b); [contradiction|ring].
Qed.
Lemma semi_extend n k d u : semi n k d u -> rsum k d < INR n -> exists x, dot n x x = 1 /\ forall a, (a < k)%nat -> dot n (u a) x = 0.
Proof.
  intros HS Hn.
  assert (T : rsum n (fun i => rsum k (fun a => u a i * u a i)) = rsum k d).
  { rewrite rsum_swap. apply rsum_ext. intros a Ha. destruct HS as (_ & H). specialize (H a a Ha Ha). rewrite Nat.eqb_refl in H. exact H. }
  assert (I : exists i, (i < n)%nat /\ rsum k (fun a => u a i * u a i) < 1).
  { destruct (Exists_dec (fun i => rsum k (fun a => u a i * u a i) < 1) (seq 0 n)) as [E|E]; [intros; apply Rlt_dec| |].
    - apply Exists_exists in E. destruct E as (i & Hi & H). apply in_seq in Hi. exists i. split; [lia|assumption].
    - exfalso. assert (INR n * 1 <= rsum k d); [|lra]. rewrite <- T, <- rsum_const. apply rsum_le. intros i Hi.
      destruct (Rlt_dec (rsum k (fun a => u a i * u a i)) 1) as [L|L]; [|lra]. exfalso. apply E. apply Exists_exists. exists i. split; [apply in_seq; lia|assumption]. }
  destruct I as (i & Hi & HI).
  set (e := fun j => if (i =? j)%nat then 1 else 0). set (w := fun j => e j - rsum k (fun a => u a i * u a j)).
  assert (De : forall y, dot n e y = y i) by (intros y; apply rsum_delta; assumption).
  assert (Dw : forall b, (b < k)%nat -> dot n w (u b) = 0).
  { intros b Hb. unfold w. rewrite dot_sub, De, dot_sum, (semi_coeff n k d) by assumption.
    destruct HS as (Hd & HS'). destruct (Hd b Hb) as [D|D]; rewrite D; [|ring]. rewrite (semi_zero n k d u b i (conj Hd HS') Hb D Hi). ring. }
  assert (Dn : dot n w w = 1 - rsum k (fun a => u a i * u a i)).
  { unfold w at 1. rewrite dot_sub, De, dot_sum. rewrite rsum_zero with (n := k) (f := fun a => u a i * dot n (u a) w).
    - unfold w, e. rewrite Nat.eqb_refl. ring.
    - intros a Ha. rewrite dot_comm, Dw by assumption. ring. }
  assert (Pos : 0 < dot n w w) by lra.
  exists (fun j => / sqrt (dot n w w) * w j). split.
  - rewrite dot_scal, (dot_comm n w (fun j => _ * w j)), dot_scal. rewrite <- Rmult_assoc, <- Rinv_mult, sqrt_sqrt by lra. apply Rinv_l. lra.
  - intros a Ha. rewrite (dot_comm n (u a)), dot_scal, Dw by assumption. ring.
Qed.
Lemma lip_dot n B k (F G : vecf -> vecf) : 0 <= B -> (forall l, (l < k)%nat -> lip n B (fun x => F x l)) ->
  (forall l, (l < k)%nat -> lip n B (fun x => G x l)) -> lip n B (fun x => dot k (F x) (G x)).
Proof. intros HB HF HG. apply lip_sum. intros i Hi. apply lip_mul; auto. Qed.
Lemma lip_opp n B f : lip n B f -> lip n B (fun x => - f x).
Proof.
  intros (L & HL & H). exists L. split; [assumption|]. intros a b Ha Hb. specialize (H a b Ha Hb).
  replace (- f a - - f b) with (- (f a - f b)) by ring. now rewrite Rabs_Ropp.
Qed.
Lemma lip_sub n B f g : lip n B f -> lip n B g -> lip n B (fun x => f x - g x).
Proof. intros H K. apply (lip_add n B f (fun x => - g x)); [assumption|now apply lip_opp]. Qed.
Lemma quad_zero (p c : R) : (forall t, 2 * t * p <= t * t * c) -> p = 0.
Proof.
  intros H. destruct (Req_dec p 0) as [|N]; [assumption|exfalso].
  set (C := Rabs c + 1). assert (HC : 0 < C) by (pose proof (Rabs_pos c); unfold C; lra).
  assert (Hc : c <= C) by (pose proof (Rle_abs c); unfold C; lra).
  specialize (H (p / C)). assert (P : 0 < p * p) by (destruct (Rtotal_order p 0) as [|[|]]; [nra|contradiction|nra]).
  assert (E1 : 2 * (p / C) * p = 2 * (p * p / C)) by (field; lra).
  assert (E2 : p / C * (p / C) * c <= p * p / C).
  { replace (p / C * (p / C) * c) with (p * p / C * (c / C)) by (field; lra).
    assert (c / C <= 1) by (apply Rmult_le_reg_r with C; [lra|]; unfold Rdiv; rewrite Rmult_assoc, Rinv_l by lra; lra).
    assert (0 < p * p / C) by (apply Rdiv_lt_0_compat; lra). nra. }
  assert (0 < p * p / C) by (apply Rdiv_lt_0_compat; lra). lra.
Qed.
Lemma max_coord n (y : vecf) : (0 < n)%nat -> exists i, (i < n)%nat /\ forall l, (l < n)%nat -> Rabs (y l) <= Rabs (y i).
Proof.
  induction n as [|n IH]; intros H; [lia|]. destruct n as [|n].
  - exists 0%nat. split; [lia|]. intros l Hl. replace l with 0%nat by lia. lra.
  - destruct (IH ltac:(lia)) as (i & Hi & Hm). destruct (Rle_dec (Rabs (y (S n))) (Rabs (y i))) as [L|L].
    + exists i. split; [lia|]. intros l Hl. destruct (Nat.eq_dec l (S n)) as [->|]; [assumption|]. apply Hm. lia.
    + exists (S n). split; [lia|]. intros l Hl. destruct (Nat.eq_dec l (S n)) as [->|]; [lra|]. specialize (Hm l ltac:(lia)). lra.
Qed.

Section Svd.
Variables (r k : nat) (M : nat -> vecf).
Definition frm (x y : vecf) : R := rsum r (fun i => dot k (M i) x * dot k (M i) y).
Lemma frm_comm x y : frm x y = frm y x. Proof. apply rsum_ext. intros; ring. Qed.
Lemma frm_nonneg x : 0 <= frm x x. Proof. apply rsum_nonneg. intros; apply Rle_0_sqr. Qed.
Lemma frm_scal t x y : frm (fun i => t * x i) y = t * frm x y.
Proof. unfold frm. rewrite <- rsum_scal. apply rsum_ext. intros i Hi. rewrite (dot_comm k (M i)), dot_scal, (dot_comm k x). ring. Qed.
Lemma frm_add x y z : frm (fun i => x i + y i) z = frm x z + frm y z.
Proof. unfold frm. rewrite <- rsum_add. apply rsum_ext. intros i Hi. rewrite (dot_comm k (M i)), dot_add, !(dot_comm k (M i)). ring. Qed.
Lemma frm_ext x x' y y' : (forall i, (i < k)%nat -> x i = x' i) -> (forall i, (i < k)%nat -> y i = y' i) -> frm x y = frm x' y'.
Proof. intros H K. apply rsum_ext. intros i Hi. f_equal; now apply dot_ext. Qed.
Lemma lip_frm n B (F : vecf -> vecf) : 0 <= B -> (forall l, (l < k)%nat -> lip n B (fun x => F x l)) -> lip n B (fun x => frm (F x) (F x)).
Proof.
  intros HB HF. apply lip_sum. intros i Hi. apply lip_mul; [assumption| |];
    (apply (lip_dot n B k (fun _ => M i) F); [assumption|intros; apply lip_const|assumption]).
Qed.

Section Next.
Variables (j : nat) (v : nat -> vecf).
Hypotheses (Hj : (j < k)%nat) (Hv : semi k j (fun _ => 1) v).
Definition orth (y : vecf) : Prop := forall a, (a < j)%nat -> dot k (v a) y = 0.
Definition rest (x : vecf) : vecf := fun i => x i - rsum j (fun a => dot k (v a) x * v a i).
Lemma rest_orth x : orth (rest x).
Proof.
  intros b Hb. rewrite dot_comm. unfold rest. rewrite dot_sub, dot_sum, (semi_coeff k j (fun _ => 1)) by assumption. rewrite (dot_comm k x). ring.
Qed.
Lemma rest_id x : orth x -> forall i, rest x i = x i.
Proof. intros H i. unfold rest. rewrite rsum_zero; [ring|]. intros a Ha. rewrite H by assumption. ring. Qed.
Lemma lip_rest n B (F : vecf -> vecf) : 0 <= B -> (forall l, (l < k)%nat -> lip n B (fun x => F x l)) ->
  forall l, (l < k)%nat -> lip n B (fun x => rest (F x) l).
Proof.
  intros HB HF l Hl. apply lip_sub; [now apply HF|]. apply lip_sum. intros a Ha. apply lip_mul; [assumption| |apply lip_const].
  apply (lip_dot n B k (fun _ => v a) F); [assumption|intros; apply lip_const|assumption].
Qed.
Lemma next_vector : exists x, dot k x x = 1 /\ orth x /\ forall y, orth y -> dot k x y = 0 -> frm x y = 0.
Proof.
  destruct (semi_extend k j (fun _ => 1) v Hv) as (x0 & X0 & O0).
  { rewrite rsum_const, Rmult_1_r. now apply lt_INR. }
  assert (HB1 : forall y, dot k y y = 1 -> inbox k 1 y).
  { intros y Hy i Hi. pose proof (rsum_le_one k (fun i => y i * y i) i ltac:(intros; apply Rle_0_sqr) Hi) as K. fold (dot k y y) in K. rewrite Hy in K. nra. }
  destruct (completeness (fun t => exists y, orth y /\ dot k y y = 1 /\ t = frm y y)) as (lam & Hub & Hlub).
  { destruct (lip_bound k 1 (fun y => frm y y) ltac:(lra)) as (m & Hm & Hb).
    - apply (lip_frm k 1 (fun y => y)); [lra|]. intros; now apply lip_coord.
    - exists m. intros t (y & _ & Hy & ->). eapply Rle_trans; [apply Rle_abs|]. apply Hb. now apply HB1. }
  { exists (frm x0 x0). exists x0. auto. }
  assert (HL : forall y, orth y -> frm y y <= lam * dot k y y).
  { intros y Oy. destruct (Req_dec (dot k y y) 0) as [Z|Z].
    - rewrite Z, Rmult_0_r. rewrite (frm_ext y (fun i => 0 * y i) y y); [rewrite frm_scal; lra| |reflexivity].
      intros i Hi. rewrite (dot_zero k y Z i Hi). ring.
    - assert (P : 0 < dot k y y) by (pose proof (dot_nonneg k y); lra). set (t := / sqrt (dot k y y)).
      assert (T : t * t * dot k y y = 1) by (unfold t; rewrite <- Rinv_mult, sqrt_sqrt by lra; apply Rinv_l; lra).
      assert (K : frm (fun i => t * y i) (fun i => t * y i) <= lam).
      { apply Hub. exists (fun i => t * y i). split; [|split; [|reflexivity]].
        - intros a Ha. rewrite dot_comm, dot_scal, (dot_comm k y), Oy by assumption. ring.
        - rewrite dot_scal, (dot_comm k y (fun i => t * y i)), dot_scal. lra. }
      rewrite frm_scal, frm_comm, frm_scal in K.
      assert (frm y y = t * (t * frm y y) * dot k y y) by (transitivity (t * t * dot k y y * frm y y); [rewrite T; ring|ring]).
      rewrite H. apply Rmult_le_compat_r; lra. }
  assert (Hpos : 0 <= lam) by (eapply Rle_trans; [apply (frm_nonneg x0)|]; apply Hub; exists x0; auto).
  set (g := fun x => lam * dot k (rest x) (rest x) - frm (rest x) (rest x) + rsum j (fun a => dot k (v a) x * dot k (v a) x)).
  assert (G0 : forall x, 0 <= rsum j (fun a => dot k (v a) x * dot k (v a) x)) by (intros; apply rsum_nonneg; intros; apply Rle_0_sqr).
  assert (Gpos : forall x, 0 <= g x) by (intros x; unfold g; pose proof (HL _ (rest_orth x)); pose proof (G0 x); lra).
  assert (Gmin : forall i, (i < k)%nat -> exists x, forall y, inbox k 1 y -> g (upd x i 1) <= g (upd y i 1)).
  { intros i Hi. assert (C : forall l, (l < k)%nat -> lip k 1 (fun x => upd x i 1 l)).
    { intros l Hl. unfold upd. destruct (l =? i)%nat; [apply lip_const|now apply lip_coord]. }
    destruct (box_min k 1 ltac:(lra) (fun x => g (upd x i 1))) as (x & _ & Hx); [|now exists x].
    pose proof (lip_rest k 1 (fun x => upd x i 1) ltac:(lra) C) as CR.
    unfold g. apply lip_add; [apply lip_sub|].
    - apply lip_mul; [lra|apply lip_const|]. apply (lip_dot k 1 k (fun x => rest (upd x i 1)) (fun x => rest (upd x i 1))); [lra| |]; assumption.
    - apply (lip_frm k 1 (fun x => rest (upd x i 1))); [lra|assumption].
    - apply lip_sum. intros a Ha. apply lip_mul; [lra| |];
        (apply (lip_dot k 1 k (fun _ => v a) (fun x => upd x i 1)); [lra|intros; apply lip_const|assumption]). }
  assert (Z : exists x i, (i < k)%nat /\ x i = 1 /\ g x = 0).
  { destruct (Classical_Prop.classic (exists x i, (i < k)%nat /\ x i = 1 /\ g x = 0)) as [|N]; [assumption|exfalso].
    assert (E : exists eps, 0 < eps /\ forall i y, (i < k)%nat -> inbox k 1 y -> y i = 1 -> eps <= g y).
    { assert (E : forall n, (n <= k)%nat -> exists eps, 0 < eps /\ forall i y, (i < n)%nat -> inbox k 1 y -> y i = 1 -> eps <= g y).
      { induction n as [|n IH]; intros Hn; [exists 1; split; [lra|]; intros; lia|].
        destruct (IH ltac:(lia)) as (e & He & HE). destruct (Gmin n ltac:(lia)) as (x & Hx).
        assert (P : 0 < g (upd x n 1)).
        { destruct (Gpos (upd x n 1)) as [|E]; [assumption|exfalso]. apply N. exists (upd x n 1), n. split; [lia|]. split; [apply upd_same|now symmetry]. }
        exists (Rmin e (g (upd x n 1))). split; [apply Rmin_glb_lt; assumption|]. intros i y Hi Hy Y.
        destruct (Nat.eq_dec i n) as [->|]; [|eapply Rle_trans; [apply Rmin_l|apply (HE i y); auto; lia]].
        eapply Rle_trans; [apply Rmin_r|]. eapply Rle_trans; [apply (Hx y Hy)|]. right. f_equal.
        apply FunctionalExtensionality.functional_extensionality. intros l. unfold upd. destruct (Nat.eqb_spec l n) as [->|]; auto. }
      exact (E k (le_n k)). }
    destruct E as (eps & He & HE).
    assert (B : forall y, orth y -> dot k y y = 1 -> frm y y <= lam - eps / INR k).
    { intros y Oy Y. destruct (max_coord k y ltac:(lia)) as (i & Hi & Hm).
      assert (Ny : y i <> 0).
      { intros Z0. rewrite Z0, Rabs_R0 in Hm. unfold dot in Y. rewrite rsum_zero in Y; [lra|]. intros l Hl. specialize (Hm l Hl).
        pose proof (Rabs_pos (y l)). assert (Q : Rabs (y l) = 0) by lra. destruct (Req_dec (y l) 0) as [->|W]; [ring|]. now apply Rabs_no_R0 in W. }
      set (z := fun l => / y i * y l).
      assert (Oz : orth z) by (intros a Ha; unfold z; rewrite dot_comm, dot_scal, (dot_comm k y), Oy by assumption; ring).
      assert (Bz : inbox k 1 z).
      { intros l Hl. assert (Q : Rabs (z l) <= 1).
        { unfold z. rewrite Rabs_mult, Rabs_inv. specialize (Hm l Hl). assert (0 < Rabs (y i)) by (now apply Rabs_pos_lt).
          apply Rmult_le_reg_l with (Rabs (y i)); [assumption|]. rewrite <- Rmult_assoc, Rinv_r by lra. lra. }
        pose proof (Rle_abs (z l)). pose proof (Rle_abs (- z l)). rewrite Rabs_Ropp in *. lra. }
      specialize (HE i z Hi Bz ltac:(unfold z; apply Rinv_l; assumption)). unfold g in HE.
      rewrite (dot_ext k _ z _ z) in HE by (intros; apply rest_id; assumption).
      rewrite (frm_ext _ z _ z) in HE by (intros; apply rest_id; assumption).
      rewrite (rsum_zero j) in HE by (intros a Ha; rewrite Oz by assumption; ring).
      assert (D1 : dot k z z = / y i * / y i) by (unfold z; rewrite dot_scal, (dot_comm k y (fun l => / y i * y l)), dot_scal, Y; ring).
      assert (D2 : frm z z = / y i * / y i * frm y y) by (unfold z; rewrite frm_scal, (frm_comm y (fun l => / y i * y l)), frm_scal; ring).
      rewrite D1, D2 in HE.
      assert (YY : 1 <= INR k * (y i * y i)).
      { rewrite <- Y. rewrite <- rsum_const. apply rsum_le. intros l Hl. specialize (Hm l Hl).
        rewrite <- (Rabs_pos_eq (y l * y l)), <- (Rabs_pos_eq (y i * y i)) by apply Rle_0_sqr. rewrite !Rabs_mult. apply Rmult_le_compat; auto using Rabs_pos. }
      assert (HK : 0 < INR k) by (apply lt_0_INR; lia).
      assert (Pq : 0 < y i * y i) by (pose proof (Rlt_0_sqr (y i) Ny) as Q; exact Q).
      assert (H1 : eps * (y i * y i) <= lam - frm y y).
      { apply (Rmult_le_compat_r (y i * y i)) in HE; [|lra]. eapply Rle_trans; [exact HE|]. right. field. assumption. }
      assert (H2 : eps / INR k <= eps * (y i * y i)).
      { apply Rmult_le_reg_r with (INR k); [assumption|]. unfold Rdiv. rewrite Rmult_assoc, Rinv_l by lra. nra. }
      lra. }
    assert (C : lam <= lam - eps / INR k) by (apply Hlub; intros t (y & Oy & Y & ->); now apply B).
    assert (0 < eps / INR k) by (apply Rdiv_lt_0_compat; [assumption|apply lt_0_INR; lia]). lra. }
  destruct Z as (z & i & Hi & Zi & Gz). unfold g in Gz. pose proof (HL _ (rest_orth z)) as K1. pose proof (G0 z) as K2.
  assert (K3 : rsum j (fun a => dot k (v a) z * dot k (v a) z) = 0) by lra.
  assert (Oz : orth z).
  { intros a Ha. pose proof (rsum_nonneg_zero _ _ (fun a _ => Rle_0_sqr (dot k (v a) z)) K3 a Ha) as Q. unfold Rsqr in Q. cbv beta in Q.
    destruct (Req_dec (dot k (v a) z) 0); [assumption|]. exfalso. apply (Rmult_integral_contrapositive_currified (dot k (v a) z) (dot k (v a) z)); assumption. }
  rewrite K3 in Gz. rewrite (dot_ext k _ z _ z) in Gz by (intros; apply rest_id; assumption).
  rewrite (frm_ext _ z _ z) in Gz by (intros; apply rest_id; assumption).
  assert (Pz : 0 < dot k z z).
  { eapply Rlt_le_trans; [|apply (rsum_le_one k (fun i => z i * z i) i); [intros; apply Rle_0_sqr|assumption]]. rewrite Zi. lra. }
  assert (FZ : forall y, orth y -> dot k z y = 0 -> frm z y = 0).
  { intros y Oy D. apply (quad_zero _ (lam * dot k y y - frm y y)). intros t.
    assert (O : orth (fun l => z l + t * y l)).
    { intros a Ha. rewrite dot_comm, dot_add, dot_scal, (dot_comm k z), (dot_comm k y), Oz, Oy by assumption. ring. }
    specialize (HL _ O). rewrite dot_add, dot_scal, !(dot_comm k _ (fun l => z l + t * y l)), !dot_add, !dot_scal, (dot_comm k y z), D in HL.
    rewrite frm_add, frm_scal, !(frm_comm _ (fun l => z l + t * y l)), !frm_add, !frm_scal, (frm_comm y z) in HL. lra. }
  set (t := / sqrt (dot k z z)). exists (fun l => t * z l). split; [|split].
  - rewrite dot_scal, (dot_comm k z (fun l => t * z l)), dot_scal. rewrite <- Rmult_assoc. unfold t. rewrite <- Rinv_mult, sqrt_sqrt by lra. apply Rinv_l. lra.
  - intros a Ha. rewrite dot_comm, dot_scal, (dot_comm k z), Oz by assumption. ring.
  - intros y Oy D. rewrite dot_scal in D. rewrite frm_scal, FZ; [ring|assumption|].
    apply Rmult_integral in D. destruct D as [D|D]; [|assumption]. exfalso. unfold t in D.
    assert (0 < sqrt (dot k z z)) by (now apply sqrt_lt_R0). assert (0 < / sqrt (dot k z z)) by (now apply Rinv_0_lt_compat). lra.
Qed.
End Next.
End Svd.

(** ** Singular value decompositions *)
Definition setv (u : nat -> vecf) (j : nat) (x : vecf) : nat -> vecf := fun a => if (a =? j)%nat then x else u a.
Lemma setv_same u j x : setv u j x j = x. Proof. unfold setv. now rewrite Nat.eqb_refl. Qed.
Lemma setv_other u j x a : a <> j -> setv u j x a = u a. Proof. intros H. unfold setv. destruct (Nat.eqb_spec a j); [contradiction|reflexivity]. Qed.
Lemma eigenbasis r k (M : nat -> vecf) : exists v, semi k k (fun _ => 1) v /\
  forall a b, (a < k)%nat -> (b < k)%nat -> a <> b -> frm r k M (v a) (v b) = 0.
Proof.
  assert (H : forall j, (j <= k)%nat -> exists v, semi k j (fun _ => 1) v /\
    (forall a y, (a < j)%nat -> (forall b, (b < j)%nat -> dot k (v b) y = 0) -> frm r k M (v a) y = 0) /\
    forall a b, (a < j)%nat -> (b < j)%nat -> a <> b -> frm r k M (v a) (v b) = 0).
  2:{ destruct (H k (le_n k)) as (v & H1 & _ & H2). now exists v. }
  induction j as [|j IH]; intros Hj.
  { exists (fun _ _ => 0). split; [split; [intros; lia|intros; lia]|]. split; intros; lia. }
  destruct (IH ltac:(lia)) as (v & Hs & Ho & Hd). destruct (next_vector r k M j v ltac:(lia) Hs) as (x & X1 & X2 & X3).
  exists (setv v j x). split; [|split].
  - split; [intros; now right|]. intros a b Ha Hb. destruct (Nat.eqb_spec a b) as [->|N].
    + destruct (Nat.eq_dec b j) as [->|]; [now rewrite setv_same|]. rewrite setv_other by assumption.
      destruct Hs as (_ & Hs). rewrite Hs by lia. now rewrite Nat.eqb_refl.
    + destruct (Nat.eq_dec a j) as [->|Na].
      * rewrite setv_same, setv_other by congruence. rewrite dot_comm. apply X2. lia.
      * destruct (Nat.eq_dec b j) as [->|Nb].
        -- rewrite setv_same, setv_other by assumption. apply X2. lia.
        -- rewrite !setv_other by assumption. destruct Hs as (_ & Hs). rewrite Hs by lia. destruct (Nat.eqb_spec a b); [contradiction|reflexivity].
  - intros a y Ha Hy.
    assert (Oy : orth k j v y) by (intros b Hb; specialize (Hy b ltac:(lia)); now rewrite setv_other in Hy by lia).
    assert (Xy : dot k x y = 0) by (specialize (Hy j ltac:(lia)); now rewrite setv_same in Hy).
    destruct (Nat.eq_dec a j) as [->|N]; [rewrite setv_same; now apply X3|]. rewrite setv_other by assumption. apply Ho; [lia|exact Oy].
  - intros a b Ha Hb N. destruct (Nat.eq_dec a j) as [->|Na].
    + rewrite setv_same, setv_other by congruence. rewrite frm_comm. apply Ho; [lia|exact X2].
    + rewrite (setv_other v j x a) by assumption. destruct (Nat.eq_dec b j) as [->|Nb].
      * rewrite setv_same. apply Ho; [lia|exact X2].
      * rewrite setv_other by assumption. apply Hd; lia.
Qed.
(** fill the zero vectors of a semi-orthonormal family *)
Lemma semi_fill n k d u : (k <= n)%nat -> semi n k d u -> exists u', semi n k (fun _ => 1) u' /\ forall a, (a < k)%nat -> d a = 1 -> u' a = u a.
Proof.
  intros Hk HS.
  assert (H : forall j, (j <= k)%nat -> exists u' d', semi n k d' u' /\ (forall a, (a < k)%nat -> d a = 1 -> u' a = u a /\ d' a = 1) /\ forall a, (a < j)%nat -> d' a = 1).
  2:{ destruct (H k (le_n k)) as (u' & d' & H1 & H2 & H3). exists u'. split; [|intros a Ha Hd; now apply H2].
      destruct H1 as (_ & H1). split; [intros; now right|]. intros a b Ha Hb. rewrite H1 by assumption. destruct (a =? b)%nat; [now apply H3|reflexivity]. }
  induction j as [|j IH]; intros Hj.
  { exists u, d. split; [assumption|]. split; [auto|intros; lia]. }
  destruct (IH ltac:(lia)) as (u1 & d1 & H1 & H2 & H3). destruct (proj1 H1 j ltac:(lia)) as [D|D].
  2:{ exists u1, d1. split; [assumption|]. split; [assumption|]. intros a Ha. destruct (Nat.eq_dec a j) as [->|]; [assumption|apply H3; lia]. }
  destruct (semi_extend n k d1 u1 H1) as (x & X1 & X2).
  { apply Rlt_le_trans with (INR k); [|now apply le_INR]. rewrite <- (Rmult_1_r (INR k)), <- rsum_const.
    assert (0 < rsum k (fun i => 1 - d1 i)); [|rewrite rsum_sub in *; lra].
    apply rsum_pos; [intros i Hi; destruct (proj1 H1 i Hi) as [->| ->]; lra|]. exists j. split; [lia|]. rewrite D. lra. }
  exists (setv u1 j x), (upd d1 j 1). split; [|split].
  - split; [intros a Ha; unfold upd; destruct (a =? j)%nat; [now right|now apply H1]|]. intros a b Ha Hb.
    destruct H1 as (_ & H1). destruct (Nat.eq_dec a j) as [->|Na].
    + rewrite setv_same. destruct (Nat.eq_dec b j) as [->|Nb].
      * rewrite setv_same, Nat.eqb_refl. unfold upd. now rewrite Nat.eqb_refl.
      * rewrite setv_other by assumption. rewrite dot_comm, X2 by assumption. destruct (Nat.eqb_spec j b); [congruence|reflexivity].
    + rewrite (setv_other u1 j x a) by assumption. destruct (Nat.eq_dec b j) as [->|Nb].
      * rewrite setv_same, X2 by assumption. destruct (Nat.eqb_spec a j); [congruence|reflexivity].
      * rewrite setv_other, H1 by assumption. unfold upd. destruct (Nat.eqb_spec a j); [contradiction|]. reflexivity.
  - intros a Ha Hd. destruct (H2 a Ha Hd) as (E1 & E2). assert (a <> j) by (intros ->; lra). rewrite setv_other by assumption.
    split; [assumption|]. unfold upd. destruct (Nat.eqb_spec a j); [contradiction|assumption].
  - intros a Ha. unfold upd. destruct (Nat.eqb_spec a j); [reflexivity|]. apply H3. lia.
Qed.
(** a full orthonormal family is a basis *)
Lemma full_basis k v x : semi k k (fun _ => 1) v -> forall i, (i < k)%nat -> x i = rsum k (fun a => dot k (v a) x * v a i).
Proof.
  intros HS i Hi. destruct (Req_dec (dot k (rest k k v x) (rest k k v x)) 0) as [Z|Z].
  - pose proof (dot_zero k _ Z i Hi) as K. unfold rest in K. lra.
  - exfalso. set (w := rest k k v x) in *. assert (P : 0 < dot k w w) by (pose proof (dot_nonneg k w); lra). set (t := / sqrt (dot k w w)).
    assert (Ow : forall a, (a < k)%nat -> dot k (v a) w = 0) by (exact (rest_orth k k v HS x)).
    set (u := fun a => if (a =? k)%nat then (fun l => t * w l) else v a).
    assert (T : rsum k (fun l => rsum (S k) (fun a => u a l * u a l)) = INR (S k)).
    { rewrite rsum_swap, rsum_S, S_INR. f_equal.
      - rewrite <- (Rmult_1_r (INR k)), <- rsum_const. apply rsum_ext. intros a Ha. unfold u. destruct (Nat.eqb_spec a k); [lia|].
        destruct HS as (_ & HS). specialize (HS a a Ha Ha). rewrite Nat.eqb_refl in HS. exact HS.
      - unfold u. rewrite Nat.eqb_refl. change (dot k (fun l => t * w l) (fun l => t * w l) = 1).
        rewrite dot_scal, (dot_comm k w (fun l => t * w l)), dot_scal, <- Rmult_assoc. unfold t. rewrite <- Rinv_mult, sqrt_sqrt by lra. apply Rinv_l. lra. }
    assert (HU : semi k (S k) (fun _ => 1) u).
    { split; [intros; now right|]. intros a b Ha Hb. unfold u.
      destruct (Nat.eqb_spec a k) as [->|Na]; destruct (Nat.eqb_spec b k) as [->|Nb].
      - rewrite Nat.eqb_refl. rewrite dot_scal, (dot_comm k w (fun l => t * w l)), dot_scal, <- Rmult_assoc. unfold t. rewrite <- Rinv_mult, sqrt_sqrt by lra. apply Rinv_l. lra.
      - rewrite dot_scal, (dot_comm k w), Ow by lia. destruct (Nat.eqb_spec k b); [congruence|ring].
      - rewrite dot_comm, dot_scal, (dot_comm k w), Ow by lia. destruct (Nat.eqb_spec a k); [congruence|ring].
      - destruct HS as (_ & HS). apply HS; lia. }
    assert (B : rsum k (fun l => rsum (S k) (fun a => u a l * u a l)) <= INR k * 1).
    { rewrite <- rsum_const. apply rsum_le. intros l Hl.
      (* Bessel for e_l *)
      set (e := fun q => if (l =? q)%nat then 1 else 0). assert (De : forall y, dot k e y = y l) by (intros y; apply rsum_delta; assumption).
      set (q := rest k (S k) u e). pose proof (dot_nonneg k q) as Q.
      assert (Oq : forall a, (a < S k)%nat -> dot k (u a) q = 0) by (exact (rest_orth k (S k) u HU e)).
      assert (Dq : dot k q q = dot k e q - rsum (S k) (fun a => dot k (u a) e * dot k (u a) q)).
      { unfold q at 1. unfold rest. rewrite dot_sub, dot_sum. reflexivity. }
      rewrite (rsum_zero (S k) (fun a => dot k (u a) e * dot k (u a) q)) in Dq by (intros a Ha; rewrite Oq by assumption; ring).
      rewrite De in Dq. assert (QL : q l = e l - rsum (S k) (fun a => dot k (u a) e * u a l)) by reflexivity. rewrite QL in Dq. assert (EL : e l = 1) by (unfold e; now rewrite Nat.eqb_refl). rewrite EL in Dq.
      assert (EQ : rsum (S k) (fun a => dot k (u a) e * u a l) = rsum (S k) (fun a => u a l * u a l)).
      { apply rsum_ext. intros a Ha. now rewrite dot_comm, De. }
      rewrite EQ in Dq. rewrite Dq in Q. lra. }
    rewrite T, S_INR in B. lra.
Qed.

Lemma svd_exists (M : mat (N:=RNum)) k : mwf M -> mc M = k -> (k <= mr M)%nat -> exists t, has_svd M k t.
Proof.
  intros W HC HK. set (r := mr M). set (Mf := fun i j => mget (N:=RNum) M i j).
  destruct (eigenbasis r k Mf) as (v & Hv & Hd). set (Mv := fun a i => dot k (Mf i) (v a)).
  assert (DM : forall a b, dot r (Mv a) (Mv b) = frm r k Mf (v a) (v b)) by (intros; reflexivity).
  set (s := fun a => sqrt (frm r k Mf (v a) (v a))).
  set (d := fun a => if Req_EM_T (frm r k Mf (v a) (v a)) 0 then 0 else 1).
  set (u := fun a i => if Req_EM_T (frm r k Mf (v a) (v a)) 0 then 0 else / s a * Mv a i).
  assert (HU : semi r k d u).
  { split; [intros a Ha; unfold d; destruct (Req_EM_T _ _); auto|]. intros a b Ha Hb. unfold u, d.
    destruct (Req_EM_T (frm r k Mf (v a) (v a)) 0) as [Z|Z].
    - destruct (a =? b)%nat; apply rsum_zero; intros; ring.
    - destruct (Req_EM_T (frm r k Mf (v b) (v b)) 0) as [Z'|Z'].
      + destruct (Nat.eqb_spec a b) as [->|N]; [contradiction|]. apply rsum_zero; intros; ring.
      + rewrite dot_scal, (dot_comm r (Mv a)), dot_scal, DM. destruct (Nat.eqb_spec a b) as [->|N].
        * unfold s. rewrite <- Rmult_assoc, <- Rinv_mult, sqrt_sqrt by apply frm_nonneg. apply Rinv_l. assumption.
        * rewrite Hd by congruence. ring. }
  destruct (semi_fill r k d u HK HU) as (u' & Hu & Eu).
  assert (MV : forall a i, (a < k)%nat -> (i < r)%nat -> Mv a i = s a * u' a i).
  { intros a i Ha Hi. unfold s. destruct (Req_EM_T (frm r k Mf (v a) (v a)) 0) as [Z|Z].
    - rewrite Z, sqrt_0. pose proof (dot_zero r (Mv a)) as K. rewrite DM in K. rewrite (K Z i Hi). ring.
    - rewrite (Eu a Ha); [|unfold d; destruct (Req_EM_T _ _); [contradiction|reflexivity]]. unfold u.
      destruct (Req_EM_T _ _); [contradiction|]. fold (s a). rewrite <- Rmult_assoc, Rinv_r; [ring|]. unfold s.
      apply Rgt_not_eq. apply sqrt_lt_R0. pose proof (frm_nonneg r k Mf (v a)). lra. }
  exists (mbuild (N:=RNum) r k (fun i a => u' a i), map s (seq 0 k), mbuild (N:=RNum) k k (fun a j => v a j)).
  cbn [has_svd]. split; [apply mwf_mbuild|]. split; [reflexivity|]. split; [reflexivity|]. split; [now rewrite map_length, seq_length|].
  split; [apply mwf_mbuild|]. split; [reflexivity|]. split; [now symmetry|]. rewrite HC. fold r. split; [|split; [|split]].
  - intros a b Ha Hb. rewrite Sum_rsum. destruct Hu as (_ & Hu). unfold kron. rewrite <- (Hu a b Ha Hb). apply rsum_ext. intros i Hi.
    now rewrite !mget_mbuild by assumption.
  - intros a b Ha Hb. rewrite Sum_rsum. destruct Hv as (_ & Hv). unfold kron. rewrite <- (Hv a b Ha Hb). apply rsum_ext. intros i Hi.
    now rewrite !mget_mbuild by assumption.
  - intros a Ha. rewrite at_map_seq by assumption. apply sqrt_pos.
  - intros i j Hi Hj. rewrite Sum_rsum.
    transitivity (dot k (Mf i) (fun l => if (j =? l)%nat then 1 else 0)).
    { symmetry. rewrite dot_comm. apply rsum_delta. assumption. }
    rewrite (dot_ext k (Mf i) (Mf i) _ (fun l => rsum k (fun a => dot k (v a) (fun l => if (j =? l)%nat then 1 else 0) * v a l)));
      [|reflexivity|intros l Hl; exact (full_basis k v (fun l => if (j =? l)%nat then 1 else 0) Hv l Hl)].
    rewrite dot_comm, dot_sum. apply rsum_ext. intros a Ha. rewrite !mget_mbuild, at_map_seq by assumption.
    rewrite (dot_comm k (v a) (Mf i)). fold (Mv a i). rewrite MV by assumption.
    rewrite dot_comm. replace (dot k (fun l => if (j =? l)%nat then 1 else 0) (v a)) with (v a j) by (symmetry; apply rsum_delta; assumption). ring.
Qed.
