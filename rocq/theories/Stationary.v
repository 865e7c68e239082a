(** Alternating exact block updates of a ridge-regularised trilinear fit: each
    update lowers the objective by at least a multiple of the squared step, and the
    slope of the objective is at most a multiple of the last step. *)
From Coq Require Import Reals Lra Lia List Arith Bool FunctionalExtensionality.
From Verif Require Import Num Numpy RFacts Spec SpecFacts.
Import ListNotations.
Local Open Scope R_scope.

(** ** Sums *)
Lemma Sum_add n f g : Sum n (fun i => f i + g i) = Sum n f + Sum n g.
Proof. induction n as [|n IH]; cbn [Sum]; [ring|]. rewrite IH. ring. Qed.
Lemma Sum_mul n c f : Sum n (fun i => c * f i) = c * Sum n f.
Proof. induction n as [|n IH]; cbn [Sum]; [ring|]. rewrite IH. ring. Qed.
Lemma Sum_zero n f : (forall i, (i < n)%nat -> f i = 0) -> Sum n f = 0.
Proof. induction n as [|n IH]; intros H; cbn [Sum]; [reflexivity|]. rewrite IH by (intros; apply H; lia). rewrite H by lia. ring. Qed.
Lemma Sum_pos n f : (forall i, (i < n)%nat -> 0 <= f i) -> 0 <= Sum n f.
Proof. induction n as [|n IH]; intros H; cbn [Sum]; [lra|]. pose proof (IH ltac:(intros; apply H; lia)). pose proof (H n ltac:(lia)). lra. Qed.
Lemma Sum_mono n f g : (forall i, (i < n)%nat -> f i <= g i) -> Sum n f <= Sum n g.
Proof. induction n as [|n IH]; intros H; cbn [Sum]; [lra|]. pose proof (IH ltac:(intros; apply H; lia)). pose proof (H n ltac:(lia)). lra. Qed.
Lemma Sum_term n f i : (forall j, (j < n)%nat -> 0 <= f j) -> (i < n)%nat -> f i <= Sum n f.
Proof.
  induction n as [|n IH]; intros H Hi; [lia|]. cbn [Sum]. pose proof (Sum_pos n f ltac:(intros; apply H; lia)). pose proof (H n ltac:(lia)).
  destruct (Nat.eq_dec i n) as [->|]; [lra|]. pose proof (IH ltac:(intros; apply H; lia) ltac:(lia)). lra.
Qed.

(** ** Functions of the form a + t b + t^2 c *)
Definition quad (f : R -> R) (a b c : R) : Prop := forall t, f t = a + t * b + t * t * c.
Lemma quad_Sum n (f : nat -> R -> R) a b c : (forall i, (i < n)%nat -> quad (f i) (a i) (b i) (c i)) ->
  quad (fun t => Sum n (fun i => f i t)) (Sum n a) (Sum n b) (Sum n c).
Proof.
  intros H t. rewrite <- !Sum_mul, <- !Sum_add. apply Sum_ext. intros i Hi. now rewrite (H i Hi).
Qed.
Lemma quad_plus f g a b c a' b' c' : quad f a b c -> quad g a' b' c' -> quad (fun t => f t + g t) (a + a') (b + b') (c + c').
Proof. intros H1 H2 t. rewrite H1, H2. ring. Qed.
Lemma quad_scal k f a b c : quad f a b c -> quad (fun t => k * f t) (k * a) (k * b) (k * c).
Proof. intros H t. rewrite H. ring. Qed.
Lemma quad_min f a b c : quad f a b c -> (forall t, a <= f t) -> b = 0.
Proof.
  intros Q H. destruct (Req_dec b 0) as [|Hb]; [assumption|exfalso].
  destruct (Rle_or_lt c 0) as [Hc|Hc].
  - pose proof (H (- b)). rewrite Q in H0. assert (0 < b * b) by nra. nra.
  - pose proof (H (- b / (2 * c))). rewrite Q in H0.
    replace (- b / (2 * c) * b + - b / (2 * c) * (- b / (2 * c)) * c) with (- (b * b / (4 * c))) in H0 by (field; lra).
    assert (0 < b * b / (4 * c)) by (apply Rdiv_lt_0_compat; nra).
    replace (a + - b / (2 * c) * b + - b / (2 * c) * (- b / (2 * c)) * c) with (a + - (b * b / (4 * c))) in H0 by (field; lra). lra.
Qed.

(** ** The objective *)
Record pt := Pt { pA : ent; pB : nat -> ent; pC : ent }.
Definition z2 : ent := fun _ _ => 0.
Definition z3 : nat -> ent := fun _ => z2.
Definition add (x : pt) (t : R) (d : pt) : pt :=
  Pt (fun i r => pA x i r + t * pA d i r) (fun i j r => pB x i j r + t * pB d i j r) (fun k r => pC x k r + t * pC d k r).
Definition diff (x y : pt) : pt :=
  Pt (fun i r => pA x i r - pA y i r) (fun i j r => pB x i j r - pB y i j r) (fun k r => pC x k r - pC y k r).

Section Obj.
Variables (I K n : nat) (J : nat -> nat) (X : nat -> ent) (lA lB lC : R).

Definition S3 (f : nat -> nat -> nat -> R) : R := Sum I (fun i => Sum (J i) (fun j => Sum K (fun k => f i j k))).
Definition T (x : pt) i j k : R := Sum n (fun r => pB x i j r * pA x i r * pC x k r).
Definition U (x d : pt) i j k : R :=
  Sum n (fun r => pB d i j r * pA x i r * pC x k r + pB x i j r * pA d i r * pC x k r + pB x i j r * pA x i r * pC d k r).
Definition pair2 (x y : pt) : R :=
  lA * Sum I (fun i => Sum n (fun r => pA x i r * pA y i r)) +
  lB * Sum I (fun i => Sum (J i) (fun j => Sum n (fun r => pB x i j r * pB y i j r))) +
  lC * Sum K (fun k => Sum n (fun r => pC x k r * pC y k r)).
Definition F (x : pt) : R := 1 / 2 * S3 (fun i j k => (X i j k - T x i j k) ^ 2) + 1 / 2 * pair2 x x.
Definition DF (x d : pt) : R := S3 (fun i j k => (T x i j k - X i j k) * U x d i j k) + pair2 x d.
Definition nrm2 (x : pt) : R :=
  Sum I (fun i => Sum n (fun r => pA x i r ^ 2)) + Sum I (fun i => Sum (J i) (fun j => Sum n (fun r => pB x i j r ^ 2))) +
  Sum K (fun k => Sum n (fun r => pC x k r ^ 2)).

Lemma quad_S3 f a b c : (forall i j k, quad (f i j k) (a i j k) (b i j k) (c i j k)) ->
  quad (fun t => S3 (fun i j k => f i j k t)) (S3 a) (S3 b) (S3 c).
Proof.
  intros H. unfold S3. apply (quad_Sum I (fun i t => Sum (J i) (fun j => Sum K (fun k => f i j k t)))). intros i _.
  apply (quad_Sum (J i) (fun j t => Sum K (fun k => f i j k t))). intros j _.
  apply (quad_Sum K (fun k t => f i j k t)). intros k _. apply H.
Qed.
Lemma quad_pair x d : quad (fun t => pair2 (add x t d) (add x t d)) (pair2 x x) (2 * pair2 x d) (pair2 d d).
Proof.
  unfold pair2. rewrite !Rmult_plus_distr_l.
  assert (E : forall l s, 2 * (l * s) = l * (2 * s)) by (intros; ring). rewrite !E.
  apply quad_plus; [apply quad_plus|]; apply quad_scal.
  - rewrite <- Sum_mul. apply (quad_Sum I (fun i t => Sum n (fun r => pA (add x t d) i r * pA (add x t d) i r))). intros i _.
    rewrite <- Sum_mul. apply (quad_Sum n (fun r t => pA (add x t d) i r * pA (add x t d) i r)). intros r _ t. cbn. ring.
  - rewrite <- Sum_mul. apply (quad_Sum I (fun i t => Sum (J i) (fun j => Sum n (fun r => pB (add x t d) i j r * pB (add x t d) i j r)))). intros i _.
    rewrite <- Sum_mul. apply (quad_Sum (J i) (fun j t => Sum n (fun r => pB (add x t d) i j r * pB (add x t d) i j r))). intros j _.
    rewrite <- Sum_mul. apply (quad_Sum n (fun r t => pB (add x t d) i j r * pB (add x t d) i j r)). intros r _ t. cbn. ring.
  - rewrite <- Sum_mul. apply (quad_Sum K (fun i t => Sum n (fun r => pC (add x t d) i r * pC (add x t d) i r))). intros i _.
    rewrite <- Sum_mul. apply (quad_Sum n (fun r t => pC (add x t d) i r * pC (add x t d) i r)). intros r _ t. cbn. ring.
Qed.
(** directions in which the represented matrices move along a line *)
Definition straight (x d : pt) : Prop := forall t i j k, T (add x t d) i j k = T x i j k + t * U x d i j k.
Lemma straight_A x D : straight x (Pt D z3 z2).
Proof. intros t i j k. unfold T, U. rewrite <- Sum_mul, <- Sum_add. apply Sum_ext. intros r _. cbn. unfold z3, z2. ring. Qed.
Lemma straight_B x D : straight x (Pt z2 D z2).
Proof. intros t i j k. unfold T, U. rewrite <- Sum_mul, <- Sum_add. apply Sum_ext. intros r _. cbn. unfold z2. ring. Qed.
Lemma straight_C x D : straight x (Pt z2 z3 D).
Proof. intros t i j k. unfold T, U. rewrite <- Sum_mul, <- Sum_add. apply Sum_ext. intros r _. cbn. unfold z3, z2. ring. Qed.
Lemma quad_F x d : straight x d ->
  quad (fun t => F (add x t d)) (F x) (DF x d) (1 / 2 * S3 (fun i j k => U x d i j k ^ 2) + 1 / 2 * pair2 d d).
Proof.
  intros H. unfold F, DF.
  replace (S3 (fun i j k => (T x i j k - X i j k) * U x d i j k) + pair2 x d)
    with (1 / 2 * S3 (fun i j k => 2 * ((T x i j k - X i j k) * U x d i j k)) + 1 / 2 * (2 * pair2 x d)).
  2: { unfold S3. replace (1 / 2 * (2 * pair2 x d)) with (pair2 x d) by field. f_equal. rewrite <- Sum_mul. apply Sum_ext. intros i _. rewrite <- Sum_mul. apply Sum_ext. intros j _.
       rewrite <- Sum_mul. apply Sum_ext. intros k _. field. }
  apply quad_plus; apply quad_scal; [|apply quad_pair].
  apply (quad_S3 (fun i j k t => (X i j k - T (add x t d) i j k) ^ 2)). intros i j k t. rewrite H. ring.
Qed.
Lemma S3_pos f : (forall i j k, 0 <= f i j k) -> 0 <= S3 f.
Proof. intros H. unfold S3. apply Sum_pos. intros i _. apply Sum_pos. intros j _. apply Sum_pos. intros k _. apply H. Qed.
(** a block minimum: no slope in the block, and strong growth *)
Lemma block_min x d : straight x d -> (forall t, F x <= F (add x t d)) -> DF x d = 0 /\ F x + 1 / 2 * pair2 d d <= F (add x 1 d).
Proof.
  intros H M. pose proof (quad_F x d H) as Q. pose proof (quad_min _ _ _ _ Q M) as Z. split; [assumption|].
  rewrite (Q 1), Z. pose proof (S3_pos (fun i j k => U x d i j k ^ 2) ltac:(intros; apply pow2_ge_0)). lra.
Qed.

(** ** The derivative *)
Lemma dlim_Sum m (f : nat -> R -> R) l t : (forall i, (i < m)%nat -> derivable_pt_lim (f i) t (l i)) ->
  derivable_pt_lim (fun s => Sum m (fun i => f i s)) t (Sum m l).
Proof.
  induction m as [|m IH]; intros H; cbn [Sum]; [apply derivable_pt_lim_const|].
  apply (derivable_pt_lim_plus (fun s => Sum m (fun i => f i s)) (f m)); [apply IH; intros; apply H; lia|apply H; lia].
Qed.
Lemma dlim_eq f t l l' : derivable_pt_lim f t l -> l = l' -> derivable_pt_lim f t l'.
Proof. now intros H <-. Qed.
Lemma dlim_mult f g t l l' : derivable_pt_lim f t l -> derivable_pt_lim g t l' -> derivable_pt_lim (fun s => f s * g s) t (l * g t + f t * l').
Proof. intros H1 H2. exact (derivable_pt_lim_mult f g t l l' H1 H2). Qed.
Lemma dlim_plus f g t l l' : derivable_pt_lim f t l -> derivable_pt_lim g t l' -> derivable_pt_lim (fun s => f s + g s) t (l + l').
Proof. intros H1 H2. exact (derivable_pt_lim_plus f g t l l' H1 H2). Qed.
Lemma dlim_scal c f t l : derivable_pt_lim f t l -> derivable_pt_lim (fun s => c * f s) t (c * l).
Proof. intros H1. exact (derivable_pt_lim_scal f c t l H1). Qed.
Lemma dlim_line a b t : derivable_pt_lim (fun s => a + s * b) t b.
Proof.
  eapply dlim_eq; [apply dlim_plus; [apply derivable_pt_lim_const|apply (dlim_mult (fun s => s) (fun _ => b)); [apply derivable_pt_lim_id|apply derivable_pt_lim_const]]|]. ring.
Qed.
Lemma dlim_T x d i j k : derivable_pt_lim (fun t => T (add x t d) i j k) 0 (U x d i j k).
Proof.
  unfold T, U. apply (dlim_Sum n (fun r t => pB (add x t d) i j r * pA (add x t d) i r * pC (add x t d) k r)). intros r _.
  eapply dlim_eq; [apply (dlim_mult (fun t => pB (add x t d) i j r * pA (add x t d) i r) (fun t => pC (add x t d) k r));
    [apply (dlim_mult (fun t => pB (add x t d) i j r) (fun t => pA (add x t d) i r))|]; apply dlim_line|]. cbn. ring.
Qed.
Lemma dlim_quad f a b c : quad f a b c -> derivable_pt_lim f 0 b.
Proof.
  intros Q. apply (dlim_eq _ _ (b + (b * 0 + 0 * 0)));[|ring].
  assert (E : f = fun t => (a + t * b) + t * (t * c)) by (extensionality t; rewrite Q; ring). rewrite E.
  apply dlim_plus; [apply dlim_line|].
  eapply dlim_eq; [apply (dlim_mult (fun t => t) (fun t => t * c)); [apply derivable_pt_lim_id|apply (dlim_mult (fun t => t) (fun _ => c)); [apply derivable_pt_lim_id|apply derivable_pt_lim_const]]|]. ring.
Qed.
Lemma dlim_F x d : derivable_pt_lim (fun t => F (add x t d)) 0 (DF x d).
Proof.
  unfold F, DF.
  replace (S3 (fun i j k => (T x i j k - X i j k) * U x d i j k) + pair2 x d)
    with (1 / 2 * S3 (fun i j k => 2 * ((T x i j k - X i j k) * U x d i j k)) + 1 / 2 * (2 * pair2 x d)).
  2: { unfold S3. replace (1 / 2 * (2 * pair2 x d)) with (pair2 x d) by field. f_equal. rewrite <- Sum_mul. apply Sum_ext. intros i _. rewrite <- Sum_mul. apply Sum_ext. intros j _.
       rewrite <- Sum_mul. apply Sum_ext. intros k _. field. }
  apply dlim_plus; apply dlim_scal; [|eapply dlim_quad, quad_pair].
  unfold S3. apply (dlim_Sum I (fun i t => Sum (J i) (fun j => Sum K (fun k => (X i j k - T (add x t d) i j k) ^ 2)))). intros i _.
  apply (dlim_Sum (J i) (fun j t => Sum K (fun k => (X i j k - T (add x t d) i j k) ^ 2))). intros j _.
  apply (dlim_Sum K (fun k t => (X i j k - T (add x t d) i j k) ^ 2)). intros k _.
  assert (E : (fun t => (X i j k - T (add x t d) i j k) ^ 2) = fun t => (X i j k + (-1) * T (add x t d) i j k) * (X i j k + (-1) * T (add x t d) i j k)) by (extensionality t; ring).
  rewrite E.
  assert (D1 : derivable_pt_lim (fun t => X i j k + (-1) * T (add x t d) i j k) 0 (- U x d i j k)).
  { eapply dlim_eq; [apply dlim_plus; [apply derivable_pt_lim_const|apply dlim_scal, dlim_T]|]. ring. }
  eapply dlim_eq; [apply dlim_mult; exact D1|]. cbn beta.
  assert (E0 : T (add x 0 d) i j k = T x i j k). { unfold T. apply Sum_ext. intros r _. cbn. ring. }
  rewrite E0. ring.
Qed.
Lemma DF_lin x d1 d2 d3 : DF x (Pt (pA d1) (pB d2) (pC d3)) = DF x (Pt (pA d1) z3 z2) + DF x (Pt z2 (pB d2) z2) + DF x (Pt z2 z3 (pC d3)).
Proof.
  unfold DF. 
  assert (E1 : S3 (fun i j k => (T x i j k - X i j k) * U x (Pt (pA d1) (pB d2) (pC d3)) i j k) =
    S3 (fun i j k => (T x i j k - X i j k) * U x (Pt (pA d1) z3 z2) i j k) + S3 (fun i j k => (T x i j k - X i j k) * U x (Pt z2 (pB d2) z2) i j k) +
    S3 (fun i j k => (T x i j k - X i j k) * U x (Pt z2 z3 (pC d3)) i j k)).
  { unfold S3. rewrite <- !Sum_add. apply Sum_ext. intros i _. rewrite <- !Sum_add. apply Sum_ext. intros j _. rewrite <- !Sum_add. apply Sum_ext. intros k _.
    rewrite <- !Rmult_plus_distr_l. f_equal. unfold U. rewrite <- !Sum_add. apply Sum_ext. intros r _. cbn. unfold z3, z2. ring. }
  rewrite E1. unfold pair2. cbn.
  assert (Z : forall a m f, a * Sum m (fun i => Sum n (fun r => f i r * z2 i r)) = 0).
  { intros a m f. rewrite (Sum_zero m); [ring|]. intros i _. apply Sum_zero. intros r _. unfold z2. ring. }
  assert (Z' : forall a f, a * Sum I (fun i => Sum (J i) (fun j => Sum n (fun r => f i j r * z3 i j r))) = 0).
  { intros a f. rewrite (Sum_zero I); [ring|]. intros i _. apply Sum_zero. intros j _. apply Sum_zero. intros r _. unfold z3, z2. ring. }
  rewrite !Z, !Z'. ring.
Qed.

(** ** Bounded and Lipschitz on bounded sets, uniformly in small directions *)
Definition bnd (M : R) (x : pt) : Prop :=
  (forall i r, (i < I)%nat -> (r < n)%nat -> Rabs (pA x i r) <= M) /\
  (forall i j r, (i < I)%nat -> (j < J i)%nat -> (r < n)%nat -> Rabs (pB x i j r) <= M) /\
  (forall k r, (k < K)%nat -> (r < n)%nat -> Rabs (pC x k r) <= M).
Definition tame (f : pt -> pt -> R) : Prop := forall M, exists L, 0 <= L /\
  forall x y d e, 0 <= e -> bnd M x -> bnd M y -> bnd 1 d -> bnd e (diff x y) -> Rabs (f x d) <= L /\ Rabs (f x d - f y d) <= L * e.
Lemma tame_const c : tame (fun _ _ => c).
Proof. intros M. exists (Rabs c). pose proof (Rabs_pos c). split; [assumption|]. intros x y d e He _ _ _ _. split; [lra|]. replace (c - c) with 0 by ring. rewrite Rabs_R0. nra. Qed.
Lemma tame_A i r : (i < I)%nat -> (r < n)%nat -> tame (fun x _ => pA x i r).
Proof.
  intros Hi Hr M. exists (Rmax (Rabs M) 1). pose proof (Rmax_l (Rabs M) 1). pose proof (Rmax_r (Rabs M) 1). split; [lra|].
  intros x y d e He (B1 & _) _ _ (D1 & _). specialize (B1 i r Hi Hr). specialize (D1 i r Hi Hr). cbn in D1. pose proof (Rle_abs M). split; [lra|]. nra.
Qed.
Lemma tame_B i j r : (i < I)%nat -> (j < J i)%nat -> (r < n)%nat -> tame (fun x _ => pB x i j r).
Proof.
  intros Hi Hj Hr M. exists (Rmax (Rabs M) 1). pose proof (Rmax_l (Rabs M) 1). pose proof (Rmax_r (Rabs M) 1). split; [lra|].
  intros x y d e He (_ & B1 & _) _ _ (_ & D1 & _). specialize (B1 i j r Hi Hj Hr). specialize (D1 i j r Hi Hj Hr). cbn in D1. pose proof (Rle_abs M). split; [lra|]. nra.
Qed.
Lemma tame_C k r : (k < K)%nat -> (r < n)%nat -> tame (fun x _ => pC x k r).
Proof.
  intros Hi Hr M. exists (Rmax (Rabs M) 1). pose proof (Rmax_l (Rabs M) 1). pose proof (Rmax_r (Rabs M) 1). split; [lra|].
  intros x y d e He (_ & _ & B1) _ _ (_ & _ & D1). specialize (B1 k r Hi Hr). specialize (D1 k r Hi Hr). cbn in D1. pose proof (Rle_abs M). split; [lra|]. nra.
Qed.
Lemma tame_dir (g : pt -> R) : (forall d, bnd 1 d -> Rabs (g d) <= 1) -> tame (fun _ d => g d).
Proof.
  intros H M. exists 1. split; [lra|]. intros x y d e He _ _ Hd _. split; [now apply H|]. replace (g d - g d) with 0 by ring. rewrite Rabs_R0. lra.
Qed.
Lemma tame_plus f g : tame f -> tame g -> tame (fun x d => f x d + g x d).
Proof.
  intros Hf Hg M. destruct (Hf M) as (L1 & P1 & H1), (Hg M) as (L2 & P2 & H2). exists (L1 + L2). split; [lra|].
  intros x y d e He Bx By Bd Bxy. destruct (H1 x y d e He Bx By Bd Bxy) as (A1 & A2), (H2 x y d e He Bx By Bd Bxy) as (A3 & A4). split.
  - eapply Rle_trans; [apply Rabs_triang|]. lra.
  - replace (f x d + g x d - (f y d + g y d)) with ((f x d - f y d) + (g x d - g y d)) by ring. eapply Rle_trans; [apply Rabs_triang|]. lra.
Qed.
Lemma tame_mult f g : tame f -> tame g -> tame (fun x d => f x d * g x d).
Proof.
  intros Hf Hg M. destruct (Hf M) as (L1 & P1 & H1), (Hg M) as (L2 & P2 & H2). exists (2 * (L1 * L2)). assert (0 <= L1 * L2) by nra. split; [lra|].
  intros x y d e He Bx By Bd Bxy. destruct (H1 x y d e He Bx By Bd Bxy) as (A1 & A2), (H2 x y d e He Bx By Bd Bxy) as (A3 & A4).
  assert (Byx : bnd e (diff y x)).
  { destruct Bxy as (Q1 & Q2 & Q3). cbn in *. split; [|split]; intros; cbn; rewrite Rabs_minus_sym; auto. }
  destruct (H1 y x d e He By Bx Bd Byx) as (A5 & _). destruct (H2 y x d e He By Bx Bd Byx) as (A7 & _).
  pose proof (Rabs_pos (f x d)). pose proof (Rabs_pos (g x d)). pose proof (Rabs_pos (f x d - f y d)). pose proof (Rabs_pos (g x d - g y d)). pose proof (Rabs_pos (g y d)).
  split.
  - rewrite Rabs_mult. assert (Rabs (f x d) * Rabs (g x d) <= L1 * L2) by (apply Rmult_le_compat; assumption). lra.
  - replace (f x d * g x d - f y d * g y d) with (f x d * (g x d - g y d) + (f x d - f y d) * g y d) by ring. eapply Rle_trans; [apply Rabs_triang|].
    rewrite !Rabs_mult.
    assert (Rabs (f x d) * Rabs (g x d - g y d) <= L1 * (L2 * e)) by (apply Rmult_le_compat; assumption).
    assert (Rabs (f x d - f y d) * Rabs (g y d) <= L1 * e * L2) by (apply Rmult_le_compat; assumption). lra.
Qed.
Lemma tame_Sum m (f : nat -> pt -> pt -> R) : (forall i, (i < m)%nat -> tame (f i)) -> tame (fun x d => Sum m (fun i => f i x d)).
Proof.
  induction m as [|m IH]; intros H; cbn [Sum]; [apply tame_const|].
  apply (tame_plus (fun x d => Sum m (fun i => f i x d)) (f m)); [apply IH; intros; apply H; lia|apply H; lia].
Qed.
Lemma tame_dA i r : (i < I)%nat -> (r < n)%nat -> tame (fun _ d => pA d i r).
Proof. intros Hi Hr. apply (tame_dir (fun d => pA d i r)). intros d (H & _). auto. Qed.
Lemma tame_dB i j r : (i < I)%nat -> (j < J i)%nat -> (r < n)%nat -> tame (fun _ d => pB d i j r).
Proof. intros Hi Hj Hr. apply (tame_dir (fun d => pB d i j r)). intros d (_ & H & _). auto. Qed.
Lemma tame_dC k r : (k < K)%nat -> (r < n)%nat -> tame (fun _ d => pC d k r).
Proof. intros Hi Hr. apply (tame_dir (fun d => pC d k r)). intros d (_ & _ & H). auto. Qed.
Lemma tame_DF : tame DF.
Proof.
  unfold DF. apply (tame_plus (fun x d => S3 (fun i j k => (T x i j k - X i j k) * U x d i j k)) pair2).
  - unfold S3. apply (tame_Sum I (fun i x d => Sum (J i) (fun j => Sum K (fun k => (T x i j k - X i j k) * U x d i j k)))). intros i Hi.
    apply (tame_Sum (J i) (fun j x d => Sum K (fun k => (T x i j k - X i j k) * U x d i j k))). intros j Hj.
    apply (tame_Sum K (fun k x d => (T x i j k - X i j k) * U x d i j k)). intros k Hk.
    apply (tame_mult (fun x _ => T x i j k - X i j k) (fun x d => U x d i j k)).
    + apply (tame_plus (fun x _ => T x i j k) (fun _ _ => - X i j k)); [|apply tame_const].
      apply (tame_Sum n (fun r x _ => pB x i j r * pA x i r * pC x k r)). intros r Hr.
      apply (tame_mult (fun x _ => pB x i j r * pA x i r) (fun x _ => pC x k r)); [|now apply tame_C].
      apply (tame_mult (fun x _ => pB x i j r) (fun x _ => pA x i r)); [now apply tame_B|now apply tame_A].
    + unfold U. apply (tame_Sum n (fun r x d => pB d i j r * pA x i r * pC x k r + pB x i j r * pA d i r * pC x k r + pB x i j r * pA x i r * pC d k r)).
      intros r Hr. 
      apply (tame_plus (fun x d => pB d i j r * pA x i r * pC x k r + pB x i j r * pA d i r * pC x k r) (fun x d => pB x i j r * pA x i r * pC d k r));
        [apply (tame_plus (fun x d => pB d i j r * pA x i r * pC x k r) (fun x d => pB x i j r * pA d i r * pC x k r))|].
      * apply (tame_mult (fun x d => pB d i j r * pA x i r) (fun x _ => pC x k r)); [|now apply tame_C].
        apply (tame_mult (fun _ d => pB d i j r) (fun x _ => pA x i r)); [now apply tame_dB|now apply tame_A].
      * apply (tame_mult (fun x d => pB x i j r * pA d i r) (fun x _ => pC x k r)); [|now apply tame_C].
        apply (tame_mult (fun x _ => pB x i j r) (fun _ d => pA d i r)); [now apply tame_B|now apply tame_dA].
      * apply (tame_mult (fun x _ => pB x i j r * pA x i r) (fun _ d => pC d k r)); [|now apply tame_dC].
        apply (tame_mult (fun x _ => pB x i j r) (fun x _ => pA x i r)); [now apply tame_B|now apply tame_A].
  - unfold pair2.
    apply (tame_plus (fun x d => lA * Sum I (fun i => Sum n (fun r => pA x i r * pA d i r)) + lB * Sum I (fun i => Sum (J i) (fun j => Sum n (fun r => pB x i j r * pB d i j r))))
      (fun x d => lC * Sum K (fun k => Sum n (fun r => pC x k r * pC d k r))));
      [apply (tame_plus (fun x d => lA * Sum I (fun i => Sum n (fun r => pA x i r * pA d i r))) (fun x d => lB * Sum I (fun i => Sum (J i) (fun j => Sum n (fun r => pB x i j r * pB d i j r)))))|].
    + apply (tame_mult (fun _ _ => lA) (fun x d => Sum I (fun i => Sum n (fun r => pA x i r * pA d i r)))); [apply tame_const|].
      apply (tame_Sum I (fun i x d => Sum n (fun r => pA x i r * pA d i r))). intros i Hi.
      apply (tame_Sum n (fun r x d => pA x i r * pA d i r)). intros r Hr. apply (tame_mult (fun x _ => pA x i r) (fun _ d => pA d i r)); [now apply tame_A|now apply tame_dA].
    + apply (tame_mult (fun _ _ => lB) (fun x d => Sum I (fun i => Sum (J i) (fun j => Sum n (fun r => pB x i j r * pB d i j r))))); [apply tame_const|].
      apply (tame_Sum I (fun i x d => Sum (J i) (fun j => Sum n (fun r => pB x i j r * pB d i j r)))). intros i Hi.
      apply (tame_Sum (J i) (fun j x d => Sum n (fun r => pB x i j r * pB d i j r))). intros j Hj.
      apply (tame_Sum n (fun r x d => pB x i j r * pB d i j r)). intros r Hr. apply (tame_mult (fun x _ => pB x i j r) (fun _ d => pB d i j r)); [now apply tame_B|now apply tame_dB].
    + apply (tame_mult (fun _ _ => lC) (fun x d => Sum K (fun i => Sum n (fun r => pC x i r * pC d i r)))); [apply tame_const|].
      apply (tame_Sum K (fun i x d => Sum n (fun r => pC x i r * pC d i r))). intros i Hi.
      apply (tame_Sum n (fun r x d => pC x i r * pC d i r)). intros r Hr. apply (tame_mult (fun x _ => pC x i r) (fun _ d => pC d i r)); [now apply tame_C|now apply tame_dC].
Qed.

(** ** Norms *)
Lemma nrm2_parts x : 0 <= Sum I (fun i => Sum n (fun r => pA x i r ^ 2)) /\ 0 <= Sum I (fun i => Sum (J i) (fun j => Sum n (fun r => pB x i j r ^ 2))) /\
  0 <= Sum K (fun k => Sum n (fun r => pC x k r ^ 2)).
Proof. split; [|split]; repeat (apply Sum_pos; intros); apply pow2_ge_0. Qed.
Lemma nrm2_pos x : 0 <= nrm2 x.
Proof. destruct (nrm2_parts x) as (? & ? & ?). unfold nrm2. lra. Qed.
Lemma sq_abs a e : 0 <= e -> a ^ 2 <= e ^ 2 -> Rabs a <= e.
Proof. intros He H. apply Rsqr_le_abs_0 in H || (apply Rsqr_incr_0_var; [|assumption]; rewrite <- Rsqr_abs; unfold Rsqr; nra). Qed.
Lemma entry_A x i r : (i < I)%nat -> (r < n)%nat -> pA x i r ^ 2 <= Sum I (fun i => Sum n (fun r => pA x i r ^ 2)).
Proof.
  intros Hi Hr. eapply Rle_trans; [|apply (Sum_term I (fun i => Sum n (fun r => pA x i r ^ 2)) i); [|assumption]].
  - apply (Sum_term n (fun r => pA x i r ^ 2)); [intros; apply pow2_ge_0|assumption].
  - intros. apply Sum_pos. intros. apply pow2_ge_0.
Qed.
Lemma entry_C x k r : (k < K)%nat -> (r < n)%nat -> pC x k r ^ 2 <= Sum K (fun i => Sum n (fun r => pC x i r ^ 2)).
Proof.
  intros Hi Hr. eapply Rle_trans; [|apply (Sum_term K (fun i => Sum n (fun r => pC x i r ^ 2)) k); [|assumption]].
  - apply (Sum_term n (fun r => pC x k r ^ 2)); [intros; apply pow2_ge_0|assumption].
  - intros. apply Sum_pos. intros. apply pow2_ge_0.
Qed.
Lemma entry_B x i j r : (i < I)%nat -> (j < J i)%nat -> (r < n)%nat -> pB x i j r ^ 2 <= Sum I (fun i => Sum (J i) (fun j => Sum n (fun r => pB x i j r ^ 2))).
Proof.
  intros Hi Hj Hr. eapply Rle_trans; [|apply (Sum_term I (fun i => Sum (J i) (fun j => Sum n (fun r => pB x i j r ^ 2))) i); [|assumption]].
  - eapply Rle_trans; [|apply (Sum_term (J i) (fun j => Sum n (fun r => pB x i j r ^ 2)) j); [|assumption]].
    + apply (Sum_term n (fun r => pB x i j r ^ 2)); [intros; apply pow2_ge_0|assumption].
    + intros. apply Sum_pos. intros. apply pow2_ge_0.
  - intros. apply Sum_pos. intros. apply Sum_pos. intros. apply pow2_ge_0.
Qed.
Lemma nrm2_bnd x e : 0 <= e -> nrm2 x <= e ^ 2 -> bnd e x.
Proof.
  intros He H. destruct (nrm2_parts x) as (? & ? & ?). unfold nrm2 in H. split; [|split]; intros; apply sq_abs; try assumption.
  - pose proof (entry_A x i r ltac:(assumption) ltac:(assumption)). lra.
  - pose proof (entry_B x i j r ltac:(assumption) ltac:(assumption) ltac:(assumption)). lra.
  - pose proof (entry_C x k r ltac:(assumption) ltac:(assumption)). lra.
Qed.

(** ** One round of block updates *)
Variables (uA uB uC : bool) (l : R).
Hypothesis Hl : 0 < l.
Hypothesis LA : 0 <= lA /\ (uA = true -> l <= lA).
Hypothesis LB : 0 <= lB /\ (uB = true -> l <= lB).
Hypothesis LC : 0 <= lC /\ (uC = true -> l <= lC).

Definition best_A (y : pt) : Prop := forall Z, F y <= F (Pt Z (pB y) (pC y)).
Definition best_B (y : pt) : Prop := forall Z, F y <= F (Pt (pA y) Z (pC y)).
Definition best_C (y : pt) : Prop := forall Z, F y <= F (Pt (pA y) (pB y) Z).
(** B, then C, then A *)
Record round (x y1 y2 y : pt) : Prop := {
  r_B : pA y1 = pA x /\ pC y1 = pC x /\ (if uB then best_B y1 else pB y1 = pB x);
  r_C : pA y2 = pA y1 /\ pB y2 = pB y1 /\ (if uC then best_C y2 else pC y2 = pC y1);
  r_A : pB y = pB y2 /\ pC y = pC y2 /\ (if uA then best_A y else pA y = pA y2)
}.
Definition sqA (x : pt) := Sum I (fun i => Sum n (fun r => pA x i r ^ 2)).
Definition sqB (x : pt) := Sum I (fun i => Sum (J i) (fun j => Sum n (fun r => pB x i j r ^ 2))).
Definition sqC (x : pt) := Sum K (fun i => Sum n (fun r => pC x i r ^ 2)).
Lemma pt_ext x A B C : pA x = A -> pB x = B -> pC x = C -> x = Pt A B C.
Proof. destruct x. cbn. now intros -> -> ->. Qed.
Lemma Sum2_zero m : Sum m (fun i => Sum n (fun r => z2 i r ^ 2)) = 0.
Proof. apply Sum_zero. intros. apply Sum_zero. intros. unfold z2. ring. Qed.
Lemma sq_zero2 m f : (forall i r, f i r = 0) -> Sum m (fun i => Sum n (fun r => f i r ^ 2)) = 0.
Proof. intros H. apply Sum_zero. intros. apply Sum_zero. intros. rewrite H. ring. Qed.
Lemma pair2_sq d : pair2 d d = lA * sqA d + lB * sqB d + lC * sqC d.
Proof.
  unfold pair2, sqA, sqB, sqC. f_equal; [f_equal|]; f_equal.
  - apply Sum_ext. intros. apply Sum_ext. intros. ring.
  - apply Sum_ext. intros. apply Sum_ext. intros. apply Sum_ext. intros. ring.
  - apply Sum_ext. intros. apply Sum_ext. intros. ring.
Qed.
Lemma sq_pos x : 0 <= sqA x /\ 0 <= sqB x /\ 0 <= sqC x.
Proof. apply nrm2_parts. Qed.
Lemma gain_A y : best_A y -> (forall D, DF y (Pt D z3 z2) = 0) /\ forall x, pB x = pB y -> pC x = pC y -> F y + lA / 2 * sqA (diff x y) <= F x.
Proof.
  intros H.
  assert (M : forall D t, F y <= F (add y t (Pt D z3 z2))).
  { intros D t. replace (add y t (Pt D z3 z2)) with (Pt (fun i r => pA y i r + t * D i r) (pB y) (pC y)); [apply H|].
    unfold add. cbn. unfold z3, z2. f_equal; [extensionality i; extensionality j; extensionality r; ring|extensionality i; extensionality r; ring]. }
  split; [intros D; now apply (block_min y (Pt D z3 z2) (straight_A y D))|].
  intros x EB EC. destruct (block_min y (Pt (pA (diff x y)) z3 z2) (straight_A y _) (M _)) as (_ & G).
  rewrite pair2_sq in G. replace (add y 1 (Pt (pA (diff x y)) z3 z2)) with x in G.
  2: { rewrite (pt_ext x (pA x) (pB y) (pC y) eq_refl EB EC) at 1. unfold add, diff. cbn. unfold z3, z2. f_equal; [extensionality i; extensionality r; ring|extensionality i; extensionality j; extensionality r; ring|extensionality i; extensionality r; ring]. }
  unfold sqB, sqC in G. cbn in G.
  rewrite (Sum_zero I (fun i => Sum (J i) (fun j => Sum n (fun r => z3 i j r * (z3 i j r * 1))))) in G by (intros; apply Sum_zero; intros; apply Sum_zero; intros; unfold z3, z2; ring).
  rewrite (Sum_zero K (fun i => Sum n (fun r => z2 i r * (z2 i r * 1)))) in G by (intros; apply Sum_zero; intros; unfold z2; ring).
  unfold sqA in *. cbn in *. lra.
Qed.
Lemma gain_B y : best_B y -> (forall D, DF y (Pt z2 D z2) = 0) /\ forall x, pA x = pA y -> pC x = pC y -> F y + lB / 2 * sqB (diff x y) <= F x.
Proof.
  intros H.
  assert (M : forall D t, F y <= F (add y t (Pt z2 D z2))).
  { intros D t. replace (add y t (Pt z2 D z2)) with (Pt (pA y) (fun i j r => pB y i j r + t * D i j r) (pC y)); [apply H|].
    unfold add. cbn. unfold z3, z2. f_equal; extensionality i; extensionality r; ring. }
  split; [intros D; now apply (block_min y (Pt z2 D z2) (straight_B y D))|].
  intros x EB EC. destruct (block_min y (Pt z2 (pB (diff x y)) z2) (straight_B y _) (M _)) as (_ & G).
  rewrite pair2_sq in G. replace (add y 1 (Pt z2 (pB (diff x y)) z2)) with x in G.
  2: { rewrite (pt_ext x (pA y) (pB x) (pC y) EB eq_refl EC) at 1. unfold add, diff. cbn. unfold z3, z2. f_equal; [extensionality i; extensionality r; ring|extensionality i; extensionality j; extensionality r; ring|extensionality i; extensionality r; ring]. }
  unfold sqA, sqC in G. cbn in G.
  rewrite (Sum_zero I (fun i => Sum n (fun r => z2 i r * (z2 i r * 1)))) in G by (intros; apply Sum_zero; intros; unfold z2; ring).
  rewrite (Sum_zero K (fun i => Sum n (fun r => z2 i r * (z2 i r * 1)))) in G by (intros; apply Sum_zero; intros; unfold z2; ring).
  unfold sqB in *. cbn in *. lra.
Qed.
Lemma gain_C y : best_C y -> (forall D, DF y (Pt z2 z3 D) = 0) /\ forall x, pA x = pA y -> pB x = pB y -> F y + lC / 2 * sqC (diff x y) <= F x.
Proof.
  intros H.
  assert (M : forall D t, F y <= F (add y t (Pt z2 z3 D))).
  { intros D t. replace (add y t (Pt z2 z3 D)) with (Pt (pA y) (pB y) (fun i r => pC y i r + t * D i r)); [apply H|].
    unfold add. cbn. unfold z3, z2. f_equal; [extensionality i; extensionality r; ring|extensionality i; extensionality j; extensionality r; ring]. }
  split; [intros D; now apply (block_min y (Pt z2 z3 D) (straight_C y D))|].
  intros x EB EC. destruct (block_min y (Pt z2 z3 (pC (diff x y))) (straight_C y _) (M _)) as (_ & G).
  rewrite pair2_sq in G. replace (add y 1 (Pt z2 z3 (pC (diff x y)))) with x in G.
  2: { rewrite (pt_ext x (pA y) (pB y) (pC x) EB EC eq_refl) at 1. unfold add, diff. cbn. unfold z3, z2. f_equal; [extensionality i; extensionality r; ring|extensionality i; extensionality j; extensionality r; ring|extensionality i; extensionality r; ring]. }
  unfold sqA, sqB in G. cbn in G.
  rewrite (Sum_zero I (fun i => Sum n (fun r => z2 i r * (z2 i r * 1)))) in G by (intros; apply Sum_zero; intros; unfold z2; ring).
  rewrite (Sum_zero I (fun i => Sum (J i) (fun j => Sum n (fun r => z3 i j r * (z3 i j r * 1))))) in G by (intros; apply Sum_zero; intros; apply Sum_zero; intros; unfold z3, z2; ring).
  unfold sqC in *. cbn in *. lra.
Qed.
Lemma sqA_eq x y x' y' : pA x = pA x' -> pA y = pA y' -> sqA (diff x y) = sqA (diff x' y').
Proof. intros E1 E2. unfold sqA, diff. cbn. now rewrite E1, E2. Qed.
Lemma sqB_eq x y x' y' : pB x = pB x' -> pB y = pB y' -> sqB (diff x y) = sqB (diff x' y').
Proof. intros E1 E2. unfold sqB, diff. cbn. now rewrite E1, E2. Qed.
Lemma sqC_eq x y x' y' : pC x = pC x' -> pC y = pC y' -> sqC (diff x y) = sqC (diff x' y').
Proof. intros E1 E2. unfold sqC, diff. cbn. now rewrite E1, E2. Qed.
Lemma sqA_same x y : pA x = pA y -> sqA (diff x y) = 0.
Proof. intros E. unfold sqA, diff. cbn. rewrite E. apply Sum_zero. intros. apply Sum_zero. intros. ring. Qed.
Lemma sqB_same x y : pB x = pB y -> sqB (diff x y) = 0.
Proof. intros E. unfold sqB, diff. cbn. rewrite E. apply Sum_zero. intros. apply Sum_zero. intros. apply Sum_zero. intros. ring. Qed.
Lemma sqC_same x y : pC x = pC y -> sqC (diff x y) = 0.
Proof. intros E. unfold sqC, diff. cbn. rewrite E. apply Sum_zero. intros. apply Sum_zero. intros. ring. Qed.
Lemma round_gain x y1 y2 y : round x y1 y2 y ->
  F y1 <= F x /\ F y2 <= F y1 /\ F y + l / 2 * nrm2 (diff x y) <= F x.
Proof.
  intros [(B1 & B2 & B3) (C1 & C2 & C3) (A1 & A2 & A3)].
  assert (GB : F y1 + l / 2 * sqB (diff x y1) <= F x).
  { destruct uB.
    - destruct (gain_B y1 B3) as (_ & G). specialize (G x (eq_sym B1) (eq_sym B2)). destruct LB as (_ & L). specialize (L eq_refl). pose proof (sq_pos (diff x y1)) as (_ & S & _). nra.
    - rewrite sqB_same by congruence. rewrite (pt_ext y1 (pA x) (pB x) (pC x)) by congruence. destruct x; cbn. lra. }
  assert (GC : F y2 + l / 2 * sqC (diff y1 y2) <= F y1).
  { destruct uC.
    - destruct (gain_C y2 C3) as (_ & G). specialize (G y1 (eq_sym C1) (eq_sym C2)). destruct LC as (_ & L). specialize (L eq_refl). pose proof (sq_pos (diff y1 y2)) as (_ & _ & S). nra.
    - rewrite sqC_same by congruence. rewrite (pt_ext y2 (pA y1) (pB y1) (pC y1)) by congruence. destruct y1; cbn. lra. }
  assert (GA : F y + l / 2 * sqA (diff y2 y) <= F y2).
  { destruct uA.
    - destruct (gain_A y A3) as (_ & G). specialize (G y2 (eq_sym A1) (eq_sym A2)). destruct LA as (_ & L). specialize (L eq_refl). pose proof (sq_pos (diff y2 y)) as (S & _). nra.
    - rewrite sqA_same by congruence. rewrite (pt_ext y (pA y2) (pB y2) (pC y2)) by congruence. destruct y2; cbn. lra. }
  pose proof (sq_pos (diff x y1)) as (_ & S1 & _). pose proof (sq_pos (diff y1 y2)) as (_ & _ & S2).
  split; [nra|]. split; [nra|].
  change (nrm2 (diff x y)) with (sqA (diff x y) + sqB (diff x y) + sqC (diff x y)).
  rewrite (sqA_eq x y y2 y) by congruence. rewrite (sqB_eq x y x y1) by congruence. rewrite (sqC_eq x y y1 y2) by congruence. lra.
Qed.
Lemma F_pos x : 0 <= F x.
Proof.
  unfold F. pose proof (S3_pos (fun i j k => (X i j k - T x i j k) ^ 2) ltac:(intros; apply pow2_ge_0)). rewrite pair2_sq.
  destruct (sq_pos x) as (? & ? & ?). destruct LA as (? & _), LB as (? & _), LC as (? & _).
  assert (0 <= lA * sqA x) by (apply Rmult_le_pos; assumption). assert (0 <= lB * sqB x) by (apply Rmult_le_pos; assumption). assert (0 <= lC * sqC x) by (apply Rmult_le_pos; assumption). lra.
Qed.
(** the updated blocks are bounded in terms of the objective *)
Lemma F_coercive x : (uA = true -> l / 2 * sqA x <= F x) /\ (uB = true -> l / 2 * sqB x <= F x) /\ (uC = true -> l / 2 * sqC x <= F x).
Proof.
  unfold F. pose proof (S3_pos (fun i j k => (X i j k - T x i j k) ^ 2) ltac:(intros; apply pow2_ge_0)). rewrite pair2_sq.
  destruct (sq_pos x) as (? & ? & ?). destruct LA as (? & L1), LB as (? & L2), LC as (? & L3).
  assert (0 <= lA * sqA x) by (apply Rmult_le_pos; assumption). assert (0 <= lB * sqB x) by (apply Rmult_le_pos; assumption). assert (0 <= lC * sqC x) by (apply Rmult_le_pos; assumption).
  split; [|split]; intros U0; [specialize (L1 U0)|specialize (L2 U0)|specialize (L3 U0)].
  - assert (l * sqA x <= lA * sqA x) by (apply Rmult_le_compat_r; assumption). lra.
  - assert (l * sqB x <= lB * sqB x) by (apply Rmult_le_compat_r; assumption). lra.
  - assert (l * sqC x <= lC * sqC x) by (apply Rmult_le_compat_r; assumption). lra.
Qed.
(** directions that leave the other modes alone *)
Definition allowed (d : pt) : Prop :=
  bnd 1 d /\ (uA = false -> pA d = z2) /\ (uB = false -> pB d = z3) /\ (uC = false -> pC d = z2).
Lemma DF_zero x : DF x (Pt z2 z3 z2) = 0.
Proof.
  unfold DF. unfold S3. rewrite (Sum_zero I).
  2: { intros i _. apply Sum_zero. intros j _. apply Sum_zero. intros k _. unfold U. rewrite (Sum_zero n); [ring|]. intros r _. cbn. unfold z3, z2. ring. }
  unfold pair2. cbn. rewrite !(Sum_zero I), (Sum_zero K); [ring| | |]; intros i _; repeat (apply Sum_zero; intros); unfold z3, z2; ring.
Qed.
Lemma round_slope M : exists L, 0 <= L /\ forall x y1 y2 y e, round x y1 y2 y -> bnd M y1 -> bnd M y2 -> bnd M y -> 0 <= e -> nrm2 (diff x y) <= e ^ 2 ->
  forall d, allowed d -> Rabs (DF y d) <= L * e.
Proof.
  destruct (tame_DF M) as (L & PL & HL). exists (2 * L). split; [lra|].
  intros x y1 y2 y e [(B1 & B2 & B3) (C1 & C2 & C3) (A1 & A2 & A3)] M1 M2 M3 He HN d (D1 & DA & DB & DC).
  change (nrm2 (diff x y)) with (sqA (diff x y) + sqB (diff x y) + sqC (diff x y)) in HN. destruct (sq_pos (diff x y)) as (P1 & P2 & P3).
  assert (N1 : bnd e (diff y y1)).
  { apply nrm2_bnd; [assumption|]. change (nrm2 (diff y y1)) with (sqA (diff y y1) + sqB (diff y y1) + sqC (diff y y1)).
    rewrite (sqB_same y y1) by congruence.
    replace (sqA (diff y y1)) with (sqA (diff x y)). 2: { unfold sqA, diff; cbn. rewrite B1. apply Sum_ext. intros. apply Sum_ext. intros. ring. }
    replace (sqC (diff y y1)) with (sqC (diff x y)). 2: { unfold sqC, diff; cbn. rewrite B2. apply Sum_ext. intros. apply Sum_ext. intros. ring. }
    lra. }
  assert (N2 : bnd e (diff y y2)).
  { apply nrm2_bnd; [assumption|]. change (nrm2 (diff y y2)) with (sqA (diff y y2) + sqB (diff y y2) + sqC (diff y y2)).
    rewrite (sqB_same y y2), (sqC_same y y2) by congruence.
    replace (sqA (diff y y2)) with (sqA (diff x y)). 2: { unfold sqA, diff; cbn. rewrite C1, B1. apply Sum_ext. intros. apply Sum_ext. intros. ring. }
    lra. }
  assert (DD : forall A B C, (pA A = pA d \/ pA A = z2) -> (pB B = pB d \/ pB B = z3) -> (pC C = pC d \/ pC C = z2) -> bnd 1 (Pt (pA A) (pB B) (pC C))).
  { intros A B C Q1 Q2 Q3. destruct D1 as (E1 & E2 & E3). split; [|split]; cbn; intros.
    - destruct Q1 as [E|E]; rewrite E; [auto|]. unfold z2. rewrite Rabs_R0. lra.
    - destruct Q2 as [E|E]; rewrite E; [auto|]. unfold z3, z2. rewrite Rabs_R0. lra.
    - destruct Q3 as [E|E]; rewrite E; [auto|]. unfold z2. rewrite Rabs_R0. lra. }
  replace d with (Pt (pA d) (pB d) (pC d)) by (destruct d; reflexivity). rewrite DF_lin.
  assert (RA : DF y (Pt (pA d) z3 z2) = 0).
  { destruct uA; [apply (gain_A y A3)|]. rewrite (DA eq_refl). apply DF_zero. }
  assert (RB : Rabs (DF y (Pt z2 (pB d) z2)) <= L * e).
  { destruct uB.
    - destruct (gain_B y1 B3) as (G & _). destruct (HL y y1 (Pt z2 (pB d) z2) e He M3 M1 (DD (Pt z2 z3 z2) d (Pt z2 z3 z2) (or_intror eq_refl) (or_introl eq_refl) (or_intror eq_refl)) N1) as (_ & Q).
      rewrite G in Q. replace (DF y (Pt z2 (pB d) z2) - 0) with (DF y (Pt z2 (pB d) z2)) in Q by ring. exact Q.
    - rewrite (DB eq_refl), DF_zero, Rabs_R0. now apply Rmult_le_pos. }
  assert (RC : Rabs (DF y (Pt z2 z3 (pC d))) <= L * e).
  { destruct uC.
    - destruct (gain_C y2 C3) as (G & _). destruct (HL y y2 (Pt z2 z3 (pC d)) e He M3 M2 (DD (Pt z2 z3 z2) (Pt z2 z3 z2) d (or_intror eq_refl) (or_intror eq_refl) (or_introl eq_refl)) N2) as (_ & Q).
      rewrite G in Q. replace (DF y (Pt z2 z3 (pC d)) - 0) with (DF y (Pt z2 z3 (pC d))) in Q by ring. exact Q.
    - rewrite (DC eq_refl), DF_zero, Rabs_R0. now apply Rmult_le_pos. }
  rewrite RA. replace (0 + DF y (Pt z2 (pB d) z2) + DF y (Pt z2 z3 (pC d))) with (DF y (Pt z2 (pB d) z2) + DF y (Pt z2 z3 (pC d))) by ring.
  eapply Rle_trans; [apply Rabs_triang|]. lra.
Qed.
(** ** Many rounds from one start *)
Lemma finite_bound m (f : nat -> R) : exists M, forall i, (i < m)%nat -> Rabs (f i) <= M.
Proof.
  induction m as [|m (M & H)]; [exists 0; intros; lia|]. exists (Rmax M (Rabs (f m))). intros i Hi. pose proof (Rmax_l M (Rabs (f m))). pose proof (Rmax_r M (Rabs (f m))).
  destruct (Nat.eq_dec i m) as [->|]; [assumption|]. specialize (H i ltac:(lia)). lra.
Qed.
(** points below the level of x that agree with x in the frozen modes are bounded *)
Definition below (x y : pt) : Prop :=
  F y <= F x /\ (uA = false -> pA y = pA x) /\ (uB = false -> pB y = pB x) /\ (uC = false -> pC y = pC x).
Lemma below_bnd x : exists M, forall y, below x y -> bnd M y.
Proof.
  set (e := sqrt (2 / l * F x)). set (M := sqrt (nrm2 x) + e). exists M. intros y (HF & HA & HB & HC).
  assert (P0 : 0 <= 2 / l * F x) by (apply Rmult_le_pos; [apply Rlt_le, Rdiv_lt_0_compat; lra|apply F_pos]).
  assert (Pe : 0 <= e) by apply sqrt_pos. assert (Ee : e ^ 2 = 2 / l * F x) by (unfold e; rewrite pow2_sqrt; lra).
  assert (Pn : 0 <= sqrt (nrm2 x)) by apply sqrt_pos. assert (En : sqrt (nrm2 x) ^ 2 = nrm2 x) by (rewrite pow2_sqrt; [reflexivity|apply nrm2_pos]).
  assert (BX : bnd (sqrt (nrm2 x)) x) by (apply nrm2_bnd; lra). destruct BX as (X1 & X2 & X3).
  destruct (F_coercive y) as (C1 & C2 & C3).
  assert (SC : forall s, l / 2 * s <= F y -> s <= e ^ 2).
  { intros s Hs. rewrite Ee. assert (s = 2 / l * (l / 2 * s)) by (field; lra). rewrite H. apply Rmult_le_compat_l; [apply Rlt_le, Rdiv_lt_0_compat; lra|lra]. }
  split; [|split]; intros.
  - destruct uA; [|rewrite (HA eq_refl); unfold M; specialize (X1 i r ltac:(assumption) ltac:(assumption)); lra].
    assert (Rabs (pA y i r) <= e); [|unfold M; lra]. apply sq_abs; [assumption|]. pose proof (entry_A y i r ltac:(assumption) ltac:(assumption)). pose proof (SC _ (C1 eq_refl)). unfold sqA in *. lra.
  - destruct uB; [|rewrite (HB eq_refl); unfold M; specialize (X2 i j r ltac:(assumption) ltac:(assumption) ltac:(assumption)); lra].
    assert (Rabs (pB y i j r) <= e); [|unfold M; lra]. apply sq_abs; [assumption|]. pose proof (entry_B y i j r ltac:(assumption) ltac:(assumption) ltac:(assumption)). pose proof (SC _ (C2 eq_refl)). unfold sqB in *. lra.
  - destruct uC; [|rewrite (HC eq_refl); unfold M; specialize (X3 k r ltac:(assumption) ltac:(assumption)); lra].
    assert (Rabs (pC y k r) <= e); [|unfold M; lra]. apply sq_abs; [assumption|]. pose proof (entry_C y k r ltac:(assumption) ltac:(assumption)). pose proof (SC _ (C3 eq_refl)). unfold sqC in *. lra.
Qed.
Lemma below_round x0 x y1 y2 y : below x0 x -> round x y1 y2 y -> below x0 y1 /\ below x0 y2 /\ below x0 y.
Proof.
  intros (H0 & HA & HB & HC) HR. destruct (round_gain _ _ _ _ HR) as (G1 & G2 & G3). pose proof (nrm2_pos (diff x y)).
  destruct HR as [(B1 & B2 & B3) (C1 & C2 & C3) (A1 & A2 & A3)]. assert (0 <= l / 2 * nrm2 (diff x y)) by (apply Rmult_le_pos; lra).
  split; [|split]; (split; [lra|]); (split; [|split]); intros U0; rewrite ?U0 in *; try (rewrite HA by assumption || idtac); try congruence.
  - rewrite B1. auto.
  - rewrite B3. auto.
  - rewrite B2. auto.
  - rewrite C1, B1. auto.
  - rewrite C2, B3. auto.
  - rewrite C3, B2. auto.
  - rewrite A3, C1, B1. auto.
  - rewrite A1, C2, B3. auto.
  - rewrite A2, C3, B2. auto.
Qed.
Theorem rounds_slope x0 : exists L, 0 <= L /\ forall m (xs y1 y2 : nat -> pt), xs 0%nat = x0 ->
  (forall j, (j < m)%nat -> round (xs j) (y1 j) (y2 j) (xs (S j))) ->
  Sum m (fun j => nrm2 (diff (xs j) (xs (S j)))) <= 2 / l * F x0 /\
  forall j d, (j < m)%nat -> allowed d -> Rabs (DF (xs (S j)) d) <= L * sqrt (nrm2 (diff (xs j) (xs (S j)))).
Proof.
  destruct (below_bnd x0) as (M & HM). destruct (round_slope M) as (L & PL & HL). exists L. split; [assumption|].
  intros m xs y1 y2 E0 HR.
  assert (BL : forall j, (j <= m)%nat -> below x0 (xs j)).
  { induction j as [|j IH]; intros Hj; [rewrite E0; split; [lra|auto]|]. destruct (below_round x0 (xs j) (y1 j) (y2 j) (xs (S j)) (IH ltac:(lia)) (HR j ltac:(lia))) as (_ & _ & Q). exact Q. }
  split.
  - assert (Q : forall q, (q <= m)%nat -> l / 2 * Sum q (fun j => nrm2 (diff (xs j) (xs (S j)))) <= F x0 - F (xs q)).
    { induction q as [|q IH]; intros Hq; cbn [Sum]; [rewrite E0; lra|]. specialize (IH ltac:(lia)). destruct (round_gain _ _ _ _ (HR q ltac:(lia))) as (_ & _ & G). lra. }
    specialize (Q m (le_n m)). pose proof (F_pos (xs m)).
    assert (0 < 2 / l) by (apply Rdiv_lt_0_compat; lra).
    apply Rmult_le_reg_l with (l / 2); [lra|]. replace (l / 2 * (2 / l * F x0)) with (F x0) by (field; lra). lra.
  - intros j d Hj Hd. destruct (below_round x0 _ _ _ _ (BL j ltac:(lia)) (HR j Hj)) as (Q1 & Q2 & Q3).
    apply (HL (xs j) (y1 j) (y2 j)); auto; [apply sqrt_pos|]. rewrite pow2_sqrt; [lra|apply nrm2_pos].
Qed.
End Obj.
