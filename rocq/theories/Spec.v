(** Specifications used in the statements of the property theorems.
    They mention only real numbers, lists and sums; nothing of the model. *)
From Coq Require Import Reals List Arith.
Import ListNotations.
Local Open Scope R_scope.

(** [Sum n f] = f 0 + ... + f (n-1) *)
Fixpoint Sum (n : nat) (f : nat -> R) : R :=
  match n with O => 0 | S k => Sum k f + f k end.

(** The i-th entry of a vector (0 outside). *)
Definition at_ (v : list R) (i : nat) : R := nth i v 0.

(** Entries never decrease / never increase. *)
Definition nondecreasing (v : list R) : Prop :=
  forall i j, (i <= j)%nat -> (j < length v)%nat -> at_ v i <= at_ v j.

(** There is a position t such that the entries do not decrease up to t and do
    not increase from t on. *)
Definition unimodal (v : list R) : Prop :=
  exists t, (t < length v)%nat /\
    (forall i j, (i <= j)%nat -> (j <= t)%nat -> at_ v i <= at_ v j) /\
    (forall i j, (t <= i)%nat -> (i <= j)%nat -> (j < length v)%nat -> at_ v j <= at_ v i).

Definition nonneg (v : list R) : Prop := Forall (fun x => 0 <= x) v.

(** Squared distance, and weighted squared distance, of two vectors. *)
Definition sqdist (u v : list R) : R :=
  Sum (length v) (fun i => (at_ u i - at_ v i) ^ 2).
Definition wsqdist (w u v : list R) : R :=
  Sum (length v) (fun i => at_ w i * (at_ u i - at_ v i) ^ 2).

(** ** Matrices, given by their entries *)
Definition ent := nat -> nat -> R.

(** Squared Frobenius distance of two r x c matrices. *)
Definition dist2 (r c : nat) (X Y : ent) : R :=
  Sum r (fun i => Sum c (fun j => (X i j - Y i j) ^ 2)).

(** [X] is the proximal point of [V]: it lies in [dom], and every other [Z] of
    [dom] has a value of f(Z) + rho/2 ||Z - V||^2 that exceeds that of [X] by at
    least rho/2 ||X - Z||^2.  In particular [X] is the unique minimiser. *)
Definition is_prox (r c : nat) (f : ent -> R) (dom : ent -> Prop) (rho : R) (V X : ent) : Prop :=
  dom X /\
  forall Z, dom Z ->
    f X + rho / 2 * dist2 r c X V + rho / 2 * dist2 r c X Z <= f Z + rho / 2 * dist2 r c Z V.

(** [X] is the projection of [V] onto the set [dom]: the case f = 0. *)
Definition is_proj (r c : nat) (dom : ent -> Prop) (V X : ent) : Prop :=
  dom X /\ forall Z, dom Z -> dist2 r c X V + dist2 r c X Z <= dist2 r c Z V.

(** Every entry of an r x c matrix satisfies P. *)
Definition entries (r c : nat) (P : R -> Prop) (X : ent) : Prop :=
  forall i j, (i < r)%nat -> (j < c)%nat -> P (X i j).
Definition anywhere : ent -> Prop := fun _ => True.
Definition same (r c : nat) (X Y : ent) : Prop :=
  forall i j, (i < r)%nat -> (j < c)%nat -> X i j = Y i j.

(** Bounds that may be missing. *)
Definition within (lo hi : option R) (x : R) : Prop :=
  (forall l, lo = Some l -> l <= x) /\ (forall h, hi = Some h -> x <= h).

Definition bounds_ok (lo hi : option R) : Prop :=
  forall l h, lo = Some l -> hi = Some h -> l <= h.

(** Total variation of a vector; minimisers of ||x - v||^2 + lam TV(x). *)
Definition vtv (x : list R) : R := Sum (length x - 1) (fun i => Rabs (at_ x (S i) - at_ x i)).
Definition tv_minimiser (v : list R) (lam : R) (x : list R) : Prop :=
  length x = length v /\
  forall z, length z = length v -> sqdist x v + lam * vtv x <= sqdist z v + lam * vtv z.

(** Accuracy of the simplex projection for data bounded by B: scipy's default
    bisection tolerances 2e-12 (absolute) and 2^-50 (relative). *)
Definition xtol : R := 2 / 1000000000000.
Definition rtol : R := 1 / 1125899906842624.
Definition eps_of (B : R) : R := xtol + rtol * (11 / 10 * (B + 1 + 1 / 100000)).

(** Sum of absolute values; total variation down the columns; trace of X^T M X. *)
Definition abs_sum (r c : nat) (X : ent) : R := Sum r (fun i => Sum c (fun j => Rabs (X i j))).
Definition total_variation (r c : nat) (X : ent) : R :=
  Sum c (fun j => Sum (r - 1) (fun i => Rabs (X (S i) j - X i j))).
Definition quad (r c : nat) (M X : ent) : R :=
  Sum c (fun j => Sum r (fun i => Sum r (fun k => X i j * M i k * X k j))).

Definition symmetric (r : nat) (M : ent) : Prop :=
  forall i j, (i < r)%nat -> (j < r)%nat -> M i j = M j i.
Definition psd (r : nat) (M : ent) : Prop :=
  forall x : nat -> R, 0 <= Sum r (fun i => Sum r (fun k => x i * M i k * x k)).

(** Columns in the ball of radius b; columns that are non-negative and sum to 1. *)
Definition cols_in_ball (r c : nat) (b : R) (X : ent) : Prop :=
  forall j, (j < c)%nat -> Sum r (fun i => X i j ^ 2) <= b ^ 2.
Definition cols_in_simplex (r c : nat) (X : ent) : Prop :=
  forall j, (j < c)%nat -> (forall i, (i < r)%nat -> 0 <= X i j) /\ Sum r (fun i => X i j) = 1.

(** Unimodal columns. *)
Definition column (r : nat) (X : ent) (j : nat) : list R := map (fun i => X i j) (seq 0 r).
Definition cols_unimodal (r c : nat) (X : ent) : Prop :=
  forall j, (j < c)%nat -> unimodal (column r X j).

(** [X] lies in [dom] and no member of [dom] is closer to [V] (for sets that are
    not convex). *)
Definition is_nearest (r c : nat) (dom : ent -> Prop) (V X : ent) : Prop :=
  dom X /\ forall Z, dom Z -> dist2 r c X V <= dist2 r c Z V.

(** Orthonormal columns, and singular value decompositions M = U diag(s) Vh with
    k singular values. *)
Definition kron (a b : nat) : R := if (a =? b)%nat then 1 else 0.
Definition ortho_cols (r k : nat) (U : ent) : Prop :=
  forall a b, (a < k)%nat -> (b < k)%nat -> Sum r (fun i => U i a * U i b) = kron a b.
Definition is_svd (r c k : nat) (M U : ent) (s : nat -> R) (Vh : ent) : Prop :=
  ortho_cols r k U /\
  ortho_cols c k (fun i j => Vh j i) /\
  (forall a, (a < k)%nat -> 0 <= s a) /\
  (forall i j, (i < r)%nat -> (j < c)%nat -> M i j = Sum k (fun a => U i a * s a * Vh a j)).

(** Cross product X^T X of an r x c matrix. *)
Definition cross (r : nat) (X : ent) : ent := fun a b => Sum r (fun i => X i a * X i b).
(** [l] has the given length and every element satisfies P *)
Definition all_nth {A : Type} (n : nat) (l : list A) (P : nat -> A -> Prop) : Prop :=
  length l = n /\ forall i x, nth_error l i = Some x -> P i x.
