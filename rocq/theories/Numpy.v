(** The numpy / tensorly primitives used by matcouply, on vectors (lists) and
    matrices.  This file has no counterpart in /repo: it models the library
    calls [tl.dot], [tl.transpose], [tl.clip], ... whose call sites are cited
    where they are used. *)
From Coq Require Import List Arith Bool ZArith.
From Verif Require Import Num.
Import ListNotations.
Local Open Scope num_scope.

Section Numpy.
Context {N : Num}.

(** ** Sums *)
(** [nsum n f] = f 0 + ... + f (n-1) *)
Fixpoint nsum (n : nat) (f : nat -> num) : num :=
  match n with O => n0 | S k => nsum k f + f k end.
(** [sum] over a list (Python's builtin sum and [tl.sum] of a vector) *)
Definition lsum (l : list num) : num := fold_left nadd l n0.

(** ** Vectors *)
Definition vget (v : list num) (i : nat) : num := nth i v n0.
Definition vbuild (n : nat) (f : nat -> num) : list num := map f (seq 0 n).
Fixpoint upd {A} (l : list A) (i : nat) (x : A) : list A :=
  match l, i with
  | [], _ => []
  | _ :: t, O => x :: t
  | h :: t, S k => h :: upd t k x
  end.
Fixpoint map2 {A B C} (f : A -> B -> C) (l : list A) (m : list B) : list C :=
  match l, m with
  | a :: l', b :: m' => f a b :: map2 f l' m'
  | _, _ => []
  end.
Definition vadd (u v : list num) : list num := map2 nadd u v.
Definition vsub (u v : list num) : list num := map2 nsub u v.
Definition vmul (u v : list num) : list num := map2 nmul u v.
Definition vscale (c : num) (v : list num) : list num := map (nmul c) v.

(** [np.clip(x, lo, hi)] on one element: [None] is a missing or infinite bound;
    numpy computes minimum(maximum(x, lo), hi). *)
Definition clip1 (lo hi : option num) (x : num) : num :=
  let y := match lo with Some l => nmax x l | None => x end in
  match hi with Some h => nmin y h | None => y end.

(** ** Matrices: number of rows, number of columns, list of rows. *)
Record mat := Mat { mr : nat; mc : nat; me : list (list num) }.

Definition mget (M : mat) (i j : nat) : num := nth j (nth i (me M) []) n0.
Definition mbuild (r c : nat) (f : nat -> nat -> num) : mat :=
  Mat r c (map (fun i => map (f i) (seq 0 c)) (seq 0 r)).
(** every matrix value that numpy can hold: rectangular data *)
Definition mwf (M : mat) : Prop :=
  length (me M) = mr M /\ Forall (fun row => length row = mc M) (me M).
Definition mwfb (M : mat) : bool :=
  (length (me M) =? mr M)%nat && forallb (fun row => (length row =? mc M)%nat) (me M).

Definition mrow (M : mat) (i : nat) : list num := nth i (me M) [].
Definition mcol (M : mat) (j : nat) : list num := map (fun row => nth j row n0) (me M).
(** [M[i, :] = row] *)
Definition mset_row (M : mat) (i : nat) (row : list num) : mat :=
  Mat (mr M) (mc M) (upd (me M) i row).
Definition of_cols (r : nat) (cols : list (list num)) : mat :=
  mbuild r (length cols) (fun i j => vget (nth j cols []) i).

(** [tl.transpose] *)
Definition mtrans (M : mat) : mat := mbuild (mc M) (mr M) (fun i j => mget M j i).
(** [tl.dot], [tl.matmul], [@] of two matrices *)
Definition mmul (A B : mat) : mat :=
  mbuild (mr A) (mc B) (fun i j => nsum (mc A) (fun k => mget A i k * mget B k j)).
(** [tl.dot] of a vector and a matrix *)
Definition vmat (v : list num) (M : mat) : list num :=
  vbuild (mc M) (fun j => nsum (mr M) (fun k => vget v k * mget M k j)).
(** elementwise operations on matrices of equal shape *)
Definition mmap (f : num -> num) (M : mat) : mat := mbuild (mr M) (mc M) (fun i j => f (mget M i j)).
Definition mmap2 (f : num -> num -> num) (A B : mat) : mat :=
  mbuild (mr A) (mc A) (fun i j => f (mget A i j) (mget B i j)).
Definition madd := mmap2 nadd.
Definition msub := mmap2 nsub.
Definition mhad := mmap2 nmul.
Definition mscale (c : num) := mmap (nmul c).
(** [M * v], [M / v] with the vector broadcast over the rows (column j is
    multiplied / divided by v[j]) *)
Definition mcolscale (M : mat) (v : list num) : mat :=
  mbuild (mr M) (mc M) (fun i j => mget M i j * vget v j).
Definition mcoldiv (M : mat) (v : list num) : mat :=
  mbuild (mr M) (mc M) (fun i j => mget M i j / vget v j).
(** [tl.eye(r, c)], [tl.zeros], [tl.ones] *)
Definition meye2 (r c : nat) : mat := mbuild r c (fun i j => if (i =? j)%nat then n1 else n0).
Definition meye (n : nat) : mat := meye2 n n.
Definition mzeros (r c : nat) : mat := mbuild r c (fun _ _ => n0).
Definition mones (r c : nat) : mat := mbuild r c (fun _ _ => n1).
(** [tl.trace], [tl.diag] of a matrix, [tl.sum] of a matrix *)
Definition mtrace (M : mat) : num := nsum (mr M) (fun i => mget M i i).
Definition mdiag (M : mat) : list num := vbuild (mr M) (fun i => mget M i i).
Definition msum (M : mat) : num := nsum (mr M) (fun i => nsum (mc M) (fun j => mget M i j)).
(** [tl.sum(M ** 2)] and [tl.norm(M)] *)
Definition msumsq (M : mat) : num := msum (mhad M M).
Definition mnorm (M : mat) : num := nsqrt (msumsq M).
(** diagonal matrix of a vector ([tl.diag] of a vector) *)
Definition mdiagm (v : list num) : mat :=
  mbuild (length v) (length v) (fun i j => if (i =? j)%nat then vget v i else n0).
(** [tl.concatenate(matrices, 0)] *)
Definition mconcat (l : list mat) : mat :=
  match l with
  | [] => Mat 0 0 []
  | M :: _ => Mat (fold_right (fun A n => mr A + n)%nat 0%nat l) (mc M) (flat_map me l)
  end.

End Numpy.
