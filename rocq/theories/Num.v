(** Number operations used by the model.

    Every numeric definition of the model is written once, over an arbitrary
    record of operations [Num] (no laws are assumed).  [RNum] instantiates it
    with the real numbers of the standard library, [QNum] with rationals so that
    the same definitions can be run with [vm_compute].  Theorems are about [RNum]
    or about every [Num] (P17 to P19, P22); Binary64.v has IEEE double precision. *)
From Coq Require Import Reals QArith Qreduction ZArith List Bool.
Import ListNotations.

Class Num := {
  num   : Type;
  n0    : num;
  n1    : num;
  nadd  : num -> num -> num;
  nsub  : num -> num -> num;
  nmul  : num -> num -> num;
  ndiv  : num -> num -> num;
  nopp  : num -> num;
  nleb  : num -> num -> bool;
  nsqrt : num -> num;
  nlit  : Z -> positive -> num   (* the literal p/q *)
}.

Declare Scope num_scope.
Delimit Scope num_scope with n.
Notation "x + y" := (nadd x y) : num_scope.
Notation "x - y" := (nsub x y) : num_scope.
Notation "x * y" := (nmul x y) : num_scope.
Notation "x / y" := (ndiv x y) : num_scope.
Notation "- x" := (nopp x) : num_scope.
Notation "x <=? y" := (nleb x y) (at level 70) : num_scope.

Section Derived.
  Context {N : Num}.
  (** Comparisons in terms of [<=] (total order, no NaN). *)
  Definition nltb (x y : num) : bool := negb (nleb y x).
  Definition neqb (x y : num) : bool := nleb x y && nleb y x.
  Definition nmax (x y : num) : num := if nleb x y then y else x.
  Definition nmin (x y : num) : num := if nleb x y then x else y.
  (** Python [abs], [tl.abs] *)
  Definition nabs (x : num) : num := if nleb n0 x then x else nopp x.
  (** [tl.sign]: -1, 0 or 1 *)
  Definition nsign (x : num) : num :=
    if nltb x n0 then nopp n1 else if nltb n0 x then n1 else n0.
  (** Python truthiness of a number *)
  Definition ntruthy (x : num) : bool := negb (neqb x n0).
  Definition nhalf : num := nlit 1 2.
End Derived.
Notation "x <? y" := (nltb x y) (at level 70) : num_scope.

(** The real numbers. *)
Definition Rleb (x y : R) : bool := if Rle_dec x y then true else false.

#[global] Instance RNum : Num := {
  num := R;
  n0 := 0%R;
  n1 := 1%R;
  nadd := Rplus;
  nsub := Rminus;
  nmul := Rmult;
  ndiv := Rdiv;
  nopp := Ropp;
  nleb := Rleb;
  nsqrt := R_sqrt.sqrt;
  nlit := fun p q => (IZR p / IZR (Zpos q))%R
}.

(** Rationals, for running the model.  The square root is the floor of the
    root on a grid of step 1/(10^6 * denominator), exact on squares; it is used
    for sanity runs only, no theorem mentions it. *)
Definition Qsqrt_run (x : Q) : Q :=
  let p := Qnum x in
  let q := Zpos (Qden x) in
  let k := 1000000%Z in
  Qred (Qmake (Z.sqrt (p * q * k * k)) (Z.to_pos (q * k))).

Definition QNum : Num := {|
  num := Q;
  n0 := 0%Q;
  n1 := 1%Q;
  nadd := fun x y => Qred (x + y);
  nsub := fun x y => Qred (x - y);
  nmul := fun x y => Qred (x * y);
  ndiv := fun x y => Qred (x / y);
  nopp := fun x => Qred (- x);
  nleb := Qle_bool;
  nsqrt := Qsqrt_run;
  nlit := fun p q => Qred (Qmake p q)
|}.

(** Results of Python functions: a value or a raised exception. *)
Inductive exn := TypeError | ValueError | IndexError | AttributeError
               | RuntimeError | ModuleNotFoundError | KeyError | OSError
               | OutOfFuel (* not a Python exception: a model loop ran out of fuel *)
               | NonFinite (* not a Python exception: a division by zero put nan or
                              infinity into a factor matrix; the model stops there *)
               | NotModelled (* not a Python exception: the code goes on in a way the
                                model does not follow, e.g. numpy broadcasting *).
Inductive res (A : Type) := Ok (a : A) | Err (e : exn).
Arguments Ok {A} a.
Arguments Err {A} e.

Definition bind {A B} (x : res A) (f : A -> res B) : res B :=
  match x with Ok a => f a | Err e => Err e end.
Notation "'let*' x ':=' e 'in' k" := (bind e (fun x => k))
  (at level 200, x pattern, e at level 100, k at level 200, right associativity).

Fixpoint mapM {A B} (f : A -> res B) (l : list A) : res (list B) :=
  match l with
  | [] => Ok []
  | x :: xs => let* y := f x in let* ys := mapM f xs in Ok (y :: ys)
  end.
