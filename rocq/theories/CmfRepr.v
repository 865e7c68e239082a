(** Model of [CoupledMatrixFactorization.__repr__], src/matcouply/coupled_matrices.py:193-195.
    [str] of an int is its decimal digits; [str] of a tuple is the [repr] of its items in parentheses, with a comma
    behind a single item. *)
From Coq Require Import List Arith String DecimalString.
From Verif Require Import Num Numpy CoupledMatrices CmfObject.
Import ListNotations.
Local Open Scope string_scope.

(** [str] of a non-negative int *)
Definition show_nat (n : nat) : string := NilEmpty.string_of_uint (Nat.to_uint n).
(** [str] of a tuple, from the [repr] of its items *)
Definition show_tuple (l : list string) : string :=
  match l with [] => "()" | [x] => "(" ++ x ++ ",)" | _ => "(" ++ String.concat ", " l ++ ")" end.
(** a pair of ints, and the attribute [shape] set in line 98: a tuple of such pairs *)
Definition show_pair (p : nat * nat) : string := show_tuple [show_nat (fst p); show_nat (snd p)].
Definition show_shape (l : list (nat * nat)) : string := show_tuple (map show_pair l).
(** [__repr__], lines 193-195 *)
Definition cmf_repr {N : Num} (f : cmfobj) : string :=
  "(weights, factors) : rank-" ++ show_nat (o_rank f) ++ " CoupledMatrixFactorization of shape " ++ show_shape (o_shape f).
