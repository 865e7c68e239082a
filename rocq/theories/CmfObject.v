(** Model of the instances of [CoupledMatrixFactorization], coupled_matrices.py:92-99 and 174-191:
    the stored attributes and what indexing, iteration and [len] give.  (CoupledMatrices.v
    works with the typed view [cmf] of the same instances.) *)
From Coq Require Import List Arith Bool ZArith.
From Verif Require Import Num Numpy CoupledMatrices.
Import ListNotations.

Section CmfObject.
Context {N : Num}.

(** the attributes set by [__init__], lines 96-99 *)
Record cmfobj := CmfObj { o_weights : pyobj; o_factors : pyobj; o_shape : list (nat * nat); o_rank : nat }.
(** [CoupledMatrixFactorization(x)], lines 92-99 *)
Definition construct (x : pyobj) : res cmfobj :=
  let* (shape, rank) := validate_cmf x in
  let* (weights, factors) := unpack2 x in
  Ok (CmfObj weights factors shape rank).
(** [__getitem__] with an integer, lines 174-184 *)
Definition getitem (f : cmfobj) (item : Z) : res pyobj :=
  if (item =? 0)%Z then Ok (o_weights f) else if (item =? 1)%Z then Ok (o_factors f) else Err IndexError.
(** [__iter__], lines 186-188: the elements produced *)
Definition iter (f : cmfobj) : list pyobj := [o_weights f; o_factors f].
(** [__len__], lines 190-191 *)
Definition len (f : cmfobj) : nat := 2.
(** Python's loop [i = 0; while True: f[i]; i += 1] until IndexError, at most n steps *)
Fixpoint index_loop (f : cmfobj) (i n : nat) : list pyobj :=
  match n with
  | 0 => []
  | S k => match getitem f (Z.of_nat i) with Ok x => x :: index_loop f (S i) k | Err _ => [] end
  end.
End CmfObject.
