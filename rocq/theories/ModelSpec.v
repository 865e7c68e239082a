(** Specifications of external routines, over model matrices. *)
From Coq Require Import Reals List Arith.
From Verif Require Import Num Numpy Spec.
Import ListNotations.
Local Open Scope R_scope.

(** The triple (U, s, Vh) is a singular value decomposition of [M] with [k]
    singular values (numpy arrays of the right shapes). *)
Definition has_svd (M : mat (N:=RNum)) (k : nat) (t : mat (N:=RNum) * list R * mat (N:=RNum)) : Prop :=
  let '(U, s, Vh) := t in
  mwf U /\ mr U = mr M /\ mc U = k /\ length s = k /\ mwf Vh /\ mr Vh = k /\ mc Vh = mc M /\
  is_svd (mr M) (mc M) k (mget M) (mget U) (at_ s) (mget Vh).
