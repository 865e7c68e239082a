(** * Equal parts of a problem.  Small specification for C99. *)
From Coq Require Import Reals List Arith.
From Verif Require Import Num Numpy Spec CmfSpec CoupledMatrices Decomp DecompSpec InitVars InitSpec Parse ParseSpec Fit FitSpec SymSpec.
Import ListNotations.
Local Open Scope R_scope.

(** Columns r and s of a matrix are equal; rows k and l of a matrix are equal. *)
Definition equal_columns (M : matR) (r s : nat) : Prop := forall k, (k < mr M)%nat -> mget M k r = mget M k s.
Definition equal_rows (M : matR) (k l : nat) : Prop := forall r, (r < mc M)%nat -> mget M k r = mget M l r.
(** Two components of a factorization are equal: columns of A, of every B_i and of C, and weights. *)
Definition equal_components (c : rcmf) (r s : nat) : Prop :=
  equal_columns (cA c) r s /\ (forall i, (i < length (cBs c))%nat -> equal_columns (nthB c i) r s) /\ equal_columns (cC c) r s /\
  forall w, cw c = Some w -> at_ w r = at_ w s.
(** The auxiliary and dual variables of A and C, and the dual variables of the B_i, have equal columns r and s. *)
Definition equal_variables (v : admmvars (N:=RNum)) (r s : nat) : Prop :=
  Forall (fun M => equal_columns M r s) (v_auxA v ++ v_dualA v ++ v_auxC v ++ v_dualC v) /\ Forall (Forall (fun M => equal_columns M r s)) (v_dualB v).
(** All penalties are given by keyword, or by a list of lists of penalty objects. *)
Definition plain_regs (a : fitR) : Prop :=
  f_regs a = RNone \/ exists u0 u1 u2, f_regs a = RList [EList (map RPen u0); EList (map RPen u1); EList (map RPen u2)].
