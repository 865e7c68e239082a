(** * Data that are zero everywhere.  Small specification for C100; nothing of the fitting code. *)
From Coq Require Import Reals List Arith Bool ZArith.
From Verif Require Import Num Numpy Spec ModelSpec Penalties PenaltySpec CoupledMatrices CmfSpec Decomp DecompSpec InitVars Parse ParseSpec Fit FitSpec.
Import ListNotations.
Local Open Scope R_scope.

(** Every entry of every data matrix is zero. *)
Definition zero_data (a : fitR) : Prop :=
  forall X j k, In X (f_data a) -> (j < mr X)%nat -> (k < mc X)%nat -> mget X j k = 0.
(** Every entry of the matrices that a factorization stands for is zero. *)
Definition zero_model (c : rcmf) : Prop :=
  forall i j k, (i < length (cBs c))%nat -> (j < mr (nthB c i))%nat -> (k < mr (cC c))%nat -> cmf_entry c i j k = 0.
(** Neither errors nor losses are numbers. *)
Definition no_numbers (l : list xnumR) : Prop := forall x, In x l -> x = NaN \/ x = PInf.
(** The same call with [tol=None], [absolute_tol=None] and [feasibility_tol=None]. *)
Definition without_tolerances (a : fitR) : fitR :=
  FitArgs (f_data a) (f_rank a) (f_init a) (f_n_iter a) (f_l2 a) (f_kw a) (f_regs a)
    (f_scale a) (f_const a) (f_aux a) (f_dual a) (f_svd a) None None None
    (f_inner_tol a) (f_inner a) (f_updA a) (f_updB a) (f_updC a) (f_return_vars a) (f_return_errors a).
