(** Calls of [cmf_aoadmm] that leave its keyword arguments at their defaults.  Small specification for C103. *)
From Coq Require Import Reals List Arith ZArith.
From Verif Require Import Num Numpy Spec CmfSpec CoupledMatrices Decomp DecompSpec InitVars InitSpec Parse ParseSpec Fit FitSpec.
Import ListNotations.
Local Open Scope R_scope.

(** The call with every default of the documentation written out (decomposition.py, lines 716-804): a random start, at most 1000
    iterations of 5 inner iterations, no penalty on any mode, tolerances 1e-8, 1e-10 and 1e-4. *)
Definition written_out (Xs : list matR) (rank : pyint) : fitR :=
  FitArgs (N:=RNum) Xs rank (InitName MRandom) 1000 (AOne None)
    (KwArgs (AOne None) (AOne None) (AOne None) (AOne None) (AOne None) false (AOne None) (AOne None) (AOne None)) RNone
    1 (CBool false) (IStr RandomUniform) (IStr RandomUniform) true
    (Some (1 / 10 ^ 8)) (Some (1 / 10 ^ 10)) (Some (1 / 10 ^ 4)) None 5 true true true false false.
(** [l2_penalty] given and [return_errors=True], everything else as in the call [a]. *)
Definition reporting (l2 : arg R) (a : fitR) : fitR :=
  FitArgs (N:=RNum) (f_data a) (f_rank a) (f_init a) (f_n_iter a) l2 (f_kw a) (f_regs a) (f_scale a) (f_const a) (f_aux a) (f_dual a) (f_svd a)
    (f_tol a) (f_abs_tol a) (f_feas_tol a) (f_inner_tol a) (f_inner a) (f_updA a) (f_updB a) (f_updC a) (f_return_vars a) true.
(** Iteration j: the loss changed by less than a hundred-millionth of the one before; the loss is below 1e-10. *)
Definition settled (d : diagnostics (N:=RNum)) (j : nat) : Prop :=
  exists p l, loss_at d (j - 1) p /\ loss_at d j l /\ Rabs (p - l) < 1 / 10 ^ 8 * p.
Definition tiny (d : diagnostics (N:=RNum)) (j : nat) : Prop := exists l, loss_at d j l /\ l < 1 / 10 ^ 10.
