(** Calls that differ in their tolerances only.  Nothing of the fitting code. *)
From Coq Require Import Reals List Arith Bool ZArith.
From Verif Require Import Num Numpy Spec ModelSpec Penalties PenaltySpec CoupledMatrices CmfSpec Decomp DecompSpec InitVars Parse ParseSpec Fit FitSpec.
Import ListNotations.
Local Open Scope R_scope.

(** The two calls differ in [tol], [absolute_tol] and [feasibility_tol] only. *)
Definition same_but_tolerances (a b : fitR) : Prop :=
  f_data b = f_data a /\ f_rank b = f_rank a /\ f_init b = f_init a /\ f_n_iter b = f_n_iter a /\ f_l2 b = f_l2 a /\ f_kw b = f_kw a /\
  f_regs b = f_regs a /\ f_scale b = f_scale a /\ f_const b = f_const a /\ f_aux b = f_aux a /\ f_dual b = f_dual a /\
  f_svd b = f_svd a /\ f_inner_tol b = f_inner_tol a /\ f_inner b = f_inner a /\
  f_updA b = f_updA a /\ f_updB b = f_updB a /\ f_updC b = f_updC a /\
  f_return_vars b = f_return_vars a /\ f_return_errors b = f_return_errors a.
(** The tolerance [t'] is at least as strict as [t]: it is absent, or a smaller non-negative number. *)
Definition stricter (t' t : option R) : Prop :=
  t' = None \/ exists y' y, t' = Some y' /\ t = Some y /\ 0 <= y' <= y.
Definition stricter_tolerances (a b : fitR) : Prop :=
  same_but_tolerances a b /\ stricter (f_tol b) (f_tol a) /\ stricter (f_abs_tol b) (f_abs_tol a) /\ stricter (f_feas_tol b) (f_feas_tol a).
(** The same factors, the same variables, the same recorded histories and the same number of iterations; or
    the same exception.  What is not compared: the message and the two flags that say which tolerance is met. *)
Definition same_course (d d' : option (diagnostics (N:=RNum))) : Prop :=
  match d, d' with
  | Some x, Some y => d_errors y = d_errors x /\ d_gaps y = d_gaps x /\ d_losses y = d_losses x /\ d_n_iter y = d_n_iter x
  | None, None => True
  | _, _ => False
  end.
Definition same_results (r r' : res outR) : Prop :=
  match r, r' with
  | Ok o, Ok o' => out_cmf o' = out_cmf o /\ out_vars o' = out_vars o /\ same_course (out_diag o) (out_diag o')
  | Err e, Err e' => e' = e
  | _, _ => False
  end.
