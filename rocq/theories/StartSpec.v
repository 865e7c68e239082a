(** When a given start matches the data.  Nothing of the fitting code. *)
From Coq Require Import Reals List Arith Bool ZArith.
From Verif Require Import Num Numpy Spec ModelSpec Penalties PenaltySpec CoupledMatrices CmfSpec Decomp DecompSpec InitVars Parse ParseSpec Fit FitSpec.
Import ListNotations.
Local Open Scope R_scope.

(** The argument [init] is the factorization c. *)
Definition starts_from (a : fitR) (c : rcmf) : Prop := valid_cmf c /\ exists l, f_init a = InitSeq l /\ PSeq l = py_of_cmf c.
(** The two calls differ in [init] only. *)
Definition same_but_init (a b : fitR) : Prop :=
  f_data b = f_data a /\ f_rank b = f_rank a /\ f_n_iter b = f_n_iter a /\ f_l2 b = f_l2 a /\ f_kw b = f_kw a /\
  f_regs b = f_regs a /\ f_scale b = f_scale a /\ f_const b = f_const a /\ f_aux b = f_aux a /\ f_dual b = f_dual a /\
  f_svd b = f_svd a /\ f_tol b = f_tol a /\ f_abs_tol b = f_abs_tol a /\ f_feas_tol b = f_feas_tol a /\
  f_inner_tol b = f_inner_tol a /\ f_inner b = f_inner a /\ f_updA b = f_updA a /\ f_updB b = f_updB a /\ f_updC b = f_updC a /\
  f_return_vars b = f_return_vars a /\ f_return_errors b = f_return_errors a.
(** The i-th matrix represented by c has the size of the i-th data matrix. *)
Definition same_size (Xs : list matR) (c : rcmf) (i : nat) : Prop :=
  mr (nthX Xs i) = mr (nthB c i) /\ mc (nthX Xs i) = mr (cC c).
(** The call imposes something on a mode it updates. *)
Definition imposes_something (a : fitR) : Prop :=
  exists m kw u, (m < 3)%nat /\ updates a m = true /\ mode_values (f_kw a) m kw /\ user_penalties (f_regs a) m u /\
    (u <> [] \/ k_pf2 kw = true \/ (exists r c X, ~ requested_domain kw r c X) \/ exists r c X, requested_penalty kw r c X <> 0).
(** The two calls differ in [rank] only ... *)
Definition same_but_rank (a b : fitR) : Prop :=
  f_init b = f_init a /\
  f_data b = f_data a /\ f_n_iter b = f_n_iter a /\ f_l2 b = f_l2 a /\ f_kw b = f_kw a /\
  f_regs b = f_regs a /\ f_scale b = f_scale a /\ f_const b = f_const a /\ f_aux b = f_aux a /\ f_dual b = f_dual a /\
  f_svd b = f_svd a /\ f_tol b = f_tol a /\ f_abs_tol b = f_abs_tol a /\ f_feas_tol b = f_feas_tol a /\
  f_inner_tol b = f_inner_tol a /\ f_inner b = f_inner a /\ f_updA b = f_updA a /\ f_updB b = f_updB a /\ f_updC b = f_updC a /\
  f_return_vars b = f_return_vars a /\ f_return_errors b = f_return_errors a.
(** ... or in the data only. *)
Definition same_but_data (a b : fitR) : Prop :=
  f_init b = f_init a /\
  f_rank b = f_rank a /\ f_n_iter b = f_n_iter a /\ f_l2 b = f_l2 a /\ f_kw b = f_kw a /\
  f_regs b = f_regs a /\ f_scale b = f_scale a /\ f_const b = f_const a /\ f_aux b = f_aux a /\ f_dual b = f_dual a /\
  f_svd b = f_svd a /\ f_tol b = f_tol a /\ f_abs_tol b = f_abs_tol a /\ f_feas_tol b = f_feas_tol a /\
  f_inner_tol b = f_inner_tol a /\ f_inner b = f_inner a /\ f_updA b = f_updA a /\ f_updB b = f_updB a /\ f_updC b = f_updC a /\
  f_return_vars b = f_return_vars a /\ f_return_errors b = f_return_errors a.
