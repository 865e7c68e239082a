(** Continuing a fit from what it returned.  Nothing of the fitting loop; the list of penalties of a call
    is read off the parser, whose meaning is the subject of C38. *)
From Coq Require Import Reals List Arith Bool ZArith.
From Verif Require Import Num Numpy Spec ModelSpec Penalties PenaltySpec CoupledMatrices CmfSpec Decomp DecompSpec InitVars InitSpec
  Parse ParseSpec Fit FitSpec.
Import ListNotations.
Local Open Scope R_scope.

(** Returned variables as values of [aux_init] and [dual_init]: a matrix, a list of matrices, or
    (for PARAFAC2) the pair of basis matrices and coordinate matrix. *)
Definition given_mat (M : matR) : initval (N:=RNum) := ITensor [mr M; mc M] (concat (me M)).
Definition given_mats (l : list matR) : initval (N:=RNum) := IList (map py_of_mat l).
Definition given_auxes (x : auxes (N:=RNum)) : initval (N:=RNum) :=
  match x with AList l => given_mats l | APf2 P D => ITuple [PSeq (map py_of_mat P); py_of_mat D] end.

(** The penalties a call imposes on mode [m]: those its keywords ask for, then the user's own. *)
Definition penalties_of (V : envR) (a : fitR) (m : nat) (l : list (penalty (N:=RNum))) : Prop :=
  exists t, parse_all V (f_kw a) (f_regs a) (f_aux a) (f_dual a) = Ok t /\ l = map o_pen (pick t m).
(** Penalty objects for mode [m] of the second call: the penalties of the first call, each started
    from the variables that were returned for it.  Those of a mode that is not updated do not matter. *)
Definition carried {A D} (gA : A -> initval (N:=RNum)) (gD : D -> initval (N:=RNum)) (V : envR) (a : fitR) (m : nat) (aux : list A) (dual : list D)
  (u : list (pobj (N:=RNum))) : Prop :=
  updates a m = true -> penalties_of V a m (map o_pen u) /\ map o_aux u = map gA aux /\ map o_dual u = map gD dual.
Definition continued (V : envR) (a : fitR) (out : outR) (b : fitR) : Prop :=
  f_data b = f_data a /\ f_rank b = f_rank a /\ f_l2 b = f_l2 a /\ f_scale b = f_scale a /\ f_const b = f_const a /\ f_svd b = f_svd a /\
  f_tol b = f_tol a /\ f_abs_tol b = f_abs_tol a /\ f_feas_tol b = f_feas_tol a /\ f_inner_tol b = f_inner_tol a /\ f_inner b = f_inner a /\
  f_updA b = f_updA a /\ f_updB b = f_updB a /\ f_updC b = f_updC a /\ f_return_vars b = f_return_vars a /\ f_return_errors b = f_return_errors a /\
  (exists l, f_init b = InitSeq l /\ PSeq l = py_of_cmf (out_cmf out)) /\ f_kw b = no_kw /\
  exists v u0 u1 u2, out_vars out = Some v /\ f_regs b = RList [EList (map RPen u0); EList (map RPen u1); EList (map RPen u2)] /\
    carried given_mat given_mat V a 0 (v_auxA v) (v_dualA v) u0 /\
    carried given_auxes given_mats V a 1 (v_auxB v) (v_dualB v) u1 /\
    carried given_mat given_mat V a 2 (v_auxC v) (v_dualC v) u2.
(** The first call with another iteration limit. *)
Definition with_n_iter (a : fitR) (n : Z) : fitR :=
  FitArgs (f_data a) (f_rank a) (f_init a) n (f_l2 a) (f_kw a) (f_regs a)
    (f_scale a) (f_const a) (f_aux a) (f_dual a) (f_svd a) (f_tol a) (f_abs_tol a) (f_feas_tol a)
    (f_inner_tol a) (f_inner a) (f_updA a) (f_updB a) (f_updC a) (f_return_vars a) (f_return_errors a).
(** The first call used up its iterations: it says so, or it had no tolerances. *)
Definition unfinished (a : fitR) (out : outR) : Prop :=
  (exists d, out_diag out = Some d /\ d_message d = MaxIter) \/ (~ tol_set (f_tol a) /\ ~ tol_set (f_abs_tol a)).

(** The second history starts with the last entry of the first. *)
Definition overlap {A} (x y z : list A) : Prop := exists l e r, x = l ++ [e] /\ y = e :: r /\ z = l ++ e :: r.
Definition joined (d1 d2 d : diagnostics (N:=RNum)) : Prop :=
  overlap (d_errors d1) (d_errors d2) (d_errors d) /\ overlap (d_gaps d1) (d_gaps d2) (d_gaps d) /\ overlap (d_losses d1) (d_losses d2) (d_losses d) /\
  d_n_iter d = (d_n_iter d1 + d_n_iter d2)%nat /\ d_stopped d = d_stopped d2 /\ d_feasible d = d_feasible d2 /\ d_message d = d_message d2.
Definition joined_diag (o1 o2 o : option (diagnostics (N:=RNum))) : Prop :=
  match o1, o2, o with
  | Some d1, Some d2, Some d => joined d1 d2 d
  | None, None, None => True
  | _, _, _ => False
  end.
