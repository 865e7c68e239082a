(** The same call with the data matrices, and everything that belongs to them, in another
    order.  Nothing of the fitting code. *)
From Coq Require Import Reals List Arith Bool ZArith.
From Verif Require Import Num Numpy Spec ModelSpec Penalties PenaltySpec CoupledMatrices CmfSpec Decomp DecompSpec InitVars Parse ParseSpec Fit FitSpec StartSpec.
Import ListNotations.
Local Open Scope R_scope.

(** The k-th element of l' is the p_k-th element of l. *)
Definition in_order {T} (p : list nat) (l l' : list T) : Prop :=
  length l' = length l /\ forall k i, nth_error p k = Some i -> nth_error l' k = nth_error l i.
(** The same for the rows of a matrix ... *)
Definition rows_in_order (p : list nat) (M M' : matR) : Prop := mr M' = mr M /\ mc M' = mc M /\ in_order p (me M) (me M').
(** ... and for a factorization: the rows of A and the B_i. *)
Definition cmf_in_order (p : list nat) (c c' : rcmf) : Prop :=
  cw c' = cw c /\ rows_in_order p (cA c) (cA c') /\ in_order p (cBs c) (cBs c') /\ cC c' = cC c.
(** Initial values of the variables of mode m: zeros; a matrix with one row for each data
    matrix; a list with one matrix for each data matrix; basis matrices and coordinates; for
    mode 2 anything. *)
Inductive init_in_order (p : list nat) : nat -> initval (N:=RNum) -> initval (N:=RNum) -> Prop :=
| InitZeros m : init_in_order p m (IStr Zeros) (IStr Zeros)
| InitA M M' : mwf M -> mwf M' -> rows_in_order p M M' ->
    init_in_order p 0 (ITensor [mr M; mc M] (concat (me M))) (ITensor [mr M'; mc M'] (concat (me M')))
| InitB l l' : in_order p l l' -> init_in_order p 1 (IList (map py_of_mat l)) (IList (map py_of_mat l'))
| InitPf2 l l' c : in_order p l l' ->
    init_in_order p 1 (ITuple [PSeq (map py_of_mat l); py_of_mat c]) (ITuple [PSeq (map py_of_mat l'); py_of_mat c])
| InitC v : init_in_order p 2 v v.
Definition pen_in_order (p : list nat) (m : nat) (o o' : pobj (N:=RNum)) : Prop :=
  o_pen o' = o_pen o /\ init_in_order p m (o_aux o) (o_aux o') /\ init_in_order p m (o_dual o) (o_dual o').
Definition regs_in_order (p : list nat) (r r' : regsarg (N:=RNum)) : Prop :=
  (r = RNone /\ r' = RNone) \/
  exists u0 u1 u2 v0 v1 v2,
    r = RList [EList (map RPen u0); EList (map RPen u1); EList (map RPen u2)] /\
    r' = RList [EList (map RPen v0); EList (map RPen v1); EList (map RPen v2)] /\
    Forall2 (pen_in_order p 0) u0 v0 /\ Forall2 (pen_in_order p 1) u1 v1 /\ Forall2 (pen_in_order p 2) u2 v2.
(** Call b is call a in another order. *)
Definition same_but_order (p : list nat) (a b : fitR) : Prop :=
  in_order p (f_data a) (f_data b) /\
  (exists c c', starts_from a c /\ starts_from b c' /\ cmf_in_order p c c') /\
  regs_in_order p (f_regs a) (f_regs b) /\
  f_aux a = IStr Zeros /\ f_dual a = IStr Zeros /\ f_aux b = IStr Zeros /\ f_dual b = IStr Zeros /\
  f_rank b = f_rank a /\ f_n_iter b = f_n_iter a /\ f_l2 b = f_l2 a /\ f_kw b = f_kw a /\
  f_scale b = f_scale a /\ f_const b = f_const a /\
  f_svd b = f_svd a /\ f_tol b = f_tol a /\ f_abs_tol b = f_abs_tol a /\ f_feas_tol b = f_feas_tol a /\
  f_inner_tol b = f_inner_tol a /\ f_inner b = f_inner a /\ f_updA b = f_updA a /\ f_updB b = f_updB a /\ f_updC b = f_updC a /\
  f_return_vars b = f_return_vars a /\ f_return_errors b = f_return_errors a.

(** Penalties in whose value and domain the order of the rows plays no part: all but total variation,
    unimodality, the generalised L2 penalty and PARAFAC2. *)
Definition order_free (q : penalty (N:=RNum)) : Prop :=
  match q with NonNegativity | Box _ _ | L1Penalty _ _ | L2Ball _ _ | UnitSimplex => True | _ => False end.
(** Only such penalties are imposed on A. *)
Definition rows_alike (a : fitR) : Prop :=
  f_updA a = true ->
  (forall kw, mode_values (f_kw a) 0 kw -> ~ wants (k_uni kw) /\ strength (k_tv kw) = 0 /\ (k_gl2 kw = None \/ k_gl2 kw = Some GFalse)) /\
  (forall u, user_penalties (f_regs a) 0 u -> Forall (fun o => order_free (o_pen o)) u).
(** The svd routine, asked for as many singular vectors as the matrix has columns, returns right
    singular vectors with one entry for each column. *)
Definition right_width (E : ext (N:=RNum)) : Prop := forall M : matR, mc (snd (x_svd E M (mc M))) = mc M.

(** Results in another order *)
Definition aux_in_order (p : list nat) (a a' : auxes (N:=RNum)) : Prop :=
  match a, a' with
  | AList l, AList l' => in_order p l l'
  | APf2 b c, APf2 b' c' => in_order p b b' /\ c' = c
  | _, _ => False
  end.
Definition vars_in_order (p : list nat) (v v' : admmvars (N:=RNum)) : Prop :=
  Forall2 (rows_in_order p) (v_auxA v) (v_auxA v') /\ Forall2 (aux_in_order p) (v_auxB v) (v_auxB v') /\ v_auxC v' = v_auxC v /\
  Forall2 (rows_in_order p) (v_dualA v) (v_dualA v') /\ Forall2 (in_order p) (v_dualB v) (v_dualB v') /\ v_dualC v' = v_dualC v.
(** The same factors and variables in another order; the same diagnostics. *)
Definition output_in_order (p : list nat) (o o' : output (N:=RNum)) : Prop :=
  cmf_in_order p (out_cmf o) (out_cmf o') /\ out_diag o' = out_diag o /\
  match out_vars o, out_vars o' with
  | None, None => True
  | Some v, Some v' => vars_in_order p v v'
  | _, _ => False
  end.
