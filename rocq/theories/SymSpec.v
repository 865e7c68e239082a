(** The same problem in other units and with rows, columns and components in another order.
    Nothing of the fitting loop. *)
From Coq Require Import Reals List Arith Bool ZArith Permutation.
From Verif Require Import Num Numpy Spec ModelSpec Penalties PenaltySpec CoupledMatrices CmfSpec Decomp DecompSpec InitVars InitSpec
  Parse ParseSpec Fit FitSpec ResumeSpec StartSpec ReorderSpec.
Import ListNotations.
Local Open Scope R_scope.

(** [p] rearranges 0, ..., n-1. *)
Definition rearranges (n : nat) (p : nat -> nat) : Prop := Permutation (map p (seq 0 n)) (seq 0 n).
(** The r x c matrix M' is M in units of 1/k, with rows and columns rearranged. *)
Definition moved (r c : nat) (k : R) (p q : nat -> nat) (M M' : matR) : Prop :=
  shaped M r c /\ shaped M' r c /\ forall i j, (i < r)%nat -> (j < c)%nat -> mget M' i j = k * mget M (p i) (q j).
Definition moved_vec (n : nat) (k : R) (q : nat -> nat) (v v' : list R) : Prop :=
  length v = n /\ length v' = n /\ forall j, (j < n)%nat -> at_ v' j = k * at_ v (q j).
Definition moved_list (n : nat) (J : nat -> nat) (c : nat) (k : R) (p : nat -> nat -> nat) (q : nat -> nat) (l l' : list matR) : Prop :=
  length l = n /\ length l' = n /\ forall i, (i < n)%nat -> moved (J i) c k (p i) q (nth i l no_mat) (nth i l' no_mat).

(** A change of units and orders: factors for A, the B_i and C; orders of the components, of the
    rows of each data matrix, and of the columns of the data. *)
Record change := Change {
  h_A : R; h_B : R; h_C : R;
  h_comp : nat -> nat; h_rows : nat -> nat -> nat; h_cols : nat -> nat
}.
(** The factor for the data. *)
Definition h_X (h : change) : R := h_A h * h_B h * h_C h.
(** Sizes: number of matrices, their rows, their columns, number of components. *)
Record sizes := Sizes { z_n : nat; z_rows : nat -> nat; z_cols : nat; z_rank : nat }.
Definition proper (z : sizes) (h : change) : Prop :=
  0 < h_A h /\ 0 < h_B h /\ 0 < h_C h /\
  rearranges (z_rank z) (h_comp h) /\ rearranges (z_cols z) (h_cols h) /\
  forall i, (i < z_n z)%nat -> rearranges (z_rows z i) (h_rows h i).
Definition same_order (p : nat -> nat) : Prop := forall i, p i = i.

Definition moved_data (z : sizes) (h : change) (Xs Xs' : list matR) : Prop :=
  moved_list (z_n z) (z_rows z) (z_cols z) (h_X h) (h_rows h) (h_cols h) Xs Xs'.
Definition moved_cmf (z : sizes) (h : change) (c c' : rcmf) : Prop :=
  match cw c, cw c' with None, None => True | Some w, Some w' => moved_vec (z_rank z) 1 (h_comp h) w w' | _, _ => False end /\
  moved (z_n z) (z_rank z) (h_A h) (fun i => i) (h_comp h) (cA c) (cA c') /\
  moved_list (z_n z) (z_rows z) (z_rank z) (h_B h) (h_rows h) (h_comp h) (cBs c) (cBs c') /\
  moved (z_cols z) (z_rank z) (h_C h) (h_cols h) (h_comp h) (cC c) (cC c').
(** Variables of mode 1; the basis matrices of PARAFAC2 have no components. *)
Definition moved_auxes (z : sizes) (h : change) (a a' : auxes (N:=RNum)) : Prop :=
  match a, a' with
  | AList l, AList l' => moved_list (z_n z) (z_rows z) (z_rank z) (h_B h) (h_rows h) (h_comp h) l l'
  | APf2 P D, APf2 P' D' => P' = P /\ list_shaped (z_n z) (z_rows z) (z_rank z) P /\ moved (z_rank z) (z_rank z) (h_B h) (fun i => i) (h_comp h) D D'
  | _, _ => False
  end.
Definition moved_vars (z : sizes) (h : change) (v v' : admmvars (N:=RNum)) : Prop :=
  let mA := moved (z_n z) (z_rank z) (h_A h) (fun i => i) (h_comp h) in
  let mC := moved (z_cols z) (z_rank z) (h_C h) (h_cols h) (h_comp h) in
  Forall2 mA (v_auxA v) (v_auxA v') /\ Forall2 mA (v_dualA v) (v_dualA v') /\
  Forall2 (moved_auxes z h) (v_auxB v) (v_auxB v') /\
  Forall2 (moved_list (z_n z) (z_rows z) (z_rank z) (h_B h) (h_rows h) (h_comp h)) (v_dualB v) (v_dualB v') /\
  Forall2 mC (v_auxC v) (v_auxC v') /\ Forall2 mC (v_dualC v) (v_dualC v').

(** Corresponding penalties on a factor in units of 1/k; [t] is the factor by which its least-squares
    problem is multiplied, [straight] says that the rows keep their order.
    Bounds change with the unit of the factor, strengths so that the penalty is multiplied by t k^2, as
    the squared error is; penalties that are not homogeneous, or look at the order of the rows, want the
    unit or the order unchanged.  The external routines are [E] and [E']. *)
Definition moved_pen (E E' : ext (N:=RNum)) (t k : R) (straight : Prop) (p p' : penalty (N:=RNum)) : Prop :=
  match p, p' with
  | NonNegativity, NonNegativity => True
  | Box lo hi, Box lo' hi' => lo' = option_map (Rmult k) lo /\ hi' = option_map (Rmult k) hi
  | L1Penalty a nn, L1Penalty a' nn' => a' = t * k * a /\ nn' = nn
  | L2Ball b nn, L2Ball b' nn' => b' = k * b /\ nn' = nn
  | UnitSimplex, UnitSimplex => k = 1
  | Unimodality nn, Unimodality nn' => k = 1 /\ straight /\ nn' = nn
  | TotalVariation a b, TotalVariation a' b' => k = 1 /\ straight /\ a' = t * a /\ b' = t * b /\ forall v x, x_tv E' v x = x_tv E v x
  | GeneralizedL2 M _ _, GeneralizedL2 M' _ _ => straight /\ M' = mscale (N:=RNum) t M
  | Parafac2 n ub uc, Parafac2 n' ub' uc' => straight /\ n' = n /\ ub' = ub /\ uc' = uc
  | _, _ => False
  end.
(** PARAFAC2 replaces a matrix by U V^T from its svd.  For all matrices with k columns and at least k rows,
    the second routine gives for the matrix in units u^2 what the first gives. *)
Definition nearest (E : ext (N:=RNum)) (M : matR) (k : nat) : res matR := let '(U, _, Vh) := x_svd E M k in matmul (N:=RNum) U Vh.
Definition same_nearest (E E' : ext (N:=RNum)) (k : nat) (u : R) : Prop :=
  forall M, mwf M -> mc M = k -> (k <= mr M)%nat -> nearest E' (mscale (N:=RNum) (u * u) M) k = nearest E M k.
(** The factors of the three least-squares problems. *)
Definition problem_factor (h : change) (m : nat) : R :=
  match m with
  | 0%nat => h_B h * h_C h * (h_B h * h_C h)
  | 1%nat => h_A h * h_C h * (h_A h * h_C h)
  | _ => h_A h * h_B h * (h_A h * h_B h)
  end.
Definition unit_of (h : change) (m : nat) : R := match m with 0%nat => h_A h | 1%nat => h_B h | _ => h_C h end.
Definition rows_kept (h : change) (m : nat) : Prop :=
  match m with 0%nat => True | 1%nat => forall i, same_order (h_rows h i) | _ => same_order (h_cols h) end.
(** Penalties without a value. *)
Definition constraint_only (p : penalty (N:=RNum)) : Prop :=
  match p with NonNegativity | Box _ _ | L2Ball _ _ | UnitSimplex | Unimodality _ | Parafac2 _ _ _ => True | _ => False end.

(** ** Calls *)
(** The start of a call: what it returns with n_iter_max=0 and return_admm_vars=True. *)
Definition at_start (a : fitR) : fitR :=
  FitArgs (f_data a) (f_rank a) (f_init a) 0 (f_l2 a) (f_kw a) (f_regs a)
    (f_scale a) (f_const a) (f_aux a) (f_dual a) (f_svd a) (f_tol a) (f_abs_tol a) (f_feas_tol a)
    (f_inner_tol a) (f_inner a) (f_updA a) (f_updB a) (f_updC a) true (f_return_errors a).
Definition starts_at (V : envR) (IE : initextR) (rnd : rand (N:=RNum)) (a : fitR) (c : rcmf) (v : admmvars (N:=RNum)) : Prop :=
  exists o, cmf_aoadmm V IE rnd (at_start a) = Ok o /\ out_cmf o = c /\ out_vars o = Some v.
Definition same_settings (a b : fitR) : Prop :=
  f_rank b = f_rank a /\ f_n_iter b = f_n_iter a /\ f_scale b = f_scale a /\ f_const b = f_const a /\
  f_tol b = f_tol a /\ f_abs_tol b = f_abs_tol a /\ f_feas_tol b = f_feas_tol a /\ f_inner_tol b = f_inner_tol a /\ f_inner b = f_inner a /\
  f_updA b = f_updA a /\ f_updB b = f_updB a /\ f_updC b = f_updC a /\ f_return_vars b = f_return_vars a /\ f_return_errors b = f_return_errors a.
(** Ridge strengths are multiplied as the least-squares problems of their modes are. *)
Definition ridge_moved (h : change) (a b : fitR) : Prop :=
  forall m v v', (m < 3)%nat -> means (f_l2 a) m v -> means (f_l2 b) m v' -> strength v' = problem_factor h m * strength v.
(** Corresponding keyword arguments for one mode ([t], [k], [straight] as above). *)
Definition moved_kw (E E' : ext (N:=RNum)) (t k : R) (straight : Prop) (kw kw' : modekw (N:=RNum)) : Prop :=
  k_nn kw' = k_nn kw /\ k_lower kw' = option_map (Rmult k) (k_lower kw) /\ k_upper kw' = option_map (Rmult k) (k_upper kw) /\
  k_norm kw' = option_map (Rmult k) (k_norm kw) /\ k_l1 kw' = option_map (Rmult (t * k)) (k_l1 kw) /\
  k_uni kw' = k_uni kw /\ (wants (k_uni kw) -> k = 1 /\ straight) /\
  k_tv kw' = option_map (Rmult t) (k_tv kw) /\ (strength (k_tv kw) <> 0 -> k = 1 /\ straight /\ forall v x, x_tv E' v x = x_tv E v x) /\
  match k_gl2 kw, k_gl2 kw' with
  | Some (GMat M), Some (GMat M') => straight /\ M' = mscale (N:=RNum) t M
  | None, None | Some GFalse, Some GFalse => True
  | _, _ => False
  end /\
  k_pf2 kw' = k_pf2 kw /\ (k_pf2 kw = true -> straight).
(** All requests correspond: keywords and the user's own penalties, for the modes that are updated. *)
Definition requests_moved (h : change) (V V' : envR) (a b : fitR) : Prop :=
  forall m, (m < 3)%nat -> updates a m = true ->
    (forall kw kw', mode_values (f_kw a) m kw -> mode_values (f_kw b) m kw' ->
       moved_kw (e_ext V) (e_ext V') (problem_factor h m) (unit_of h m) (rows_kept h m) kw kw') /\
    (forall u u', user_penalties (f_regs a) m u -> user_penalties (f_regs b) m u' ->
       Forall2 (fun o o' => moved_pen (e_ext V) (e_ext V') (problem_factor h m) (unit_of h m) (rows_kept h m) (o_pen o) (o_pen o')) u u').
(** Nothing but constraints is imposed. *)
Definition constraints_only (a : fitR) : Prop :=
  forall m, (m < 3)%nat -> updates a m = true ->
    (forall kw, mode_values (f_kw a) m kw -> strength (k_l1 kw) = 0 /\ strength (k_tv kw) = 0 /\ (k_gl2 kw = None \/ k_gl2 kw = Some GFalse)) /\
    (forall u, user_penalties (f_regs a) m u -> Forall (fun o => constraint_only (o_pen o)) u).
(** The losses of the two calls are the same numbers: the data keep their unit, or there are no ridge
    terms and no penalties with a value. *)
Definition losses_kept (h : change) (a : fitR) : Prop := h_X h = 1 \/ (without_ridge a /\ constraints_only a).
(** Given factors, and auxiliary and dual variables that start at zero (basis matrices at identity matrices). *)
Definition zero_vars (a : fitR) : Prop :=
  f_aux a = IStr Zeros /\ f_dual a = IStr Zeros /\
  forall m u, (m < 3)%nat -> user_penalties (f_regs a) m u -> Forall (fun o => o_aux o = IStr Zeros /\ o_dual o = IStr Zeros) u.
(** The svd name is known and the arguments are accepted. *)
Definition accepted (V : envR) (a : fitR) : Prop :=
  f_svd a = true /\ well_formed (f_l2 a) /\ all_well_formed (f_kw a) /\ good_regs (f_regs a) /\
  forall m kw, (m < 3)%nat -> mode_values (f_kw a) m kw -> acceptable V kw.
(** Diagnostics agree; the losses if [lk]. *)
Definition same_diagnostics (lk : Prop) (u v : option (diagnostics (N:=RNum))) : Prop :=
  match u, v with
  | None, None => True
  | Some d, Some d' => d_errors d' = d_errors d /\ d_gaps d' = d_gaps d /\ (lk -> d_losses d' = d_losses d) /\
      d_stopped d' = d_stopped d /\ d_feasible d' = d_feasible d /\ d_n_iter d' = d_n_iter d /\ d_message d' = d_message d
  | _, _ => False
  end.
Definition moved_output (z : sizes) (h : change) (lk : Prop) (o o' : outR) : Prop :=
  moved_cmf z h (out_cmf o) (out_cmf o') /\
  match out_vars o, out_vars o' with None, None => True | Some v, Some v' => moved_vars z h v v' | _, _ => False end /\
  same_diagnostics lk (out_diag o) (out_diag o').
(** Both calls return and the results correspond, or both raise the same exception. *)
Definition same_outcome (Q : outR -> outR -> Prop) (x y : res outR) : Prop :=
  match x, y with Ok o, Ok o' => Q o o' | Err e, Err e' => e' = e | _, _ => False end.
(** Sizes of the data. *)
Definition data_sizes (a : fitR) (rank : nat) : sizes := Sizes (length (f_data a)) (rowsX (f_data a)) (colsX (f_data a)) rank.

(** ** Particular changes *)
(** The components in another order. *)
Definition other_components (s : nat -> nat) : change := Change 1 1 1 s (fun _ i => i) (fun i => i).
(** The rows of the data matrices and their columns in another order. *)
Definition other_rows_columns (p : nat -> nat -> nat) (q : nat -> nat) : change := Change 1 1 1 (fun i => i) p q.
Definition no_change : change := Change 1 1 1 (fun i => i) (fun _ i => i) (fun i => i).
(** The two calls differ in the data and [init] only. *)
Definition same_but_data_and_init (a b : fitR) : Prop :=
  f_rank b = f_rank a /\ f_n_iter b = f_n_iter a /\ f_l2 b = f_l2 a /\ f_kw b = f_kw a /\
  f_regs b = f_regs a /\ f_scale b = f_scale a /\ f_const b = f_const a /\ f_aux b = f_aux a /\ f_dual b = f_dual a /\
  f_svd b = f_svd a /\ f_tol b = f_tol a /\ f_abs_tol b = f_abs_tol a /\ f_feas_tol b = f_feas_tol a /\
  f_inner_tol b = f_inner_tol a /\ f_inner b = f_inner a /\ f_updA b = f_updA a /\ f_updB b = f_updB a /\ f_updC b = f_updC a /\
  f_return_vars b = f_return_vars a /\ f_return_errors b = f_return_errors a.
(** Nothing that is asked of mode m depends on the order of the rows. *)
Definition order_indifferent (a : fitR) (m : nat) : Prop :=
  (forall kw, mode_values (f_kw a) m kw -> ~ wants (k_uni kw) /\ strength (k_tv kw) = 0 /\ (k_gl2 kw = None \/ k_gl2 kw = Some GFalse) /\ k_pf2 kw = false) /\
  (forall u, user_penalties (f_regs a) m u -> Forall (fun o => order_free (o_pen o)) u).
(** The environments differ in the svd routine only. *)
Definition same_but_svd (V V' : envR) : Prop :=
  e_eigvals V' = e_eigvals V /\ e_has_tv V' = e_has_tv V /\ x_tv (e_ext V') = x_tv (e_ext V).
(** PARAFAC2 is not imposed. *)
Definition without_parafac2 (a : fitR) : Prop :=
  forall m, (m < 3)%nat -> updates a m = true ->
    (forall kw, mode_values (f_kw a) m kw -> k_pf2 kw = false) /\ (forall u, user_penalties (f_regs a) m u -> Forall (fun o => ~ is_parafac2 (o_pen o)) u).
