(** The same problem in other orthonormal coordinates.  Nothing of the fitting loop. *)
From Coq Require Import Reals List Arith Bool ZArith.
From Verif Require Import Num Numpy Spec ModelSpec Penalties PenaltySpec CoupledMatrices CmfSpec Decomp DecompSpec InitVars InitSpec
  Parse ParseSpec Fit FitSpec ResumeSpec StartSpec SymSpec.
Import ListNotations.
Local Open Scope R_scope.

(** Q has r columns, which are orthonormal (it may have more rows than columns). *)
Definition frame (Q : matR) (r : nat) : Prop := mwf Q /\ mc Q = r /\ ortho_cols (mr Q) r (mget Q).
(** Q is the identity matrix: nothing is turned. *)
Definition straight (Q : matR) (r : nat) : Prop := mr Q = r /\ forall i j, (i < r)%nat -> (j < r)%nat -> mget Q i j = kron i j.
(** M' = Q M for an r x c matrix M. *)
Definition turned (r c : nat) (Q M M' : matR) : Prop :=
  shaped M r c /\ shaped M' (mr Q) c /\ forall i j, (i < mr Q)%nat -> (j < c)%nat -> mget M' i j = Sum r (fun k => mget Q i k * mget M k j).
(** X' = P X Q^T for an r x c matrix X. *)
Definition turned_both (r c : nat) (P Q X X' : matR) : Prop :=
  shaped X r c /\ shaped X' (mr P) (mr Q) /\
  forall i j, (i < mr P)%nat -> (j < mr Q)%nat -> mget X' i j = Sum r (fun k => Sum c (fun l => mget P i k * mget X k l * mget Q j l)).
Definition turned_list (n : nat) (J : nat -> nat) (c : nat) (P : nat -> matR) (l l' : list matR) : Prop :=
  length l = n /\ length l' = n /\ forall i, (i < n)%nat -> turned (J i) c (P i) (nth i l no_mat) (nth i l' no_mat).

(** New coordinates: one matrix for the rows of each data matrix, one for the columns of all. *)
Record coords := Coords { t_rows : nat -> matR; t_cols : matR }.
Definition frames (z : sizes) (t : coords) : Prop :=
  frame (t_cols t) (z_cols z) /\ forall i, (i < z_n z)%nat -> frame (t_rows t i) (z_rows z i).
Definition rows_straight (z : sizes) (t : coords) : Prop := forall i, (i < z_n z)%nat -> straight (t_rows t i) (z_rows z i).
Definition cols_straight (z : sizes) (t : coords) : Prop := straight (t_cols t) (z_cols z).
Definition turned_data (z : sizes) (t : coords) (Xs Xs' : list matR) : Prop :=
  length Xs = z_n z /\ length Xs' = z_n z /\
  forall i, (i < z_n z)%nat -> turned_both (z_rows z i) (z_cols z) (t_rows t i) (t_cols t) (nth i Xs no_mat) (nth i Xs' no_mat).
(** A and the weights are the same, the B_i and C are turned. *)
Definition turned_cmf (z : sizes) (t : coords) (c c' : rcmf) : Prop :=
  cw c' = cw c /\ cA c' = cA c /\
  turned_list (z_n z) (z_rows z) (z_rank z) (t_rows t) (cBs c) (cBs c') /\
  turned (z_cols z) (z_rank z) (t_cols t) (cC c) (cC c').
(** The basis matrices of PARAFAC2 are turned, the coordinate matrix is the same. *)
Definition turned_auxes (z : sizes) (t : coords) (a a' : auxes (N:=RNum)) : Prop :=
  match a, a' with
  | AList l, AList l' => turned_list (z_n z) (z_rows z) (z_rank z) (t_rows t) l l'
  | APf2 P D, APf2 P' D' => turned_list (z_n z) (z_rows z) (z_rank z) (t_rows t) P P' /\ D' = D /\ shaped D (z_rank z) (z_rank z)
  | _, _ => False
  end.
Definition turned_vars (z : sizes) (t : coords) (v v' : admmvars (N:=RNum)) : Prop :=
  v_auxA v' = v_auxA v /\ v_dualA v' = v_dualA v /\
  Forall2 (turned_auxes z t) (v_auxB v) (v_auxB v') /\
  Forall2 (turned_list (z_n z) (z_rows z) (z_rank z) (t_rows t)) (v_dualB v) (v_dualB v') /\
  Forall2 (turned (z_cols z) (z_rank z) (t_cols t)) (v_auxC v) (v_auxC v') /\ Forall2 (turned (z_cols z) (z_rank z) (t_cols t)) (v_dualC v) (v_dualC v').
(** Everything else that is returned is the same. *)
Definition turned_output (z : sizes) (t : coords) (o o' : outR) : Prop :=
  turned_cmf z t (out_cmf o) (out_cmf o') /\
  match out_vars o, out_vars o' with None, None => True | Some v, Some v' => turned_vars z t v v' | _, _ => False end /\
  out_diag o' = out_diag o.

(** What is asked of a mode does not depend on the coordinates: at most bounds on the norms of the
    columns, and PARAFAC2. *)
Definition coordinate_free (p : penalty (N:=RNum)) : Prop :=
  match p with L2Ball _ nn => nn = false | Parafac2 _ _ _ => True | _ => False end.
Definition free_mode (a : fitR) (m : nat) : Prop :=
  (forall kw, mode_values (f_kw a) m kw -> ~ wants (k_nn kw) /\ k_lower kw = None /\ k_upper kw = None /\ strength (k_l1 kw) = 0 /\ ~ wants (k_uni kw) /\
     strength (k_tv kw) = 0 /\ (k_gl2 kw = None \/ k_gl2 kw = Some GFalse)) /\
  (forall u, user_penalties (f_regs a) m u -> Forall (fun o => coordinate_free (o_pen o)) u).
(** The calls ask for the same. *)
Definition same_requests (a b : fitR) : Prop :=
  f_l2 b = f_l2 a /\ f_kw b = f_kw a /\
  forall m u u', (m < 3)%nat -> user_penalties (f_regs a) m u -> user_penalties (f_regs b) m u' -> map o_pen u' = map o_pen u.

(** ** svd routines that refuse *)
(** The columns of M are linearly independent. *)
Definition independent (M : matR) : Prop :=
  forall v, (forall i, (i < mr M)%nat -> Sum (mc M) (fun j => mget M i j * v j) = 0) -> forall j, (j < mc M)%nat -> v j = 0.
(** The result is unusable: the product of its factors and the division by its singular values both raise. *)
Definition refused (d : matR * list R * matR) : Prop := let '(U, s, Vh) := d in mc U <> mr Vh /\ In 0 s.
(** [Vc] is [V] with an svd routine that refuses matrices with [rank] columns that are not linearly
    independent; in all other cases it does the same. *)
Definition refuses_dependent (V Vc : envR) (rank : nat) : Prop :=
  e_eigvals Vc = e_eigvals V /\ e_has_tv Vc = e_has_tv V /\ x_tv (e_ext Vc) = x_tv (e_ext V) /\
  forall M k, (mc M = rank -> ~ independent M -> refused (x_svd (e_ext Vc) M k)) /\
              ((mc M = rank -> independent M) -> x_svd (e_ext Vc) M k = x_svd (e_ext V) M k).
(** Norm matrices given by keyword are not refused. *)
Definition norms_independent (a : fitR) (rank : nat) : Prop :=
  forall m M, (m < 3)%nat -> means (a_gl2 (f_kw a)) m (Some (GMat M)) -> mc M = rank -> independent M.
(** The start is not computed with the svd routine. *)
Definition start_without_svd (a : fitR) : Prop := f_init a <> InitName MSvd /\ f_init a <> InitName MThresholdSvd.
