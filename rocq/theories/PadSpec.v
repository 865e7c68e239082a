(** The same problem with rows and columns of zeros added to the data matrices, and the others possibly
    moved.  Nothing of the fitting loop. *)
From Coq Require Import Reals List Arith Bool ZArith.
From Verif Require Import Num Numpy Spec ModelSpec Penalties PenaltySpec CoupledMatrices CmfSpec Decomp DecompSpec InitVars InitSpec
  Parse ParseSpec Fit FitSpec ResumeSpec StartSpec SymSpec.
Import ListNotations.
Local Open Scope R_scope.

(** Different numbers below r are sent to different numbers below h. *)
Definition into (f : nat -> nat) (r h : nat) : Prop :=
  (forall k, (k < r)%nat -> (f k < h)%nat) /\ forall k l, (k < r)%nat -> (l < r)%nat -> f k = f l -> k = l.
(** Row k of M is row f k of M', which has h rows; the other rows of M' are zero. *)
Definition spread (r c h : nat) (f : nat -> nat) (M M' : matR) : Prop :=
  shaped M r c /\ shaped M' h c /\
  (forall k j, (k < r)%nat -> (j < c)%nat -> mget M' (f k) j = mget M k j) /\
  (forall i j, (i < h)%nat -> (j < c)%nat -> (forall k, (k < r)%nat -> f k <> i) -> mget M' i j = 0).
(** The same with columns, too. *)
Definition spread_both (r c h w : nat) (f g : nat -> nat) (X X' : matR) : Prop :=
  shaped X r c /\ shaped X' h w /\
  (forall k l, (k < r)%nat -> (l < c)%nat -> mget X' (f k) (g l) = mget X k l) /\
  (forall i j, (i < h)%nat -> (j < w)%nat -> (forall k, (k < r)%nat -> f k <> i) \/ (forall l, (l < c)%nat -> g l <> j) -> mget X' i j = 0).
Definition spread_list (n : nat) (J : nat -> nat) (c : nat) (J' : nat -> nat) (f : nat -> nat -> nat) (l l' : list matR) : Prop :=
  length l = n /\ length l' = n /\ forall i, (i < n)%nat -> spread (J i) c (J' i) (f i) (nth i l no_mat) (nth i l' no_mat).

(** Where the rows of each data matrix and the columns of all go: the new numbers of rows and columns, and
    the new positions. *)
Record padding := Padding { q_rows : nat -> nat; q_cols : nat; q_row : nat -> nat -> nat; q_col : nat -> nat }.
Definition paddable (z : sizes) (q : padding) : Prop :=
  into (q_col q) (z_cols z) (q_cols q) /\ forall i, (i < z_n z)%nat -> into (q_row q i) (z_rows z i) (q_rows q i).
(** The rows stay as they are; the columns stay as they are. *)
Definition rows_kept (z : sizes) (q : padding) : Prop :=
  forall i, (i < z_n z)%nat -> q_rows q i = z_rows z i /\ forall k, (k < z_rows z i)%nat -> q_row q i k = k.
Definition cols_kept (z : sizes) (q : padding) : Prop :=
  q_cols q = z_cols z /\ forall k, (k < z_cols z)%nat -> q_col q k = k.
Definition padded_data (z : sizes) (q : padding) (Xs Xs' : list matR) : Prop :=
  length Xs = z_n z /\ length Xs' = z_n z /\
  forall i, (i < z_n z)%nat -> spread_both (z_rows z i) (z_cols z) (q_rows q i) (q_cols q) (q_row q i) (q_col q) (nth i Xs no_mat) (nth i Xs' no_mat).
Definition padded_list (z : sizes) (q : padding) : list matR -> list matR -> Prop :=
  spread_list (z_n z) (z_rows z) (z_rank z) (q_rows q) (q_row q).
Definition padded_mat (z : sizes) (q : padding) : matR -> matR -> Prop := spread (z_cols z) (z_rank z) (q_cols q) (q_col q).
(** A and the weights are the same; rows of zeros are added to the B_i and to C. *)
Definition padded_cmf (z : sizes) (q : padding) (c c' : rcmf) : Prop :=
  cw c' = cw c /\ cA c' = cA c /\ padded_list z q (cBs c) (cBs c') /\ padded_mat z q (cC c) (cC c').
(** Also to the basis matrices of PARAFAC2; the coordinate matrix is the same. *)
Definition padded_auxes (z : sizes) (q : padding) (a a' : auxes (N:=RNum)) : Prop :=
  match a, a' with
  | AList l, AList l' => padded_list z q l l'
  | APf2 P D, APf2 P' D' => padded_list z q P P' /\ D' = D /\ shaped D (z_rank z) (z_rank z)
  | _, _ => False
  end.
Definition padded_vars (z : sizes) (q : padding) (v v' : admmvars (N:=RNum)) : Prop :=
  v_auxA v' = v_auxA v /\ v_dualA v' = v_dualA v /\
  Forall2 (padded_auxes z q) (v_auxB v) (v_auxB v') /\ Forall2 (padded_list z q) (v_dualB v) (v_dualB v') /\
  Forall2 (padded_mat z q) (v_auxC v) (v_auxC v') /\ Forall2 (padded_mat z q) (v_dualC v) (v_dualC v').
(** Everything else that is returned is the same. *)
Definition padded_output (z : sizes) (q : padding) (o o' : outR) : Prop :=
  padded_cmf z q (out_cmf o) (out_cmf o') /\
  match out_vars o, out_vars o' with None, None => True | Some v, Some v' => padded_vars z q v v' | _, _ => False end /\
  out_diag o' = out_diag o.

(** A row of zeros satisfies what is asked and costs nothing, and rows are treated alike: signs, bounds
    between which 0 lies, sparsity, bounds on the norms of the columns, PARAFAC2. *)
Definition keeps_zero (p : penalty (N:=RNum)) : Prop :=
  match p with
  | NonNegativity | L1Penalty _ _ | L2Ball _ _ | Parafac2 _ _ _ => True
  | Box lo hi => (forall x, lo = Some x -> x <= 0) /\ (forall x, hi = Some x -> 0 <= x)
  | _ => False
  end.
Definition keeps_zero_mode (a : fitR) (m : nat) : Prop :=
  (forall kw, mode_values (f_kw a) m kw -> (forall x, k_lower kw = Some x -> x <= 0) /\ (forall x, k_upper kw = Some x -> 0 <= x) /\ ~ wants (k_uni kw) /\
     strength (k_tv kw) = 0 /\ (k_gl2 kw = None \/ k_gl2 kw = Some GFalse)) /\
  (forall u, user_penalties (f_regs a) m u -> Forall (fun o => keeps_zero (o_pen o)) u).
