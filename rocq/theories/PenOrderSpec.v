(** The same penalties in another order.  Nothing of the fitting loop. *)
From Coq Require Import Reals List Arith Bool ZArith Permutation.
From Verif Require Import Num Numpy Spec ModelSpec Penalties PenaltySpec CoupledMatrices CmfSpec Decomp DecompSpec InitVars InitSpec
  Parse ParseSpec Fit FitSpec StartSpec ResumeSpec SymSpec.
Import ListNotations.
Local Open Scope R_scope.

(** [l'] holds the elements of [l] in the order [p]: its k-th element is element number [p_k] of [l]. *)
Definition in_order {T} (p : list nat) (l l' : list T) : Prop :=
  Permutation p (seq 0 (length l)) /\ length l' = length l /\ forall k, (k < length l)%nat -> nth_error l' k = nth_error l (nth k p 0%nat).
(** Lists with an entry for every penalty of a mode: first those of the keyword arguments, then the
    user's own, and only these are in another order. *)
Definition tail_in_order {T} (p : list nat) (l l' : list T) : Prop :=
  exists kw u u', l = kw ++ u /\ l' = kw ++ u' /\ in_order p u u'.

(** The user's own penalties of each mode in the order [p m]; the calls are otherwise the same, apart from
    initial values. *)
Definition regs_in_order (p : nat -> list nat) (a b : fitR) : Prop :=
  f_data b = f_data a /\ same_settings a b /\ f_l2 b = f_l2 a /\ f_kw b = f_kw a /\
  forall m u u', (m < 3)%nat -> user_penalties (f_regs a) m u -> user_penalties (f_regs b) m u' -> in_order (p m) (map o_pen u) (map o_pen u').
(** Penalties of modes that are not updated are ignored. *)
Definition used (a : fitR) (p : nat -> list nat) (m : nat) : list nat := if updates a m then p m else [].

(** Auxiliary and dual variables, gaps and everything that is returned. *)
Definition vars_in_order (q : nat -> list nat) (v v' : admmvars (N:=RNum)) : Prop :=
  tail_in_order (q 0%nat) (v_auxA v) (v_auxA v') /\ tail_in_order (q 0%nat) (v_dualA v) (v_dualA v') /\
  tail_in_order (q 1%nat) (v_auxB v) (v_auxB v') /\ tail_in_order (q 1%nat) (v_dualB v) (v_dualB v') /\
  tail_in_order (q 2%nat) (v_auxC v) (v_auxC v') /\ tail_in_order (q 2%nat) (v_dualC v) (v_dualC v').
Definition gaps_in_order (q : nat -> list nat) (g g' : gaps (N:=RNum)) : Prop :=
  forall m, (m < 3)%nat -> tail_in_order (q m) (pick g m) (pick g' m).
Definition diag_in_order (q : nat -> list nat) (d d' : diagnostics (N:=RNum)) : Prop :=
  d_errors d' = d_errors d /\ d_losses d' = d_losses d /\ Forall2 (gaps_in_order q) (d_gaps d) (d_gaps d') /\
  d_stopped d' = d_stopped d /\ d_feasible d' = d_feasible d /\ d_n_iter d' = d_n_iter d /\ d_message d' = d_message d.
Definition both {A} (Q : A -> A -> Prop) (x y : option A) : Prop :=
  match x, y with Some u, Some v => Q u v | None, None => True | _, _ => False end.
Definition output_in_order (q : nat -> list nat) (o o' : outR) : Prop :=
  out_cmf o' = out_cmf o /\ both (vars_in_order q) (out_vars o) (out_vars o') /\ both (diag_in_order q) (out_diag o) (out_diag o').

(** ** When a factor matrix is zero *)
(** The factors after [k] iterations: what the call returns with n_iter_max=k and no tolerances. *)
Definition just_iterations (a : fitR) (k : nat) : fitR :=
  FitArgs (f_data a) (f_rank a) (f_init a) (Z.of_nat k) (f_l2 a) (f_kw a) (f_regs a)
    (f_scale a) (f_const a) (f_aux a) (f_dual a) (f_svd a) None None None
    (f_inner_tol a) (f_inner a) (f_updA a) (f_updB a) (f_updC a) false false.
Definition after_iterations (V : envR) (IE : initextR) (rnd : rand (N:=RNum)) (a : fitR) (k : nat) (c : rcmf) : Prop :=
  exists o, cmf_aoadmm V IE rnd (just_iterations a k) = Ok o /\ out_cmf o = c.
Definition nonzero (M : matR) : Prop := exists i j, (i < mr M)%nat /\ (j < mc M)%nat /\ mget M i j <> 0.
(** No mode with several penalties has a factor that is exactly zero after some iteration ... *)
Definition factors_nonzero (V : envR) (IE : initextR) (rnd : rand (N:=RNum)) (a : fitR) (v : admmvars (N:=RNum)) : Prop :=
  forall k c, (Z.of_nat k <= Z.max 0 (f_n_iter a))%Z -> after_iterations V IE rnd a k c ->
    ((2 <= length (v_auxA v))%nat -> nonzero (cA c)) /\ ((2 <= length (v_auxB v))%nat -> exists B, In B (cBs c) /\ nonzero B) /\
    ((2 <= length (v_auxC v))%nat -> nonzero (cC c)).
(** ... or only one mode has penalties. *)
Definition one_mode (v : admmvars (N:=RNum)) : Prop :=
  (v_auxA v = [] /\ v_auxB v = []) \/ (v_auxA v = [] /\ v_auxC v = []) \/ (v_auxB v = [] /\ v_auxC v = []).

(** ** Calls whose variables do not depend on the order *)
(** Start values that are not drawn at random. *)
Definition not_drawn (i : initval (N:=RNum)) : Prop := i <> IStr RandomUniform /\ i <> IStr RandomStandardNormal.
Definition fixed_starts (a : fitR) : Prop :=
  not_drawn (f_aux a) /\ not_drawn (f_dual a) /\
  forall m u, (m < 3)%nat -> user_penalties (f_regs a) m u -> Forall (fun o => not_drawn (o_aux o) /\ not_drawn (o_dual o)) u.
(** The same call with the penalty objects of each mode (and their start values) in the order [p m]. *)
Definition objects_in_order (p : nat -> list nat) (a b : fitR) : Prop :=
  f_data b = f_data a /\ same_settings a b /\ f_l2 b = f_l2 a /\ f_kw b = f_kw a /\ f_init b = f_init a /\ f_aux b = f_aux a /\ f_dual b = f_dual a /\
  forall m u u', (m < 3)%nat -> user_penalties (f_regs a) m u -> user_penalties (f_regs b) m u' -> in_order (p m) u u'.
