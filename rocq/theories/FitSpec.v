(** Sensible calls of [cmf_aoadmm], and what its result is meant to satisfy.  Nothing of
    the fitting code. *)
From Coq Require Import Reals List Arith Bool ZArith.
From Verif Require Import Num Numpy Spec ModelSpec Penalties PenaltySpec CoupledMatrices CmfSpec Decomp DecompSpec InitVars InitSpec
  Parse ParseSpec Fit.
Import ListNotations.
Local Open Scope R_scope.

Notation fitR := (fitargs (N:=RNum)).
Notation outR := (output (N:=RNum)).
Notation envR := (env (N:=RNum)).
Notation initextR := (initext (N:=RNum)).

(** Row counts of the factor matrices of a mode: the number of matrices, the rows of the
    matrices, the columns of the matrices. *)
Definition mode_rows (Xs : list matR) (m r : nat) : Prop :=
  match m with
  | 0%nat => r = length Xs
  | 1%nat => exists i, (i < length Xs)%nat /\ r = rowsX Xs i
  | _ => r = colsX Xs
  end.
(** PARAFAC2 is requested, by the keyword or as a penalty object. *)
Definition wants_parafac2 (a : fitR) : Prop :=
  a_pf2 (f_kw a) = true \/ exists u, user_penalties (f_regs a) 1 u /\ Exists (fun o => is_parafac2 (o_pen o)) u.
(** An initial factorization has the requested rank. *)
Definition init_rank (i : initarg (N:=RNum)) (rank : nat) : Prop :=
  match i with
  | InitSeq l => exists w nA d Bs C, l = [w; PSeq [PArr [nA; rank] d; Bs; C]]
  | InitName _ => True
  end.
(** tensorly's decompositions have the rank they are asked for. *)
Definition ranks_kept (IE : initextR) : Prop :=
  (forall Xs r pos t p, i_parafac2 IE Xs (PyInt r) pos = Ok (t, p) -> Z.of_nat (mc (pfA t)) = r) /\
  (forall T r pos t p, i_parafac IE T (PyInt r) pos = Ok (t, p) -> forall F, In F (cpf t) -> Z.of_nat (mc F) = r) /\
  (forall T r pos t p, i_hals IE T (PyInt r) pos = Ok (t, p) -> forall F, In F (cpf t) -> Z.of_nat (mc F) = r).
(** Non-empty matrices, a positive rank, non-negative strengths, consistent bounds, sound
    penalties; with PARAFAC2 at least [rank] rows. *)
Definition sensible (V : envR) (a : fitR) (rank : nat) : Prop :=
  let Xs := f_data a in
  Xs <> [] /\ Forall (fun X => mwf X /\ (0 < mr X)%nat /\ (0 < mc X)%nat) Xs /\
  f_rank a = PyInt (Z.of_nat rank) /\ (0 < rank)%nat /\ init_rank (f_init a) rank /\
  0 <= f_scale a /\ (forall m v, (m < 3)%nat -> means (f_l2 a) m v -> 0 <= strength v) /\
  (forall m r kw, (m < 3)%nat -> mode_rows Xs m r -> mode_values (f_kw a) m kw -> bounds_consistent kw /\ gl2_sound V kw r) /\
  (forall m r u, (m < 3)%nat -> mode_rows Xs m r -> user_penalties (f_regs a) m u -> Forall (fun o => valid_penalty (o_pen o) r) u) /\
  (wants_parafac2 a -> forall X, In X Xs -> (rank <= mr X)%nat).

(** Which mode is updated. *)
Definition updates (a : fitR) (m : nat) : bool := match m with 0%nat => f_updA a | 1%nat => f_updB a | _ => f_updC a end.

(** Some returned auxiliary variable has the property. *)
Definition some_aux (l : list matR) (Q : ent -> Prop) : Prop := Exists (fun X => Q (mget X)) l.
Definition aux_entry (x : auxes (N:=RNum)) (i : nat) : ent :=
  match x with
  | AList l => mget (nth i l no_mat)
  | APf2 P D => fun j q => Sum (mr D) (fun p => mget (nth i P no_mat) j p * mget D p q)
  end.
Definition some_auxes (Xs : list matR) (l : list (auxes (N:=RNum))) (Q : nat -> ent -> Prop) : Prop :=
  Exists (fun x => forall i, (i < length Xs)%nat -> Q (rowsX Xs i) (aux_entry x i)) l.
(** Every requested constraint holds for one of the auxiliary variables; [some Q] says
    that one of them satisfies Q. *)
Definition constraints_met (kw : modekw (N:=RNum)) (c : nat) (some : (nat -> ent -> Prop) -> Prop) : Prop :=
  (wants (k_nn kw) -> some (fun r X => entries r c (fun x => 0 <= x) X)) /\
  (forall lo, k_lower kw = Some lo -> some (fun r X => entries r c (fun x => lo <= x) X)) /\
  (forall hi, k_upper kw = Some hi -> some (fun r X => entries r c (fun x => x <= hi) X)) /\
  (forall b, k_norm kw = Some b -> b <> 0 -> some (fun r X => cols_in_ball r c b X)) /\
  (wants (k_uni kw) -> some (fun r X => cols_unimodal r c X)).
(** One of the mode-1 variables has the same cross product for all matrices. *)
Definition constant_cross (Xs : list matR) (c : nat) (l : list (auxes (N:=RNum))) : Prop :=
  Exists (fun x => exists Phi, forall i, (i < length Xs)%nat -> same c c (cross (rowsX Xs i) (aux_entry x i)) Phi) l.

(** The two calls have the same arguments except for the keyword [parafac2]. *)
Definition same_kw_but_parafac2 (k k' : kwargs (N:=RNum)) : Prop :=
  a_nn k' = a_nn k /\ a_lower k' = a_lower k /\ a_upper k' = a_upper k /\ a_norm k' = a_norm k /\ a_uni k' = a_uni k /\
  a_l1 k' = a_l1 k /\ a_tv k' = a_tv k /\ a_gl2 k' = a_gl2 k.
Definition same_but_kw (a b : fitR) : Prop :=
  f_data b = f_data a /\ f_rank b = f_rank a /\ f_init b = f_init a /\ f_n_iter b = f_n_iter a /\
  f_regs b = f_regs a /\ f_scale b = f_scale a /\ f_const b = f_const a /\ f_aux b = f_aux a /\ f_dual b = f_dual a /\
  f_svd b = f_svd a /\ f_tol b = f_tol a /\ f_abs_tol b = f_abs_tol a /\ f_feas_tol b = f_feas_tol a /\
  f_inner_tol b = f_inner_tol a /\ f_inner b = f_inner a /\ f_updA b = f_updA a /\ f_updB b = f_updB a /\ f_updC b = f_updC a /\
  f_return_vars b = f_return_vars a /\ f_return_errors b = f_return_errors a.

(** Entry (i, j, k) of the zero-padded data tensor. *)
Definition padded_data (Xs : list matR) (i j k : nat) : R :=
  if (j <? rowsX Xs i)%nat then mget (nthX Xs i) j k else 0.

(** ** The reported values *)
(** The penalty of a factor matrix: what the keywords ask for and the user's own
    penalties; nothing for a mode that is not updated. *)
Definition mode_penalty (upd : bool) (kw : modekw (N:=RNum)) (u : list (pobj (N:=RNum))) (r c : nat) (X : ent) : R :=
  if upd then requested_penalty kw r c X + total_penalty u r c X else 0.
(** Half the squared relative error, ridge terms with strengths [l 0, l 1, l 2], and penalties. *)
Definition fit_loss (a : fitR) (l : nat -> R) (kw : nat -> modekw (N:=RNum)) (u : nat -> list (pobj (N:=RNum))) (c : rcmf) : R :=
  1 / 2 * rel_error (f_data a) c ^ 2 +
  (l 0%nat / 2 * sumsq (mr (cA c)) (mc (cA c)) (mget (cA c)) +
   l 1%nat / 2 * Sum (length (cBs c)) (fun i => sumsq (mr (nthB c i)) (mc (nthB c i)) (mget (nthB c i))) +
   l 2%nat / 2 * sumsq (mr (cC c)) (mc (cC c)) (mget (cC c))) +
  (mode_penalty (f_updA a) (kw 0%nat) (u 0%nat) (mr (cA c)) (mc (cA c)) (mget (cA c)) +
   Sum (length (cBs c)) (fun i => mode_penalty (f_updB a) (kw 1%nat) (u 1%nat) (mr (nthB c i)) (mc (nthB c i)) (mget (nthB c i))) +
   mode_penalty (f_updC a) (kw 2%nat) (u 2%nat) (mr (cC c)) (mc (cC c)) (mget (cC c))).
(** The values the arguments give to the three modes. *)
Definition arguments (a : fitR) (l : nat -> R) (kw : nat -> modekw (N:=RNum)) (u : nat -> list (pobj (N:=RNum))) : Prop :=
  forall m, (m < 3)%nat -> (exists v, means (f_l2 a) m v /\ l m = strength v) /\ mode_values (f_kw a) m (kw m) /\ user_penalties (f_regs a) m (u m).

(** ** Stopping, in terms of the diagnostics *)
Definition all_gaps (Q : xnumR -> Prop) (g : gaps (N:=RNum)) : Prop := let '(x, y, z) := g in Forall Q x /\ Forall Q y /\ Forall Q z.
Definition below (t : R) (x : xnumR) : Prop := exists g, x = Fin g /\ g < t.
Definition not_nan (x : xnumR) : Prop := x <> NaN.
Definition loss_at (d : diagnostics (N:=RNum)) (j : nat) (l : R) : Prop := nth_error (d_losses d) j = Some (Fin l).
Definition gaps_at (d : diagnostics (N:=RNum)) (j : nat) : gaps (N:=RNum) := nth j (d_gaps d) ([], [], []).
(** All gaps of iteration j are below feasibility_tol ... *)
Definition diag_feasible (a : fitR) (d : diagnostics (N:=RNum)) (j : nat) : Prop :=
  exists t, f_feas_tol a = Some t /\ t <> 0 /\ all_gaps (below t) (gaps_at d j).
(** ... the relative change of the loss is below tol ... *)
Definition diag_relative (a : fitR) (d : diagnostics (N:=RNum)) (j : nat) : Prop :=
  exists t p l, f_tol a = Some t /\ t <> 0 /\ loss_at d (j - 1) p /\ loss_at d j l /\ Rabs (p - l) < t * p.
(** ... the loss is below absolute_tol (which only counts when tol is set). *)
Definition diag_absolute (a : fitR) (d : diagnostics (N:=RNum)) (j : nat) : Prop :=
  (exists t, f_tol a = Some t /\ t <> 0) /\ exists t l, f_abs_tol a = Some t /\ loss_at d j l /\ l < t.

(** ** Data that is accepted *)
Definition same_columns (Xs : list matR) : Prop := forall X, In X Xs -> mc X = colsX Xs.

(** ** Kinds of requests *)
(** Nothing is asked of a mode. *)
Definition asks_nothing (k : modekw (N:=RNum)) : Prop :=
  ~ wants (k_nn k) /\ k_lower k = None /\ k_upper k = None /\ strength (k_norm k) = 0 /\ ~ wants (k_uni k) /\ strength (k_l1 k) = 0 /\
  strength (k_tv k) = 0 /\ (k_gl2 k = None \/ k_gl2 k = Some GFalse) /\ k_pf2 k = false.
Definition unpenalised (a : fitR) : Prop :=
  forall m, (m < 3)%nat -> updates a m = true ->
    (forall kw, mode_values (f_kw a) m kw -> asks_nothing kw) /\ (forall u, user_penalties (f_regs a) m u -> u = []).
Definition without_ridge (a : fitR) : Prop := forall m v, (m < 3)%nat -> means (f_l2 a) m v -> strength v = 0.
(** Something is asked of a mode that cannot be imposed row by row. *)
Definition asks_matrixwise (k : modekw (N:=RNum)) : Prop :=
  strength (k_norm k) <> 0 \/ wants (k_uni k) \/ strength (k_tv k) <> 0 \/ exists M, k_gl2 k = Some (GMat M).
Definition needs_constant_A (a : fitR) : Prop :=
  (exists kw, mode_values (f_kw a) 0 kw /\ asks_matrixwise kw) \/
  (exists u, user_penalties (f_regs a) 0 u /\ Exists (fun o => ~ rowwise (o_pen o)) u).
(** [constant_feasibility_penalty] covers A. *)
Definition constant_for_A (c : constarg) : bool := match c with CBool b => b | CA => true | _ => false end.

(** ** Starting points *)
(** Singular vectors of the shapes documented for [svd] routines, when the rank exceeds
    neither dimension. *)
Definition svd_shapes (E : ext (N:=RNum)) (rank : nat) : Prop :=
  forall M : matR, mwf M -> (rank <= mr M)%nat -> (rank <= mc M)%nat ->
  let '(U, _, Vh) := x_svd E M rank in shaped U (mr M) rank /\ shaped Vh rank (mc M).
(** [U] holds the left, [Vh] the right singular vectors computed for [M]. *)
Definition left_vectors (E : ext (N:=RNum)) (M : matR) (rank : nat) : matR := let '(U, _, _) := x_svd E M rank in U.
Definition right_vectors (E : ext (N:=RNum)) (M : matR) (rank : nat) : matR := let '(_, _, Vh) := x_svd E M rank in Vh.
(** All matrices below each other. *)
Fixpoint stacked_entry (Xs : list matR) (j k : nat) : R :=
  match Xs with
  | [] => 0
  | X :: Xs' => if (j <? mr X)%nat then mget X j k else stacked_entry Xs' (j - mr X) k
  end.
Definition stacks (M : matR) (Xs : list matR) : Prop :=
  shaped M (list_sum (map (fun X : matR => mr X) Xs)) (colsX Xs) /\
  forall j k, (j < mr M)%nat -> (k < mc M)%nat -> mget M j k = stacked_entry Xs j k.

(** ** Calls that cannot fail *)
(** At most non-negativity, bounds, norm bounds and unimodality are asked of a mode. *)
Definition asks_plain (k : modekw (N:=RNum)) : Prop :=
  strength (k_l1 k) = 0 /\ strength (k_tv k) = 0 /\ (k_gl2 k = None \/ k_gl2 k = Some GFalse) /\ k_pf2 k = false.
(** A random start, or a factorization of the right sizes. *)
Definition start_ok (a : fitR) (rank : nat) : Prop :=
  match f_init a with
  | InitName MRandom => True
  | InitName _ => False
  | InitSeq l => exists c0, PSeq l = py_of_cmf c0 /\ data_fits (f_data a) c0 /\ mc (cA c0) = rank
  end.
Definition named_init (v : initval (N:=RNum)) : Prop := exists s, v = IStr s /\ s <> UnknownName.
Definition dependable (V : envR) (a : fitR) (rank : nat) : Prop :=
  sensible V a rank /\ same_columns (f_data a) /\ start_ok a rank /\
  f_svd a = true /\ f_const a <> COther /\ named_init (f_aux a) /\ named_init (f_dual a) /\
  well_formed (f_l2 a) /\ all_well_formed (f_kw a) /\ good_regs (f_regs a) /\
  (forall m kw, (m < 3)%nat -> mode_values (f_kw a) m kw -> acceptable V kw) /\
  (forall m, (m < 3)%nat -> updates a m = true ->
    (forall v, means (f_l2 a) m v -> 0 < strength v) /\
    (forall kw, mode_values (f_kw a) m kw -> asks_plain kw) /\
    (forall u, user_penalties (f_regs a) m u -> Forall (fun o => rho_free (o_pen o) /\ named_init (o_aux o) /\ named_init (o_dual o)) u)) /\
  (f_updA a = true -> constant_for_A (f_const a) = false -> ~ needs_constant_A a) /\
  (tol_set (f_tol a) -> f_abs_tol a <> None).
