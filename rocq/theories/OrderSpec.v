(** Exact constraints under any arithmetic.

    The specifications of this file are about an arbitrary record of operations
    [N : Num].  The operations may round, overflow to a largest number or be plainly
    wrong: nothing is assumed of them except, where stated, that [<=] compares any two
    numbers and is transitive ([ordered]; IEEE numbers without nan are an instance, so are
    integers with truncating division), and that products and quotients of non-negative
    numbers are non-negative ([product_signs]). *)
From Coq Require Import List Arith Bool ZArith.
From Verif Require Import Num Numpy Penalties CoupledMatrices Decomp InitVars Parse ParseSpec Fit.
Import ListNotations.

Section Order.
Context {N : Num}.

Definition le (x y : num) : Prop := nleb x y = true.
Definition lt (x y : num) : Prop := ~ le y x.
Definition ordered : Prop :=
  (forall x y, le x y \/ le y x) /\ (forall x y z, le x y -> le y z -> le x z).
Definition product_signs : Prop :=
  (forall x y, le n0 x -> le n0 y -> le n0 (nmul x y)) /\
  (forall x y, le n0 x -> lt n0 y -> le n0 (ndiv x y)).

(** ** Vectors *)
Definition entry (v : list num) (i : nat) : num := nth i v n0.
(** There is a position t such that the entries do not decrease up to t and do not
    increase from t on (nothing is asked of an empty vector). *)
Definition peaked (v : list num) : Prop :=
  v <> [] -> exists t, t < length v /\
    (forall i j, i <= j -> j <= t -> le (entry v i) (entry v j)) /\
    (forall i j, t <= i -> i <= j -> j < length v -> le (entry v j) (entry v i)).
Definition no_negatives (v : list num) : Prop := Forall (le n0) v.

(** ** Matrices: rows are lists *)
Definition every (Q : num -> Prop) (X : mat) : Prop := Forall (Forall Q) (me X).
Definition the_column (X : mat) (j : nat) : list num := map (fun row => entry row j) (me X).
Definition columns (Q : list num -> Prop) (X : mat) : Prop := forall j, j < mc X -> Q (the_column X j).

(** r rows of c entries each. *)
Definition sized (X : mat) (r c : nat) : Prop :=
  mr X = r /\ mc X = c /\ length (me X) = r /\ Forall (fun row => length row = c) (me X).
(** The matrix of right singular vectors that the svd routine returns for a square matrix
    is as wide as the matrix. *)
Definition svd_widths (E : ext) : Prop :=
  forall M, mr M = mc M -> let '(_, _, Vh) := x_svd E M (mr M) in mc Vh = mc M.

(** What a penalty object guarantees of a matrix it returns, as far as this only depends
    on comparisons. *)
Definition meets (p : penalty) (X : mat) : Prop :=
  match p with
  | NonNegativity | UnitSimplex | L1Penalty _ true | L2Ball _ true => every (le n0) X
  | Box lo hi => (forall l, lo = Some l -> every (le l) X) /\ (forall h, hi = Some h -> every (fun x => le x h) X)
  | Unimodality nn => columns peaked X /\ (nn = true -> every (le n0) X)
  | _ => True
  end.
(** Bounds in order, a positive norm bound. *)
Definition consistent (p : penalty) : Prop :=
  match p with
  | Box (Some lo) (Some hi) => le lo hi
  | L2Ball b true => lt n0 b
  | _ => True
  end.
(** A mode-1 auxiliary variable is a list of matrices. *)
Definition meets_all (p : penalty) (x : auxes) : Prop :=
  match x with AList l => Forall (meets p) l | APf2 _ _ => True end.

(** The penalties that return a matrix of the size they are given whatever their parameters
    (a generalized L2 penalty could have a norm matrix of another size). *)
Definition keeps_size (p : penalty) : Prop := match p with GeneralizedL2 _ _ _ | Parafac2 _ _ _ => False | _ => True end.

(** ** Calls of [cmf_aoadmm] *)
(** The flag update_A, update_B or update_C. *)
Definition mode_updated (a : fitargs) (m : nat) : bool :=
  match m with 0 => f_updA a | 1 => f_updB a | _ => f_updC a end.
(** One of the auxiliary variables of mode m has the size of the factor matrix (or matrices)
    of the mode, and Q holds of it (of all its matrices). *)
Definition some_variable (Xs : list mat) (R : nat) (v : admmvars) (m : nat) (Q : mat -> Prop) : Prop :=
  match m with
  | 0 => exists X, In X (v_auxA v) /\ sized X (length Xs) R /\ Q X
  | 1 => exists l, In (AList l) (v_auxB v) /\ length l = length Xs /\
           forall i X D, nth_error Xs i = Some D -> nth_error l i = Some X -> sized X (mr D) R /\ Q X
  | _ => exists X, In X (v_auxC v) /\ (forall D, In D Xs -> sized X (mc D) R) /\ Q X
  end.
(** The last of a list of variables belong to the penalties u, in order, and Q holds of
    each penalty and its variable. *)
Definition last_variables {A : Type} (vars : list A) (u : list pobj) (Q : penalty -> A -> Prop) : Prop :=
  exists l1 l2, vars = l1 ++ l2 /\ Forall2 (fun o x => Q (o_pen o) x) u l2.
(** The bounds requested for a mode are in order. *)
Definition bounds_in_order (k : modekw) : Prop :=
  forall hi, k_upper k = Some hi -> (forall lo, k_lower k = Some lo -> le lo hi) /\ (wants (k_nn k) -> le n0 hi).
(** Factor matrices of the sizes that the data and the rank R ask for. *)
Definition fits (Xs : list mat) (R : nat) (c : cmf) : Prop :=
  sized (cA c) (length Xs) R /\ length (cBs c) = length Xs /\
  (forall i X B, nth_error Xs i = Some X -> nth_error (cBs c) i = Some B -> sized B (mr X) R) /\
  (forall X, In X Xs -> sized (cC c) (mc X) R).

(** Stopping criteria, in terms of the reported histories: a tolerance that is given and
    not zero; *)
Definition is_set (o : option num) (t : num) : Prop := o = Some t /\ ~ (le t n0 /\ le n0 t).
Definition smaller (t : num) (x : xnum) : Prop := exists v, x = Fin v /\ lt v t.
Definition every_gap (Q : xnum -> Prop) (g : gaps) : Prop := let '(x, y, z) := g in Forall Q x /\ Forall Q y /\ Forall Q z.
(** all gaps of iteration j below feasibility_tol; *)
Definition gaps_small (a : fitargs) (d : diagnostics) (j : nat) : Prop :=
  exists t g, is_set (f_feas_tol a) t /\ nth_error (d_gaps d) j = Some g /\ every_gap (smaller t) g.
Definition loss_is (d : diagnostics) (j : nat) (l : num) : Prop := nth_error (d_losses d) j = Some (Fin l).
(** |previous loss - loss| < tol * previous loss; *)
Definition loss_settled (a : fitargs) (d : diagnostics) (j : nat) : Prop :=
  exists t p l, is_set (f_tol a) t /\ loss_is d (j - 1) p /\ loss_is d j l /\ lt (nabs (nsub p l)) (nmul t p).
(** loss below absolute_tol, which only counts when tol is set. *)
Definition loss_small (a : fitargs) (d : diagnostics) (j : nat) : Prop :=
  (exists t, is_set (f_tol a) t) /\ exists t l, f_abs_tol a = Some t /\ loss_is d j l /\ lt l t.

End Order.
