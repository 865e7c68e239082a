(** Which exceptions a call may raise.  [allowed] is a set of exceptions; a method is
    reliable up to [allowed] when, for arguments of the right shapes, it returns a value of
    the right shape or raises one of them.  Only the methods of the objects are mentioned. *)
From Coq Require Import Reals List Arith Bool ZArith.
From Verif Require Import Num Numpy Spec Penalties PenaltySpec CoupledMatrices Decomp DecompSpec InitVars InitSpec Parse ParseSpec Fit FitSpec Custom CustomSpec CustomTotalSpec.
Import ListNotations.
Local Open Scope R_scope.

(** The result is a value with property [Q], or an allowed exception. *)
Definition yields {A} (allowed : exn -> Prop) (Q : A -> Prop) (r : res A) : Prop :=
  match r with Ok a => Q a | Err e => allowed e end.

Section Reliable.
Context {X : Type} (allowed : exn -> Prop).
Implicit Types (c : cls (N:=RNum) X) (o : uobj (N:=RNum) X).
Definition reliable_subtraction (r k : nat) (I : uaux (N:=RNum) X -> Prop) c : Prop :=
  forall x M, I x -> shaped M r k -> yields allowed (fun D => shaped D r k) (sub_method c x M).
Definition reliable_value (r k : nat) c : Prop := forall M, shaped M r k -> yields allowed (fun _ => True) (pen_method c (inl M)).
Definition reliable_matrix (r k : nat) (I : uaux (N:=RNum) X -> Prop) c : Prop :=
  (forall V rho x, shaped V r k -> 0 <= rho -> I x -> yields allowed I (mat_method c V rho x)) /\
  reliable_subtraction r k I c /\ reliable_value r k c.
Definition reliable_rows (r k : nat) c : Prop :=
  (forall row rho old, length row = k -> length old = k -> 0 <= rho -> yields allowed (fun new => length new = k) (row_method c row rho old)) /\
  reliable_subtraction r k (array r k) c /\ reliable_value r k c.
Definition reliable_matrices (n : nat) (J : nat -> nat) (k : nat) (I : uauxes (N:=RNum) X -> Prop) c : Prop :=
  (forall Vs rhos x, list_shaped n J k Vs -> length rhos = n -> Forall (fun rho => 0 <= rho) rhos -> I x -> yields allowed I (mats_method c Vs rhos x)) /\
  (forall x Ms, I x -> list_shaped n J k Ms -> yields allowed (fun D => list_shaped n J k D) (subs_method c x Ms)) /\
  (forall Ms, list_shaped n J k Ms -> yields allowed (fun _ => True) (pen_method c (inr Ms))).
Definition reliable_start (rnd : rand (N:=RNum)) (Xs : list (mat (N:=RNum))) (rank : nat) (m : Z) (Q : uauxval (N:=RNum) X -> Prop) (D : auxval (N:=RNum) -> Prop) o : Prop :=
  forall pos, yields allowed (fun v => Q (fst v)) (uinit_aux rnd o Xs (PyInt (Z.of_nat rank)) (PyInt m) pos) /\
              yields allowed (fun v => D (fst v)) (uinit_dual rnd o Xs (PyInt (Z.of_nat rank)) (PyInt m) pos).
(** An object of a mode: of A (row by row unless the feasibility penalty is constant), of
    the B_i, of C.  [I] is the object's own notion of a well-formed auxiliary variable. *)
Definition reliable_object (rnd : rand (N:=RNum)) (Xs : list (mat (N:=RNum))) (rank : nat) (constant : bool) (m : nat) o : Prop :=
  match m with
  | O => exists I, reliable_start rnd Xs rank 0 (one I) (one_dual (length Xs) rank) o /\
           if constant then reliable_matrix (length Xs) rank I (w_cls o)
           else reliable_rows (length Xs) rank (w_cls o) /\ forall x, I x -> array (length Xs) rank x
  | S O => exists I, reliable_start rnd Xs rank 1 (many I) (many_duals (length Xs) (rowsX Xs) rank) o /\
           reliable_matrices (length Xs) (rowsX Xs) rank I (w_cls o)
  | _ => exists I, reliable_start rnd Xs rank 2 (one I) (one_dual (colsX Xs) rank) o /\ reliable_matrix (colsX Xs) rank I (w_cls o)
  end.
End Reliable.

(** ** Calls that are in order *)
(** A random start, a start from singular vectors for ranks that do not exceed the sizes of
    the matrices, or a factorization of the right sizes. *)
Definition start_in_order (a : fitR) (rank : nat) : Prop :=
  match f_init a with
  | InitName MRandom => True
  | InitName MSvd | InitName MThresholdSvd => forall X, In X (f_data a) -> (rank <= mr X)%nat /\ (rank <= mc X)%nat
  | InitName _ => False
  | InitSeq l => exists c0, PSeq l = py_of_cmf c0 /\ data_fits (f_data a) c0 /\ mc (cA c0) = rank
  end.
(** Initial values of the auxiliary and dual variables of a penalty of mode [m]: a known
    name, or values of the right kind and shapes. *)
Definition initial_value (Xs : list matR) (rank m : nat) (v : initval (N:=RNum)) : Prop :=
  named_init v \/ (exists sh d, v = ITensor sh d /\ good_tensor Xs (Z.of_nat rank) (Z.of_nat m) sh) \/
  (exists l, v = IList l /\ good_list Xs (Z.of_nat rank) (Z.of_nat m) l).
Definition initial_pair (Xs : list matR) (rank : nat) (v : initval (N:=RNum)) : Prop :=
  named_init v \/ exists l, v = ITuple l /\ good_pair Xs (Z.of_nat rank) 1 l.
Definition object_in_order (Xs : list matR) (rank m : nat) (o : pobj (N:=RNum)) : Prop :=
  match o_pen o with
  | Parafac2 _ _ _ => m = 1%nat /\ initial_pair Xs rank (o_aux o)
  | _ => initial_value Xs rank m (o_aux o)
  end /\ initial_value Xs rank m (o_dual o).
(** Arguments that respect the documentation: data of one number of columns, penalties that
    their constructors accept, PARAFAC2 for the B_i only, penalties of whole columns of A only
    with a constant feasibility penalty, an absolute tolerance beside the relative one.
    Nothing is assumed about ridge terms, strengths, numbers of iterations or the data's
    entries. *)
Definition in_order (V : envR) (a : fitR) (rank : nat) : Prop :=
  sensible V a rank /\ same_columns (f_data a) /\ start_in_order a rank /\
  f_svd a = true /\ f_const a <> COther /\ named_init (f_aux a) /\ named_init (f_dual a) /\
  well_formed (f_l2 a) /\ all_well_formed (f_kw a) /\ good_regs (f_regs a) /\
  (forall m kw, (m < 3)%nat -> mode_values (f_kw a) m kw -> acceptable V kw) /\
  (forall m, (m < 3)%nat -> updates a m = true -> forall u, user_penalties (f_regs a) m u ->
     Forall (object_in_order (f_data a) rank m) u) /\
  (f_updA a = true -> FitSpec.constant_for_A (f_const a) = false -> ~ needs_constant_A a) /\
  (tol_set (f_tol a) -> f_abs_tol a <> None).
(** A unit simplex among the penalties of an updated mode. *)
Definition uses_simplex (a : fitR) : Prop :=
  exists m u, (m < 3)%nat /\ updates a m = true /\ user_penalties (f_regs a) m u /\ Exists (fun o => o_pen o = UnitSimplex) u.
