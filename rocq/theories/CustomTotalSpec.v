(** When the methods of an object can be relied on: for arguments of the right shapes they
    return values of the right shapes.  Only the methods of the objects are mentioned. *)
From Coq Require Import Reals List Arith Bool ZArith.
From Verif Require Import Num Numpy Spec Penalties PenaltySpec CoupledMatrices DecompSpec InitVars InitSpec Parse Fit FitSpec Custom CustomSpec.
Import ListNotations.
Local Open Scope R_scope.

Section Sound.
Context {X : Type}.
Implicit Types (c : cls (N:=RNum) X) (o : uobj (N:=RNum) X).

(** [I] is the user's own notion of a well-formed auxiliary variable: calls of the update
    keep it, and whatever satisfies it can be subtracted from. *)
Definition sound_subtraction (r k : nat) (I : uaux (N:=RNum) X -> Prop) c : Prop :=
  forall x M, I x -> shaped M r k -> exists D, sub_method c x M = Ok D /\ shaped D r k.
Definition sound_value (r k : nat) c : Prop := forall M, shaped M r k -> exists v, pen_method c (inl M) = Ok v.
Definition sound_matrix (r k : nat) (I : uaux (N:=RNum) X -> Prop) c : Prop :=
  (forall V rho x, shaped V r k -> 0 <= rho -> I x -> exists y, mat_method c V rho x = Ok y /\ I y) /\
  sound_subtraction r k I c /\ sound_value r k c.
(** An array of the right shape. *)
Definition array (r k : nat) (x : uaux (N:=RNum) X) : Prop := exists A, x = UMat A /\ shaped A r k.
Definition sound_rows (r k : nat) c : Prop :=
  (forall row rho old, length row = k -> length old = k -> 0 <= rho -> exists new, row_method c row rho old = Ok new /\ length new = k) /\
  sound_subtraction r k (array r k) c /\ sound_value r k c.
(** For all matrices of mode 1: [n] matrices with [J i] rows and [k] columns. *)
Definition sound_matrices (n : nat) (J : nat -> nat) (k : nat) (I : uauxes (N:=RNum) X -> Prop) c : Prop :=
  (forall Vs rhos x, list_shaped n J k Vs -> length rhos = n -> Forall (fun rho => 0 <= rho) rhos -> I x ->
     exists y, mats_method c Vs rhos x = Ok y /\ I y) /\
  (forall x Ms, I x -> list_shaped n J k Ms -> exists Ds, subs_method c x Ms = Ok Ds /\ list_shaped n J k Ds) /\
  (forall Ms, list_shaped n J k Ms -> exists v, pen_method c (inr Ms) = Ok v).
(** The start of the auxiliary and of the dual variable. *)
Definition sound_start (rnd : rand (N:=RNum)) (Xs : list (mat (N:=RNum))) (rank : nat) (m : Z) (Q : uauxval (N:=RNum) X -> Prop) (D : auxval (N:=RNum) -> Prop) o : Prop :=
  forall pos, (exists v p, uinit_aux rnd o Xs (PyInt (Z.of_nat rank)) (PyInt m) pos = Ok (v, p) /\ Q v) /\
              (exists v p, uinit_dual rnd o Xs (PyInt (Z.of_nat rank)) (PyInt m) pos = Ok (v, p) /\ D v).
Definition one (I : uaux (N:=RNum) X -> Prop) (v : uauxval (N:=RNum) X) : Prop := exists x, v = WMat x /\ I x.
Definition many (I : uauxes (N:=RNum) X -> Prop) (v : uauxval (N:=RNum) X) : Prop := exists x, v = WMats x /\ I x.
Definition one_dual (r k : nat) (v : auxval (N:=RNum)) : Prop := exists D, v = VMat D /\ shaped D r k.
Definition many_duals (n : nat) (J : nat -> nat) (k : nat) (v : auxval (N:=RNum)) : Prop := exists D, v = VMats (AList D) /\ list_shaped n J k D.
(** An object that can be relied on as a penalty of a mode: of A (row by row unless the
    feasibility penalty is constant), of the B_i, of C. *)
Definition sound_object (rnd : rand (N:=RNum)) (Xs : list (mat (N:=RNum))) (rank : nat) (constant : bool) (m : nat) o : Prop :=
  match m with
  | O => exists I, sound_start rnd Xs rank 0 (one I) (one_dual (length Xs) rank) o /\
           if constant then sound_matrix (length Xs) rank I (w_cls o)
           else sound_rows (length Xs) rank (w_cls o) /\ forall x, I x -> array (length Xs) rank x
  | S O => exists I, sound_start rnd Xs rank 1 (many I) (many_duals (length Xs) (rowsX Xs) rank) o /\
           sound_matrices (length Xs) (rowsX Xs) rank I (w_cls o)
  | _ => exists I, sound_start rnd Xs rank 2 (one I) (one_dual (colsX Xs) rank) o /\ sound_matrix (colsX Xs) rank I (w_cls o)
  end.
End Sound.
