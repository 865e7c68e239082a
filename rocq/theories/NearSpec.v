(** Factors that are close to matrices with a property.  Nothing of the fitting loop. *)
From Coq Require Import Reals List Arith.
From Verif Require Import Num Numpy Spec ModelSpec Penalties PenaltySpec CoupledMatrices CmfSpec Decomp DecompSpec InitVars InitSpec Parse ParseSpec Fit FitSpec.
Import ListNotations.
Local Open Scope R_scope.

(** The factor of mode [m] is within [t] times its norm of a matrix (for B: of matrices, one for every B_i, all together) with the property [Q]. *)
Definition near_mode (t : R) (c : rcmf) (m : nat) (Q : nat -> ent -> Prop) : Prop :=
  match m with
  | 0%nat => exists X, Q (mr (cA c)) X /\ fdist (mr (cA c)) (mc (cA c)) X (mget (cA c)) < t * norm_A c
  | 1%nat => exists X : nat -> ent, (forall i, (i < length (cBs c))%nat -> Q (rowsB c i) (X i)) /\
               ldist (length (cBs c)) (rowsB c) (mc (cA c)) X (entB (cBs c)) < t * norm_B c
  | _ => exists X, Q (mr (cC c)) X /\ fdist (mr (cC c)) (mc (cC c)) X (mget (cC c)) < t * norm_C c
  end.
(** The B_i are within [t] times their norm of matrices that have the same cross product. *)
Definition near_parafac2 (t : R) (c : rcmf) (rank : nat) : Prop :=
  exists (X : nat -> ent) (Phi : ent), (forall i, (i < length (cBs c))%nat -> same rank rank (cross (rowsB c i) (X i)) Phi) /\
    ldist (length (cBs c)) (rowsB c) (mc (cA c)) X (entB (cBs c)) < t * norm_B c.

(** The same in terms of the entries: [Q] holds for all entries of the factor of mode [m]. *)
Definition factor_entries (c : rcmf) (m : nat) (Q : R -> Prop) : Prop :=
  match m with
  | 0%nat => entries (mr (cA c)) (mc (cA c)) Q (mget (cA c))
  | 1%nat => forall i, (i < length (cBs c))%nat -> entries (rowsB c i) (mc (cA c)) Q (entB (cBs c) i)
  | _ => entries (mr (cC c)) (mc (cC c)) Q (mget (cC c))
  end.
Definition factor_norm (c : rcmf) (m : nat) : R := match m with 0%nat => norm_A c | 1%nat => norm_B c | _ => norm_C c end.
(** The norms of the columns are at most [b]. *)
Definition factor_columns (c : rcmf) (m : nat) (b : R) : Prop :=
  match m with
  | 0%nat => forall k, (k < mc (cA c))%nat -> sqrt (Sum (mr (cA c)) (fun j => mget (cA c) j k ^ 2)) <= b
  | 1%nat => forall i, (i < length (cBs c))%nat -> forall k, (k < mc (cA c))%nat -> sqrt (Sum (rowsB c i) (fun j => entB (cBs c) i j k ^ 2)) <= b
  | _ => forall k, (k < mc (cC c))%nat -> sqrt (Sum (mr (cC c)) (fun j => mget (cC c) j k ^ 2)) <= b
  end.
