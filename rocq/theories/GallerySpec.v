(** Specification vocabulary for the scripts of the example gallery (C84 to C87). *)
From Coq Require Import Reals List Arith Permutation.
From Verif Require Import Num Numpy Spec Penalties PenaltySpec CoupledMatrices CmfSpec Decomp DecompSpec InitVars Parse ParseSpec OrderSpec Gallery.
Import ListNotations.

(** ** Starts (any arithmetic) *)
Section Starts.
Context {N : Num}.
(** The regularised loss after the last iteration is the number [l]; the reconstruction error is [e]. *)
Definition ends_with_loss (f : fitted) (l : num) : Prop := exists ls, d_losses (snd f) = ls ++ [Fin l].
Definition ends_with_error (f : fitted) (e : num) : Prop := exists es, d_errors (snd f) = es ++ [Fin e].
Definition converged (f : fitted) : Prop := d_stopped (snd f) = Some true.
(** The fits with seeds 0, ..., n - 1 *)
Definition fits_of (start : nat -> res fitted) (n : nat) (fits : list fitted) : Prop :=
  length fits = n /\ forall i f, nth_error fits i = Some f -> start i = Ok f.
(** Fit i has the lowest loss, and is the first such fit. *)
Definition lowest_loss (fits : list fitted) (i : nat) (f : fitted) : Prop :=
  nth_error fits i = Some f /\ exists l, ends_with_loss f l /\
    forall j g m, nth_error fits j = Some g -> ends_with_loss g m -> le l m /\ (j < i -> lt l m).
(** The score of a number of components is one minus the lowest loss, shown beside the first fit with that loss; it is
    minus infinity (None) if no fit ends with a number. *)
Definition score_of (start : nat -> res fitted) (n : nat) (x : option num * option fitted) : Prop :=
  exists fits, fits_of start n fits /\
    ((exists i f l, x = (Some (nsub n1 l), Some f) /\ lowest_loss fits i f /\ ends_with_loss f l) \/
     (fst x = None /\ forall i f l, nth_error fits i = Some f -> ~ ends_with_loss f l)).
End Starts.

Local Open Scope R_scope.
(** ** The arguments of the calls *)
(** The penalties in [regs] are constraints that have no parameters: non-negativity, unimodality. *)
Definition constraints_only (regs : regsarg (N:=RNum)) : Prop :=
  forall m u, user_penalties regs m u -> forall o, In o u -> match o_pen o with NonNegativity | Unimodality _ => True | _ => False end.
(** Data that can be fitted with [rank] components *)
Definition fittable (Xs : list matR) (rank : nat) : Prop :=
  Xs <> [] /\ (0 < rank)%nat /\ (forall X, In X Xs -> mwf X /\ (rank <= mr X)%nat /\ (0 < mc X)%nat) /\ 0 < data_sumsq Xs.

(** ** Components *)
(** Entry (j, k) of what component r contributes to matrix i *)
Definition component_entry (c : cmf (N:=RNum)) (r i j k : nat) : R := weight c r * mget (cA c) i r * mget (nthB c i) j r * mget (cC c) k r.
(** How much component r contributes to the data: the root of the sum of the squares of all these entries *)
Definition component_size (c : cmf (N:=RNum)) (r : nat) : R :=
  sqrt (Sum (length (cBs c)) (fun i => Sum (mr (nthB c i)) (fun j => Sum (mr (cC c)) (fun k => component_entry c r i j k ^ 2)))).
(** [order] lists the positions of v, smallest entry first; np.argsort returns such a list. *)
Definition sorts (v : list R) (order : list nat) : Prop :=
  Permutation order (seq 0 (length v)) /\ forall a b, (a <= b < length v)%nat -> nth (nth a order 0%nat) v 0 <= nth (nth b order 0%nat) v 0.
(** The squares of column r of B_i have the same sum for every i; so it is under PARAFAC2. *)
Definition equal_column_norms (c : cmf (N:=RNum)) : Prop :=
  forall i r, (i < length (cBs c))%nat -> (r < mc (cA c))%nat -> Sum (mr (nthB c i)) (fun j => mget (nthB c i) j r ^ 2) = Sum (mr (nthB c 0)) (fun j => mget (nthB c 0) j r ^ 2).
(** Sum over all rows of all matrices of a function of the entry in column k *)
Definition over_rows (Xs : list matR) (k : nat) (f : R -> R) : R := Sum (length Xs) (fun i => Sum (mr (nth i Xs no_mat)) (fun j => f (mget (nth i Xs no_mat) j k))).
