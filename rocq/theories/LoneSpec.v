(** Fits in which a single mode is updated: the problem they are meant to solve.  Real
    entries only; nothing of the fitting code. *)
From Coq Require Import Reals List Arith Bool ZArith.
From Verif Require Import Num Numpy Spec ModelSpec Penalties PenaltySpec CoupledMatrices CmfSpec Decomp DecompSpec OptSpec ConvSpec InitVars Parse ParseSpec Fit FitSpec.
Import ListNotations.
Local Open Scope R_scope.

(** Only mode [m] is updated. *)
Definition updates_only (a : fitR) (m : nat) : Prop := forall k, (k < 3)%nat -> updates a k = (k =? m)%nat.
(** Neither the outer nor the inner iterations stop early. *)
Definition runs_on (a : fitR) : Prop :=
  ~ tol_set (f_tol a) /\ (0 < f_inner a)%Z /\ match f_inner_tol a with None => True | Some x => x <= 0 end.
(** The constraints of a mode, from the keywords and from the penalty objects, and its
    penalty function. *)
Definition allowed (kw : modekw (N:=RNum)) (u : list (pobj (N:=RNum))) (r c : nat) (Z : ent) : Prop :=
  requested_domain kw r c Z /\ imposed u r c Z.
Definition price (kw : modekw (N:=RNum)) (u : list (pobj (N:=RNum))) (r c : nat) (Z : ent) : R :=
  requested_penalty kw r c Z + total_penalty u r c Z.
(** Neither unimodality nor PARAFAC2 nor the unit simplex is asked for. *)
Definition asks_convex (kw : modekw (N:=RNum)) (u : list (pobj (N:=RNum))) : Prop :=
  ~ wants (k_uni kw) /\ k_pf2 kw = false /\ Forall (fun o => convex_pen (o_pen o)) u.
(** [x] is allowed, and no other allowed point has a smaller value. *)
Definition minimiser {T : Type} (ok : T -> Prop) (f : T -> R) (x : T) : Prop := ok x /\ forall z, ok z -> f x <= f z.
(** Some matrix is allowed together with all matrices near it. *)
Definition has_room (r c : nat) (ok : ent -> Prop) : Prop :=
  exists x0 delta, 0 < delta /\ forall Z, close r c delta Z x0 -> ok Z.
(** The same for one matrix for each data matrix. *)
Definition allowed_l (kw : modekw (N:=RNum)) (u : list (pobj (N:=RNum))) (n : nat) (J : nat -> nat) (c : nat) (Z : nat -> ent) : Prop :=
  forall i, (i < n)%nat -> allowed kw u (J i) c (Z i).
Definition price_l (kw : modekw (N:=RNum)) (u : list (pobj (N:=RNum))) (n : nat) (J : nat -> nat) (c : nat) (Z : nat -> ent) : R :=
  Sum n (fun i => price kw u (J i) c (Z i)).
Definition has_room_l (n : nat) (J : nat -> nat) (c : nat) (ok : (nat -> ent) -> Prop) : Prop :=
  exists x0 delta, 0 < delta /\ forall Z, close_l n J c delta Z x0 -> ok Z.
