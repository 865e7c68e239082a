(** What the regularisation arguments of [cmf_aoadmm] are documented to mean.  Nothing of
    the parsing code. *)
From Coq Require Import Reals List Arith Bool ZArith.
From Verif Require Import Num Numpy Spec ModelSpec Penalties PenaltySpec CoupledMatrices CmfSpec Decomp DecompSpec InitVars Parse.
Import ListNotations.
Local Open Scope R_scope.

(** The documented meaning of an argument for mode [m]: a single value holds for all
    modes, an iterable needs one value for each mode, a dictionary holds for its keys. *)
Definition means {A : Type} (a : arg A) (m : nat) (v : option A) : Prop :=
  match a with
  | AOne x => v = x
  | AIter l => length l = 3%nat /\ nth_error l m = Some v
  | ADict d => (d m = Some v) \/ (d m = None /\ v = None)
  end.
Definition well_formed {A : Type} (a : arg A) : Prop := match a with AIter l => length l = 3%nat | _ => True end.

(** Requests for one mode.  A flag is on, a number is set (zero is "not set" for
    strengths and norm bounds). *)
Definition wants (b : option bool) : Prop := b = Some true.
Definition strength (x : option R) : R := match x with Some v => v | None => 0 end.

(** The constraints requested for an r x c factor matrix ... *)
Definition requested_domain (k : modekw (N:=RNum)) (r c : nat) (X : ent) : Prop :=
  (wants (k_nn k) -> entries r c (fun x => 0 <= x) X) /\
  (forall lo, k_lower k = Some lo -> entries r c (fun x => lo <= x) X) /\
  (forall hi, k_upper k = Some hi -> entries r c (fun x => x <= hi) X) /\
  (forall b, k_norm k = Some b -> b <> 0 -> cols_in_ball r c b X) /\
  (wants (k_uni k) -> cols_unimodal r c X).
(** ... and the regularisation function. *)
Definition requested_penalty (k : modekw (N:=RNum)) (r c : nat) (X : ent) : R :=
  strength (k_l1 k) * abs_sum r c X + strength (k_tv k) * total_variation r c X +
  match k_gl2 k with Some (GMat M) => quad r c (mget M) X | _ => 0 end.

(** Parameter values the constructors accept. *)
Definition acceptable (V : env (N:=RNum)) (k : modekw (N:=RNum)) : Prop :=
  0 <= strength (k_l1 k) /\ 0 <= strength (k_tv k) /\ (strength (k_tv k) <> 0 -> e_has_tv V = true) /\
  0 <= strength (k_norm k) /\
  match k_gl2 k with
  | Some (GMat M) => mr M = mc M /\ symmetric (mr M) (mget M) /\ Forall (fun e => - (1 / 100000000000000) <= e) (e_eigvals V M)
  | Some GNoMat => False
  | _ => True
  end.

(** What a list of penalties imposes on an r x c matrix. *)
Definition imposed (l : list (pobj (N:=RNum))) (r c : nat) (X : ent) : Prop :=
  Forall (fun o => doc_domain (o_pen o) r c X) l.
Fixpoint total_penalty (l : list (pobj (N:=RNum))) (r c : nat) (X : ent) : R :=
  match l with [] => 0 | o :: l' => doc_penalty (o_pen o) r c X + total_penalty l' r c X end.
(** Number of PARAFAC2 penalties in a list. *)
Fixpoint parafac2_count (l : list (pobj (N:=RNum))) : nat :=
  match l with
  | [] => 0
  | o :: l' => (match o_pen o with Parafac2 _ _ _ => 1 | _ => 0 end + parafac2_count l')%nat
  end.
(** The user's penalties for mode [m]. *)
Definition user_penalties {N : Num} (regs : regsarg) (m : nat) (l : list pobj) : Prop :=
  match regs with
  | RNone => l = []
  | RNotIter => False
  | RList es => nth_error es m = Some (EList (map RPen l))
  end.
(** Well-formed [regs]: None, or lists of penalties, at least one list for each mode. *)
Definition good_regs (regs : regsarg (N:=RNum)) : Prop :=
  match regs with
  | RNone => True
  | RNotIter => False
  | RList es =>
      (forall e, In e es -> exists l, e = EList (map RPen l) \/ e = ETuple (map RPen l)) /\
      forall m, (m < 3)%nat -> exists l, nth_error es m = Some (EList (map RPen l))
  end.

(** Three values, one for each mode. *)
Definition pick {A} (t : three A) (m : nat) : A := let '(x, y, z) := t in match m with 0%nat => x | 1%nat => y | _ => z end.

(** The values all arguments give to mode [m]; PARAFAC2 concerns mode 1 only. *)
Definition mode_values {N : Num} (k : kwargs) (m : nat) (kw : modekw) : Prop :=
  means (a_nn k) m (k_nn kw) /\ means (a_lower k) m (k_lower kw) /\ means (a_upper k) m (k_upper kw) /\ means (a_norm k) m (k_norm kw) /\
  means (a_uni k) m (k_uni kw) /\ means (a_l1 k) m (k_l1 kw) /\ means (a_tv k) m (k_tv kw) /\ means (a_gl2 k) m (k_gl2 kw) /\
  k_pf2 kw = (a_pf2 k && (m =? 1)%nat)%bool.
(** Consistent bounds, and a sound norm matrix. *)
Definition bounds_consistent (k : modekw (N:=RNum)) : Prop :=
  forall hi, k_upper k = Some hi -> (forall lo, k_lower k = Some lo -> lo <= hi) /\ (wants (k_nn k) -> 0 <= hi).
Definition gl2_sound (V : env (N:=RNum)) (k : modekw (N:=RNum)) (r : nat) : Prop :=
  forall M, k_gl2 k = Some (GMat M) -> mwf M /\ mr M = r /\ psd r (mget M) /\ svd_correct (e_ext V) r.
(** Every iterable argument has three values. *)
Definition all_well_formed (k : kwargs (N:=RNum)) : Prop :=
  well_formed (a_nn k) /\ well_formed (a_upper k) /\ well_formed (a_lower k) /\ well_formed (a_norm k) /\ well_formed (a_uni k) /\
  well_formed (a_l1 k) /\ well_formed (a_gl2 k) /\ well_formed (a_tv k).
