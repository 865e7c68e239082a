(** Small specification for C106: the same penalty with other strengths. *)
From Coq Require Import Reals List Arith.
From Verif Require Import Num Numpy Spec ModelSpec Penalties PenaltySpec.
Import ListNotations.
Local Open Scope R_scope.

(** [q] is [p] with every strength multiplied by [t], for factor matrices with r rows. *)
Definition times (t : R) (r : nat) (p q : penalty (N:=RNum)) : Prop :=
  match p, q with
  | L1Penalty reg nn, L1Penalty reg' nn' => reg' = t * reg /\ nn' = nn
  | TotalVariation reg l1, TotalVariation reg' l1' => reg' = t * reg /\ l1' = t * l1
  | GeneralizedL2 M _ _, GeneralizedL2 M' _ _ => forall i j, (i < r)%nat -> (j < r)%nat -> mget M' i j = t * mget M i j
  | _, _ => False
  end.
(** [q] constrains more than [p]: a narrower box, a smaller ball, or non-negativity in addition. *)
Definition tighter (p q : penalty (N:=RNum)) : Prop :=
  match p, q with
  | Box lo hi, Box lo' hi' =>
      (forall l, lo = Some l -> exists l', lo' = Some l' /\ l <= l') /\ (forall h, hi = Some h -> exists h', hi' = Some h' /\ h' <= h)
  | L2Ball b nn, L2Ball b' nn' => b' <= b /\ (nn = true -> nn' = true)
  | NonNegativity, Box lo _ => exists l, lo = Some l /\ 0 <= l
  | NonNegativity, L2Ball _ nn => nn = true
  | _, _ => False
  end.
