(** Where random numbers are asked for.  Small specification for C104; nothing of the fitting code. *)
From Coq Require Import List Arith ZArith.
From Verif Require Import Num Numpy Penalties CoupledMatrices Decomp InitVars Parse ParseSpec Fit OrderSpec.
Import ListNotations.

Section DrawSpec.
Context {N : Num}.
(** A value of [aux_init] or [dual_init] that asks for random numbers. *)
Definition asks_random (v : initval) : Prop := v = IStr RandomUniform \/ v = IStr RandomStandardNormal.
(** A start that the library computes itself: a given factorization, random factors, or singular vectors
    (the others are fits by tensorly, with random starts of their own). *)
Definition own_start (i : initarg) : Prop :=
  match i with InitSeq _ => True | InitName MRandom | InitName MSvd | InitName MThresholdSvd => True | _ => False end.
(** No auxiliary or dual variable starts from random numbers: neither those of the keyword penalties nor
    those of the user's own penalties of the updated modes. *)
Definition fixed_variables (a : fitargs) : Prop :=
  ~ asks_random (f_aux a) /\ ~ asks_random (f_dual a) /\
  forall m u, (m < 3)%nat -> mode_updated a m = true -> user_penalties (f_regs a) m u -> Forall (fun o => ~ asks_random (o_aux o) /\ ~ asks_random (o_dual o)) u.
(** The number of entries of the factor matrices A, C and B_1, ..., B_I when the start is random; otherwise none. *)
Definition entries_drawn (a : fitargs) : nat :=
  match f_init a, f_rank a with
  | InitName MRandom, PyInt r => Z.to_nat r * (length (f_data a) + (match f_data a with [] => 0 | X :: _ => mc X end) + list_sum (map mr (f_data a)))
  | _, _ => 0
  end.
End DrawSpec.
