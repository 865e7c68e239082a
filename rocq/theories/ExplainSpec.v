(** * Explained variation.  Small specification for C98. *)
From Coq Require Import Reals List Arith.
From Verif Require Import Num Numpy Spec CmfSpec CoupledMatrices Decomp DecompSpec InitVars InitSpec Parse ParseSpec Fit FitSpec.
Import ListNotations.
Local Open Scope R_scope.

(** Squared norm of the matrices that a factorization stands for. *)
Definition model_sumsq (Xs : list matR) (c : rcmf) : R :=
  Sum (length Xs) (fun i => sumsq (mr (nthX Xs i)) (mr (cC c)) (cmf_entry c i)).
(** The mode whose update comes last in an iteration: B, then C, then A (decomposition.py, lines 948-990). *)
Definition last_mode (a : fitR) : option nat :=
  if f_updA a then Some 0%nat else if f_updC a then Some 2%nat else if f_updB a then Some 1%nat else None.
(** Nothing is asked of mode m, by keyword or by penalty object. *)
Definition free_mode (a : fitR) (m : nat) : Prop :=
  (forall kw, mode_values (f_kw a) m kw -> asks_nothing kw) /\ (forall u, user_penalties (f_regs a) m u -> u = []).
(** Squared norm of the factor matrix (or matrices) of mode m. *)
Definition mode_sumsq (c : rcmf) (m : nat) : R :=
  match m with
  | 0%nat => sumsq (mr (cA c)) (mc (cA c)) (mget (cA c))
  | 1%nat => Sum (length (cBs c)) (fun i => sumsq (mr (nthB c i)) (mc (nthB c i)) (mget (nthB c i)))
  | _ => sumsq (mr (cC c)) (mc (cC c)) (mget (cC c))
  end.
