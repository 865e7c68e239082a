(** How steep the objective is at a factorization.  Independent of the algorithm. *)
From Coq Require Import Reals List Arith Bool ZArith.
From Verif Require Import Num Numpy Spec ModelSpec Penalties PenaltySpec CoupledMatrices CmfSpec Decomp DecompSpec
  InitVars InitSpec Parse ParseSpec Fit FitSpec.
Import ListNotations.
Local Open Scope R_scope.

(** A direction: one number for every entry of A, of every B_i and of C. *)
Record direction := Dir { dA : ent; dB : nat -> ent; dC : ent }.
(** The factorization moved by [t] times the direction (without weights). *)
Definition moved_by (c : rcmf) (d : direction) (t : R) : rcmf :=
  Cmf None
    (mbuild (N:=RNum) (mr (cA c)) (mc (cA c)) (fun i r => mget (cA c) i r + t * dA d i r))
    (map (fun i => mbuild (N:=RNum) (mr (nthB c i)) (mc (nthB c i)) (fun j r => mget (nthB c i) j r + t * dB d i j r))
         (seq 0 (length (cBs c))))
    (mbuild (N:=RNum) (mr (cC c)) (mc (cC c)) (fun k r => mget (cC c) k r + t * dC d k r)).
(** No entry of the direction exceeds 1, and the modes that are not updated do not move. *)
Definition unit_direction (upd : nat -> bool) (d : direction) : Prop :=
  (forall i r, Rabs (dA d i r) <= 1 /\ (upd 0%nat = false -> dA d i r = 0)) /\
  (forall i j r, Rabs (dB d i j r) <= 1 /\ (upd 1%nat = false -> dB d i j r = 0)) /\
  (forall k r, Rabs (dC d k r) <= 1 /\ (upd 2%nat = false -> dC d k r = 0)).
(** In every such direction the function [obj] of the factors has a slope at [c], of
    size at most [g].  (g = 0: a stationary point.) *)
Definition slopes_within (upd : nat -> bool) (obj : rcmf -> R) (c : rcmf) (g : R) : Prop :=
  cw c = None /\
  forall d, unit_direction upd d -> exists s,
    derivable_pt_lim (fun t => obj (moved_by c d t)) 0 s /\ Rabs s <= g.
(** Euclidean distance between the factors of two factorizations of the same sizes. *)
Definition step_sq (c c' : rcmf) : R :=
  dist2 (mr (cA c)) (mc (cA c)) (mget (cA c)) (mget (cA c')) +
  Sum (length (cBs c)) (fun i => dist2 (mr (nthB c i)) (mc (nthB c i)) (mget (nthB c i)) (mget (nthB c' i))) +
  dist2 (mr (cC c)) (mc (cC c)) (mget (cC c)) (mget (cC c')).
Definition step_size (c c' : rcmf) : R := sqrt (step_sq c c').
Definition updated (P : params (N:=RNum)) (m : nat) : bool :=
  match m with 0%nat => p_updA P | 1%nat => p_updB P | _ => p_updC P end.
(** A positive ridge penalty and no other penalty on every mode that is updated; some mode is. *)
Definition ridge_only (P : params (N:=RNum)) (s : state (N:=RNum)) : Prop :=
  (p_updA P = true -> 0 < p_l2A P /\ st_rA s = []) /\
  (p_updB P = true -> 0 < p_l2B P /\ st_rB s = []) /\
  (p_updC P = true -> 0 < p_l2C P /\ st_rC s = []) /\
  (p_updA P = true \/ p_updB P = true \/ p_updC P = true).
(** [l] is a positive lower bound for the ridge penalties of the updated modes. *)
Definition ridge_floor (P : params (N:=RNum)) (l : R) : Prop :=
  0 < l /\ (p_updA P = true -> l <= p_l2A P) /\ (p_updB P = true -> l <= p_l2B P) /\ (p_updC P = true -> l <= p_l2C P).

(** ** Calls *)
(** Half the squared residual plus the ridge terms. *)
Definition ridge_objective (a : fitR) (l : nat -> R) (c : rcmf) : R :=
  1 / 2 * residual (f_data a) c +
  (l 0%nat / 2 * sumsq (mr (cA c)) (mc (cA c)) (mget (cA c)) +
   l 1%nat / 2 * Sum (length (cBs c)) (fun i => sumsq (mr (nthB c i)) (mc (nthB c i)) (mget (nthB c i))) +
   l 2%nat / 2 * sumsq (mr (cC c)) (mc (cC c)) (mget (cC c))).
(** The strengths of the ridge penalties of the call. *)
Definition ridges (a : fitR) (l : nat -> R) : Prop :=
  forall m, (m < 3)%nat -> exists v, means (f_l2 a) m v /\ l m = strength v.
(** Every updated mode has a positive ridge penalty; some mode is updated. *)
Definition ridged (a : fitR) : Prop :=
  (forall m v, (m < 3)%nat -> updates a m = true -> means (f_l2 a) m v -> 0 < strength v) /\
  exists m, (m < 3)%nat /\ updates a m = true.
(** The same call with another number of iterations. *)
Definition with_iterations (n : Z) (a : fitR) : fitR :=
  FitArgs (f_data a) (f_rank a) (f_init a) n (f_l2 a) (f_kw a) (f_regs a) (f_scale a) (f_const a) (f_aux a) (f_dual a)
    (f_svd a) (f_tol a) (f_abs_tol a) (f_feas_tol a) (f_inner_tol a) (f_inner a) (f_updA a) (f_updB a) (f_updC a)
    (f_return_vars a) (f_return_errors a).
