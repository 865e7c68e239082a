(** Starts at rest with a PARAFAC2 constraint on the B_i: the B_i minimise the smooth part by
    themselves, meet every constraint and agree with the auxiliary variables, and the dual
    variables are zero.  Nothing of the update code. *)
From Coq Require Import Reals List Arith Bool ZArith.
From Verif Require Import Num Numpy Spec ModelSpec Penalties PenaltySpec CoupledMatrices CmfSpec Decomp DecompSpec OptSpec
  InitVars InitSpec Parse ParseSpec Fit FitSpec ResumeSpec SymSpec StationarySpec RestSpec.
Import ListNotations.
Local Open Scope R_scope.

(** PARAFAC2 with bases P_i and coordinate matrix D: the P_i have orthonormal columns and P_i D = x i. *)
Definition met_pf2 (n : nat) (J : nat -> nat) (c : nat) (x : nat -> ent) (g : bregR) : Prop :=
  is_parafac2 (b_pen g) /\ b_ortho n J c g /\
  forall i, (i < n)%nat -> same (J i) c (baux g i) (x i) /\ same (J i) c (mget (nth i (b_dual g) no_mat)) (fun _ _ => 0).
Definition meets_B (n : nat) (J : nat -> nat) (c : nat) (x : nat -> ent) (g : bregR) : Prop := met_l n J c x g \/ met_pf2 n J c x g.
Definition relaxed_B (Xs : list matR) (c : rcmf) (l2 scale : R) (regs : list bregR) : Prop :=
  (forall i, (i < length Xs)%nat -> 0 < rho_B scale c i) /\ regs <> [] /\
  (forall Z, smooth_B Xs c l2 (entB (cBs c)) <= smooth_B Xs c l2 Z) /\
  Forall (meets_B (length Xs) (rowsB c) (mc (cA c)) (entB (cBs c))) regs.
(** The start of the call, factors [c] and variables [v]. *)
Definition start_rests_pf2 (V : envR) (a : fitR) (c : rcmf) (v : admmvars (N:=RNum)) : Prop :=
  cw c = None /\ exists l, ridges a l /\
    (f_updA a = true -> exists ps, penalties_of V a 0 ps /\
       rests_A (f_data a) c (l 0%nat) (f_scale a) (constant_for_A (f_const a)) (with_vars ps (v_auxA v) (v_dualA v))) /\
    (f_updB a = true -> exists ps, penalties_of V a 1 ps /\
       relaxed_B (f_data a) c (l 1%nat) (f_scale a) (with_vars_B ps (v_auxB v) (v_dualB v))) /\
    (f_updC a = true -> exists ps, penalties_of V a 2 ps /\
       rests_C (f_data a) c (l 2%nat) (f_scale a) (with_vars ps (v_auxC v) (v_dualC v))).
(** Auxiliary variables that stand for the same matrices: P_i D for the pairs of PARAFAC2. *)
Definition same_auxes (n : nat) (J : nat -> nat) (c : nat) (x y : auxes (N:=RNum)) : Prop :=
  forall i, (i < n)%nat -> same (J i) c (baux (BReg NonNegativity x []) i) (baux (BReg NonNegativity y []) i).
(** The call returns its start. *)
Definition returns_start_pf2 (a : fitR) (c : rcmf) (v : admmvars (N:=RNum)) (o : outR) : Prop :=
  out_cmf o = c /\
  (f_return_vars a = true -> exists w, out_vars o = Some w /\ v_auxA w = v_auxA v /\ v_auxC w = v_auxC v /\
     v_dualA w = v_dualA v /\ v_dualB w = v_dualB v /\ v_dualC w = v_dualC v /\
     Forall2 (same_auxes (length (f_data a)) (rowsB c) (mc (cA c))) (v_auxB v) (v_auxB w)) /\
  forall d, out_diag o = Some d -> constant_record d /\
    (0 < data_sumsq (f_data a) -> Forall (fun e => e = Fin (rel_error (f_data a) c)) (d_errors d)).

(** ** Perfect starts *)
(** The start reconstructs the data; no updated mode has a ridge term; its penalties are constraints
    that the factor meets (at least one), with the factor as auxiliary variable and zero as dual variable. *)
Definition perfect_start_pf2 (V : envR) (a : fitR) (c : rcmf) (v : admmvars (N:=RNum)) : Prop :=
  cw c = None /\ residual (f_data a) c = 0 /\
  (forall m l, (m < 3)%nat -> updates a m = true -> ridges a l -> l m = 0) /\
  (f_updA a = true -> (forall i, (i < length (f_data a))%nat -> 0 < rho_A (f_scale a) c i) /\ exists ps, penalties_of V a 0 ps /\ with_vars ps (v_auxA v) (v_dualA v) <> [] /\
     Forall (met (mr (cA c)) (mc (cA c)) (mget (cA c))) (with_vars ps (v_auxA v) (v_dualA v))) /\
  (f_updB a = true -> (forall i, (i < length (f_data a))%nat -> 0 < rho_B (f_scale a) c i) /\ exists ps, penalties_of V a 1 ps /\ with_vars_B ps (v_auxB v) (v_dualB v) <> [] /\
     Forall (meets_B (length (f_data a)) (rowsB c) (mc (cA c)) (entB (cBs c))) (with_vars_B ps (v_auxB v) (v_dualB v))) /\
  (f_updC a = true -> 0 < rho_C (f_scale a) c /\ exists ps, penalties_of V a 2 ps /\ with_vars ps (v_auxC v) (v_dualC v) <> [] /\
     Forall (met (mr (cC c)) (mc (cA c)) (mget (cC c))) (with_vars ps (v_auxC v) (v_dualC v))).
