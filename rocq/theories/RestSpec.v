(** Starts at rest: every updated factor already solves its penalised problem, with the auxiliary
    variables equal to the factor and the dual variables as the multipliers that prove it.  Nothing
    of the update code. *)
From Coq Require Import Reals List Arith Bool ZArith.
From Verif Require Import Num Numpy Spec ModelSpec Penalties PenaltySpec CoupledMatrices CmfSpec Decomp DecompSpec OptSpec
  InitVars InitSpec Parse ParseSpec Fit FitSpec ResumeSpec SymSpec StationarySpec.
Import ListNotations.
Local Open Scope R_scope.

(** Without penalties nothing but the smooth part decides, so its minimiser must be the only one. *)
Definition only_least (r c : nat) (f : ent -> R) (x : ent) : Prop := forall Z, f Z <= f x -> same r c Z x.
Definition only_least_l (n : nat) (J : nat -> nat) (c : nat) (f : (nat -> ent) -> R) (x : nat -> ent) : Prop :=
  forall Z, f Z <= f x -> forall i, (i < n)%nat -> same (J i) c (Z i) (x i).

Definition at_rest (r c : nat) (rho : nat -> R) (f : ent -> R) (regs : list mregR) (x : ent) : Prop :=
  Forall (fun g => convex_pen (g_pen g)) regs /\
  (forall q, (q < length regs)%nat -> same r c (aux_at regs q) x) /\
  certified r c rho f regs x (dual_at regs) /\
  (regs = [] -> only_least r c f x).
Definition at_rest_l (n : nat) (J : nat -> nat) (c : nat) (rho : nat -> R) (f : (nat -> ent) -> R) (regs : list bregR) (x : nat -> ent) : Prop :=
  Forall (fun g => convex_pen (b_pen g)) regs /\
  (forall q i, (q < length regs)%nat -> (i < n)%nat -> same (J i) c (baux_at regs q i) (x i)) /\
  certified_l n J c rho f regs x (bdual_at regs) /\
  (regs = [] -> only_least_l n J c f x).

(** The three factors of a decomposition; [rho] are the feasibility penalties of the updates. *)
Definition rests_A (Xs : list matR) (c : rcmf) (l2 scale : R) (constant : bool) (regs : list mregR) : Prop :=
  (forall i, (i < length Xs)%nat -> 0 < rho_A scale c i) /\
  forall rho, rhos_used constant (length Xs) (rho_A scale c) rho ->
    at_rest (mr (cA c)) (mc (cA c)) rho (smooth_A Xs c l2) regs (mget (cA c)).
Definition rests_B (Xs : list matR) (c : rcmf) (l2 scale : R) (constant : bool) (regs : list bregR) : Prop :=
  (forall i, (i < length Xs)%nat -> 0 < rho_B scale c i) /\
  forall rho, rhos_used constant (length Xs) (rho_B scale c) rho ->
    at_rest_l (length Xs) (rowsB c) (mc (cA c)) rho (smooth_B Xs c l2) regs (entB (cBs c)).
Definition rests_C (Xs : list matR) (c : rcmf) (l2 scale : R) (regs : list mregR) : Prop :=
  0 < rho_C scale c /\
  at_rest (mr (cC c)) (mc (cA c)) (fun _ => rho_C scale c) (smooth_C Xs c l2) regs (mget (cC c)).

(** ** Calls *)
(** Penalties with their variables. *)
Fixpoint with_vars (ps : list (penalty (N:=RNum))) (aux dual : list matR) : list mregR :=
  match ps, aux, dual with p :: ps, x :: aux, u :: dual => MReg p x u :: with_vars ps aux dual | _, _, _ => [] end.
Fixpoint with_vars_B (ps : list (penalty (N:=RNum))) (aux : list (auxes (N:=RNum))) (dual : list (list matR)) : list bregR :=
  match ps, aux, dual with p :: ps, x :: aux, u :: dual => BReg p x u :: with_vars_B ps aux dual | _, _, _ => [] end.
Definition constant_for_B (c : constarg) : bool := match c with CBool b => b | CB => true | _ => false end.
(** The start of the call, factors [c] and variables [v], is at rest in every mode that is updated. *)
Definition start_rests (V : envR) (a : fitR) (c : rcmf) (v : admmvars (N:=RNum)) : Prop :=
  cw c = None /\ exists l, ridges a l /\
    (f_updA a = true -> exists ps, penalties_of V a 0 ps /\
       rests_A (f_data a) c (l 0%nat) (f_scale a) (constant_for_A (f_const a)) (with_vars ps (v_auxA v) (v_dualA v))) /\
    (f_updB a = true -> exists ps, penalties_of V a 1 ps /\
       rests_B (f_data a) c (l 1%nat) (f_scale a) (constant_for_B (f_const a)) (with_vars_B ps (v_auxB v) (v_dualB v))) /\
    (f_updC a = true -> exists ps, penalties_of V a 2 ps /\
       rests_C (f_data a) c (l 2%nat) (f_scale a) (with_vars ps (v_auxC v) (v_dualC v))).
(** One value only. *)
Definition constant_list {T} (l : list T) : Prop := forall x y, In x l -> In y l -> x = y.
Definition constant_record (d : diagnostics (N:=RNum)) : Prop :=
  constant_list (d_errors d) /\ constant_list (d_gaps d) /\ constant_list (d_losses d).
(** The call returns its start. *)
Definition returns_start (a : fitR) (c : rcmf) (v : admmvars (N:=RNum)) (o : outR) : Prop :=
  out_cmf o = c /\ (f_return_vars a = true -> out_vars o = Some v) /\
  forall d, out_diag o = Some d -> constant_record d /\
    (0 < data_sumsq (f_data a) -> Forall (fun e => e = Fin (rel_error (f_data a) c)) (d_errors d)).
(** Each updated mode has a penalty or a ridge term, mode 0 is updated either with one feasibility
    penalty or under row-wise penalties only, and a loss tolerance comes with an absolute one. *)
Definition held (V : envR) (a : fitR) : Prop :=
  (forall m ps l, (m < 3)%nat -> updates a m = true -> penalties_of V a m ps -> ridges a l -> 0 < l m \/ ps <> []) /\
  (forall ps, f_updA a = true -> constant_for_A (f_const a) = false -> penalties_of V a 0 ps -> Forall rowwise ps) /\
  (tol_set (f_tol a) -> f_abs_tol a <> None).

(** ** Perfect starts *)
(** The start reconstructs the data; no updated mode has a ridge term; its penalties are constraints
    that the factor meets (at least one), with the factor as auxiliary variable and zero as dual variable. *)
Definition met (r c : nat) (x : ent) (g : mregR) : Prop :=
  convex_pen (g_pen g) /\ constraint_only (g_pen g) /\ doc_domain (g_pen g) r c x /\
  same r c (mget (g_aux g)) x /\ same r c (mget (g_dual g)) (fun _ _ => 0).
Definition met_l (n : nat) (J : nat -> nat) (c : nat) (x : nat -> ent) (g : bregR) : Prop :=
  convex_pen (b_pen g) /\ constraint_only (b_pen g) /\
  forall i, (i < n)%nat -> doc_domain (b_pen g) (J i) c (x i) /\
    same (J i) c (baux_at [g] 0 i) (x i) /\ same (J i) c (bdual_at [g] 0 i) (fun _ _ => 0).
Definition perfect_start (V : envR) (a : fitR) (c : rcmf) (v : admmvars (N:=RNum)) : Prop :=
  cw c = None /\ residual (f_data a) c = 0 /\
  (forall m l, (m < 3)%nat -> updates a m = true -> ridges a l -> l m = 0) /\
  (f_updA a = true -> (forall i, (i < length (f_data a))%nat -> 0 < rho_A (f_scale a) c i) /\ exists ps, penalties_of V a 0 ps /\ with_vars ps (v_auxA v) (v_dualA v) <> [] /\
     Forall (met (mr (cA c)) (mc (cA c)) (mget (cA c))) (with_vars ps (v_auxA v) (v_dualA v))) /\
  (f_updB a = true -> (forall i, (i < length (f_data a))%nat -> 0 < rho_B (f_scale a) c i) /\ exists ps, penalties_of V a 1 ps /\ with_vars_B ps (v_auxB v) (v_dualB v) <> [] /\
     Forall (met_l (length (f_data a)) (rowsB c) (mc (cA c)) (entB (cBs c))) (with_vars_B ps (v_auxB v) (v_dualB v))) /\
  (f_updC a = true -> 0 < rho_C (f_scale a) c /\ exists ps, penalties_of V a 2 ps /\ with_vars ps (v_auxC v) (v_dualC v) <> [] /\
     Forall (met (mr (cC c)) (mc (cA c)) (mget (cC c))) (with_vars ps (v_auxC v) (v_dualC v))).
