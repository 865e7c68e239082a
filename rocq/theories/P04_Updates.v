(** Properties C23-C26, C28, C31, C50 and C51 (first half): reconstruction error,
    feasibility gaps and the three ADMM factor updates.

    [admm_update_A], [admm_update_B], [admm_update_C] model the functions of the
    same names in decomposition.py.  Specifications are in DecompSpec.v and
    OptSpec.v.  [E] holds the SVD and the total variation denoiser; [svd_correct]
    and [tv_correct] say that they do their job, and [Ideal.ideal_exists] shows
    that such routines exist for all sizes. *)
From Coq Require Import Reals Lra Lia List Arith Bool ZArith.
From Verif Require Import Num Numpy RFacts Spec ModelSpec Penalties PenaltySpec CoupledMatrices CmfSpec Decomp DecompSpec OptSpec
  AdmmProofs AoRun AdmmOne AdmmOpt UpdMain Total Ideal DecompExamples.
Import ListNotations.
Local Open Scope R_scope.

Notation extR := (ext (N:=RNum)).
Notation stateR := (state (N:=RNum)).

(** ** C23: the reconstruction error *)
Theorem C23_norm_of_the_data (Xs : list matR) : root_sum_squared (N:=RNum) Xs = sqrt (data_sumsq Xs).
Proof. exact (root_data Xs). Qed.
Print Assumptions C23_norm_of_the_data.

Theorem C23_reconstruction_error (Xs : list matR) (c : rcmf) : data_fits Xs c ->
  rec_error Xs c (root_sum_squared Xs) None = sqrt (residual Xs c).
Proof. exact (rec_error_plain Xs c). Qed.
Print Assumptions C23_reconstruction_error.

(** The same with the intermediate results that the A update hands on. *)
Theorem C23_reconstruction_error_after_A_update (E : extR) (Xs : list matR) (c c' : rcmf) (l2 scale : R) (constant : bool)
    (regs regs' : list mregR) (n : nat) (tol : option R) inter :
  data_fits Xs c -> nonempty c -> 0 <= l2 -> 0 <= scale -> svd_correct E (mc (cA c)) ->
  Forall (mreg_valid (mr (cA c)) (mc (cA c))) regs ->
  admm_update_A E Xs c regs l2 n tol scale constant = Ok (c', regs', inter) ->
  rec_error Xs c' (root_sum_squared Xs) (Some inter) = sqrt (residual Xs c').
Proof. intros HF HN H1 H2 H3. exact (error_inter E Xs c l2 scale constant HF HN H1 H2 H3 regs regs' c' n tol inter). Qed.
Print Assumptions C23_reconstruction_error_after_A_update.

(** ** C24: feasibility gaps *)
Theorem C24_gap_values (Xs : list matR) (s : stateR) : valid_state Xs s ->
  exists g, state_gaps s = Ok g /\ gaps_of s g.
Proof. exact (state_gaps_ok Xs s). Qed.
Print Assumptions C24_gap_values.

(** A gap is zero exactly when the auxiliary variable equals the factor. *)
Theorem C24_zero_gap (s : stateR) gA gB gC (q : nat) : gaps_of s (gA, gB, gC) ->
  let c := st_cmf s in
  (norm_A c <> 0 -> (q < length gA)%nat ->
     (nth q gA NaN = Fin 0 <-> same (mr (cA c)) (mc (cA c)) (mget (g_aux (nth_reg (st_rA s) q))) (mget (cA c)))) /\
  (norm_B c <> 0 -> (q < length gB)%nat ->
     (nth q gB NaN = Fin 0 <-> forall i, (i < length (cBs c))%nat ->
        same (rowsB c i) (mc (cA c)) (baux (nth_breg (st_rB s) q) i) (entB (cBs c) i))) /\
  (norm_C c <> 0 -> (q < length gC)%nat ->
     (nth q gC NaN = Fin 0 <-> same (mr (cC c)) (mc (cC c)) (mget (g_aux (nth_reg (st_rC s) q))) (mget (cC c)))).
Proof.
  intros ((_ & HA) & (_ & HB) & (_ & HC)) c. split; [|split]; intros N Hq.
  - rewrite (ratio_zero _ _ _ (HA q Hq) N). apply fdist_zero.
  - rewrite (ratio_zero _ _ _ (HB q Hq) N). apply ldist_zero.
  - rewrite (ratio_zero _ _ _ (HC q Hq) N). apply fdist_zero.
Qed.
Print Assumptions C24_zero_gap.

(** The feasibility test passes exactly when every relative distance is below the
    tolerance, provided no gap is 0/0. *)
Theorem C24_feasibility_test (Xs : list matR) (s : stateR) g (t : R) :
  valid_state Xs s -> no_nan s -> state_gaps s = Ok g ->
  (check_feasibility g t = true <-> feasible_state t s).
Proof.
  intros V N H. rewrite (state_gaps_val Xs s V) in H. injection H as <-. exact (check_feasibility_ok Xs s t V N).
Qed.
Print Assumptions C24_feasibility_test.

Theorem C24_feasible_without_penalties (t : R) : check_feasibility (N:=RNum) ([], [], []) t = true.
Proof. reflexivity. Qed.
Print Assumptions C24_feasible_without_penalties.

(** ** C25, C26, C31: the iterations of an update.
    In each theorem [tr 0, ..., tr m] are the states of the inner loop, each obtained
    from the one before by an update with a single iteration. *)
Theorem C25_C26_C31_update_C (E : extR) (Xs : list matR) (c c' : rcmf) (l2 scale : R) (regs regs' : list mregR)
    (n : nat) (tol : option R) :
  data_fits Xs c -> nonempty c -> 0 <= l2 -> 0 <= scale -> svd_correct E (mc (cA c)) ->
  Forall (mreg_valid (mr (cC c)) (mc (cA c))) regs ->
  admm_update_C E Xs c regs l2 n tol scale = Ok (c', regs') ->
  exists m tr,
    (* C31: stops after the first iteration that meets the criteria, or after n *)
    iterates (fun a b => admm_update_C E Xs (fst a) (snd a) l2 1 None scale = Ok b)
             (fun a b => settled tol (mr (cC c)) (mc (cA c)) (mget (cC (fst a))) (mget (cC (fst b))) (snd b))
             n (unweighted c, regs) (c', regs') m tr /\
    (tol = None -> m = n) /\
    forall i, (i < m)%nat ->
      let C := cC (fst (tr (S i))) in
      (* only C changes *)
      fst (tr (S i)) = Cmf None (cA c) (cBs c) C /\ shaped C (mr (cC c)) (mc (cA c)) /\
      (* C25: C is a global minimiser of the subproblem *)
      (forall Z, obj_C Xs c l2 (rho_C scale c) (snd (tr i)) (mget C) <= obj_C Xs c l2 (rho_C scale c) (snd (tr i)) Z) /\
      (* C26: every dual variable accumulates the infeasibility *)
      Forall2 (fun g g' => g_pen g' = g_pen g /\ dual_updated (mr (cC c)) (mc (cA c)) (mget C) g g') (snd (tr i)) (snd (tr (S i))).
Proof.
  intros HF HN H1 H2 H3 Hv H. destruct (C_iters E Xs c l2 scale HF HN H1 H2 H3 regs regs' c' n tol Hv H) as (m & tr & HI & K).
  exists m, tr. split; [exact HI|]. split.
  { intros ->. destruct HI as (L & _ & _ & _ & _ & HS). destruct (Nat.eq_dec m n) as [|N]; [assumption|].
    destruct (HS ltac:(lia)) as (_ & (t & D & _)). discriminate. }
  intros i Hi. destruct (K i Hi) as (K1 & K2 & K3 & K4). split; [exact K1|]. split; [exact K2|]. split; [exact K3|].
  eapply F2_impl; [|exact K4]. intros g g' (X & _ & _ & Y). now split.
Qed.
Print Assumptions C25_C26_C31_update_C.

Theorem C25_C26_C31_update_A (E : extR) (Xs : list matR) (c c' : rcmf) (l2 scale : R) (constant : bool)
    (regs regs' : list mregR) (n : nat) (tol : option R) inter (rho : nat -> R) :
  data_fits Xs c -> nonempty c -> 0 <= l2 -> 0 <= scale -> svd_correct E (mc (cA c)) ->
  Forall (mreg_valid (mr (cA c)) (mc (cA c))) regs -> rhos_used constant (length Xs) (rho_A scale c) rho ->
  admm_update_A E Xs c regs l2 n tol scale constant = Ok (c', regs', inter) ->
  exists m tr,
    iterates (fun a b => exists i, admm_update_A E Xs (fst a) (snd a) l2 1 None scale constant = Ok (b, i))
             (fun a b => settled tol (mr (cA c)) (mc (cA c)) (mget (cA (fst a))) (mget (cA (fst b))) (snd b))
             n (unweighted c, regs) (c', regs') m tr /\
    (tol = None -> m = n) /\
    forall i, (i < m)%nat ->
      let A := cA (fst (tr (S i))) in
      fst (tr (S i)) = Cmf None A (cBs c) (cC c) /\ shaped A (mr (cA c)) (mc (cA c)) /\
      (forall Z, obj_A Xs c l2 rho (snd (tr i)) (mget A) <= obj_A Xs c l2 rho (snd (tr i)) Z) /\
      Forall2 (fun g g' => g_pen g' = g_pen g /\ dual_updated (mr (cA c)) (mc (cA c)) (mget A) g g') (snd (tr i)) (snd (tr (S i))).
Proof.
  intros HF HN H1 H2 H3 Hv Hr H. destruct (A_iters E Xs c l2 scale constant HF HN H1 H2 H3 regs regs' c' n tol inter rho Hv Hr H) as (m & tr & HI & K).
  exists m, tr. split; [exact HI|]. split.
  { intros ->. destruct HI as (L & _ & _ & _ & _ & HS). destruct (Nat.eq_dec m n) as [|N]; [assumption|].
    destruct (HS ltac:(lia)) as (_ & (t & D & _)). discriminate. }
  intros i Hi. destruct (K i Hi) as (K1 & K2 & K3 & K4). split; [exact K1|]. split; [exact K2|]. split; [exact K3|].
  eapply F2_impl; [|exact K4]. intros g g' (X & _ & _ & Y). now split.
Qed.
Print Assumptions C25_C26_C31_update_A.

Theorem C25_C26_C31_update_B (E : extR) (Xs : list matR) (c c' : rcmf) (l2 scale : R) (constant : bool)
    (regs regs' : list bregR) (n : nat) (tol : option R) (rho : nat -> R) :
  data_fits Xs c -> nonempty c -> 0 <= l2 -> 0 <= scale -> svd_correct E (mc (cA c)) ->
  Forall (breg_valid (length Xs) (rowsB c) (mc (cA c))) regs -> rhos_used constant (length Xs) (rho_B scale c) rho ->
  admm_update_B E Xs c regs l2 n tol scale constant = Ok (c', regs') ->
  exists m tr,
    iterates (fun a b => admm_update_B E Xs (fst a) (snd a) l2 1 None scale constant = Ok b)
             (fun a b => b_settled tol (length Xs) (rowsB c) (mc (cA c)) (entB (cBs (fst a))) (entB (cBs (fst b))) (snd b))
             n (unweighted c, regs) (c', regs') m tr /\
    (tol = None -> m = n) /\
    forall i, (i < m)%nat ->
      let Bs := cBs (fst (tr (S i))) in
      fst (tr (S i)) = Cmf None (cA c) Bs (cC c) /\ list_shaped (length Xs) (rowsB c) (mc (cA c)) Bs /\
      (forall Z, obj_B Xs c l2 rho (snd (tr i)) (entB Bs) <= obj_B Xs c l2 rho (snd (tr i)) Z) /\
      Forall2 (fun g g' => b_pen g' = b_pen g /\ b_dual_updated (length Xs) (rowsB c) (mc (cA c)) (entB Bs) g g') (snd (tr i)) (snd (tr (S i))).
Proof.
  intros HF HN H1 H2 H3 Hv Hr H. destruct (B_iters E Xs c l2 scale constant HF HN H1 H2 H3 regs regs' c' n tol rho Hv Hr H) as (m & tr & HI & K).
  exists m, tr. split; [exact HI|]. split.
  { intros ->. destruct HI as (L & _ & _ & _ & _ & HS). destruct (Nat.eq_dec m n) as [|N]; [assumption|].
    destruct (HS ltac:(lia)) as (_ & (t & D & _)). discriminate. }
  intros i Hi. destruct (K i Hi) as (K1 & K2 & K3 & K4). split; [exact K1|]. split; [exact K2|]. split; [exact K3|].
  eapply F2_impl; [|exact K4]. intros g g' (X & _ & _ & _ & Y). now split.
Qed.
Print Assumptions C25_C26_C31_update_B.

(** ** C51: the updates cannot fail when the subproblems are positive definite and
    no penalty divides by zero *)
Theorem C51_update_C_total (E : extR) (Xs : list matR) (c : rcmf) (l2 scale : R) (regs : list mregR) (n : nat) (tol : option R) :
  data_fits Xs c -> nonempty c -> 0 <= l2 -> 0 <= scale -> svd_correct E (mc (cA c)) ->
  Forall (mreg_valid (mr (cC c)) (mc (cA c))) regs ->
  Forall (fun g => usable (g_pen g) (rho_C scale c)) regs -> well_posed l2 (rho_C scale c) regs ->
  exists r, admm_update_C E Xs c regs l2 n tol scale = Ok r.
Proof. intros HF HN H1 H2 H3. exact (C_total E Xs c l2 scale HF HN H1 H2 H3 regs n tol). Qed.
Print Assumptions C51_update_C_total.

Theorem C51_update_A_total (E : extR) (Xs : list matR) (c : rcmf) (l2 scale : R) (constant : bool) (regs : list mregR)
    (n : nat) (tol : option R) (rho : nat -> R) :
  data_fits Xs c -> nonempty c -> 0 <= l2 -> 0 <= scale -> svd_correct E (mc (cA c)) ->
  rhos_used constant (length Xs) (rho_A scale c) rho ->
  Forall (mreg_valid (mr (cA c)) (mc (cA c))) regs ->
  (forall i, (i < length Xs)%nat -> Forall (fun g => usable (g_pen g) (rho i)) regs /\ well_posed l2 (rho i) regs) ->
  (constant = false -> Forall (fun g => rowwise (g_pen g)) regs) ->
  exists r, admm_update_A E Xs c regs l2 n tol scale constant = Ok r.
Proof. intros HF HN H1 H2 H3. exact (A_total E Xs c l2 scale constant HF HN H1 H2 H3 regs n tol rho). Qed.
Print Assumptions C51_update_A_total.

Theorem C51_update_B_total (E : extR) (Xs : list matR) (c : rcmf) (l2 scale : R) (constant : bool) (regs : list bregR)
    (n : nat) (tol : option R) (rho : nat -> R) :
  data_fits Xs c -> nonempty c -> 0 <= l2 -> 0 <= scale -> svd_correct E (mc (cA c)) ->
  rhos_used constant (length Xs) (rho_B scale c) rho ->
  Forall (breg_valid (length Xs) (rowsB c) (mc (cA c))) regs ->
  (forall i, (i < length Xs)%nat -> Forall (fun g => usable (b_pen g) (rho i)) regs /\ well_posed l2 (rho i) regs) ->
  exists r, admm_update_B E Xs c regs l2 n tol scale constant = Ok r.
Proof. intros HF HN H1 H2 H3. exact (B_total E Xs c l2 scale constant HF HN H1 H2 H3 regs n tol rho). Qed.
Print Assumptions C51_update_B_total.

(** ** C28: fixed points solve the penalised subproblem *)
Theorem C28_fixed_point_C (E : extR) (Xs : list matR) (c : rcmf) (l2 scale : R) (regs : list mregR) (tol : option R) :
  data_fits Xs c -> nonempty c -> 0 <= l2 -> 0 <= scale -> svd_correct E (mc (cA c)) -> tv_correct E (mr (cC c)) ->
  Forall (mreg_valid (mr (cC c)) (mc (cA c))) regs -> Forall (fun g => convex_pen (g_pen g)) regs ->
  0 < rho_C scale c -> admm_update_C E Xs c regs l2 1 tol scale = Ok (c, regs) ->
  (forall q, (q < length regs)%nat -> same (mr (cC c)) (mc (cA c)) (aux_at regs q) (mget (cC c))) /\
  optimal (mr (cC c)) (mc (cA c)) (smooth_C Xs c l2) regs (mget (cC c)).
Proof.
  intros HF HN H1 H2 H3 Ht Hv HC Hr H. destruct (C_fixed E Xs c l2 scale HF HN H1 H2 H3 regs tol Hv HC Hr Ht H) as (K1 & _ & K2). now split.
Qed.
Print Assumptions C28_fixed_point_C.

Theorem C28_fixed_point_A (E : extR) (Xs : list matR) (c : rcmf) (l2 scale : R) (constant : bool) (regs : list mregR)
    (tol : option R) inter (rho : nat -> R) :
  data_fits Xs c -> nonempty c -> 0 <= l2 -> 0 <= scale -> svd_correct E (mc (cA c)) -> tv_correct E (mr (cA c)) ->
  Forall (mreg_valid (mr (cA c)) (mc (cA c))) regs -> Forall (fun g => convex_pen (g_pen g)) regs ->
  rhos_used constant (length Xs) (rho_A scale c) rho ->
  (forall i, (i < length Xs)%nat -> 0 < rho_A scale c i) ->
  admm_update_A E Xs c regs l2 1 tol scale constant = Ok (c, regs, inter) ->
  (forall q, (q < length regs)%nat -> same (mr (cA c)) (mc (cA c)) (aux_at regs q) (mget (cA c))) /\
  optimal (mr (cA c)) (mc (cA c)) (smooth_A Xs c l2) regs (mget (cA c)).
Proof.
  intros HF HN H1 H2 H3 Ht Hv HC Hu Hr H. destruct (A_fixed E Xs c l2 scale constant HF HN H1 H2 H3 regs tol inter rho Hv HC Hu Hr Ht H) as (K1 & _ & K2). now split.
Qed.
Print Assumptions C28_fixed_point_A.

Theorem C28_fixed_point_B (E : extR) (Xs : list matR) (c : rcmf) (l2 scale : R) (constant : bool) (regs : list bregR)
    (tol : option R) (rho : nat -> R) :
  data_fits Xs c -> nonempty c -> 0 <= l2 -> 0 <= scale -> svd_correct E (mc (cA c)) ->
  (forall i, (i < length Xs)%nat -> tv_correct E (rowsB c i)) ->
  Forall (breg_valid (length Xs) (rowsB c) (mc (cA c))) regs -> Forall (fun g => convex_pen (b_pen g)) regs ->
  rhos_used constant (length Xs) (rho_B scale c) rho ->
  (forall i, (i < length Xs)%nat -> 0 < rho_B scale c i) ->
  admm_update_B E Xs c regs l2 1 tol scale constant = Ok (c, regs) ->
  (forall q i, (q < length regs)%nat -> (i < length Xs)%nat -> same (rowsB c i) (mc (cA c)) (baux_at regs q i) (entB (cBs c) i)) /\
  optimal_l (length Xs) (rowsB c) (mc (cA c)) (smooth_B Xs c l2) regs (entB (cBs c)).
Proof.
  intros HF HN H1 H2 H3 Ht Hv HC Hu Hr H. destruct (B_fixed E Xs c l2 scale constant HF HN H1 H2 H3 regs tol rho Hv HC Hu Hr Ht H) as (K1 & _ & K2). now split.
Qed.
Print Assumptions C28_fixed_point_B.

(** ** C50: inner iterations approach every certified optimum, and the least
    infeasibility of the iterations decreases like 1/k *)
Theorem C50_approach_C (E : extR) (Xs : list matR) (c c' : rcmf) (l2 scale : R) (regs regs' : list mregR) (n : nat) (tol : option R)
    (x : ent) (us : nat -> ent) :
  data_fits Xs c -> nonempty c -> 0 <= l2 -> 0 <= scale -> svd_correct E (mc (cA c)) -> tv_correct E (mr (cC c)) ->
  Forall (mreg_valid (mr (cC c)) (mc (cA c))) regs -> Forall (fun g => convex_pen (g_pen g)) regs -> 0 < rho_C scale c ->
  let rho := fun _ : nat => rho_C scale c in
  certified (mr (cC c)) (mc (cA c)) rho (smooth_C Xs c l2) regs x us ->
  admm_update_C E Xs c regs l2 n tol scale = Ok (c', regs') ->
  exists m tr,
    iterates (fun a b => admm_update_C E Xs (fst a) (snd a) l2 1 None scale = Ok b)
             (fun a b => settled tol (mr (cC c)) (mc (cA c)) (mget (cC (fst a))) (mget (cC (fst b))) (snd b))
             n (unweighted c, regs) (c', regs') m tr /\
    approaches (mr (cC c)) (mc (cA c)) rho x us m (fun i => snd (tr i)) (fun i => mget (cC (fst (tr i)))) /\
    forall k, (0 < k)%nat -> (k < m)%nat -> exists i, (2 <= i <= S k)%nat /\
      INR k * infeasibility (mr (cC c)) (mc (cA c)) rho (snd (tr i)) (mget (cC (fst (tr i)))) <=
      energy (mr (cC c)) (mc (cA c)) rho x us (snd (tr 1%nat)).
Proof.
  intros HF HN H1 H2 H3 Ht Hv HC Hr rho Hx H.
  destruct (C_approach E Xs c l2 scale HF HN H1 H2 H3 regs regs' c' n tol x us Hv HC Hr Ht Hx H) as (m & tr & K1 & K2).
  exists m, tr. split; [exact K1|]. split; [exact K2|].
  exact (approaches_rate _ _ rho x us m (fun i => snd (tr i)) (fun i => mget (cC (fst (tr i)))) (fun _ _ => Hr) K2).
Qed.
Print Assumptions C50_approach_C.

Theorem C50_approach_A (E : extR) (Xs : list matR) (c c' : rcmf) (l2 scale : R) (constant : bool) (regs regs' : list mregR)
    (n : nat) (tol : option R) inter (rho : nat -> R) (x : ent) (us : nat -> ent) :
  data_fits Xs c -> nonempty c -> 0 <= l2 -> 0 <= scale -> svd_correct E (mc (cA c)) -> tv_correct E (mr (cA c)) ->
  Forall (mreg_valid (mr (cA c)) (mc (cA c))) regs -> Forall (fun g => convex_pen (g_pen g)) regs ->
  rhos_used constant (length Xs) (rho_A scale c) rho ->
  (forall i, (i < length Xs)%nat -> 0 < rho_A scale c i) ->
  certified (mr (cA c)) (mc (cA c)) rho (smooth_A Xs c l2) regs x us ->
  admm_update_A E Xs c regs l2 n tol scale constant = Ok (c', regs', inter) ->
  exists m tr,
    iterates (fun a b => exists i, admm_update_A E Xs (fst a) (snd a) l2 1 None scale constant = Ok (b, i))
             (fun a b => settled tol (mr (cA c)) (mc (cA c)) (mget (cA (fst a))) (mget (cA (fst b))) (snd b))
             n (unweighted c, regs) (c', regs') m tr /\
    approaches (mr (cA c)) (mc (cA c)) rho x us m (fun i => snd (tr i)) (fun i => mget (cA (fst (tr i)))) /\
    forall k, (0 < k)%nat -> (k < m)%nat -> exists i, (2 <= i <= S k)%nat /\
      INR k * infeasibility (mr (cA c)) (mc (cA c)) rho (snd (tr i)) (mget (cA (fst (tr i)))) <=
      energy (mr (cA c)) (mc (cA c)) rho x us (snd (tr 1%nat)).
Proof.
  intros HF HN H1 H2 H3 Ht Hv HC Hu Hr Hx H.
  destruct (A_approach E Xs c l2 scale constant HF HN H1 H2 H3 regs regs' c' n tol inter rho x us Hv HC Hu Hr Ht Hx H) as (m & tr & K1 & K2).
  exists m, tr. split; [exact K1|]. split; [exact K2|].
  apply (approaches_rate _ _ rho x us m (fun i => snd (tr i)) (fun i => mget (cA (fst (tr i))))); [|exact K2].
  rewrite (RX Xs c HF). exact (rhos_used_pos _ _ _ _ Hu Hr).
Qed.
Print Assumptions C50_approach_A.

Theorem C50_approach_B (E : extR) (Xs : list matR) (c c' : rcmf) (l2 scale : R) (constant : bool) (regs regs' : list bregR)
    (n : nat) (tol : option R) (rho : nat -> R) (x : nat -> ent) (us : nat -> nat -> ent) :
  data_fits Xs c -> nonempty c -> 0 <= l2 -> 0 <= scale -> svd_correct E (mc (cA c)) ->
  (forall i, (i < length Xs)%nat -> tv_correct E (rowsB c i)) ->
  Forall (breg_valid (length Xs) (rowsB c) (mc (cA c))) regs -> Forall (fun g => convex_pen (b_pen g)) regs ->
  rhos_used constant (length Xs) (rho_B scale c) rho ->
  (forall i, (i < length Xs)%nat -> 0 < rho_B scale c i) ->
  certified_l (length Xs) (rowsB c) (mc (cA c)) rho (smooth_B Xs c l2) regs x us ->
  admm_update_B E Xs c regs l2 n tol scale constant = Ok (c', regs') ->
  exists m tr,
    iterates (fun a b => admm_update_B E Xs (fst a) (snd a) l2 1 None scale constant = Ok b)
             (fun a b => b_settled tol (length Xs) (rowsB c) (mc (cA c)) (entB (cBs (fst a))) (entB (cBs (fst b))) (snd b))
             n (unweighted c, regs) (c', regs') m tr /\
    approaches_l (length Xs) (rowsB c) (mc (cA c)) rho x us m (fun i => snd (tr i)) (fun i => entB (cBs (fst (tr i)))) /\
    forall k, (0 < k)%nat -> (k < m)%nat -> exists i, (2 <= i <= S k)%nat /\
      INR k * infeasibility_l (length Xs) (rowsB c) (mc (cA c)) rho (snd (tr i)) (entB (cBs (fst (tr i)))) <=
      energy_l (length Xs) (rowsB c) (mc (cA c)) rho x us (snd (tr 1%nat)).
Proof.
  intros HF HN H1 H2 H3 Ht Hv HC Hu Hr Hx H.
  destruct (B_approach E Xs c l2 scale constant HF HN H1 H2 H3 regs regs' c' n tol rho x us Hv HC Hu Hr Ht Hx H) as (m & tr & K1 & K2).
  exists m, tr. split; [exact K1|]. split; [exact K2|].
  apply (approaches_l_rate _ _ _ rho x us m (fun i => snd (tr i)) (fun i => entB (cBs (fst (tr i))))); [|exact K2].
  exact (rhos_used_pos _ _ _ _ Hu Hr).
Qed.
Print Assumptions C50_approach_B.

(** ** Non-vacuity *)
(** Two matrices, rank two, a box on A, PARAFAC2 and non-negative unimodality on the
    B_i, a ball and non-negativity on C: the state is valid, the updates succeed for
    correct external routines, and such routines exist. *)
Example updates_nonvacuous : exists E : extR, svd_correct E 2 /\ tv_correct E 2 /\
  data_fits exX exc /\ nonempty exc /\ valid_state exX (exS true) /\ no_nan (exS true) /\
  (exists r, admm_update_A E exX exc exrA (1 / 2) 5 (Some (1 / 10)) 1 false = Ok r) /\
  (exists r, admm_update_B E exX exc (exrB true) 0 5 None 1 true = Ok r) /\
  (exists r, admm_update_C E exX exc exrC 0 5 (Some (1 / 10)) 1 = Ok r).
Proof.
  destruct ideal_exists as (E & HE & HT). exists E. split; [apply HE|]. split; [apply HT|]. split; [exact exc_fits|].
  split; [exact exc_nonempty|]. split; [apply exS_valid|].
  destruct ex_rhos as (R1 & R2 & R3 & R4 & R5). split.
  { assert (K : forall x, sqrt x = 0 -> 0 < x -> False) by (intros x H1 H2; apply sqrt_lt_R0 in H2; lra).
    split; [|split]; intros q Hq H; exfalso; apply (K _ H); mcomp; lra. }
  split; [|split].
  - apply (C51_update_A_total E exX exc (1 / 2) 1 false exrA 5 (Some (1 / 10)) (rho_A 1 exc)); try lra; try apply HE; try exact exc_fits; try exact exc_nonempty.
    + intros i Hi. reflexivity.
    + exact exrA_valid.
    + intros i Hi. split; [|left; lra]. repeat constructor. discriminate.
    + intros _. repeat constructor.
  - apply (C51_update_B_total E exX exc 0 1 true (exrB true) 5 None (fun _ => 3)); try lra; try apply HE; try exact exc_fits; try exact exc_nonempty.
    + intros i Hi. split.
      * exists 1%nat. split; [cbn; lia|]. now rewrite R4.
      * intros [|[|j]] Hj; cbn in Hj; try lia; rewrite ?R3, ?R4; lra.
    + exact (exrB_valid true).
    + intros i Hi. split; [|right; split; [lra|discriminate]]. constructor; [|constructor; [|constructor]]; (split; [discriminate|]; right; lra).
  - apply (C51_update_C_total E exX exc 0 1 exrC 5 (Some (1 / 10))); try lra; try apply HE; try exact exc_fits; try exact exc_nonempty.
    + exact exrC_valid.
    + rewrite R5. constructor; [|constructor; [|constructor]]; (split; [discriminate|]; right; lra).
    + rewrite R5. right. split; [lra|discriminate].
Qed.

(** Fixed points exist: one entry at its bound with a non-zero dual variable, one inside. *)
Example C28_nonvacuous_A : exists (E : extR) inter, svd_correct E 1 /\ tv_correct E 2 /\ data_fits fixX fixA /\ nonempty fixA /\
  Forall (mreg_valid 2 1) fixAr /\ (forall i, (i < 2)%nat -> 0 < rho_A 2 fixA i) /\
  admm_update_A E fixX fixA fixAr 0 1 None 2 false = Ok (fixA, fixAr, inter).
Proof.
  destruct ideal_exists as (E & HE & HT). destruct (fixA_step E (HE 1%nat)) as (i & H). exists E, i.
  split; [apply HE|]. split; [apply HT|]. split; [|split; [|split; [|split; [|exact H]]]].
  - split; [|split; [reflexivity|]].
    + split; [wfm|]. split; [wfm|]. split; [reflexivity|]. split; [reflexivity|]. split; [|discriminate].
      intros [|[|k]] Hk; try (cbn in Hk; lia); (split; [wfm|reflexivity]).
    + intros [|[|k]] Hk; try (cbn in Hk; lia); shm.
  - repeat split; try (cbn; lia). intros [|[|k]] Hk; cbn in *; lia.
  - constructor; [|constructor]. split; [intros []|]. split; [exact Logic.I|split; shm].
  - intros [|[|k]] Hk; try lia; mcomp; lra.
Qed.
Example C28_nonvacuous_B : exists E : extR, svd_correct E 1 /\ (forall i, (i < 2)%nat -> tv_correct E (rowsB fixB i)) /\ data_fits fixX fixB /\ nonempty fixB /\
  Forall (breg_valid 2 (rowsB fixB) 1) fixBr /\ (forall i, (i < 2)%nat -> 0 < rho_B 2 fixB i) /\
  admm_update_B E fixX fixB fixBr 0 1 None 2 false = Ok (fixB, fixBr).
Proof.
  destruct ideal_exists as (E & HE & HT). exists E.
  split; [apply HE|]. split; [intros; apply HT|]. split; [|split; [|split; [|split; [|exact (fixB_step E (HE 1%nat))]]]].
  - split; [|split; [reflexivity|]].
    + split; [wfm|]. split; [wfm|]. split; [reflexivity|]. split; [reflexivity|]. split; [|discriminate].
      intros [|[|k]] Hk; try (cbn in Hk; lia); (split; [wfm|reflexivity]).
    + intros [|[|k]] Hk; try (cbn in Hk; lia); shm.
  - repeat split; try (cbn; lia). intros [|[|k]] Hk; cbn in *; lia.
  - constructor; [|constructor]. split; [split; [reflexivity|]; intros [|[|k]] Hk; try lia; shm|].
    split; [split; [reflexivity|]; intros [|[|k]] Hk; try lia; shm|]. intros; exact Logic.I.
  - intros [|[|k]] Hk; try lia; mcomp; lra.
Qed.
(** ... and the scalar problem min (x + 2)^2/2 s.t. x >= 0 has the certified optimum 0
    with multiplier -2; the hypotheses of C50 hold there for every starting point. *)
Example C50_nonvacuous_C : forall a d, exists E : extR, svd_correct E 1 /\ tv_correct E 1 /\
  valid_state [m11 (-2)] (cs 0 a d) /\ 0 < rho_C 2 (st_cmf (cs 0 a d)) /\
  certified 1 1 (fun _ => rho_C 2 (st_cmf (cs 0 a d))) (smooth_C [m11 (-2)] (st_cmf (cs 0 a d)) 0) (st_rC (cs 0 a d)) (fun _ _ => 0) (fun _ _ _ => -2) /\
  (exists r, admm_update_C E [m11 (-2)] (st_cmf (cs 0 a d)) (st_rC (cs 0 a d)) 0 5 None 2 = Ok r) /\
  admm_update_C E [m11 (-2)] (st_cmf (cs 0 0 (-2))) (st_rC (cs 0 0 (-2))) 0 1 None 2 = Ok (st_cmf (cs 0 0 (-2)), st_rC (cs 0 0 (-2))).
Proof.
  intros a d. destruct ideal_exists as (E & HE & HT). exists E. split; [apply HE|]. split; [apply HT|].
  pose proof (cs_valid (-2) 0 a d) as V. split; [exact V|].
  assert (R1 : rho_C 2 (st_cmf (cs 0 a d)) = 1) by (mcomp; field). rewrite R1. split; [lra|]. split; [|split; [|exact (fixC_step E (HE 1%nat))]].
  - split.
    + intros Z. mcomp. generalize (Z 0%nat 0%nat). intros z. pose proof (pow2_ge_0 z). lra.
    + intros [|q] Hq; [|cbn in Hq; lia]. split; [intros [|i] [|j] Hi Hj; try lia; cbn; lra|].
      intros Z HZ. specialize (HZ 0%nat 0%nat ltac:(lia) ltac:(lia)). mcomp. cbn in HZ. lra.
  - destruct V as (V1 & V2 & V3 & V4 & V5).
    apply (C51_update_C_total E [m11 (-2)] _ 0 2 _ 5 None V1 V2 ltac:(lra) ltac:(lra) (HE 1%nat) V5); rewrite R1.
    + repeat constructor. discriminate.
    + right. split; [lra|discriminate].
Qed.

(** When a factor is zero and equal to its auxiliary variable its gap is 0/0 = nan.  If no
    later mode is penalised the state is judged infeasible whatever the tolerance; if a
    later mode is, the nan gap is overlooked.  (Hence the hypothesis [no_nan] above.) *)
Definition zero_state (rC : list mregR) : stateR :=
  St (N:=RNum) (Cmf (N:=RNum) None (m11 0) [m11 1] (m11 1)) [MReg (N:=RNum) NonNegativity (m11 0) (m11 0)] [] rC None.
Example C24_nan_gap : forall t : R, 0 < t ->
  (exists g, state_gaps (zero_state []) = Ok g /\ check_feasibility g t = false) /\
  (exists g, state_gaps (zero_state [MReg (N:=RNum) NonNegativity (m11 1) (m11 0)]) = Ok g /\ check_feasibility g t = true).
Proof.
  intros t Ht.
  assert (V : forall rC, Forall (mreg_valid 1 1) rC -> valid_state [m11 1] (zero_state rC)).
  { intros rC HC. split; [|split; [|split; [|split; [constructor|exact HC]]]].
    - split; [|split; [reflexivity|]].
      + split; [wfm|]. split; [wfm|]. split; [reflexivity|]. split; [reflexivity|]. split; [|discriminate].
        intros [|k] Hk; try (cbn in Hk; lia); (split; [wfm|reflexivity]).
      + intros [|k] Hk; try (cbn in Hk; lia); shm.
    - repeat split; try (cbn; lia). intros [|k] Hk; cbn in *; lia.
    - constructor; [|constructor]. split; [intros []|]. split; [exact Logic.I|split; shm]. }
  assert (GA : forall rC, gapsA (zero_state rC) = [NaN]).
  { intros rC. unfold gapsA. cbn [st_rA zero_state map]. f_equal.
    match goal with |- xdiv ?a ?b = _ => pose proof (is_ratio_xdiv a b) as (_ & _ & K) end.
    assert (Z : forall x, x = 0 -> sqrt x = 0) by (intros x ->; apply sqrt_0).
    apply K; apply Z; mcomp; ring. }
  assert (GC : gapsC (zero_state [MReg (N:=RNum) NonNegativity (m11 1) (m11 0)]) = [Fin 0]).
  { unfold gapsC. cbn [st_rC zero_state map]. f_equal.
    match goal with |- xdiv ?a ?b = _ => pose proof (is_ratio_xdiv a b) as (K & _ & _);
      assert (Ha : a = 0); [|assert (Hb : b = 1); [|rewrite K by lra; rewrite Ha, Hb; f_equal; field]] end.
    - unfold fdist. match goal with |- sqrt ?x = 0 => replace x with 0; [apply sqrt_0|mcomp; ring] end.
    - unfold norm_C, fnorm. match goal with |- sqrt ?x = 1 => replace x with 1; [apply sqrt_1|mcomp; ring] end. }
  split; eexists; (split; [apply (state_gaps_val [m11 1]); apply V|]).
  - constructor.
  - rewrite GA. reflexivity.
  - constructor; [|constructor]. split; [intros []|]. split; [exact Logic.I|split; shm].
  - rewrite GA, GC. cbn. now apply nltb_true.
Qed.
