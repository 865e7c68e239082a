(** Properties C27, C29, C30, C32-C37 and C51 (second half): whole fits.

    [run E P Xs N s] models [cmf_aoadmm] from the start of its main loop on:
    data [Xs], arguments [P], n_iter_max [N], initial factorization with auxiliary and
    dual variables [s].  Its result is the final factorization with these variables, and
    the diagnostics when return_errors is set.  Specifications: DecompSpec.v. *)
From Coq Require Import Reals Lra Lia List Arith Bool ZArith.
From Verif Require Import Num Numpy RFacts Spec ModelSpec Penalties PenaltySpec CoupledMatrices CmfSpec Decomp DecompSpec
  AdmmProofs AoLoop AoRun AoMain AoMono AoPrefix AoErrors CmfProofs TotalRun Ideal DecompExamples.
Import ListNotations.
Local Open Scope R_scope.

Notation extR := (ext (N:=RNum)).
Notation stateR := (state (N:=RNum)).
Notation paramsR := (params (N:=RNum)).

(** ** C51: fits that cannot fail *)
Theorem C51_run_total (E : extR) (P : paramsR) (Xs : list matR) (N : Z) (s : stateR) :
  params_ok P -> tols_ok P -> valid_state Xs s -> svd_correct E (mc (cA (st_cmf s))) -> robust P s ->
  exists r, run E P Xs N s = Ok r.
Proof. intros HP HT. exact (run_total E P Xs HP HT N s). Qed.
Print Assumptions C51_run_total.

(** ** C32, C33, C34: what a run does.
    There are states [tr 0, ..., tr m], each one outer iteration after the other, from the
    initial to the final one.  The fit stops exactly where [stopping_rule] says; [pv] are
    the states to which losses are compared ([compared]). *)
Theorem C34_stopping (E : extR) (P : paramsR) (Xs : list matR) (N : Z) (s s' : stateR) od :
  params_ok P -> valid_state Xs s -> st_inter s = None -> svd_correct E (mc (cA (st_cmf s))) -> 0 < data_sumsq Xs ->
  run E P Xs N s = Ok (s', od) ->
  exists m tr pv msg, (m <= Z.to_nat N)%nat /\ tr 0%nat = s /\ tr m = s' /\ trajectory E P Xs m tr /\
    ((forall j, (0 < j <= m)%nat -> no_nan (tr j)) -> compared P m tr pv /\ stopping_rule P Xs (Z.to_nat N) m msg tr pv) /\
    (p_return_errors P = false -> od = None) /\
    (p_return_errors P = true -> (forall j, (j <= m)%nat -> pv j = tr j) /\ exists d, od = Some d /\ d_message d = msg /\ history P Xs m tr d /\
       (no_nan s' -> flags_ok P s' d)).
Proof. exact (run_main E P Xs N s s' od). Qed.
Print Assumptions C34_stopping.

Theorem C33_histories (E : extR) (P : paramsR) (Xs : list matR) (N : Z) (s s' : stateR) od :
  params_ok P -> valid_state Xs s -> st_inter s = None -> svd_correct E (mc (cA (st_cmf s))) -> 0 < data_sumsq Xs ->
  run E P Xs N s = Ok (s', od) ->
  (p_return_errors P = false -> od = None) /\
  (p_return_errors P = true -> exists d, od = Some d /\
     length (d_errors d) = S (d_n_iter d) /\ length (d_losses d) = S (d_n_iter d) /\ length (d_gaps d) = S (d_n_iter d) /\
     (Z.of_nat (d_n_iter d) <= Z.max N 0)%Z).
Proof.
  intros HP V HI HE HD H. destruct (run_main E P Xs N s s' od HP V HI HE HD H) as (m & tr & pv & msg & Hm & _ & _ & _ & _ & H1 & H2).
  split; [exact H1|]. intros Hr. destruct (H2 Hr) as (_ & d & -> & _ & (He & Hl & Hg & _ & Hn) & _). exists d.
  split; [reflexivity|]. rewrite He, Hl, !map_length, !seq_length, Hn. split; [reflexivity|]. split; [reflexivity|]. split; [exact Hg|]. lia.
Qed.
Print Assumptions C33_histories.

Theorem C32_frozen_modes (E : extR) (P : paramsR) (Xs : list matR) (N : Z) (s s' : stateR) od :
  params_ok P -> valid_state Xs s -> st_inter s = None -> svd_correct E (mc (cA (st_cmf s))) -> 0 < data_sumsq Xs ->
  run E P Xs N s = Ok (s', od) ->
  frozen P s s' /\ same_sizes (st_cmf s) (st_cmf s') /\ same_penalties s s'.
Proof.
  intros HP V HI HE HD H. destruct (run_main E P Xs N s s' od HP V HI HE HD H) as (m & tr & pv & msg & Hm & T0 & Tm & HT & _).
  subst s s'. destruct (trajectory_ok E P Xs HP m tr HT V HE m (le_n _)) as ((_ & K1 & K2 & _) & K3 & _). auto.
Qed.
Print Assumptions C32_frozen_modes.

(** ** C27: hard constraints hold exactly for the auxiliary variables *)
Lemma run_moves (E : extR) (P : paramsR) (Xs : list matR) (N : Z) (s s' : stateR) od :
  params_ok P -> valid_state Xs s -> st_inter s = None -> svd_correct E (mc (cA (st_cmf s))) -> 0 < data_sumsq Xs ->
  (0 < N)%Z -> run E P Xs N s = Ok (s', od) ->
  exists m tr, (0 < m <= Z.to_nat N)%nat /\ tr 0%nat = s /\ tr m = s' /\ trajectory E P Xs m tr.
Proof.
  intros HP V HI HE HD HN H. destruct (run_main E P Xs N s s' od HP V HI HE HD H) as (m & tr & pv & msg & Hm & T0 & Tm & HT & HS & _).
  exists m, tr. split; [|auto]. split; [|assumption]. destruct m as [|m]; [|lia]. exfalso.
  destruct (HS ltac:(lia)) as (_ & (_ & K1 & K2 & _)). apply K1; [lia|]. now apply K2.
Qed.
Theorem C27_exact_constraints (E : extR) (P : paramsR) (Xs : list matR) (N : Z) (s s' : stateR) od :
  params_ok P -> valid_state Xs s -> st_inter s = None -> svd_correct E (mc (cA (st_cmf s))) -> 0 < data_sumsq Xs ->
  ready_state s -> (0 < N)%Z -> (0 < p_inner P)%nat -> run E P Xs N s = Ok (s', od) ->
  exact_state P s'.
Proof.
  intros HP V HI HE HD HR HN Hi H. destruct (run_moves E P Xs N s s' od HP V HI HE HD HN H) as (m & tr & Hm & T0 & Tm & HT).
  subst s s'. destruct (trajectory_ok E P Xs HP m tr HT V HE m (le_n _)) as (_ & _ & _ & _ & _ & K). apply K; auto. lia.
Qed.
Print Assumptions C27_exact_constraints.
(** at every iteration, not only the last *)
Theorem C27_exact_constraints_throughout (E : extR) (P : paramsR) (Xs : list matR) (n : nat) (tr : nat -> stateR) :
  params_ok P -> valid_state Xs (tr 0%nat) -> svd_correct E (mc (cA (st_cmf (tr 0%nat)))) ->
  ready_state (tr 0%nat) -> (0 < p_inner P)%nat -> trajectory E P Xs n tr ->
  forall j, (0 < j <= n)%nat -> exact_state P (tr j).
Proof.
  intros HP V HE HR Hi HT j Hj. destruct (trajectory_ok E P Xs HP n tr HT V HE j ltac:(lia)) as (_ & _ & _ & _ & _ & K). apply K; auto. lia.
Qed.
Print Assumptions C27_exact_constraints_throughout.

(** ** C29, C30: monotonicity without penalties *)
Definition some_update (P : paramsR) : Prop := p_updA P = true \/ p_updB P = true \/ p_updC P = true.
Lemma mono_from_one (E : extR) (P : paramsR) (Xs : list matR) (n : nat) (tr : nat -> stateR) :
  params_ok P -> valid_state Xs (tr 0%nat) -> svd_correct E (mc (cA (st_cmf (tr 0%nat)))) -> no_penalties (tr 0%nat) ->
  trajectory E P Xs n tr -> forall i j, (i <= j <= n)%nat -> ((0 < i)%nat \/ cw (st_cmf (tr 0%nat)) = None) ->
  objective P Xs (st_cmf (tr j)) <= objective P Xs (st_cmf (tr i)).
Proof.
  intros HP V HE NP HT i j Hij [Hi|Hw].
  2:{ apply (mono_trajectory E P Xs HP n tr HT V HE NP Hw j); lia. }
  destruct (any_update P) eqn:AU.
  - destruct i as [|i]; [lia|]. destruct j as [|j]; [lia|].
    destruct (trajectory_ok E P Xs HP n tr HT V HE 1 ltac:(lia)) as ((V1 & (_ & S2 & _) & SP & _) & _ & _ & W1 & _).
    assert (HT1 : trajectory E P Xs (n - 1) (fun k => tr (S k))) by (intros k Hk; apply HT; lia).
    apply (mono_trajectory E P Xs HP (n - 1) (fun k => tr (S k)) HT1 V1); try lia.
    + now rewrite S2.
    + exact (pens_nil _ _ SP NP).
    + apply W1; [lia|assumption].
  - destruct (trajectory_ok E P Xs HP n tr HT V HE i ltac:(lia)) as (_ & _ & _ & _ & Ei & _).
    destruct (trajectory_ok E P Xs HP n tr HT V HE j ltac:(lia)) as (_ & _ & _ & _ & Ej & _).
    rewrite Ei, Ej by assumption. lra.
Qed.
Definition no_ridge (P : paramsR) : Prop := p_l2A P = 0 /\ p_l2B P = 0 /\ p_l2C P = 0.
Lemma objective_residual (P : paramsR) Xs c : no_ridge P -> objective P Xs c = 1 / 2 * residual Xs c.
Proof. intros (H1 & H2 & H3). unfold objective, l2_sum. rewrite H1, H2, H3. field. Qed.
Lemma rel_error_mono Xs c c' : 0 < data_sumsq Xs -> residual Xs c' <= residual Xs c -> rel_error Xs c' <= rel_error Xs c.
Proof.
  intros HD H. unfold rel_error, Rdiv. apply Rmult_le_compat_r; [|now apply sqrt_le_1_alt].
  left. apply Rinv_0_lt_compat. now apply sqrt_lt_R0.
Qed.
(** Without penalties and ridge terms neither the relative error nor the loss ever increases.
    The first update drops the weights of the initial factorization, if it has any (C41);
    without ridge terms it makes up for that, provided there is an inner iteration. *)
Theorem C29_errors_never_increase (E : extR) (P : paramsR) (Xs : list matR) (n : nat) (tr : nat -> stateR) :
  params_ok P -> no_ridge P -> valid_state Xs (tr 0%nat) -> svd_correct E (mc (cA (st_cmf (tr 0%nat)))) ->
  no_penalties (tr 0%nat) -> 0 < data_sumsq Xs -> trajectory E P Xs n tr ->
  forall i j, (i <= j <= n)%nat -> ((0 < i)%nat \/ cw (st_cmf (tr 0%nat)) = None \/ (0 < p_inner P)%nat) ->
    rel_error Xs (st_cmf (tr j)) <= rel_error Xs (st_cmf (tr i)) /\ loss P Xs (tr j) <= loss P Xs (tr i).
Proof.
  intros HP HR V HE NP HD HT i j Hij Hw.
  assert (K : residual Xs (st_cmf (tr j)) <= residual Xs (st_cmf (tr i))).
  { assert (MO : forall i, (i <= j)%nat -> ((0 < i)%nat \/ cw (st_cmf (tr 0%nat)) = None) -> residual Xs (st_cmf (tr j)) <= residual Xs (st_cmf (tr i))).
    { intros i0 Hi0 Hw0. pose proof (mono_from_one E P Xs n tr HP V HE NP HT i0 j ltac:(lia) Hw0) as K. rewrite !objective_residual in K by assumption. lra. }
    destruct Hw as [Hw|[Hw|Hw]]; [apply MO; auto; lia|apply MO; auto; lia|]. destruct i as [|i]; [|apply MO; [lia|left; lia]].
    destruct j as [|j]; [lra|]. destruct HR as (Z1 & Z2 & Z3).
    pose proof (monow_outer E P Xs HP _ _ V HE NP Z1 Z2 Z3 Hw (HT 0%nat ltac:(lia))) as K1.
    specialize (MO 1%nat ltac:(lia) ltac:(left; lia)). lra. }
  assert (RE : rel_error Xs (st_cmf (tr j)) <= rel_error Xs (st_cmf (tr i))) by (apply rel_error_mono; [assumption|lra]).
  split; [exact RE|].
  assert (L : forall k, (k <= n)%nat -> loss P Xs (tr k) = 1 / 2 * rel_error Xs (st_cmf (tr k)) ^ 2).
  { intros k Hk. destruct (trajectory_ok E P Xs HP n tr HT V HE k Hk) as ((_ & _ & SP & _) & _).
    destruct (pens_nil _ _ SP NP) as (N1 & N2 & N3). unfold loss, penalty_sum, l2_sum. rewrite N1, N2, N3. cbn [length Sum].
    destruct HR as (R1 & R2 & R3). rewrite R1, R2, R3. field. }
  rewrite !L by lia. assert (P0 : 0 <= rel_error Xs (st_cmf (tr j))).
  { unfold rel_error, Rdiv. apply Rmult_le_pos; [apply sqrt_pos|]. left. apply Rinv_0_lt_compat. now apply sqrt_lt_R0. }
  assert (K2 : rel_error Xs (st_cmf (tr j)) ^ 2 <= rel_error Xs (st_cmf (tr i)) ^ 2) by (apply pow_incr; auto). lra.
Qed.
Print Assumptions C29_errors_never_increase.

(** With ridge terms the objective that the updates minimise never increases ... *)
Theorem C30_objective_never_increases_partial (E : extR) (P : paramsR) (Xs : list matR) (n : nat) (tr : nat -> stateR) :
  params_ok P -> valid_state Xs (tr 0%nat) -> svd_correct E (mc (cA (st_cmf (tr 0%nat)))) ->
  no_penalties (tr 0%nat) -> 0 < data_sumsq Xs -> trajectory E P Xs n tr ->
  forall i j, (i <= j <= n)%nat -> ((0 < i)%nat \/ cw (st_cmf (tr 0%nat)) = None) ->
    objective P Xs (st_cmf (tr j)) <= objective P Xs (st_cmf (tr i)) /\
    (* ... so the reported loss does not increase for data of norm one *)
    (data_sumsq Xs = 1 -> loss P Xs (tr j) <= loss P Xs (tr i)).
Proof.
  intros HP V HE NP HD HT i j Hij Hw.
  pose proof (mono_from_one E P Xs n tr HP V HE NP HT i j Hij Hw) as K. split; [exact K|]. intros H1.
  assert (L : forall k, (k <= n)%nat -> loss P Xs (tr k) = objective P Xs (st_cmf (tr k))).
  { intros k Hk. destruct (trajectory_ok E P Xs HP n tr HT V HE k Hk) as ((_ & _ & SP & _) & _).
    destruct (pens_nil _ _ SP NP) as (N1 & N2 & N3). unfold loss, penalty_sum, objective. rewrite N1, N2, N3. cbn [length Sum].
    unfold rel_error. rewrite H1, sqrt_1. replace (sqrt (residual Xs (st_cmf (tr k))) / 1) with (sqrt (residual Xs (st_cmf (tr k)))) by field.
    rewrite pow2_sqrt by apply residual_nonneg. ring. }
  rewrite !L by lia. exact K.
Qed.
Print Assumptions C30_objective_never_increases_partial.

(** ... but the reported loss, which uses the squared relative error, can increase: data 2,
    A = B = 1 fixed, l2_penalty = 1, C = 2/5 initially. *)
Lemma run_one (E : extR) (P : paramsR) (Xs : list matR) (s s1 : stateR) :
  params_ok P -> tols_ok P -> valid_state Xs s -> st_inter s = None -> svd_correct E (mc (cA (st_cmf s))) -> 0 < data_sumsq Xs -> robust P s ->
  p_return_errors P = true -> outer_step E P Xs s = Ok s1 ->
  exists d, run E P Xs 1 s = Ok (s1, Some d) /\ d_losses d = [Fin (loss P Xs s); Fin (loss P Xs s1)].
Proof.
  intros HP HT V HI HE HD HR Hr H1. destruct (run_total E P Xs HP HT 1%Z s V HE HR) as ([s' od] & H).
  destruct (run_main E P Xs 1 s s' od HP V HI HE HD H) as (m & tr & pv & msg & Hm & T0 & Tm & TT & HS & _ & K).
  destruct (K Hr) as (_ & d & Ed & Em & (_ & Hl & _) & _).
  assert (m = 1%nat) as ->.
  { destruct m as [|[|m]]; [|reflexivity|change (Z.to_nat 1) with 1%nat in Hm; lia]. exfalso.
    destruct (HS ltac:(lia)) as (_ & (_ & K1 & K2 & _)). apply K1; [change (Z.to_nat 1) with 1%nat; lia|]. now apply K2. }
  pose proof (TT 0%nat ltac:(lia)) as T1. rewrite T0, H1 in T1. injection T1 as T1.
  exists d. rewrite H, Ed, <- Tm, <- T1. split; [reflexivity|]. rewrite Hl. cbn [seq map]. now rewrite T0, <- T1.
Qed.
Theorem C30_reported_loss_refuted : exists (E : extR) (P : paramsR) (Xs : list matR) (s s' : stateR) d l0 l1,
  params_ok P /\ valid_state Xs s /\ svd_correct E 1 /\ no_penalties s /\ cw (st_cmf s) = None /\ 0 < data_sumsq Xs /\
  run E P Xs 1 s = Ok (s', Some d) /\ d_losses d = [Fin l0; Fin l1] /\ l0 < l1.
Proof.
  destruct ideal_exists as (E & HE & _).
  assert (PO : params_ok (lsP None None None true)) by (unfold params_ok, lsP; cbn; lra).
  destruct (run_one E (lsP None None None true) [m11 2] (ls (2 / 5)) (ls (2 / 2))) as (d & H & Hl); auto; try lra.
  - intros (x & K & _). discriminate.
  - apply ls_valid.
  - now apply ls_data; lra.
  - split; [|split]; cbn; intros K; try discriminate. split; [lra|constructor].
  - apply ls_step. apply HE.
  - exists E, (lsP None None None true), [m11 2], (ls (2 / 5)), (ls (2 / 2)), d. do 2 eexists.
    split; [exact PO|]. split; [apply ls_valid|]. split; [apply HE|]. split; [repeat split|]. split; [reflexivity|]. split; [apply ls_data; lra|].
    split; [exact H|]. split; [exact Hl|]. rewrite !ls_loss by lra. lra.
Qed.
Print Assumptions C30_reported_loss_refuted.

(** ** C35: the absolute criterion *)
(** It works when the relative one is set as well: *)
Theorem C35_absolute_criterion_partial (E : extR) (P : paramsR) (Xs : list matR) (N : Z) (s s' : stateR) od (a : R) :
  params_ok P -> valid_state Xs s -> st_inter s = None -> svd_correct E (mc (cA (st_cmf s))) -> 0 < data_sumsq Xs ->
  tol_set (p_tol P) -> p_abs_tol P = Some a ->
  run E P Xs N s = Ok (s', od) ->
  exists m tr, (m <= Z.to_nat N)%nat /\ tr 0%nat = s /\ tr m = s' /\ trajectory E P Xs m tr /\
    ((forall j, (0 < j <= m)%nat -> no_nan (tr j)) ->
     forall j, (0 < j < m)%nat -> ~ (feasible_by P (tr j) /\ loss P Xs (tr j) < a)).
Proof.
  intros HP V HI HE HD HT HA H. destruct (run_main E P Xs N s s' od HP V HI HE HD H) as (m & tr & pv & msg & Hm & T0 & Tm & TT & HS & _).
  exists m, tr. split; [exact Hm|]. split; [exact T0|]. split; [exact Tm|]. split; [exact TT|]. intros NN [|j] Hj (HF & HL); [lia|].
  destruct (HS NN) as (_ & (K & _)). apply (K j ltac:(lia)). split; [exact HF|]. right. split.
  - exact HT.
  - exists a. auto.
Qed.
Print Assumptions C35_absolute_criterion_partial.

(** Without a relative tolerance nothing ever stops the fit, whatever absolute_tol is. *)
Lemma never_stops (E : extR) (P : paramsR) (Xs : list matR) n : ~ tol_set (p_tol P) -> forall it s h s' h' it' msg,
  ao_loop E P Xs n it s h = Ok (s', h', it', msg) -> it' = (it + n)%nat /\ msg = MaxIter.
Proof.
  intros HT. assert (KT : match p_tol P with Some t => ntruthy t = false | None => True end).
  { destruct (p_tol P) as [t|]; [|exact Logic.I]. apply not_true_iff_false. intros K. apply HT. exists t. split; [reflexivity|]. now apply ntruthy_R. }
  induction n as [|n IH]; intros it s h s' h' it' msg H; cbn [ao_loop] in H.
  - injection H as _ _ <- <-. split; [lia|reflexivity].
  - destruct (outer_step E P Xs s) as [s1|]; [|discriminate]. cbn [bind] in H.
    assert (K : forall h1, ao_loop E P Xs n (S it) s1 h1 = Ok (s', h', it', msg) -> it' = (it + S n)%nat /\ msg = MaxIter).
    { intros h1 X. destruct (IH _ _ _ _ _ _ _ X) as (-> & ->). split; [lia|reflexivity]. }
    destruct (otruthy (p_tol P) || otruthy (p_abs_tol P) || p_return_errors P); [|now apply K in H].
    destruct (state_gaps s1) as [g|]; [|discriminate]. cbn [bind] in H.
    match type of H with (if ?b then _ else _) = _ => destruct b end; [now apply K in H|].
    destruct (state_loss P Xs s1) as [l|]; [|discriminate]. cbn [bind] in H.
    destruct (p_tol P) as [t|]; [rewrite KT in H|]; now apply K in H.
Qed.
Theorem C35_absolute_tol_alone_refuted (E : extR) (P : paramsR) (Xs : list matR) (N : Z) (s s' : stateR) d :
  ~ tol_set (p_tol P) -> run E P Xs N s = Ok (s', Some d) -> d_n_iter d = Z.to_nat N /\ d_message d = MaxIter.
Proof.
  intros HT H. unfold run in H. destruct (init_hist P Xs s) as [h0|]; [|discriminate]. cbn [bind] in H.
  destruct (ao_loop E P Xs (Z.to_nat N) 0 s h0) as [[[[s1 h1] it] msg]|] eqn:HL; [|discriminate]. cbn [bind] in H.
  destruct (never_stops E P Xs _ HT _ _ _ _ _ _ _ HL) as (-> & ->).
  match type of H with (let* feas := ?x in _) = _ => destruct x end; [|discriminate]. cbn [bind] in H.
  destruct (revalidate (st_cmf s1)); [|discriminate]. cbn [bind] in H. destruct (p_return_errors P); [|discriminate].
  injection H as _ <-. split; reflexivity.
Qed.
Print Assumptions C35_absolute_tol_alone_refuted.
(** ... for instance with data 1 and the exact factorization 1 * 1 * 1 (ridge terms 1, no mode updated):
    every iteration is feasible with loss 3/2 < absolute_tol = 2, yet all N iterations are run. *)
Example C35_refuting_run : forall N : Z, exists (E : extR) d,
  run E (lsP None (Some 2) (Some (1 / 2)) false) [m11 1] N (ls 1) = Ok (ls 1, Some d) /\
  d_n_iter d = Z.to_nat N /\ d_message d = MaxIter /\
  feasible_by (lsP None (Some 2) (Some (1 / 2)) false) (ls 1) /\ loss (lsP None (Some 2) (Some (1 / 2)) false) [m11 1] (ls 1) < 2.
Proof.
  intros N. destruct ideal_exists as (E & HE & _). set (P := lsP None (Some 2) (Some (1 / 2)) false).
  assert (PO : params_ok P) by (unfold params_ok, P, lsP; cbn; lra).
  assert (TO : tols_ok P) by (intros (x & K & _); discriminate).
  destruct (run_total E P [m11 1] PO TO N (ls 1) (ls_valid 1 1) (HE _)) as ([s' od] & H).
  { split; [|split]; cbn; intros K; discriminate. }
  destruct (run_main E P [m11 1] N (ls 1) s' od PO (ls_valid 1 1) eq_refl (HE _) (ls_data 1 ltac:(lra)) H) as (m & tr & pv & msg & Hm & T0 & Tm & TT & _ & _ & K).
  destruct (K eq_refl) as (_ & d & -> & _).
  assert (TC : forall j, (j <= m)%nat -> tr j = ls 1).
  { induction j as [|j IH]; intros Hj; [exact T0|]. specialize (TT j ltac:(lia)). rewrite IH in TT by lia.
    unfold P in TT. rewrite ls_still in TT. now injection TT as <-. }
  exists E, d. rewrite H, <- Tm, TC by lia. split; [reflexivity|].
  destruct (C35_absolute_tol_alone_refuted E P [m11 1] N (ls 1) s' d) as (-> & ->); auto.
  { intros (x & X & _). discriminate. }
  split; [reflexivity|]. split; [reflexivity|]. split.
  - exists (1 / 2). split; [reflexivity|]. split; [lra|]. split; [|split]; intros q Hq; cbn in Hq; lia.
  - unfold P. rewrite ls_loss by lra. lra.
Qed.

(** ** C36: asking for diagnostics *)
(** It does change the fit: without diagnostics the loss of an infeasible iteration is not
    recorded, so the next feasible one is compared with an older loss. *)
Theorem C36_diagnostics_change_fit_refuted : exists (E : extR) (P : paramsR) (Xs : list matR) (s s1 s2 : stateR) d,
  params_ok P /\ valid_state Xs s /\ st_inter s = None /\ svd_correct E 1 /\ 0 < data_sumsq Xs /\
  run E (with_errors true P) Xs 3 s = Ok (s1, Some d) /\ run E (with_errors false P) Xs 3 s = Ok (s2, None) /\
  mget (cC (st_cmf s1)) 0 0 = 3 / 2 /\ mget (cC (st_cmf s2)) 0 0 = 7 / 4 /\ d_message d = RelLoss.
Proof.
  destruct ideal_exists as (E & HE & _). destruct (ex36_true E (HE _)) as (d & H1 & _ & Hm).
  exists E, (ex36 true), [m11 2], start36, (cs (3 / 2) (3 / 2) 0), (cs (7 / 4) (7 / 4) 0), d.
  split; [unfold params_ok; cbn; lra|]. split; [apply cs_valid|]. split; [reflexivity|]. split; [apply HE|]. split; [apply ls_data; lra|].
  split; [exact H1|]. split; [exact (ex36_false E (HE _))|]. split; [reflexivity|]. split; [reflexivity|exact Hm].
Qed.
Print Assumptions C36_diagnostics_change_fit_refuted.
(** It does not when no relative tolerance is set, no feasibility tolerance is set, or there
    are no penalties. *)
Theorem C36_diagnostics_do_not_change_fit_partial (E : extR) (P : paramsR) (Xs : list matR) (N : Z) (s : stateR) :
  params_ok P -> valid_state Xs s -> st_inter s = None -> svd_correct E (mc (cA (st_cmf s))) -> 0 < data_sumsq Xs ->
  (~ tol_set (p_tol P) \/ (p_abs_tol P <> None /\ (~ tol_set (p_feas_tol P) \/ no_penalties s))) ->
  match run E (with_errors true P) Xs N s, run E (with_errors false P) Xs N s with
  | Ok (s1, _), Ok (s2, _) => s1 = s2
  | Err e1, Err e2 => e1 = e2
  | _, _ => False
  end.
Proof. exact (run_errors E P Xs N s). Qed.
Print Assumptions C36_diagnostics_do_not_change_fit_partial.

(** ** C37: raising the limit *)
Theorem C37_longer_runs_extend (E : extR) (P : paramsR) (Xs : list matR) (M M' : Z) (s s' : stateR) od :
  (M <= M')%Z -> run E P Xs M s = Ok (s', od) ->
  (run E P Xs M' s = run E P Xs M s /\ (forall d, od = Some d -> d_message d <> MaxIter)) \/
  (forall d, od = Some d -> d_message d = MaxIter /\ forall s'' od', run E P Xs M' s = Ok (s'', od') ->
     exists d', od' = Some d' /\ extends (d_errors d) (d_errors d') /\ extends (d_gaps d) (d_gaps d') /\
       extends (d_losses d) (d_losses d') /\ (d_n_iter d <= d_n_iter d')%nat).
Proof. exact (run_extend E P Xs M M' s s' od). Qed.
Print Assumptions C37_longer_runs_extend.

(** The same for the factorization, with or without diagnostics: the longer run passes
    through the result of the shorter one; if that was not cut off by the limit, they agree. *)
Lemma loop_traj (E : extR) (P : paramsR) (Xs : list matR) n : forall it s h s' h' it' msg,
  ao_loop E P Xs n it s h = Ok (s', h', it', msg) ->
  exists m tr, it' = (it + m)%nat /\ (m <= n)%nat /\ ((m < n)%nat -> msg <> MaxIter) /\ tr 0%nat = s /\ tr m = s' /\ trajectory E P Xs m tr.
Proof.
  induction n as [|n IH]; intros it s h s' h' it' msg H; cbn [ao_loop] in H.
  - injection H as <- _ <- <-. exists 0%nat, (fun _ => s). split; [lia|]. split; [lia|]. split; [lia|]. split; [reflexivity|]. split; [reflexivity|].
    intros j Hj. lia.
  - destruct (outer_step E P Xs s) as [s1|] eqn:H1; [|discriminate]. cbn [bind] in H. cbv zeta in H.
    assert (K : forall h1, ao_loop E P Xs n (S it) s1 h1 = Ok (s', h', it', msg) ->
      exists m tr, it' = (it + m)%nat /\ (m <= S n)%nat /\ ((m < S n)%nat -> msg <> MaxIter) /\ tr 0%nat = s /\ tr m = s' /\ trajectory E P Xs m tr).
    { intros h1 X. destruct (IH _ _ _ _ _ _ _ X) as (m & tr & Y0 & Y1 & Y2 & Y3 & Y4 & Y5).
      exists (S m), (fun j => match j with O => s | S j => tr j end).
      split; [lia|]. split; [lia|]. split; [intros Z; apply Y2; lia|]. split; [reflexivity|]. split; [exact Y4|].
      intros [|j] Hj; [now rewrite Y3|]. apply Y5. lia. }
    assert (K1 : forall g, Ok (s1, g, S it, msg) = Ok (s', h', it', msg) -> msg <> MaxIter ->
      exists m tr, it' = (it + m)%nat /\ (m <= S n)%nat /\ ((m < S n)%nat -> msg <> MaxIter) /\ tr 0%nat = s /\ tr m = s' /\ trajectory E P Xs m tr).
    { intros g X Hm. injection X as <- _ <-. exists 1%nat, (fun j => match j with O => s | S _ => s1 end).
      split; [lia|]. split; [lia|]. split; [auto|]. split; [reflexivity|]. split; [reflexivity|]. intros [|j] Hj; [exact H1|lia]. }
    destruct (otruthy (p_tol P) || otruthy (p_abs_tol P) || p_return_errors P); [|now apply K in H].
    destruct (state_gaps s1) as [g|]; [|discriminate]. cbn [bind] in H.
    match type of H with (if ?b then _ else _) = _ => destruct b end; [now apply K in H|].
    destruct (state_loss P Xs s1) as [l|]; [|discriminate]. cbn [bind] in H.
    destruct (p_tol P) as [t|]; [|now apply K in H]. destruct (ntruthy t); [|now apply K in H].
    destruct (p_abs_tol P) as [a|]; [|discriminate].
    match type of H with context[if ?b then _ else _] => destruct b end.
    { assert (EM : msg = RelLoss) by congruence. subst msg. eapply K1; [exact H|discriminate]. }
    match type of H with context[if ?b then _ else _] => destruct b end.
    { assert (EM : msg = AbsLoss) by congruence. subst msg. eapply K1; [exact H|discriminate]. }
    now apply K in H.
Qed.
Theorem C37_longer_runs_continue (E : extR) (P : paramsR) (Xs : list matR) (M M' : Z) (s s' s'' : stateR) od od' :
  params_ok P -> valid_state Xs s -> svd_correct E (mc (cA (st_cmf s))) ->
  (M <= M')%Z -> run E P Xs M s = Ok (s', od) -> run E P Xs M' s = Ok (s'', od') ->
  exists m tr m' tr', (m <= Z.to_nat M)%nat /\ tr 0%nat = s /\ tr m = s' /\ trajectory E P Xs m tr /\
    tr' 0%nat = s' /\ tr' m' = s'' /\ trajectory E P Xs m' tr' /\
    ((m < Z.to_nat M)%nat -> m' = 0%nat /\ od' = od).
Proof.
  intros HP V HE HM H H'.
  assert (RV : forall n tr j, tr 0%nat = s -> trajectory E P Xs n tr -> (j <= n)%nat -> revalidate (st_cmf (tr j)) = Ok (st_cmf (tr j))).
  { intros n tr j T0 HT Hj. apply revalidate_ok. subst s.
    destruct (trajectory_ok E P Xs HP n tr HT V HE j Hj) as ((V1 & _) & _). apply V1. }
  assert (EN : exists k, Z.to_nat M' = (Z.to_nat M + k)%nat) by (exists (Z.to_nat M' - Z.to_nat M)%nat; lia). destruct EN as (k & EN).
  unfold run in H, H'. rewrite EN in *. destruct (init_hist P Xs s) as [h0|]; [|discriminate]. cbn [bind] in H, H'.
  rewrite loop_extend in *. destruct (ao_loop E P Xs (Z.to_nat M) 0 s h0) as [[[[s1 h1] it1] msg]|] eqn:HL; [|discriminate].
  destruct (loop_traj E P Xs _ _ _ _ _ _ _ _ HL) as (m & tr & _ & B1 & B2 & B3 & B4 & B5).
  assert (S1 : s' = s1).
  { cbn [bind] in H. destruct (match p_feas_tol P with Some _ => _ | None => _ end); [|discriminate]. cbn [bind] in H.
    rewrite <- B4, (RV m tr m B3 B5 (le_n _)), B4 in H. cbn [bind] in H. destruct s1. destruct (p_return_errors P); now injection H as <- _. }
  rewrite <- S1 in B4, H'. exists m, tr.
  destruct msg.
  - destruct (ao_loop E P Xs k it1 s' h1) as [[[[s2 h2] it2] msg2]|] eqn:HL2; [|discriminate].
    destruct (loop_traj E P Xs _ _ _ _ _ _ _ _ HL2) as (m' & tr' & _ & C1 & C2 & C3 & C4 & C5).
    assert (TC : exists n t, t 0%nat = s /\ t n = s2 /\ trajectory E P Xs n t).
    { exists (m + m')%nat, (fun j => if (j <=? m)%nat then tr j else tr' (j - m)%nat).
      split; [exact B3|]. split.
      - destruct (Nat.leb_spec (m + m') m) as [L|L]; [assert (m' = 0)%nat as -> by lia; rewrite Nat.add_0_r; congruence|].
        replace (m + m' - m)%nat with m' by lia. exact C4.
      - intros j Hj. destruct (Nat.leb_spec j m) as [L|L]; destruct (Nat.leb_spec (S j) m) as [L1|L1]; try lia.
        + apply B5. lia.
        + assert (j = m) as -> by lia. rewrite B4, <- C3. replace (S m - m)%nat with 1%nat by lia. apply C5. lia.
        + replace (S j - m)%nat with (S (j - m)) by lia. apply C5. lia. }
    destruct TC as (n & t & T0 & T1 & T2).
    assert (S2 : s'' = s2).
    { cbn [bind] in H'. destruct (match p_feas_tol P with Some _ => _ | None => _ end); [|discriminate]. cbn [bind] in H'.
      rewrite <- T1, (RV n t n T0 T2 (le_n _)), T1 in H'. cbn [bind] in H'. destruct s2. destruct (p_return_errors P); now injection H' as <- _. }
    rewrite <- S2 in C4. exists m', tr'. do 7 (split; [assumption|]). intros Hl. exfalso. now apply (B2 Hl).
  - rewrite <- S1 in H. assert (X : (s'', od') = (s', od)) by congruence. injection X as -> ->.
    exists 0%nat, (fun _ => s'). do 4 (split; [assumption|]). split; [reflexivity|]. split; [reflexivity|]. split; [intros j Hj; lia|]. auto.
  - rewrite <- S1 in H. assert (X : (s'', od') = (s', od)) by congruence. injection X as -> ->.
    exists 0%nat, (fun _ => s'). do 4 (split; [assumption|]). split; [reflexivity|]. split; [reflexivity|]. split; [intros j Hj; lia|]. auto.
Qed.
Print Assumptions C37_longer_runs_continue.

(** ** Non-vacuity: penalties on all three modes, ridge terms, both tolerances *)
Example runs_nonvacuous : forall (b : bool) (N : Z), exists (E : extR) s' od,
  params_ok (exP b) /\ tols_ok (exP b) /\ valid_state exX (exS false) /\ st_inter (exS false) = None /\ svd_correct E 2 /\
  0 < data_sumsq exX /\ robust (exP b) (exS false) /\ ready_state (exS false) /\ (0 < p_inner (exP b))%nat /\
  run E (exP b) exX N (exS false) = Ok (s', od).
Proof.
  intros b N. destruct ideal_exists as (E & HE & _).
  destruct (run_total E (exP b) exX (exP_ok b) (exP_tols b) N (exS false) (exS_valid false) (HE _) (exS_robust b)) as ([s' od] & H).
  exists E, s', od. split; [apply exP_ok|]. split; [apply exP_tols|]. split; [apply exS_valid|]. split; [reflexivity|]. split; [apply HE|].
  split; [rewrite exX_data; lra|]. split; [apply exS_robust|]. split; [apply exS_ready|]. split; [cbn; lia|exact H].
Qed.
