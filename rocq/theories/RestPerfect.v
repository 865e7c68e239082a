(** Starts that reconstruct the data and meet the constraints are at rest. *)
From Coq Require Import Reals Lra Lia List Arith Bool ZArith.
From Verif Require Import Num Numpy RFacts Spec SpecFacts MatFacts ModelSpec Penalties PenaltySpec CoupledMatrices CmfSpec CmfProofs Decomp DecompSpec
  DecompFacts AdmmOpt AdmmCvg AdmmSol AoMono InitVars InitSpec Parse ParseSpec ParseProofs Fit FitSpec FitProofs OptSpec ResumeSpec SymSpec SymFit StationarySpec P30_Stationary RestSpec Rest RestRun.
Import ListNotations.
Local Open Scope R_scope.

Lemma constraint_zero p r c X : constraint_only p -> doc_penalty p r c X = 0.
Proof. destruct p; cbn; tauto. Qed.
Lemma wdot_zero r c rho U V : same r c U (fun _ _ => 0) -> wdot r c rho U V = 0.
Proof.
  intros H. unfold wdot. rewrite Sum_rsum. apply rsum_zero. intros i Hi. rewrite Sum_rsum.
  rewrite (rsum_zero c); [ring|]. intros k Hk. rewrite (H i k Hi Hk). ring.
Qed.
Lemma wdot_l_zero n J c rho U V : (forall i, (i < n)%nat -> same (J i) c (U i) (fun _ _ => 0)) -> wdot_l n J c rho U V = 0.
Proof.
  intros H. unfold wdot_l. rewrite Sum_rsum. apply rsum_zero. intros i Hi. rewrite Sum_rsum.
  rewrite (rsum_zero (J i)); [ring|]. intros j Hj. rewrite Sum_rsum. apply rsum_zero. intros k Hk. rewrite (H i Hi j k Hj Hk). ring.
Qed.
Lemma perfect_mode r c rho f (regs : list mregR) x : f x = 0 -> (forall Z, 0 <= f Z) -> regs <> [] -> Forall (met r c x) regs -> at_rest r c rho f regs x.
Proof.
  intros F0 FN NE HM.
  assert (AT : forall q, (q < length regs)%nat -> met r c x (nth_reg regs q)). { intros q Hq. rewrite Forall_forall in HM. apply HM. now apply nth_In. }
  split; [eapply Forall_impl; [|exact HM]; intros g Hg; apply Hg|]. split; [intros q Hq; apply (AT q Hq)|]. split; [|now intros ->].
  split.
  - intros Z. rewrite F0. rewrite Sum_rsum, rsum_zero; [specialize (FN Z); lra|]. intros q Hq. apply wdot_zero. apply (AT q Hq).
  - intros q Hq. destruct (AT q Hq) as (M1 & M2 & M3 & M4 & M5). split; [exact M3|]. intros Z HZ. unfold pen_at. rewrite !constraint_zero by exact M2. unfold dual_at. rewrite wdot_zero by exact M5. lra.
Qed.
Lemma perfect_mode_l n J c rho f (regs : list bregR) x : f x = 0 -> (forall Z, 0 <= f Z) -> regs <> [] -> Forall (met_l n J c x) regs -> at_rest_l n J c rho f regs x.
Proof.
  intros F0 FN NE HM.
  assert (AT : forall q, (q < length regs)%nat -> met_l n J c x (nth_breg regs q)). { intros q Hq. rewrite Forall_forall in HM. apply HM. now apply nth_In. }
  split; [eapply Forall_impl; [|exact HM]; intros g Hg; apply Hg|]. split; [intros q i Hq Hi; apply (AT q Hq); exact Hi|]. split; [|now intros ->].
  split.
  - intros Z. rewrite F0. rewrite Sum_rsum, rsum_zero; [specialize (FN Z); lra|]. intros q Hq. apply wdot_l_zero. intros i Hi. apply (AT q Hq); exact Hi.
  - intros q Hq. destruct (AT q Hq) as (M1 & M2 & M3). split; [intros i Hi; apply M3, Hi|]. intros Z HZ. unfold pen_l, bpen_at.
    rewrite !Sum_rsum. rewrite !rsum_zero by (intros; now apply constraint_zero). rewrite wdot_l_zero; [lra|]. intros i Hi. apply M3, Hi.
Qed.
Lemma ridges_exist a l2 : listify (f_l2 a) = Ok l2 -> exists l, ridges a l.
Proof.
  destruct l2 as [[x y] z]. intros EL. apply listify_means in EL as (_ & M0 & M1 & M2).
  exists (fun m => match m with 0%nat => strength x | 1%nat => strength y | _ => strength z end).
  intros [|[|[|m]]] Hm; eauto. lia.
Qed.
Lemma perfect_rests V IE rnd (a : fitR) rank c v : sensible V a rank -> ranks_kept IE -> starts_at V IE rnd a c v -> perfect_start V a c v -> start_rests V a c v.
Proof.
  intros HS RK ST (CW & R0 & L0 & HA & HB & HC).
  destruct (start_setup _ _ _ _ _ _ _ HS RK ST) as (s & l2 & SET & EC & EV).
  destruct (setup_ok _ _ _ _ _ _ _ HS RK SET) as (_ & _ & _ & EL & _).
  destruct (ridges_exist _ _ EL) as (l & HL). rewrite (residual_fit (f_data a) c CW) in R0. change rget with (@mget RNum) in R0.
  split; [exact CW|]. exists l. split; [exact HL|].
  assert (FN : forall A B C, 0 <= fit (f_data a) (mr (cC c)) (mc (cA c)) A B C) by (intros; apply fit_nonneg).
  split; [|split].
  - intros U. destruct (HA U) as (P1 & ps & K1 & K2 & K3). exists ps. split; [exact K1|]. split; [exact P1|]. intros rho _.
    apply perfect_mode; auto; unfold smooth_A; rewrite (L0 0%nat l ltac:(lia) U HL).
    + rewrite R0. lra.
    + intros Z. specialize (FN Z (entB (cBs c)) (mget (cC c))). lra.
  - intros U. destruct (HB U) as (P1 & ps & K1 & K2 & K3). exists ps. split; [exact K1|]. split; [exact P1|]. intros rho _.
    apply perfect_mode_l; auto; unfold smooth_B; rewrite (L0 1%nat l ltac:(lia) U HL).
    + rewrite R0. lra.
    + intros Z. specialize (FN (mget (cA c)) Z (mget (cC c))). lra.
  - intros U. destruct (HC U) as (P1 & ps & K1 & K2 & K3). exists ps. split; [exact K1|]. split; [exact P1|].
    apply perfect_mode; auto; unfold smooth_C; rewrite (L0 2%nat l ltac:(lia) U HL).
    + rewrite R0. lra.
    + intros Z. specialize (FN (mget (cA c)) (entB (cBs c)) Z). lra.
Qed.
