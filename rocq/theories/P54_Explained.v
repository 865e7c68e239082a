(** C98: explained variation.  Data, model and residual of a fit. *)
From Coq Require Import Reals Lra Lia List Arith Bool ZArith.
From Verif Require Import Num Numpy RFacts Spec SpecFacts MatFacts ModelSpec Penalties PenaltySpec CoupledMatrices CmfSpec CmfProofs Decomp DecompSpec
  DecompFacts AdmmProofs AoPrefix AoLoop AoRun AoHist P05_Runs InitVars InitSpec Parse ParseSpec ParseProofs Fit FitSpec FitProofs P08_Fit P09_Calls P11_Total DecompExamples FitExamples Ideal
  ResumeSpec ResumeProofs TolSpec Tolerances P50_Tolerances ExplainSpec Explain.
Import ListNotations.
Local Open Scope R_scope.

(** Ridge strength of mode m. *)
Definition l2_of (P : paramsR) (m : nat) : R := match m with 0%nat => p_l2A P | 1%nat => p_l2B P | _ => p_l2C P end.
Definition upd_of (P : paramsR) : option nat :=
  if p_updA P then Some 0%nat else if p_updC P then Some 2%nat else if p_updB P then Some 1%nat else None.
Definition free_in (s : stateR) (m : nat) : Prop := match m with 0%nat => st_rA s = [] | 1%nat => st_rB s = [] | _ => st_rC s = [] end.
Lemma explained_step (E : extR) (P : paramsR) (Xs : list matR) s s' m : params_ok P -> valid_state Xs s -> svd_correct E (mc (cA (st_cmf s))) ->
  (0 < p_inner P)%nat -> upd_of P = Some m -> free_in s m -> outer_step E P Xs s = Ok s' ->
  residual Xs (st_cmf s') + model_sumsq Xs (st_cmf s') + 2 * l2_of P m * mode_sumsq (st_cmf s') m = data_sumsq Xs.
Proof.
  intros HP V0 Hsvd Hn HM HF H. unfold outer_step in H.
  destruct (upd_B E P Xs s) as [s1|] eqn:H1; [|discriminate]. cbn [bind] in H.
  destruct (upd_C E P Xs s1) as [s2|] eqn:H2; [|discriminate]. cbn [bind] in H.
  destruct (upd_B_ok E P Xs HP s s1 V0 Hsvd H1) as ((V1 & _) & _ & B1 & B2 & B3 & B4 & B5 & B6 & _).
  assert (Hsvd1 : svd_correct E (mc (cA (st_cmf s1)))) by (rewrite B3; exact Hsvd).
  destruct (upd_C_ok E P Xs HP s1 s2 V1 Hsvd1 H2) as ((V2 & _) & _ & C1 & C2 & C3 & C4 & C5 & C6 & _).
  assert (Hsvd2 : svd_correct E (mc (cA (st_cmf s2)))) by (rewrite C3; exact Hsvd1).
  destruct (upd_A_ok E P Xs HP s2 s' V2 Hsvd2 H) as (_ & _ & _ & _ & _ & A5 & _). unfold upd_of in HM.
  destruct (p_updA P) eqn:UA.
  { injection HM as <-. cbn [free_in l2_of] in *. unfold upd_A in H. rewrite UA, C1, B1, HF in H.
    destruct (admm_update_A _ _ _ _ _ _ _ _ _) as [[[c' r'] i']|] eqn:HU; [|discriminate]. cbn [bind] in H. injection H as <-. cbn [st_cmf].
    destruct V2 as (VF & VN & _). exact (opt_A E P Xs HP _ _ _ _ _ _ VF VN Hsvd2 Hn HU). }
  rewrite (A5 eq_refl) in *. destruct (p_updC P) eqn:UC.
  { injection HM as <-. cbn [free_in l2_of] in *. unfold upd_C in H2. rewrite UC, B2, HF in H2.
    destruct (admm_update_C _ _ _ _ _ _ _ _) as [[c' r']|] eqn:HU; [|discriminate]. cbn [bind] in H2. injection H2 as <-. cbn [st_cmf].
    destruct V1 as (VF & VN & _). exact (opt_C E P Xs HP _ _ _ _ _ VF VN Hsvd1 Hn HU). }
  rewrite (C5 eq_refl) in *. destruct (p_updB P) eqn:UB; [|discriminate HM].
  injection HM as <-. cbn [free_in l2_of] in *. unfold upd_B in H1. rewrite UB, HF in H1.
  destruct (admm_update_B _ _ _ _ _ _ _ _ _) as [[c' r']|] eqn:HU; [|discriminate]. cbn [bind] in H1. injection H1 as <-. cbn [st_cmf].
  destruct V0 as (VF & VN & _). exact (opt_B E P Xs HP _ _ _ _ _ VF VN Hsvd Hn HU).
Qed.
Lemma explained_run (E : extR) (P : paramsR) (Xs : list matR) n tr m : params_ok P -> valid_state Xs (tr 0%nat) -> svd_correct E (mc (cA (st_cmf (tr 0%nat)))) ->
  (0 < p_inner P)%nat -> upd_of P = Some m -> free_in (tr 0%nat) m -> trajectory E P Xs n tr ->
  forall j, (j < n)%nat ->
  residual Xs (st_cmf (tr (S j))) + model_sumsq Xs (st_cmf (tr (S j))) + 2 * l2_of P m * mode_sumsq (st_cmf (tr (S j))) m = data_sumsq Xs.
Proof.
  intros HP V HE Hn HM HF HT j Hj. destruct (trajectory_ok E P Xs HP n tr HT V HE j ltac:(lia)) as ((V1 & (_ & S2 & _) & (SA & SB & SC) & _) & _).
  assert (Hsvd1 : svd_correct E (mc (cA (st_cmf (tr j))))) by (rewrite S2; exact HE).
  assert (N : forall {A B} (f : A -> B) l, map f l = map f [] -> l = []) by (intros A B f [|x l]; [auto|discriminate]).
  apply (explained_step E P Xs (tr j) (tr (S j)) m HP V1 Hsvd1 Hn HM); [|exact (HT j Hj)].
  destruct m as [|[|m]]; cbn [free_in] in *; rewrite HF in *; eapply N; eassumption.
Qed.
Lemma mode_sumsq_nonneg c m : 0 <= mode_sumsq c m.
Proof.
  assert (K : forall r n X, 0 <= sumsq r n X).
  { intros. unfold sumsq. rewrite Sum_rsum. apply rsum_nonneg. intros j Hj. rewrite Sum_rsum. apply rsum_nonneg. intros; apply pow2_ge_0. }
  destruct m as [|[|m]]; cbn [mode_sumsq]; try apply K. rewrite Sum_rsum. apply rsum_nonneg. intros; apply K.
Qed.
Lemma model_sumsq_nonneg Xs c : 0 <= model_sumsq Xs c.
Proof. apply (norm2_nonneg Xs (mr (cC c)) (cmf_entry c)). Qed.
Lemma free_parsed V a t s m : (m < 3)%nat -> free_mode a m -> parsed_as V a t s -> free_in s m.
Proof.
  intros Hm (U1 & U2) (EP & M0 & M1 & M2).
  assert (K : pick t m = []).
  { destruct (parse_all_ok _ _ _ _ _ _ EP m Hm) as (kw & pa & u & MV & PM & UP & ->).
    rewrite (asks_nothing_parsed _ _ _ _ _ (U1 kw MV) PM). now rewrite (U2 u UP). }
  assert (N : forall {A B} (f : A -> B) l, map f l = [] -> l = []) by (intros A B f [|x l]; [auto|discriminate]).
  destruct m as [|[|[|m]]]; [| | |lia]; cbn [free_in].
  - destruct (f_updA a); [rewrite K in M0|]; now apply N in M0.
  - destruct (f_updB a); [rewrite K in M1|]; now apply N in M1.
  - destruct (f_updC a); [rewrite K in M2|]; now apply N in M2.
Qed.
Lemma last_mode_lt a m : last_mode a = Some m -> (m < 3)%nat.
Proof. unfold last_mode. destruct (f_updA a), (f_updC a), (f_updB a); intros K; try discriminate K; injection K as <-; lia. Qed.

(** ** The mode updated last has no penalties, the other modes any: data, model and residual add up. *)
Theorem C98_explained V IE rnd (a : fitR) rank out m v :
  sensible V a rank -> ranks_kept IE -> svd_correct (e_ext V) rank -> 0 < data_sumsq (f_data a) ->
  last_mode a = Some m -> free_mode a m -> means (f_l2 a) m v -> (0 < f_n_iter a)%Z -> (0 < f_inner a)%Z ->
  cmf_aoadmm V IE rnd a = Ok out ->
  residual (f_data a) (out_cmf out) + model_sumsq (f_data a) (out_cmf out) + 2 * strength v * mode_sumsq (out_cmf out) m = data_sumsq (f_data a).
Proof.
  intros HS RK HE HD HM HF HV HN HI H.
  destruct (P08_Fit.fit_final _ _ _ _ _ _ HS RK HE HD H) as (s & l2 & flags & s' & od & t & ES & EL & EF & VS & SI & MC & PO & _ & ER & EO & PA & _).
  assert (HE' : svd_correct (e_ext V) (mc (cA (st_cmf s)))) by now rewrite MC.
  destruct (fit_params_fields a l2 flags) as (F1 & F2 & F3 & F4 & _).
  destruct (C34_stopping _ _ _ _ _ _ _ PO VS SI HE' HD ER) as (k & tr & pv & msg & Hk & T0 & Tm & HT & ST & _).
  assert (K0 : k <> 0%nat).
  { intros ->. destruct ST as (_ & _ & S2 & S3 & _); [intros j Hj; lia|]. apply S2; [lia|]. now apply S3. }
  rewrite EO. cbn [out_cmf]. subst s. destruct k as [|k]; [lia|].
  assert (Q := explained_run _ _ _ (S k) tr m PO VS HE' ltac:(rewrite F4; lia) ltac:(unfold upd_of; rewrite F1, F2, F3; exact HM) (free_parsed _ _ _ _ _ (last_mode_lt _ _ HM) HF PA) HT k ltac:(lia)).
  rewrite Tm in Q. assert (L : l2_of (fit_params a l2 flags) m = strength v).
  { destruct l2 as [[x y] z]. apply listify_iff in EL as (M0 & M1 & M2). unfold fit_params. pose proof (last_mode_lt _ _ HM).
    assert (U : forall w, means (f_l2 a) m w -> w = v) by (intros w Hw; exact (means_fun _ _ _ _ Hw HV)).
    destruct m as [|[|[|m]]]; [| | |lia]; cbn [l2_of p_l2A p_l2B p_l2C]; [rewrite (U x M0)|rewrite (U y M1)|rewrite (U z M2)]; reflexivity. }
  rewrite L in Q. exact Q.
Qed.
Print Assumptions C98_explained.

(** ** Recorded errors: from the first iteration on none exceeds 1. *)
Theorem C98_errors_at_most_one V IE rnd (a : fitR) rank out d m :
  sensible V a rank -> ranks_kept IE -> svd_correct (e_ext V) rank -> 0 < data_sumsq (f_data a) ->
  last_mode a = Some m -> free_mode a m -> (0 < f_inner a)%Z ->
  cmf_aoadmm V IE rnd a = Ok out -> out_diag out = Some d ->
  forall j, (0 < j <= d_n_iter d)%nat -> exists e, nth j (d_errors d) NaN = Fin e /\ 0 <= e <= 1.
Proof.
  intros HS RK HE HD HM HF HI H Ed.
  destruct (P08_Fit.fit_final _ _ _ _ _ _ HS RK HE HD H) as (s & l2 & flags & s' & od & t & ES & EL & EF & VS & SI & MC & PO & _ & ER & EO & PA & _).
  assert (HE' : svd_correct (e_ext V) (mc (cA (st_cmf s)))) by now rewrite MC.
  destruct (fit_params_fields a l2 flags) as (F1 & F2 & F3 & F4 & _ & _ & _ & _ & F9 & _).
  destruct (C34_stopping _ _ _ _ _ _ _ PO VS SI HE' HD ER) as (k & tr & pv & msg & Hk & T0 & Tm & HT & _ & R1 & R2).
  rewrite F9 in R1, R2. rewrite EO in Ed. cbn [out_diag] in Ed. subst od. destruct (f_return_errors a); [|now specialize (R1 eq_refl)].
  destruct (R2 eq_refl) as (_ & d' & E1 & _ & (HE1 & _ & _ & _ & HN1) & _). injection E1 as E1. subst d'.
  intros j Hj. rewrite HN1 in Hj. rewrite HE1. subst s. destruct j as [|j]; [lia|].
  assert (Q := explained_run _ _ _ k tr m PO VS HE' ltac:(rewrite F4; lia) ltac:(unfold upd_of; rewrite F1, F2, F3; exact HM) (free_parsed _ _ _ _ _ (last_mode_lt _ _ HM) HF PA) HT j ltac:(lia)).
  exists (rel_error (f_data a) (st_cmf (tr (S j)))). split.
  { rewrite (nth_indep _ NaN (Fin (N:=RNum) (rel_error (f_data a) (st_cmf (tr 0%nat))))) by (rewrite map_length, seq_length; lia).
    rewrite (map_nth (fun j => Fin (N:=RNum) (rel_error (f_data a) (st_cmf (tr j)))) (seq 0 (S k)) 0%nat), seq_nth by lia. reflexivity. }
  pose proof (residual_nonneg (f_data a) (st_cmf (tr (S j)))) as RN. pose proof (model_sumsq_nonneg (f_data a) (st_cmf (tr (S j)))) as MN.
  pose proof (mode_sumsq_nonneg (st_cmf (tr (S j))) m) as ZN. assert (LN : 0 <= l2_of (fit_params a l2 flags) m).
  { destruct PO as (P1 & P2 & P3 & _). destruct m as [|[|m]]; assumption. }
  assert (RD : residual (f_data a) (st_cmf (tr (S j))) <= data_sumsq (f_data a)) by (pose proof (Rmult_le_pos _ _ LN ZN); lra).
  unfold rel_error. assert (SP : 0 < sqrt (data_sumsq (f_data a))) by now apply sqrt_lt_R0. split.
  - apply Rmult_le_pos; [apply sqrt_pos|]. left. now apply Rinv_0_lt_compat.
  - apply Rmult_le_reg_r with (sqrt (data_sumsq (f_data a))); [exact SP|]. unfold Rdiv. rewrite Rmult_assoc, Rinv_l, Rmult_1_r, Rmult_1_l by lra. now apply sqrt_le_1_alt.
Qed.
Print Assumptions C98_errors_at_most_one.

(** ** Not so if the last mode has a penalty: data 2, A = B = C = 1, only C is updated, non-negativity with
    the auxiliary variable 8 and dual variable 0: the fit is worse than the zero model. *)
Definition obj98 : pobjR := PObj (N:=RNum) NonNegativity (ITensor (N:=RNum) [1%nat; 1%nat] [8]) (ITensor (N:=RNum) [1%nat; 1%nat] [0]).
Definition args98 : fitR :=
  FitArgs (N:=RNum) [m11 2] (PyInt 1) (InitSeq [PNone; PSeq [py_of_mat (m11 1); PSeq [py_of_mat (m11 1)]; py_of_mat (m11 1)]]) 1 (AOne None) no_kw
    (RList [EList []; EList []; EList [RPen obj98]])
    2 (CBool true) (IStr Zeros) (IStr Zeros) true None None None None 1 false false true false false.
Lemma setup98 V rnd : setup V no_ext rnd args98 = Ok (cs 1 8 0, (None, None, None)).
Proof.
  pose proof (parse_given V (IStr Zeros) (IStr Zeros) [] [] [obj98]) as HP.
  unfold setup. cbn [f_svd args98 negb f_kw f_regs f_aux f_dual f_updA f_updB f_updC f_init f_data f_rank f_l2].
  cbn [map] in HP.
  destruct (initialize_cmf (e_ext V) no_ext rnd [m11 2] (PyInt 1) (InitSeq [PNone; PSeq [py_of_mat (m11 1); PSeq [py_of_mat (m11 1)]; py_of_mat (m11 1)]]) 0) as [[c pos]|] eqn:HI; [|discriminate HI].
  cbn in HI. injection HI as <- <-. cbn [bind listify]. rewrite HP. reflexivity.
Qed.
Theorem C98_penalised_refuted rnd : exists V out, svd_correct (e_ext V) 1 /\ last_mode args98 = Some 2%nat /\ (0 < f_n_iter args98)%Z /\
  cmf_aoadmm V no_ext rnd args98 = Ok out /\ data_sumsq (f_data args98) = 4 /\ residual (f_data args98) (out_cmf out) = 9 /\
  rel_error (f_data args98) (out_cmf out) = 3 / 2.
Proof.
  destruct ideal_exists as (E & HE & _). set (V := Env (N:=RNum) E (fun _ => []) true).
  assert (D : data_sumsq (f_data args98) = 4) by (mcomp; lra).
  assert (R5 : residual [m11 2] (st_cmf (cs 5 0 0)) = 9) by (mcomp; lra).
  exists V, (outC 5). split; [apply HE|]. split; [reflexivity|]. split; [reflexivity|]. split; [|split; [exact D|split; [exact R5|]]].
  2:{ unfold rel_error. rewrite D. change (residual (f_data args98) (out_cmf (outC 5))) with (residual [m11 2] (st_cmf (cs 5 0 0))). rewrite R5.
      replace 9 with (3 * 3) by lra. replace 4 with (2 * 2) by lra. rewrite !sqrt_square by lra. reflexivity. }
  assert (HI : exists h0, init_hist (csP None None None false) [m11 2] (cs 1 8 0) = Ok h0).
  { unfold init_hist. rewrite cs_state_loss by lra. cbn [bind]. rewrite (state_gaps_val [m11 2]) by apply cs_valid. cbn [bind]. eexists. reflexivity. }
  destruct HI as (h0 & HI).
  rewrite (aoadmm_finish V no_ext rnd args98 (cs 1 8 0) (None, None, None) h0 (true, true)); [|exact (setup98 V rnd)|exact HI|reflexivity].
  change (fit_params args98 (None, None, None) (true, true)) with (csP None None None false). change (f_data args98) with [m11 2]. change (Z.to_nat (f_n_iter args98)) with 1%nat.
  rewrite loop_body, cs_step by apply HE. cbv zeta. cbn [bind].
  assert (V5 : (2 + 8 - 0) / 2 = 5) by lra. rewrite V5.
  assert (T : tols (csP None None None false) = false) by reflexivity. rewrite T. cbn [orb p_return_errors csP].
  unfold ao_loop. cbn [bind]. unfold finish. cbn [p_feas_tol p_return_errors csP bind].
  rewrite revalidate_ok by apply (cs_valid 2). reflexivity.
Qed.
Print Assumptions C98_penalised_refuted.

(** ** A case that meets the hypotheses: ridge on all modes, non-negativity of the B_i and C, unimodality and an upper
    bound for the B_i, a norm ball for C; nothing is asked of A. *)
Definition kwn98 : kwargs (N:=RNum) :=
  KwArgs (AIter [None; Some true; Some true]) (AOne None) (ADict (fun m => if (m =? 1)%nat then Some (Some 5) else None)) (AOne None) (AIter [None; Some true; None]) false (AOne None) (AOne (Some 0)) (AOne (Some GFalse)).
Definition argsn98 : fitR :=
  FitArgs (N:=RNum) [Mat (N:=RNum) 2 1 [[1]; [2]]; m11 3] (PyInt 1) (InitName MRandom) 7 (AOne (Some (1 / 10))) kwn98
    (RList [EList []; EList []; EList (map RPen ex_user)]) 1 CB (IStr RandomUniform) (IStr RandomUniform) true
    (Some (1 / 100)) (Some (1 / 1000)) (Some (1 / 10000)) None 5 true true true true true.
Lemma dependable98 E : dependable (Env (N:=RNum) E (fun _ => []) true) argsn98 1.
Proof.
  assert (UPX : forall m u, (m < 3)%nat -> user_penalties (f_regs argsn98) m u -> u = if (m =? 2)%nat then ex_user else []).
  { intros m u Hm H. eapply user_unique; [exact H|]. destruct m as [|[|[|m]]]; [reflexivity|reflexivity|reflexivity|lia]. }
  assert (KWX : forall m kw, mode_values (f_kw argsn98) m kw -> k_lower kw = None /\ (forall hi, k_upper kw = Some hi -> hi = 5) /\ k_norm kw = None /\
     (k_uni kw = if (m =? 1)%nat then Some true else None) /\ k_l1 kw = None /\ k_tv kw = Some 0 /\ k_gl2 kw = Some GFalse /\ k_pf2 kw = false).
  { intros m kw (M1 & M2 & M3 & M4 & M5 & M6 & M7 & M8 & M9). cbn in M2, M4, M6, M7, M8, M9. split; [assumption|]. split; [|split; [assumption|split; [|auto]]].
    - intros hi E0. rewrite E0 in M3. cbn in M3. destruct (m =? 1)%nat; destruct M3 as [K|(K & K')]; congruence.
    - destruct M5 as (_ & K). destruct m as [|[|[|m]]]; cbn in K |- *; try congruence. destruct m; discriminate. }
  split.
  { unfold sensible. cbn [f_data f_rank f_init f_scale f_l2 argsn98]. split; [discriminate|]. split.
    { repeat constructor. }
    split; [reflexivity|]. split; [lia|]. split; [exact Logic.I|]. split; [lra|]. split; [intros m v _ ->; cbn; lra|]. split.
    - intros m r kw Hm _ MV. destruct (KWX m kw MV) as (K2 & K3 & K4 & K5 & K6 & K7 & K8 & K9). split.
      + intros hi E0. apply K3 in E0. subst hi. split; [intros lo E1; congruence|intros _; lra].
      + intros M E0. congruence.
    - split.
      + intros m r u Hm _ HU. rewrite (UPX m u Hm HU). destruct (m =? 2)%nat; repeat constructor; cbn; lra.
      + intros [K|(u & HU & K)]; [discriminate K|]. rewrite (UPX 1%nat u ltac:(lia) HU) in K. inversion K. }
  split; [intros X [<-|[<-|[]]]; reflexivity|]. split; [exact Logic.I|]. split; [reflexivity|]. split; [discriminate|].
  split; [eexists; split; [reflexivity|discriminate]|]. split; [eexists; split; [reflexivity|discriminate]|].
  split; [exact Logic.I|]. split; [repeat split; exact Logic.I|]. split.
  { cbn. split.
    - intros e [<-|[<-|[<-|[]]]]; [exists []|exists []|exists ex_user]; now left.
    - intros [|[|[|m]]] Hm; [exists []|exists []|exists ex_user|lia]; reflexivity. }
  split.
  { intros m kw Hm MV. destruct (KWX m kw MV) as (K2 & K3 & K4 & K5 & K6 & K7 & K8 & K9). unfold acceptable. rewrite K4, K6, K7, K8. cbn.
    split; [lra|]. split; [lra|]. split; [congruence|]. split; [lra|exact Logic.I]. }
  split.
  { intros m Hm _. split; [intros v ->; cbn; lra|]. split.
    - intros kw MV. destruct (KWX m kw MV) as (K2 & K3 & K4 & K5 & K6 & K7 & K8 & K9). unfold asks_plain. rewrite K6, K7, K8, K9. cbn. auto.
    - intros u HU. rewrite (UPX m u Hm HU). destruct (m =? 2)%nat; [|constructor]. constructor; [|constructor].
      split; [exact Logic.I|]. split; eexists; (split; [reflexivity|discriminate]). }
  split.
  { intros _ _ [(kw & MV & K)|(u & HU & K)].
    - destruct (KWX 0%nat kw MV) as (K2 & K3 & K4 & K5 & K6 & K7 & K8 & K9). unfold asks_matrixwise in K. rewrite K4, K5, K7, K8 in K. cbn in K.
      destruct K as [K|[K|[K|(M & K)]]]; try discriminate K; lra.
    - rewrite (UPX 0%nat u ltac:(lia) HU) in K. inversion K. }
  intros _. discriminate.
Qed.
Example C98_nonvacuous rnd : exists V out d, sensible V argsn98 1 /\ svd_correct (e_ext V) 1 /\ 0 < data_sumsq (f_data argsn98) /\ last_mode argsn98 = Some 0%nat /\
  free_mode argsn98 0 /\ means (f_l2 argsn98) 0 (Some (1 / 10)) /\ (0 < f_n_iter argsn98)%Z /\ (0 < f_inner argsn98)%Z /\
  cmf_aoadmm V no_ext rnd argsn98 = Ok out /\ out_diag out = Some d.
Proof.
  destruct ideal_exists as (E & HE & _). set (V := Env (N:=RNum) E (fun _ => []) true). destruct (C51_fit_total V no_ext rnd argsn98 1 (dependable98 E) no_ext_ranks (HE 1%nat)) as (out & H).
  assert (HD : 0 < data_sumsq (f_data argsn98)) by (mcomp; lra).
  assert (HO : exists d, out_diag out = Some d).
  { destruct (C33_fit_reports V no_ext rnd argsn98 1 out (proj1 (dependable98 E)) no_ext_ranks (HE 1%nat) HD H) as (_ & K & _).
    destruct (out_diag out) as [d|]; [now exists d|]. exfalso. now apply (proj1 K eq_refl). }
  destruct HO as (d & HO). exists V, out, d. split; [apply (proj1 (dependable98 E))|]. split; [apply HE|]. split; [exact HD|]. split; [reflexivity|]. split.
  { split.
    - intros kw (M1 & M2 & M3 & M4 & M5 & M6 & M7 & M8 & M9). cbn in M1, M2, M3, M4, M5, M6, M7, M8, M9. unfold asks_nothing.
      destruct M1 as (_ & M1). destruct M5 as (_ & M5). injection M1 as M1. injection M5 as M5. destruct M3 as [M3|(_ & M3)]; [discriminate M3|].
      rewrite <- M1, <- M5, M2, M3, M4, M6, M7, M8, M9. cbn. repeat (split; [try reflexivity; try (intros K; discriminate K)|]); auto.
    - intros u HU. eapply user_unique; [exact HU|reflexivity]. }
  split; [reflexivity|]. split; [reflexivity|]. split; [reflexivity|]. split; [exact H|exact HO].
Qed.
