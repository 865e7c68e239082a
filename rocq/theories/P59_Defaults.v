(** C103: calls that leave the keyword arguments at their defaults. *)
From Coq Require Import Reals Lra Lia List Arith Bool ZArith.
From Verif Require OrderFit.
From Verif Require Import Num Numpy RFacts Spec SpecFacts MatFacts ModelSpec Penalties PenaltySpec CoupledMatrices CmfSpec CmfProofs Decomp DecompSpec
  DecompFacts AdmmProofs AoPrefix AoLoop AoRun AoHist P05_Runs InitVars InitSpec Parse ParseSpec ParseProofs Fit FitSpec FitProofs P08_Fit P09_Calls P11_Total DecompExamples FitExamples Ideal
  ExplainSpec P54_Explained DefaultSpec.
Import ListNotations.
Local Open Scope R_scope.

(** Only data and rank given: the same as the documented defaults written out; for [parafac2_aoadmm], with the constraint added. *)
Theorem C103_written_out V IE rnd (Xs : list matR) rank :
  cmf_aoadmm V IE rnd (cmf_defaults Xs rank) = cmf_aoadmm V IE rnd (written_out Xs rank) /\
  parafac2_aoadmm V IE rnd (parafac2_defaults Xs rank) = cmf_aoadmm V IE rnd (with_parafac2 (written_out Xs rank)).
Proof.
  assert (E : cmf_defaults Xs rank = written_out Xs rank).
  { unfold cmf_defaults, default_args, written_out, no_kw. rn.
    assert (K : forall x y x' y' z z' : R, x = x' -> y = y' -> z = z' ->
      FitArgs (N:=RNum) Xs rank (InitName MRandom) 1000 (AOne None) (KwArgs (AOne None) (AOne None) (AOne None) (AOne None) (AOne None) false (AOne None) (AOne None) (AOne None)) RNone 1 (CBool false)
        (IStr RandomUniform) (IStr RandomUniform) true (Some x) (Some y) (Some z) None 5 true true true false false =
      FitArgs (N:=RNum) Xs rank (InitName MRandom) 1000 (AOne None) (KwArgs (AOne None) (AOne None) (AOne None) (AOne None) (AOne None) false (AOne None) (AOne None) (AOne None)) RNone 1 (CBool false)
        (IStr RandomUniform) (IStr RandomUniform) true (Some x') (Some y') (Some z') None 5 true true true false false) by (intros; now subst).
    apply K; lra. }
  split; [now rewrite E|]. rewrite <- E. apply C49_default_calls; repeat split.
Qed.
Print Assumptions C103_written_out.

Lemma free_plain (Xs : list matR) rank l2 m : free_mode (reporting l2 (cmf_defaults Xs rank)) m.
Proof.
  split.
  - intros kw (M1 & M2 & M3 & M4 & M5 & M6 & M7 & M8 & M9). cbn in M1, M2, M3, M4, M5, M6, M7, M8, M9. unfold asks_nothing, wants.
    rewrite M1, M2, M3, M4, M5, M6, M7, M8, M9. cbn. repeat split; try discriminate; auto.
  - intros u HU. destruct m as [|[|[|m]]]; cbn in HU; auto.
Qed.

Lemma plain_sensible V (Xs : list matR) rank (l2 : arg R) : Xs <> [] -> Forall (fun X => mwf X /\ (0 < mr X)%nat /\ (0 < mc X)%nat) Xs -> (0 < rank)%nat ->
  (forall m v, (m < 3)%nat -> means l2 m v -> 0 <= strength v) -> sensible V (reporting l2 (cmf_defaults Xs (PyInt (Z.of_nat rank)))) rank.
Proof.
  intros HX HF HR HL. set (a := reporting l2 (cmf_defaults Xs (PyInt (Z.of_nat rank)))).
  assert (NU : forall m u, user_penalties (f_regs a) m u -> u = []) by (intros m u HU; exact (proj2 (free_plain Xs (PyInt (Z.of_nat rank)) l2 m) u HU)).
  unfold sensible. cbv zeta. split; [exact HX|]. split; [exact HF|]. split; [reflexivity|]. split; [exact HR|]. split; [exact Logic.I|]. split; [cbn; lra|]. split; [exact HL|]. split; [|split].
  - intros m r kw Hm _ (M1 & M2 & M3 & M4 & M5 & M6 & M7 & M8 & M9). cbn in M1, M2, M3, M4, M5, M6, M7, M8, M9. unfold bounds_consistent, gl2_sound. rewrite M3, M8. split; intros; discriminate.
  - intros m r u Hm _ HU. rewrite (NU m u HU). constructor.
  - intros [K|(u & HU & K)]; [discriminate K|]. rewrite (NU _ _ HU) in K. inversion K.
Qed.
Lemma diag_given V IE rnd (a : fitR) out : cmf_aoadmm V IE rnd a = Ok out -> f_return_errors a = true -> exists d, out_diag out = Some d.
Proof.
  intros H RE. destruct (OrderFit.fit_pieces _ _ _ _ _ H) as (s & l2 & flags & s' & od & ES & ER & ->).
  destruct (OrderFit.run_pieces _ _ _ _ _ _ _ ER) as (h0 & s1 & h & it & msg & c & fe & _ & _ & _ & _ & _ & EO).
  destruct (OrderFit.fit_fields a l2 flags) as (_ & _ & _ & _ & _ & _ & _ & FRE). rewrite FRE, RE in EO. cbn [out_diag]. rewrite EO. eexists. reflexivity.
Qed.
(** With a positive [l2_penalty] on every mode such a call always returns. *)
Theorem C103_default_returns V IE rnd (Xs : list matR) (rank : nat) (l2 : arg R) :
  Xs <> [] -> Forall (fun X => mwf X /\ (0 < mr X)%nat /\ (0 < mc X)%nat) Xs -> same_columns Xs -> (0 < rank)%nat ->
  well_formed l2 -> (forall m v, (m < 3)%nat -> means l2 m v -> 0 < strength v) ->
  ranks_kept IE -> svd_correct (e_ext V) rank ->
  exists out d, cmf_aoadmm V IE rnd (reporting l2 (cmf_defaults Xs (PyInt (Z.of_nat rank)))) = Ok out /\ out_diag out = Some d.
Proof.
  intros HX HF SC HR WL HL RK HE. set (a := reporting l2 (cmf_defaults Xs (PyInt (Z.of_nat rank)))).
  assert (FM : forall m, free_mode a m) by (intros m; apply free_plain).
  assert (HD : dependable V a rank).
  { split; [apply plain_sensible; auto; intros m v Hm Hv; apply Rlt_le; eauto|]. split; [exact SC|]. split; [exact Logic.I|]. split; [reflexivity|]. split; [discriminate|].
    split; [eexists; split; [reflexivity|discriminate]|]. split; [eexists; split; [reflexivity|discriminate]|]. split; [exact WL|]. split; [repeat split; exact Logic.I|]. split; [exact Logic.I|]. split; [|split; [|split]].
    - intros m kw Hm (M1 & M2 & M3 & M4 & M5 & M6 & M7 & M8 & M9). cbn in M1, M2, M3, M4, M5, M6, M7, M8, M9. unfold acceptable. rewrite M4, M6, M7, M8. cbn. repeat split; try lra; auto.
    - intros m Hm _. split; [intros v Hv; eapply HL; eauto|]. split; [|intros u HU; rewrite (proj2 (FM m) u HU); constructor].
      intros kw MV. destruct (proj1 (FM m) kw MV) as (_ & _ & _ & _ & _ & K1 & K2 & K3 & K4). repeat split; assumption.
    - intros _ _ [(kw & (M1 & M2 & M3 & M4 & M5 & M6 & M7 & M8 & M9) & K)|(u & HU & K)].
      + cbn in M1, M2, M3, M4, M5, M6, M7, M8, M9. unfold asks_matrixwise, wants in K. rewrite M4, M5, M7, M8 in K. cbn in K. destruct K as [K|[K|[K|(M & K)]]]; try discriminate K; lra.
      + rewrite (proj2 (FM 0%nat) u HU) in K. inversion K.
    - intros _. discriminate. }
  destruct (C51_fit_total V IE rnd a rank HD RK HE) as (out & H). exists out.
  destruct (diag_given _ _ _ _ _ H eq_refl) as (d & Hd). exists d. split; [exact H|exact Hd].
Qed.
Print Assumptions C103_default_returns.

(** Data, rank and perhaps [l2_penalty] given, diagnostics asked for: there are no gaps and the start counts as feasible; the fit
    stops at the first iteration whose loss has settled or is tiny, and otherwise after exactly 1000 iterations. *)
Theorem C103_default_stopping V IE rnd (Xs : list matR) (rank : nat) (l2 : arg R) out d :
  let a := reporting l2 (cmf_defaults Xs (PyInt (Z.of_nat rank))) in
  Xs <> [] -> Forall (fun X => mwf X /\ (0 < mr X)%nat /\ (0 < mc X)%nat) Xs -> (0 < rank)%nat ->
  (forall m v, (m < 3)%nat -> means l2 m v -> 0 <= strength v) ->
  ranks_kept IE -> svd_correct (e_ext V) rank -> 0 < data_sumsq Xs ->
  cmf_aoadmm V IE rnd a = Ok out -> out_diag out = Some d ->
  let n := d_n_iter d in
  (n <= 1000)%nat /\ d_gaps d = repeat ([], [], []) (S n) /\ d_feasible d = Some true /\
  (forall j, (0 < j < n)%nat -> ~ settled d j /\ ~ tiny d j) /\
  match d_message d with
  | MaxIter => n = 1000%nat /\ ~ settled d n /\ ~ tiny d n /\ d_stopped d = Some false
  | RelLoss => (0 < n)%nat /\ settled d n /\ d_stopped d = Some true
  | AbsLoss => (0 < n)%nat /\ ~ settled d n /\ tiny d n /\ d_stopped d = Some true
  end.
Proof.
  intros a HX HF HR HL RK HE HD H Ed.
  pose proof (plain_sensible V Xs rank l2 HX HF HR HL) as HS. fold a in HS.
  assert (ALL : length (d_gaps d) = S (d_n_iter d) /\ forall j, (j <= d_n_iter d)%nat -> nth j (d_gaps d) ([], [], []) = ([], [], [])).
  { destruct (P08_Fit.fit_final _ _ _ _ _ _ HS RK HE HD H) as (s & l2' & flags & s' & od & t & ES & EL & EF & VS & SI & MC & PO & _ & ER & EO & PA & _).
    assert (HE' : svd_correct (e_ext V) (mc (cA (st_cmf s)))) by now rewrite MC.
    destruct (fit_params_fields a l2' flags) as (_ & _ & _ & _ & _ & _ & _ & _ & F9 & _).
    destruct (C34_stopping _ _ _ _ _ _ _ PO VS SI HE' HD ER) as (k & tr & pv & msg & Hk & T0 & Tm & HT & _ & R1 & R2).
    rewrite EO in Ed. cbn [out_diag] in Ed. subst od. destruct (R2 F9) as (_ & d' & E1 & _ & (_ & _ & HG1 & HG2 & HN1) & _). injection E1 as E1. subst d'.
    rewrite HN1. split; [exact HG1|]. intros j Hj. specialize (HG2 j Hj). destruct (nth j (d_gaps d) ([], [], [])) as [[gA gB] gC]. destruct HG2 as ((L1 & _) & (L2 & _) & (L3 & _)).
    assert (FI : forall m, (m < 3)%nat -> free_in s m) by (intros m Hm; exact (free_parsed V a t s m Hm (free_plain _ _ _ _) PA)).
    rewrite <- T0 in VS, HE'. destruct (trajectory_ok (e_ext V) _ _ PO k tr HT VS HE' j ltac:(lia)) as ((_ & _ & (SA & SB & SC) & _) & _).
    assert (LM : forall {A B} (f : A -> B) l l', map f l = map f l' -> length l = length l') by (intros A B f l l' K; rewrite <- (map_length f l), K; apply map_length).
    apply LM in SA, SB, SC. rewrite T0 in SA, SB, SC. rewrite (FI 0%nat ltac:(lia)) in SA. rewrite (FI 1%nat ltac:(lia)) in SB. rewrite (FI 2%nat ltac:(lia)) in SC.
    rewrite SA in L1. rewrite SB in L2. rewrite SC in L3. destruct gA, gB, gC; try discriminate. reflexivity. }
  destruct ALL as (LG & AG).
  assert (GR : d_gaps d = repeat ([], [], []) (S (d_n_iter d))).
  { apply nth_ext with (d := ([], [], [])) (d' := ([], [], [])); [now rewrite repeat_length|]. intros j Hj. rewrite nth_repeat. apply AG. lia. }
  assert (NN : Forall (all_gaps FitSpec.not_nan) (d_gaps d)).
  { rewrite GR. apply Forall_forall. intros g Hg. apply repeat_spec in Hg. subst g. repeat split; constructor. }
  assert (T4 : 1 / 10 ^ 4 <> 0) by lra. assert (T8 : 1 / 10 ^ 8 <> 0) by lra.
  assert (A4 : f_feas_tol a = Some (1 / 10 ^ 4)) by (cbn; f_equal; lra). assert (A8 : f_tol a = Some (1 / 10 ^ 8)) by (cbn; f_equal; lra).
  assert (A10 : f_abs_tol a = Some (1 / 10 ^ 10)) by (cbn; f_equal; lra).
  assert (FE : forall j, (j <= d_n_iter d)%nat -> diag_feasible a d j).
  { intros j Hj. exists (1 / 10 ^ 4). split; [exact A4|]. split; [exact T4|]. unfold gaps_at. rewrite AG by exact Hj. repeat split; constructor. }
  assert (RE : forall j, diag_relative a d j <-> settled d j).
  { intros j. unfold diag_relative, settled. rewrite A8. split; [intros (t & p & l & K & _ & K1); injection K as <-; eauto|intros (p & l & K); exists (1 / 10 ^ 8), p, l; auto]. }
  assert (AE : forall j, diag_absolute a d j <-> tiny d j).
  { intros j. unfold diag_absolute, tiny. rewrite A8, A10. split; [intros (_ & t & l & K & K1); injection K as <-; eauto|intros (l & K); split; [eauto|exists (1 / 10 ^ 10), l; tauto]]. }
  destruct (C34_fit_stopping V IE rnd a rank out d HS RK HE HD H Ed NN) as (S1 & S2 & S3 & S4 & S5). cbv zeta.
  destruct (C33_fit_reports V IE rnd a rank out HS RK HE HD H) as (_ & _ & S6). destruct (S6 d Ed) as (_ & _ & _ & LN & _).
  split; [exact LN|]. split; [exact GR|]. split.
  { destruct (d_feasible d) as [b|] eqn:EB; [|exfalso; apply (proj1 S5); [exists (1 / 10 ^ 4); auto|reflexivity]]. f_equal. apply (S4 b eq_refl). apply FE. lia. }
  split; [intros j Hj; specialize (S1 j Hj); rewrite RE, AE in S1; specialize (FE j ltac:(lia)); tauto|].
  destruct (d_message d); cbn [stopped_flag] in S3.
  - destruct S2 as (N1 & N2). change (Z.to_nat (f_n_iter a)) with 1000%nat in N1. specialize (FE (d_n_iter d) (le_n _)). rewrite RE, AE in N2. specialize (N2 ltac:(rewrite N1; lia)).
    split; [exact N1|]. assert (SF : d_stopped d = Some false) by (apply S3; left; exists (1 / 10 ^ 8); auto). tauto.
  - rewrite RE in S2. tauto.
  - rewrite RE, AE in S2. tauto.
Qed.
Print Assumptions C103_default_stopping.

(** The hypotheses are met: [l2_penalty] a tenth, two matrices of different sizes, rank 1. *)
Definition data103 : list matR := [Mat (N:=RNum) 2 1 [[1]; [2]]; m11 3].
Example C103_nonvacuous rnd : exists V out d, let a := reporting (AOne (Some (1 / 10))) (cmf_defaults data103 (PyInt 1)) in
  (forall m v, (m < 3)%nat -> means (AOne (Some (1 / 10))) m v -> 0 <= strength v) /\ svd_correct (e_ext V) 1 /\ 0 < data_sumsq data103 /\
  cmf_aoadmm V no_ext rnd a = Ok out /\ out_diag out = Some d.
Proof.
  destruct ideal_exists as (E & HE & _). exists (Env (N:=RNum) E (fun _ => []) true).
  destruct (C103_default_returns (Env (N:=RNum) E (fun _ => []) true) no_ext rnd data103 1 (AOne (Some (1 / 10)))) as (out & d & H & Hd).
  - discriminate.
  - repeat constructor.
  - intros X [<-|[<-|[]]]; reflexivity.
  - lia.
  - exact Logic.I.
  - intros m v _ ->. cbn. lra.
  - exact no_ext_ranks.
  - apply HE.
  - exists out, d. split; [intros m v _ ->; cbn; lra|]. split; [apply HE|]. split; [mcomp; lra|]. split; assumption.
Qed.
