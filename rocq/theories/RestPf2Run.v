(** Calls whose start is at rest, the B_i under a PARAFAC2 constraint, return it. *)
From Coq Require Import Reals Lra Lia List Arith Bool ZArith.
From Verif Require Import Num Numpy RFacts Spec SpecFacts MatFacts ModelSpec Penalties PenaltySpec
  CoupledMatrices CmfSpec CmfProofs Decomp DecompSpec DecompFacts OptSpec AoPrefix AoLoop AoRun AoHist P05_Runs InitVars InitSpec Parse ParseSpec Fit FitSpec FitProofs
  Total TotalRun Ideal P50_Tolerances ResumeSpec ResumeLoop ResumeProofs P28_Resume SymSpec SymFit StationarySpec P30_Stationary TolSpec Tolerances P50_Tolerances RestSpec Rest RestRun RestPf2Spec RestPf2.
Import ListNotations.
Local Open Scope R_scope.

Section Run.
Variables (E : extR) (P : paramsR) (Xs : list matR) (s0 : stateR).
(** the B_i at rest, or not updated *)
Definition okB (r : list bregR) : Prop :=
  (p_updB P = true /\ relaxed_B Xs (st_cmf s0) (p_l2B P) (p_scale P) (st_rB s0) /\ calm Xs (st_cmf s0) (st_rB s0) r) \/ (p_updB P = false /\ r = st_rB s0).
Definition still2 (s : stateR) : Prop :=
  st_cmf s = st_cmf s0 /\ st_rA s = st_rA s0 /\ st_rC s = st_rC s0 /\ okB (st_rB s) /\ inter_ok Xs s.
Hypothesis V0 : valid_state Xs s0.
Lemma lenB : length (cBs (st_cmf s0)) = length Xs.
Proof. destruct V0 as ((_ & L & _) & _). now symmetry. Qed.
Lemma still2_same s : still2 s -> map b_dual (st_rB s) = map b_dual (st_rB s0) /\
  Forall2 (same_auxes (length Xs) (rowsB (st_cmf s0)) (mc (cA (st_cmf s0)))) (map b_aux (st_rB s0)) (map b_aux (st_rB s)) /\
  mapM (gap_list (cBs (st_cmf s0))) (st_rB s) = mapM (gap_list (cBs (st_cmf s0))) (st_rB s0) /\
  mapM (fun g => penalty_list (b_pen g) (cBs (st_cmf s0))) (st_rB s) = mapM (fun g => penalty_list (b_pen g) (cBs (st_cmf s0))) (st_rB s0).
Proof.
  intros (_ & _ & _ & [(_ & (_ & _ & _ & M) & C)|(_ & ->)] & _).
  - apply (calm_same Xs (st_cmf s0)); auto. destruct V0 as (_ & _ & _ & F4 & _). now rewrite lenB in F4.
  - repeat split. induction (map b_aux (st_rB s0)) as [|x l IH]; constructor; [|exact IH]. intros i Hi j k Hj Hk. reflexivity.
Qed.
Lemma still2_valid s : still2 s -> valid_state Xs s.
Proof.
  intros (S1 & S2 & S3 & S4 & _). pose proof V0 as (F1 & F2 & F3 & F4 & F5). unfold valid_state. rewrite S1, S2, S3. repeat (split; [assumption|]). split; [|assumption].
  destruct S4 as [(_ & _ & (K & _))|(_ & ->)]; [rewrite lenB; exact K|exact F4].
Qed.
Lemma still2_error s : still2 s -> state_error Xs s = state_error Xs (noi s0).
Proof.
  intros (S1 & _ & _ & _ & S2). rewrite <- (error_noi Xs s); [|rewrite S1; apply V0|exact S2]. unfold state_error. cbn [noi st_cmf st_inter]. now rewrite S1.
Qed.
Lemma still2_loss s : still2 s -> state_loss P Xs s = state_loss P Xs (noi s0).
Proof.
  intros S. pose proof (still2_same s S) as (_ & _ & _ & K). unfold state_loss. rewrite (still2_error s S). destruct S as (S1 & S2 & S3 & _). unfold reg_penalty. cbn [noi st_cmf st_rA st_rB st_rC].
  rewrite S1, S2, S3, K. reflexivity.
Qed.
Lemma still2_gaps s : still2 s -> state_gaps s = state_gaps (noi s0).
Proof.
  intros S. pose proof (still2_same s S) as (_ & _ & K & _). destruct S as (S1 & S2 & S3 & _). unfold state_gaps, compute_gaps. cbn [noi st_cmf st_rA st_rB st_rC].
  rewrite S1, S2, S3, K. reflexivity.
Qed.
Hypothesis HP : params_ok P.
Hypothesis W0 : cw (st_cmf s0) = None.
Hypothesis Hsvd : svd_correct E (mc (cA (st_cmf s0))).
Hypothesis Htv : forall r, tv_correct E r.
Hypothesis RA : p_updA P = true -> rests_A Xs (st_cmf s0) (p_l2A P) (p_scale P) (p_constA P) (st_rA s0).
Hypothesis RC : p_updC P = true -> rests_C Xs (st_cmf s0) (p_l2C P) (p_scale P) (st_rC s0).
Lemma still2_B s b : still2 s -> p_updB P = true -> admm_update_B E Xs (st_cmf s0) (st_rB s) (p_l2B P) (p_inner P) (p_inner_tol P) (p_scale P) (p_constB P) = Ok b ->
  fst b = st_cmf s0 /\ okB (snd b).
Proof.
  intros (_ & _ & _ & OB & _) U H. destruct V0 as (F1 & F2 & _). destruct HP as (P1 & P2 & P3 & P4).
  destruct OB as [(_ & RB & CB)|(K & _)]; [|congruence].
  destruct (calm_update E Xs (st_cmf s0) (p_l2B P) (p_scale P) (p_constB P) F1 F2 W0 P2 P4 Hsvd Htv _ _ _ _ b RB CB H) as (B1 & B2).
  split; [exact B1|]. left. auto.
Qed.
Lemma still2_step s s1 : still2 s -> outer_step E P Xs s = Ok s1 -> still2 s1.
Proof.
  intros S H.
  assert (HS : svd_correct E (mc (cA (st_cmf s)))) by (rewrite (proj1 S); exact Hsvd).
  destruct (outer_step_ok E P Xs HP s s1 (still2_valid s S) HS H) as (_ & IO & _).
  assert (G : st_cmf s1 = st_cmf s0 /\ st_rA s1 = st_rA s0 /\ st_rC s1 = st_rC s0 /\ okB (st_rB s1)).
  2:{ destruct G as (G1 & G2 & G3 & G4). unfold still2. auto. }
  clear HS IO. pose proof (still2_B s) as HB. specialize (HB) . 
  destruct V0 as (F1 & F2 & F3 & F4 & F5). destruct HP as (P1 & P2 & P3 & P4).
  pose proof S as (S1 & S2 & S3 & S4 & _). unfold outer_step, upd_B in H. rewrite S1, S2, S3 in H.
  assert (K : exists r, okB r /\ (let* s2 := upd_C E P Xs (St (st_cmf s0) (st_rA s0) r (st_rC s0) None) in upd_A E P Xs s2) = Ok s1).
  { destruct (p_updB P) eqn:U.
    - destruct (admm_update_B E Xs (st_cmf s0) (st_rB s) (p_l2B P) (p_inner P) (p_inner_tol P) (p_scale P) (p_constB P)) as [(c1, r1)|e] eqn:K; [|discriminate].
      destruct (HB (c1, r1) S eq_refl eq_refl) as (B1 & B2). cbn [fst snd bind] in *. rewrite B1 in H. exists r1. auto.
    - cbn [bind] in H. exists (st_rB s). auto. }
  clear H. destruct K as (r & OB & H). unfold upd_C in H. cbn [st_cmf st_rA st_rB st_rC st_inter] in H.
  assert (K : upd_A E P Xs (St (st_cmf s0) (st_rA s0) r (st_rC s0) None) = Ok s1).
  { destruct (p_updC P); [|exact H].
    destruct (admm_update_C E Xs (st_cmf s0) (st_rC s0) (p_l2C P) (p_inner P) (p_inner_tol P) (p_scale P)) as [r2|e] eqn:K; [|discriminate].
    rewrite (C_rest E Xs (st_cmf s0) (p_l2C P) (p_scale P) F1 F2 W0 P3 P4 Hsvd (st_rC s0) _ _ r2 F5 (Htv _) (RC eq_refl) K) in H. exact H. }
  clear H. rename K into H. unfold upd_A in H. cbn [st_cmf st_rA st_rB st_rC st_inter] in H. destruct (p_updA P); [|injection H as <-; auto].
  destruct (admm_update_A E Xs (st_cmf s0) (st_rA s0) (p_l2A P) (p_inner P) (p_inner_tol P) (p_scale P) (p_constA P)) as [[r2 i1]|e] eqn:K; [|discriminate].
  rewrite (A_rest E Xs (st_cmf s0) (p_l2A P) (p_scale P) (p_constA P) F1 F2 W0 P1 P4 Hsvd (st_rA s0) _ _ r2 i1 F3 (Htv _) (RA eq_refl) K) in H. injection H as <-. auto.
Qed.
Lemma still2_loop n : forall it s h s' h' it' msg, still2 s -> flat P Xs s0 h -> ao_loop E P Xs n it s h = Ok (s', h', it', msg) -> still2 s' /\ flat P Xs s0 h'.
Proof.
  induction n as [|n IH]; intros it s h s' h' it' msg SS FL H; [injection H as <- <- _ _; auto|].
  rewrite loop_body in H. destruct (outer_step E P Xs s) as [s1|] eqn:HS; [|discriminate]. cbn [bind] in H.
  pose proof (still2_step s s1 SS HS) as S1. destruct FL as (L1 & L2 & L3).
  destruct (tols P || p_return_errors P); [|apply (IH _ _ _ _ _ _ _ S1 (conj L1 (conj L2 L3)) H)].
  destruct (state_gaps s1) as [g|] eqn:HG; [|discriminate]. cbn [bind] in H. rewrite (still2_gaps s1 S1) in HG.
  assert (L2' : Forall (fun g => state_gaps (noi s0) = Ok g) (h_gaps h ++ [g])) by (apply Forall_app; auto).
  match type of H with (if ?b then _ else _) = _ => destruct b end.
  { refine (IH _ _ (Hist (h_errors h) (h_gaps h ++ [g]) (h_losses h)) _ _ _ _ S1 _ H). exact (conj L1 (conj L2' L3)). }
  destruct (state_loss P Xs s1) as [l|] eqn:HL; [|discriminate]. cbn [bind] in H. rewrite (still2_loss s1 S1) in HL.
  assert (F2 : flat P Xs s0 (Hist (h_errors h ++ [state_error Xs s1]) (h_gaps h ++ [g]) (h_losses h ++ [l]))).
  { split; [|split]; cbn [h_errors h_gaps h_losses]; apply Forall_app; auto. split; [assumption|]. constructor; [|constructor]. now apply still2_error. }
  destruct (stop_msg _ _ _ _) as [[m|]|]; [| |discriminate]; cbn [bind] in H.
  - injection H as <- <- _ _. auto.
  - apply (IH _ _ _ _ _ _ _ S1 F2 H).
Qed.
(** no update fails, if every updated mode has a penalty or a ridge term *)
Hypothesis TA : p_updA P = true -> (0 < p_l2A P \/ st_rA s0 <> []) /\ (p_constA P = false -> Forall (fun g => rowwise (g_pen g)) (st_rA s0)).
Hypothesis TC : p_updC P = true -> 0 < p_l2C P \/ st_rC s0 <> [].
Hypothesis TT : otruthy (N:=RNum) (p_tol P) = true -> p_abs_tol P <> None.
Lemma still2_total s : still2 s -> exists s1, outer_step E P Xs s = Ok s1.
Proof.
  intros S. clear TT. pose proof V0 as (F1 & F2 & F3 & F4 & F5). pose proof HP as (P1 & P2 & P3 & P4). pose proof lenB as EL.
  assert (LX : (0 < length Xs)%nat) by (destruct F2 as (N1 & _); rn; lia).
  assert (US : forall p rho, convex_pen p -> 0 < rho -> usable p rho).
  { intros p rho C R0. split; [intros ->; exact C|now right]. }
  assert (WP : forall {T} l2 rho (regs : list T), 0 < l2 \/ regs <> [] -> 0 < rho -> well_posed l2 rho regs).
  { intros T l2 rho regs [H|H] R0; [now left|now right]. }
  pose proof (still2_B s) as HB. pose proof S as (S1 & S2 & S3 & S4 & _). unfold outer_step, upd_B. rewrite S1, S2, S3.
  assert (KB : exists r, (if p_updB P then let* (c, r) := admm_update_B E Xs (st_cmf s0) (st_rB s) (p_l2B P) (p_inner P) (p_inner_tol P) (p_scale P) (p_constB P) in Ok (St c (st_rA s0) r (st_rC s0) None)
      else Ok (St (st_cmf s0) (st_rA s0) (st_rB s) (st_rC s0) None)) = Ok (St (st_cmf s0) (st_rA s0) r (st_rC s0) None)).
  { destruct (p_updB P) eqn:U; [|eexists; reflexivity]. destruct S4 as [(_ & (Q1 & NE & _ & _) & (CV & CM & CP))|(K & _)]; [|congruence].
    destruct (Rest.rhos_exist (p_constB P) (length Xs) (rho_B (p_scale P) (st_cmf s0)) LX) as (rho & Hu).
    pose proof (AdmmOpt.rhos_used_pos _ _ _ _ Hu Q1) as PR.
    destruct (B_total E Xs (st_cmf s0) (p_l2B P) (p_scale P) (p_constB P) F1 F2 P2 P4 Hsvd (st_rB s) (p_inner P) (p_inner_tol P) rho) as ((c1 & r1) & K); auto.
    { intros j Hj. split; [|apply WP; auto].
      - eapply Forall_impl; [|exact CM]. intros g [(Hg & _)|(Hg & _)]; [apply US; auto|]. split; [intros EU; rewrite EU in Hg; exact Hg|right; auto].
      - right. intros EN. rewrite EN in CP. symmetry in CP. apply map_eq_nil in CP. contradiction. }
    rewrite K. destruct (HB (c1, r1) S eq_refl K) as (B1 & _). cbn [fst snd] in B1. cbn [bind]. rewrite B1. eexists. reflexivity. }
  destruct KB as (r & ->). cbn [bind]. unfold upd_C. cbn [st_cmf st_rA st_rB st_rC st_inter].
  assert (KC : (if p_updC P then let* (c, r0) := admm_update_C E Xs (st_cmf s0) (st_rC s0) (p_l2C P) (p_inner P) (p_inner_tol P) (p_scale P) in Ok (St c (st_rA s0) r r0 None)
      else Ok (St (st_cmf s0) (st_rA s0) r (st_rC s0) None)) = Ok (St (st_cmf s0) (st_rA s0) r (st_rC s0) None)).
  { destruct (p_updC P); [|reflexivity]. pose proof (RC eq_refl) as (Q1 & HC & _).
    destruct (C_total E Xs (st_cmf s0) (p_l2C P) (p_scale P) F1 F2 P3 P4 Hsvd (st_rC s0) (p_inner P) (p_inner_tol P)) as (r2 & K); auto.
    { eapply Forall_impl; [|exact HC]. intros g Hg. apply US; auto. }
    rewrite K. rewrite (C_rest E Xs (st_cmf s0) (p_l2C P) (p_scale P) F1 F2 W0 P3 P4 Hsvd (st_rC s0) _ _ r2 F5 (Htv _) (RC eq_refl) K). reflexivity. }
  rewrite KC. cbn [bind]. unfold upd_A. cbn [st_cmf st_rA st_rB st_rC st_inter]. destruct (p_updA P); [|eexists; reflexivity].
  pose proof (RA eq_refl) as (Q1 & Q2). destruct (TA eq_refl) as (T1 & T2).
  destruct (Rest.rhos_exist (p_constA P) (length Xs) (rho_A (p_scale P) (st_cmf s0)) LX) as (rho & Hu). destruct (Q2 rho Hu) as (HC & _).
  pose proof (AdmmOpt.rhos_used_pos _ _ _ _ Hu Q1) as PR.
  destruct (A_total E Xs (st_cmf s0) (p_l2A P) (p_scale P) (p_constA P) F1 F2 P1 P4 Hsvd (st_rA s0) (p_inner P) (p_inner_tol P) rho) as (((c1 & r1) & i2) & K); auto.
  { intros j Hj. split; [|apply WP; auto]. eapply Forall_impl; [|exact HC]. intros g Hg. apply US; auto. }
  rewrite K. cbn [bind]. eexists. reflexivity.
Qed.
Lemma still2_loop_total n : forall it s h, still2 s -> exists r, ao_loop E P Xs n it s h = Ok r.
Proof.
  induction n as [|n IH]; intros it s h SS; [eexists; reflexivity|]. rewrite loop_body.
  destruct (still2_total s SS) as (s1 & HS). rewrite HS. cbn [bind]. pose proof (still2_step s s1 SS HS) as S1.
  destruct (tols P || p_return_errors P); [|now apply IH]. destruct (state_gaps_ok Xs s1 (still2_valid s1 S1)) as (g & -> & _). cbn [bind].
  match goal with |- exists r, (if ?b then _ else _) = _ => destruct b end; [now apply IH|].
  destruct (state_loss_total P Xs s1 (still2_valid s1 S1)) as (l & ->). cbn [bind].
  assert (K : exists m, stop_msg P (feas_of (p_feas_tol P) g) (last_x (h_losses h)) l = Ok m).
  { clear - TT. unfold stop_msg. destruct (p_tol P) as [t|]; [|eauto]. cbn [otruthy] in TT. destruct (ntruthy t); [|eauto]. destruct (p_abs_tol P); [eauto|]. now destruct (TT eq_refl). }
  destruct K as ([m|] & ->); cbn [bind]; [eexists; reflexivity|now apply IH].
Qed.
End Run.


Section Calls.
Variables (V : envR) (IE : initextR) (rnd : rand (N:=RNum)) (a : fitR) (rank : nat) (c : rcmf) (v : admmvars (N:=RNum)).
Hypothesis HS : sensible V a rank.
Hypothesis RK : ranks_kept IE.
Hypothesis HE : svd_correct (e_ext V) rank.
Hypothesis HT : forall r, tv_correct (e_ext V) r.
Hypothesis ST : starts_at V IE rnd a c v.
Hypothesis SR : start_rests_pf2 V a c v.
(** the run behind the call *)
Lemma rest2_setup : exists s l2 h0 fl, setup V IE rnd a = Ok (s, l2) /\ init_hist (fit_params a l2 (false, false)) (f_data a) s = Ok h0 /\ const_flags (f_const a) = Ok fl /\
  let P := fit_params a l2 fl in
  st_cmf s = c /\ vars_of s = v /\ valid_state (f_data a) s /\ params_ok P /\ svd_correct (e_ext V) (mc (cA (st_cmf s))) /\ cw (st_cmf s) = None /\
  (p_updA P = true -> rests_A (f_data a) (st_cmf s) (p_l2A P) (p_scale P) (p_constA P) (st_rA s)) /\
  (p_updC P = true -> rests_C (f_data a) (st_cmf s) (p_l2C P) (p_scale P) (st_rC s)) /\
  still2 P (f_data a) s s /\ flat P (f_data a) s h0 /\
  (held V a -> (p_updA P = true -> (0 < p_l2A P \/ st_rA s <> []) /\ (p_constA P = false -> Forall (fun g => rowwise (g_pen g)) (st_rA s))) /\
     (p_updC P = true -> 0 < p_l2C P \/ st_rC s <> []) /\ (otruthy (N:=RNum) (p_tol P) = true -> p_abs_tol P <> None)).
Proof.
  destruct SR as (CW & l & HL & RA & RB & RC).
  destruct (start_setup _ _ _ _ _ _ _ HS RK ST) as (s & l2 & SET & EC & EV).
  assert (CF : exists fl, const_flags (f_const a) = Ok fl).
  { destruct ST as (o & H & _). destruct (fit_run _ _ _ _ _ H) as (s_ & l2_ & flags & s' & d & _ & EF & _). exists flags. exact EF. }
  destruct CF as (fl & HC).
  destruct (setup_ok _ _ _ _ _ _ _ HS RK SET) as (VS & SI & MC & EL & _ & t & (EP & TA & TB & TC)).
  assert (HP := fit_params_ok V a rank l2 fl HS EL). pose proof (fit_params_fields a l2 fl) as PF. cbv zeta in PF.
  destruct (ridge_params a l2 fl l EL HL) as (LA & LB & LC).
  assert (HH : exists h0, init_hist (fit_params a l2 (false, false)) (f_data a) s = Ok h0).
  { unfold init_hist. cbv zeta. destruct (state_loss_total (fit_params a l2 (false, false)) (f_data a) s VS) as (lo & ->). destruct (state_gaps_ok (f_data a) s VS) as (g & -> & _). cbn. eauto. }
  destruct HH as (h0 & HH). exists s, l2, h0, fl. split; [exact SET|]. split; [exact HH|]. split; [exact HC|]. cbv zeta.
  set (P := fit_params a l2 fl) in *. destruct PF as (PA & PB & PC & _ & _ & PT & PAT & _ & PR & KA & KB & PS).
  assert (PU : forall m ps, penalties_of V a m ps -> ps = map o_pen (pick t m)).
  { intros m ps (t' & E1 & ->). rewrite EP in E1. injection E1 as <-. reflexivity. }
  assert (FA : fst fl = constant_for_A (f_const a) /\ snd fl = constant_for_B (f_const a)).
  { clear - HC. destruct (f_const a); cbn in HC; try discriminate; injection HC as <-; split; reflexivity. }
  destruct FA as (FA & FB).
  assert (EVA : v_auxA v = map g_aux (st_rA s) /\ v_dualA v = map g_dual (st_rA s) /\ v_auxB v = map b_aux (st_rB s) /\ v_dualB v = map b_dual (st_rB s) /\
                v_auxC v = map g_aux (st_rC s) /\ v_dualC v = map g_dual (st_rC s)) by (rewrite <- EV; repeat split).
  destruct EVA as (X1 & X2 & X3 & X4 & X5 & X6). rewrite <- EC in *.
  assert (NE : forall {T} (k : list T) (u : list (pobj (N:=RNum))) (g : T -> penalty (N:=RNum)), map g k = map o_pen u -> map o_pen u <> [] -> k <> []).
  { intros T k u g E1 E2 ->. now rewrite <- E1 in E2. }
  split; [reflexivity|]. split; [exact EV|]. split; [exact VS|]. split; [exact HP|]. split; [rewrite MC; exact HE|]. split; [exact CW|].
  split; [|split; [|split; [|split]]].
  - rewrite PA, LA, KA, PS, FA. intros U. destruct (RA U) as (ps & K1 & K2). apply PU in K1. rewrite U in TA. rewrite K1, X1, X2, <- TA, with_vars_id in K2. exact K2.
  - rewrite PC, LC, PS. intros U. destruct (RC U) as (ps & K1 & K2). apply PU in K1. rewrite U in TC. rewrite K1, X5, X6, <- TC, with_vars_id in K2. exact K2.
  - split; [reflexivity|]. split; [reflexivity|]. split; [reflexivity|]. split; [|now left]. unfold okB. rewrite PB, LB, PS. destruct (f_updB a); [left|right; split; reflexivity].
    destruct (RB eq_refl) as (ps & K1 & K2). apply PU in K1. rewrite K1, X3, X4, <- TB, with_vars_B_id in K2.
    split; [reflexivity|]. split; [exact K2|]. split; [|split; [|reflexivity]].
    + destruct VS as ((_ & L & _) & _ & _ & F4 & _). rewrite <- L in F4. exact F4.
    + apply K2.
  - apply flat_start; [exact VS|now left|]. rewrite <- HH. unfold P; destruct l2 as [[? ?] ?]; reflexivity.
  - intros (HD1 & HD2 & HD3). split; [|split].
    + rewrite PA, LA, KA, FA. intros U. destruct (RA U) as (ps & K1 & _). pose proof (PU _ _ K1) as E1. rewrite U in TA. split.
      * destruct (HD1 0%nat ps l ltac:(lia) U K1 HL) as [K|K]; [now left|right]. rewrite E1 in K. exact (NE _ _ _ _ TA K).
      * intros F. pose proof (HD2 ps U F K1) as K. apply (pens_Forall (fun p => p) g_pen rowwise ps); [rewrite map_id, E1; now symmetry|exact K].
    + rewrite PC, LC. intros U. destruct (RC U) as (ps & K1 & _). pose proof (PU _ _ K1) as E1. rewrite U in TC.
      destruct (HD1 2%nat ps l ltac:(lia) U K1 HL) as [K|K]; [now left|right]. rewrite E1 in K. exact (NE _ _ _ _ TC K).
    + rewrite PT, PAT. intros T. apply HD3. now apply otruthy_spec.
Qed.
Lemma rest2_call o : cmf_aoadmm V IE rnd a = Ok o -> returns_start_pf2 a c v o.
Proof.
  intros H. destruct rest2_setup as (s & l2 & h0 & fl & SET & HH & HC & EC & EV & VS & HP & HSV & CW & RA & RC & STILL & H0 & _).
  rewrite (P50_Tolerances.aoadmm_finish V IE rnd a s l2 h0 fl SET HH HC) in H. set (P := fit_params a l2 fl) in *.
  destruct (ao_loop (e_ext V) P (f_data a) (Z.to_nat (f_n_iter a)) 0 s h0) as [[[[s' h] n] msg]|] eqn:LP; [|discriminate]. cbn [bind] in H.
  destruct (still2_loop (e_ext V) P (f_data a) s VS HP CW HSV HT RA RC _ _ _ _ _ _ _ _ STILL H0 LP) as (S' & (L1 & L2 & L3)).
  pose proof (still2_same P (f_data a) s VS s' S') as (D1 & D2 & _). pose proof (still2_valid P (f_data a) s VS s' S') as VS'.
  destruct S' as (S1 & S2 & S3 & _).
  unfold finish in H.
  match type of H with (let* feas := ?x in _) = _ => destruct x as [fe|]; [|discriminate H] end. cbn [bind] in H.
  rewrite (revalidate_ok _ (proj1 (proj1 VS'))) in H. cbn [bind] in H.
  assert (HO : out_cmf o = st_cmf s' /\ (f_return_vars a = true -> out_vars o = Some (vars_of s')) /\
    forall d, out_diag o = Some d -> d_errors d = h_errors h /\ d_gaps d = h_gaps h /\ d_losses d = h_losses h).
  { destruct (p_return_errors P); cbn [bind] in H; injection H as <-; (split; [reflexivity|]); (split; [intros ->; reflexivity|]); intros d Hd; [|discriminate].
    injection Hd as <-. auto. }
  destruct HO as (O1 & O2 & O3). split; [rewrite O1, S1; exact EC|]. split.
  - intros RV. exists (vars_of s'). split; [exact (O2 RV)|]. rewrite <- EV. unfold vars_of. cbn [v_auxA v_auxB v_auxC v_dualA v_dualB v_dualC]. rewrite S2, S3, D1. rewrite EC in D2. repeat (split; [reflexivity|]). exact D2.
  - intros d Hd. destruct (O3 d Hd) as (E1 & E2 & E3). unfold constant_record. rewrite E1, E2, E3.
    assert (D4 : 0 < data_sumsq (f_data a) -> Forall (fun e => e = Fin (rel_error (f_data a) c)) (h_errors h)).
    { intros D0. eapply Forall_impl; [|exact L1]. cbv beta. intros e ->. rewrite <- EC. apply (state_error_ok (f_data a) (noi s)); [apply VS|now left|exact D0]. }
    split; [|exact D4]. split; [|split].
    + eapply Forall_constant; [|exact L1]. cbv beta. congruence.
    + eapply Forall_constant; [|exact L2]. cbv beta. congruence.
    + eapply Forall_constant; [|exact L3]. cbv beta. congruence.
Qed.
Lemma rest2_total : held V a -> exists o, cmf_aoadmm V IE rnd a = Ok o.
Proof.
  intros HH0. destruct rest2_setup as (s & l2 & h0 & fl & SET & HH & HC & EC & EV & VS & HP & HSV & CW & RA & RC & STILL & H0 & HD).
  destruct (HD HH0) as (T1 & T2 & T3).
  rewrite (P50_Tolerances.aoadmm_finish V IE rnd a s l2 h0 fl SET HH HC). set (P := fit_params a l2 fl) in *.
  destruct (still2_loop_total (e_ext V) P (f_data a) s VS HP CW HSV HT RA RC T1 T2 T3 (Z.to_nat (f_n_iter a)) 0 s h0 STILL) as ((((s' & h) & n) & msg) & LP).
  rewrite LP. cbn [bind].
  destruct (still2_loop (e_ext V) P (f_data a) s VS HP CW HSV HT RA RC _ _ _ _ _ _ _ _ STILL H0 LP) as (S' & _).
  pose proof (still2_valid P (f_data a) s VS s' S') as VS'.
  unfold finish. destruct (state_gaps_ok (f_data a) s' VS') as (g & -> & _).
  match goal with |- context[let* feas := ?x in _] => assert (EX : exists fe, x = Ok fe) by (destruct (p_feas_tol P) as [tt_|]; [|eauto]; destruct (ntruthy tt_ && _); cbn; eauto) end.
  destruct EX as (fe & ->). cbn [bind]. rewrite (revalidate_ok _ (proj1 (proj1 VS'))). cbn [bind]. destruct (p_return_errors P); eexists; reflexivity.
Qed.
End Calls.
