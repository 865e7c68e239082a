(** Calls whose start is at rest return it. *)
From Coq Require Import Reals Lra Lia List Arith Bool ZArith.
From Verif Require Import Num Numpy RFacts Spec SpecFacts MatFacts ModelSpec Penalties PenaltySpec
  CoupledMatrices CmfSpec CmfProofs Decomp DecompSpec DecompFacts OptSpec AoPrefix AoLoop AoRun AoHist P05_Runs InitVars InitSpec Parse ParseSpec Fit FitSpec FitProofs
  Total TotalRun Ideal P50_Tolerances ResumeSpec ResumeLoop ResumeProofs P28_Resume SymSpec SymFit StationarySpec P30_Stationary TolSpec Tolerances P50_Tolerances RestSpec Rest.
Import ListNotations.
Local Open Scope R_scope.

Section Run.
Variables (E : extR) (P : paramsR) (Xs : list matR) (s0 : stateR).
(** the state, with any intermediate results *)
Definition still (s : stateR) : Prop := noi s = noi s0 /\ inter_ok Xs s.
Hypothesis V0 : valid_state Xs s0.
Lemma still_error s : still s -> state_error Xs s = state_error Xs (noi s0).
Proof.
  intros (S1 & S2). rewrite <- S1. symmetry. apply error_noi; [|exact S2]. destruct s, s0; injection S1 as -> -> -> ->. apply V0.
Qed.
Lemma still_loss s : still s -> state_loss P Xs s = state_loss P Xs (noi s0).
Proof.
  intros (S1 & S2). rewrite <- S1. symmetry. apply loss_noi; [|exact S2]. destruct s, s0; injection S1 as -> -> -> ->. apply V0.
Qed.
Lemma still_gaps s : still s -> state_gaps s = state_gaps (noi s0).
Proof. intros (S1 & _). rewrite <- S1. destruct s; reflexivity. Qed.
(** the records *)
Definition flat (h : hist (N:=RNum)) : Prop :=
  Forall (fun e => e = state_error Xs (noi s0)) (h_errors h) /\ Forall (fun g => state_gaps (noi s0) = Ok g) (h_gaps h) /\
  Forall (fun l => state_loss P Xs (noi s0) = Ok l) (h_losses h).
Hypothesis HP : params_ok P.
Hypothesis W0 : cw (st_cmf s0) = None.
Hypothesis Hsvd : svd_correct E (mc (cA (st_cmf s0))).
Hypothesis Htv : forall r, tv_correct E r.
Hypothesis RA : p_updA P = true -> rests_A Xs (st_cmf s0) (p_l2A P) (p_scale P) (p_constA P) (st_rA s0).
Hypothesis RB : p_updB P = true -> rests_B Xs (st_cmf s0) (p_l2B P) (p_scale P) (p_constB P) (st_rB s0).
Hypothesis RC : p_updC P = true -> rests_C Xs (st_cmf s0) (p_l2C P) (p_scale P) (st_rC s0).
Lemma still_step s s1 : still s -> outer_step E P Xs s = Ok s1 -> still s1.
Proof.
  intros (S1 & S2) H.
  assert (VS : valid_state Xs s) by (destruct s, s0; injection S1 as -> -> -> ->; exact V0).
  assert (EC : st_cmf s = st_cmf s0) by (destruct s, s0; injection S1 as -> -> -> ->; reflexivity).
  assert (HS : svd_correct E (mc (cA (st_cmf s)))) by (rewrite EC; exact Hsvd).
  destruct (outer_step_ok E P Xs HP s s1 VS HS H) as (_ & IO & _). split; [|exact IO].
  clear S2 IO VS HS EC. destruct V0 as (F1 & F2 & F3 & F4 & F5). destruct HP as (P1 & P2 & P3 & P4).
  assert (EL : length (cBs (st_cmf s0)) = length Xs) by (destruct F1 as (_ & L & _); now symmetry). rewrite EL in F4.
  destruct s as [c rA rB rC i]. unfold noi in S1. cbn [st_cmf st_rA st_rB st_rC] in S1.
  destruct s0 as [c0 rA0 rB0 rC0 i0]. cbn [st_cmf st_rA st_rB st_rC] in *. injection S1 as -> -> -> ->.
  unfold outer_step in H. 
  assert (HB : upd_B E P Xs (St c0 rA0 rB0 rC0 i) = Ok (St c0 rA0 rB0 rC0 None) \/ exists e, upd_B E P Xs (St c0 rA0 rB0 rC0 i) = Err e).
  { unfold upd_B. cbn [st_cmf st_rA st_rB st_rC]. destruct (p_updB P); [|now left].
    destruct (admm_update_B E Xs c0 rB0 (p_l2B P) (p_inner P) (p_inner_tol P) (p_scale P) (p_constB P)) as [r|e] eqn:K; [|right; eexists; reflexivity].
    rewrite (B_rest E Xs c0 (p_l2B P) (p_scale P) (p_constB P) F1 F2 W0 P2 P4 Hsvd rB0 _ _ r F4 (fun _ _ => Htv _) (RB eq_refl) K). now left. }
  destruct HB as [HB|(e & HB)]; rewrite HB in H; [|discriminate]. cbn [bind] in H. clear HB.
  assert (HC : upd_C E P Xs (St c0 rA0 rB0 rC0 None) = Ok (St c0 rA0 rB0 rC0 None) \/ exists e, upd_C E P Xs (St c0 rA0 rB0 rC0 None) = Err e).
  { unfold upd_C. cbn [st_cmf st_rA st_rB st_rC st_inter]. destruct (p_updC P); [|now left].
    destruct (admm_update_C E Xs c0 rC0 (p_l2C P) (p_inner P) (p_inner_tol P) (p_scale P)) as [r|e] eqn:K; [|right; eexists; reflexivity].
    rewrite (C_rest E Xs c0 (p_l2C P) (p_scale P) F1 F2 W0 P3 P4 Hsvd rC0 _ _ r F5 (Htv _) (RC eq_refl) K). now left. }
  destruct HC as [HC|(e & HC)]; rewrite HC in H; [|discriminate]. cbn [bind] in H. clear HC.
  unfold upd_A in H. cbn [st_cmf st_rA st_rB st_rC st_inter] in H. destruct (p_updA P); [|injection H as <-; reflexivity].
  destruct (admm_update_A E Xs c0 rA0 (p_l2A P) (p_inner P) (p_inner_tol P) (p_scale P) (p_constA P)) as [[r i1]|e] eqn:K; [|discriminate].
  rewrite (A_rest E Xs c0 (p_l2A P) (p_scale P) (p_constA P) F1 F2 W0 P1 P4 Hsvd rA0 _ _ r i1 F3 (Htv _) (RA eq_refl) K) in H. injection H as <-. reflexivity.
Qed.
Lemma still_loop n : forall it s h s' h' it' msg, still s -> flat h -> ao_loop E P Xs n it s h = Ok (s', h', it', msg) -> still s' /\ flat h'.
Proof.
  induction n as [|n IH]; intros it s h s' h' it' msg SS FL H; [injection H as <- <- _ _; auto|].
  rewrite loop_body in H. destruct (outer_step E P Xs s) as [s1|] eqn:HS; [|discriminate]. cbn [bind] in H.
  pose proof (still_step s s1 SS HS) as S1. destruct FL as (L1 & L2 & L3).
  destruct (tols P || p_return_errors P); [|apply (IH _ _ _ _ _ _ _ S1 (conj L1 (conj L2 L3)) H)].
  destruct (state_gaps s1) as [g|] eqn:HG; [|discriminate]. cbn [bind] in H. rewrite (still_gaps s1 S1) in HG.
  assert (L2' : Forall (fun g => state_gaps (noi s0) = Ok g) (h_gaps h ++ [g])) by (apply Forall_app; auto).
  match type of H with (if ?b then _ else _) = _ => destruct b end.
  { refine (IH _ _ (Hist (h_errors h) (h_gaps h ++ [g]) (h_losses h)) _ _ _ _ S1 _ H). exact (conj L1 (conj L2' L3)). }
  destruct (state_loss P Xs s1) as [l|] eqn:HL; [|discriminate]. cbn [bind] in H. rewrite (still_loss s1 S1) in HL.
  assert (F2 : flat (Hist (h_errors h ++ [state_error Xs s1]) (h_gaps h ++ [g]) (h_losses h ++ [l]))).
  { split; [|split]; cbn [h_errors h_gaps h_losses]; apply Forall_app; auto. split; [assumption|]. constructor; [|constructor]. now apply still_error. }
  destruct (stop_msg _ _ _ _) as [[m|]|]; [| |discriminate]; cbn [bind] in H.
  - injection H as <- <- _ _. auto.
  - apply (IH _ _ _ _ _ _ _ S1 F2 H).
Qed.
(** no update fails, if every updated mode has a penalty or a ridge term *)
Hypothesis TA : p_updA P = true -> (0 < p_l2A P \/ st_rA s0 <> []) /\ (p_constA P = false -> Forall (fun g => rowwise (g_pen g)) (st_rA s0)).
Hypothesis TB : p_updB P = true -> 0 < p_l2B P \/ st_rB s0 <> [].
Hypothesis TC : p_updC P = true -> 0 < p_l2C P \/ st_rC s0 <> [].
Hypothesis TT : otruthy (N:=RNum) (p_tol P) = true -> p_abs_tol P <> None.
Lemma still_total s : still s -> exists s1, outer_step E P Xs s = Ok s1.
Proof.
  intros (S1 & _). clear TT. pose proof V0 as (F1 & F2 & F3 & F4 & F5). pose proof HP as (P1 & P2 & P3 & P4).
  assert (EL : length (cBs (st_cmf s0)) = length Xs) by (destruct F1 as (_ & L & _); now symmetry). rewrite EL in F4.
  assert (LX : (0 < length Xs)%nat) by (destruct F2 as (N1 & _); rn; lia).
  assert (US : forall p rho, convex_pen p -> 0 < rho -> usable p rho).
  { intros p rho C R0. split; [intros ->; exact C|now right]. }
  assert (WP : forall {T} l2 rho (regs : list T), 0 < l2 \/ regs <> [] -> 0 < rho -> well_posed l2 rho regs).
  { intros T l2 rho regs [H|H] R0; [now left|now right]. }
  destruct s as [c rA rB rC i]. unfold noi in S1. cbn [st_cmf st_rA st_rB st_rC] in S1.
  assert (K : exists s1, outer_step E P Xs (St (st_cmf s0) (st_rA s0) (st_rB s0) (st_rC s0) i) = Ok s1).
  2:{ injection S1 as -> -> -> ->. exact K. }
  clear S1. unfold outer_step, upd_B. cbn [st_cmf st_rA st_rB st_rC].
  assert (KB : exists i1, (if p_updB P then let* (c, r) := admm_update_B E Xs (st_cmf s0) (st_rB s0) (p_l2B P) (p_inner P) (p_inner_tol P) (p_scale P) (p_constB P) in Ok (St c (st_rA s0) r (st_rC s0) None)
      else Ok (St (st_cmf s0) (st_rA s0) (st_rB s0) (st_rC s0) None)) = Ok (St (st_cmf s0) (st_rA s0) (st_rB s0) (st_rC s0) i1)).
  { exists None. destruct (p_updB P); [|reflexivity]. pose proof (RB eq_refl) as RB'. destruct RB' as (Q1 & Q2).
    destruct (Rest.rhos_exist (p_constB P) (length Xs) (rho_B (p_scale P) (st_cmf s0)) LX) as (rho & Hu). destruct (Q2 rho Hu) as (HC & _).
    pose proof (AdmmOpt.rhos_used_pos _ _ _ _ Hu Q1) as PR.
    destruct (B_total E Xs (st_cmf s0) (p_l2B P) (p_scale P) (p_constB P) F1 F2 P2 P4 Hsvd (st_rB s0) (p_inner P) (p_inner_tol P) rho) as (r & K); auto.
    { intros j Hj. split; [|apply WP; auto]. eapply Forall_impl; [|exact HC]. intros g Hg. apply US; auto. }
    rewrite K. rewrite (B_rest E Xs (st_cmf s0) (p_l2B P) (p_scale P) (p_constB P) F1 F2 W0 P2 P4 Hsvd (st_rB s0) _ _ r F4 (fun _ _ => Htv _) (RB eq_refl) K). reflexivity. }
  destruct KB as (i1 & ->). cbn [bind]. unfold upd_C. cbn [st_cmf st_rA st_rB st_rC st_inter].
  assert (KC : (if p_updC P then let* (c, r) := admm_update_C E Xs (st_cmf s0) (st_rC s0) (p_l2C P) (p_inner P) (p_inner_tol P) (p_scale P) in Ok (St c (st_rA s0) (st_rB s0) r i1)
      else Ok (St (st_cmf s0) (st_rA s0) (st_rB s0) (st_rC s0) i1)) = Ok (St (st_cmf s0) (st_rA s0) (st_rB s0) (st_rC s0) i1)).
  { destruct (p_updC P); [|reflexivity]. pose proof (RC eq_refl) as (Q1 & HC & _).
    destruct (C_total E Xs (st_cmf s0) (p_l2C P) (p_scale P) F1 F2 P3 P4 Hsvd (st_rC s0) (p_inner P) (p_inner_tol P)) as (r & K); auto.
    { eapply Forall_impl; [|exact HC]. intros g Hg. apply US; auto. }
    rewrite K. rewrite (C_rest E Xs (st_cmf s0) (p_l2C P) (p_scale P) F1 F2 W0 P3 P4 Hsvd (st_rC s0) _ _ r F5 (Htv _) (RC eq_refl) K). reflexivity. }
  rewrite KC. cbn [bind]. unfold upd_A. cbn [st_cmf st_rA st_rB st_rC st_inter]. destruct (p_updA P); [|eexists; reflexivity].
  pose proof (RA eq_refl) as (Q1 & Q2). destruct (TA eq_refl) as (T1 & T2).
  destruct (Rest.rhos_exist (p_constA P) (length Xs) (rho_A (p_scale P) (st_cmf s0)) LX) as (rho & Hu). destruct (Q2 rho Hu) as (HC & _).
  pose proof (AdmmOpt.rhos_used_pos _ _ _ _ Hu Q1) as PR.
  destruct (A_total E Xs (st_cmf s0) (p_l2A P) (p_scale P) (p_constA P) F1 F2 P1 P4 Hsvd (st_rA s0) (p_inner P) (p_inner_tol P) rho) as (((c1 & r1) & i2) & K); auto.
  { intros j Hj. split; [|apply WP; auto]. eapply Forall_impl; [|exact HC]. intros g Hg. apply US; auto. }
  rewrite K. cbn [bind]. eexists. reflexivity.
Qed.
Lemma still_valid s : still s -> valid_state Xs s.
Proof. intros (S1 & _). clear - V0 S1. destruct s, s0; injection S1 as -> -> -> ->; exact V0. Qed.
Lemma still_loop_total n : forall it s h, still s -> exists r, ao_loop E P Xs n it s h = Ok r.
Proof.
  induction n as [|n IH]; intros it s h SS; [eexists; reflexivity|]. rewrite loop_body.
  destruct (still_total s SS) as (s1 & HS). rewrite HS. cbn [bind]. pose proof (still_step s s1 SS HS) as S1.
  destruct (tols P || p_return_errors P); [|now apply IH]. destruct (state_gaps_ok Xs s1 (still_valid s1 S1)) as (g & -> & _). cbn [bind].
  match goal with |- exists r, (if ?b then _ else _) = _ => destruct b end; [now apply IH|].
  destruct (state_loss_total P Xs s1 (still_valid s1 S1)) as (l & ->). cbn [bind].
  assert (K : exists m, stop_msg P (feas_of (p_feas_tol P) g) (last_x (h_losses h)) l = Ok m).
  { clear - TT. unfold stop_msg. destruct (p_tol P) as [t|]; [|eauto]. cbn [otruthy] in TT. destruct (ntruthy t); [|eauto]. destruct (p_abs_tol P); [eauto|]. now destruct (TT eq_refl). }
  destruct K as ([m|] & ->); cbn [bind]; [eexists; reflexivity|now apply IH].
Qed.
End Run.

Lemma with_vars_id (l : list mregR) : with_vars (map g_pen l) (map g_aux l) (map g_dual l) = l.
Proof. induction l as [|g l IH]; [reflexivity|]. cbn. rewrite IH. now destruct g. Qed.
Lemma with_vars_B_id (l : list bregR) : with_vars_B (map b_pen l) (map b_aux l) (map b_dual l) = l.
Proof. induction l as [|g l IH]; [reflexivity|]. cbn. rewrite IH. now destruct g. Qed.
Lemma Forall_constant {T} (l : list T) (Q : T -> Prop) : (forall x y, Q x -> Q y -> x = y) -> Forall Q l -> constant_list l.
Proof. intros HQ H x y Hx Hy. rewrite Forall_forall in H. auto. Qed.

Lemma flat_start P Xs s h0 : valid_state Xs s -> inter_ok Xs s -> init_hist P Xs s = Ok h0 -> flat P Xs s h0.
Proof.
  intros VS SI EH. assert (ST : still Xs s s) by (split; [reflexivity|exact SI]).
  unfold init_hist in EH. cbv zeta in EH. destruct (state_loss P Xs s) as [lo|] eqn:K1; [|discriminate]. cbn [bind] in EH.
  destruct (state_gaps s) as [g|] eqn:K2; [|discriminate]. cbn [bind] in EH. injection EH as <-.
  split; [|split]; cbn [h_errors h_gaps h_losses]; (constructor; [|constructor]).
  - apply still_error; auto.
  - rewrite <- K2. symmetry. apply (still_gaps Xs); auto.
  - rewrite <- K1. symmetry. apply (still_loss P Xs); auto.
Qed.
Lemma rest_call V IE rnd (a : fitR) rank c v o : sensible V a rank -> ranks_kept IE -> svd_correct (e_ext V) rank -> (forall r, tv_correct (e_ext V) r) ->
  starts_at V IE rnd a c v -> start_rests V a c v -> cmf_aoadmm V IE rnd a = Ok o -> returns_start a c v o.
Proof.
  intros HS RK HE HT ST (CW & l & HL & RA & RB & RC) H.
  destruct (start_setup _ _ _ _ _ _ _ HS RK ST) as (s & l2 & SET & EC & EV).
  destruct (aoadmm_ok V IE rnd a o H) as (s_ & l2_ & h0 & fl & s' & h & n & msg & SET_ & HH & HC & HLP & HFI).
  rewrite SET in SET_. injection SET_ as <- <-.
  destruct (setup_ok _ _ _ _ _ _ _ HS RK SET) as (VS & SI & MC & EL & _ & t & (EP & TA & TB & TC)).
  assert (HP := fit_params_ok V a rank l2 fl HS EL). pose proof (fit_params_fields a l2 fl) as PF. cbv zeta in PF.
  destruct (ridge_params a l2 fl l EL HL) as (LA & LB & LC).
  set (P := fit_params a l2 fl) in *. destruct PF as (PA & PB & PC & _ & _ & _ & _ & _ & PR & KA & KB & PS).
  assert (PU : forall m ps, penalties_of V a m ps -> ps = map o_pen (pick t m)).
  { intros m ps (t' & E1 & ->). rewrite EP in E1. injection E1 as <-. reflexivity. }
  assert (FA : fst fl = constant_for_A (f_const a) /\ snd fl = constant_for_B (f_const a)).
  { clear - HC. destruct (f_const a); cbn in HC; try discriminate; injection HC as <-; split; reflexivity. }
  destruct FA as (FA & FB).
  assert (EVA : v_auxA v = map g_aux (st_rA s) /\ v_dualA v = map g_dual (st_rA s) /\ v_auxB v = map b_aux (st_rB s) /\ v_dualB v = map b_dual (st_rB s) /\
                v_auxC v = map g_aux (st_rC s) /\ v_dualC v = map g_dual (st_rC s)) by (rewrite <- EV; repeat split).
  destruct EVA as (X1 & X2 & X3 & X4 & X5 & X6). rewrite <- EC in *.
  assert (STILL : still (f_data a) s s). { split; [reflexivity|]. now left. }
  assert (H0 : flat P (f_data a) s h0).
  { assert (EH : init_hist P (f_data a) s = Ok h0) by (rewrite <- HH; unfold P; destruct l2 as [[? ?] ?]; reflexivity).
    apply flat_start; [exact VS|now left|exact EH]. }
  destruct (still_loop (e_ext V) P (f_data a) s VS HP CW) with (n := Z.to_nat (f_n_iter a)) (it := 0%nat) (s := s) (h := h0) (s' := s') (h' := h) (it' := n) (msg := msg) as ((S1 & S2) & (L1 & L2 & L3)); auto.
  { rewrite MC. exact HE. }
  { rewrite PA, LA, KA, PS, FA. intros U. destruct (RA U) as (ps & K1 & K2). apply PU in K1. rewrite U in TA. rewrite K1, X1, X2, <- TA, with_vars_id in K2. exact K2. }
  { rewrite PB, LB, KB, PS, FB. intros U. destruct (RB U) as (ps & K1 & K2). apply PU in K1. rewrite U in TB. rewrite K1, X3, X4, <- TB, with_vars_B_id in K2. exact K2. }
  { rewrite PC, LC, PS. intros U. destruct (RC U) as (ps & K1 & K2). apply PU in K1. rewrite U in TC. rewrite K1, X5, X6, <- TC, with_vars_id in K2. exact K2. }
  unfold finish in HFI.
  match type of HFI with (let* feas := ?x in _) = _ => destruct x as [fe|]; [|discriminate HFI] end. cbn [bind] in HFI.
  assert (VS' : valid_cmf (st_cmf s')) by (destruct s', s; injection S1 as -> -> -> ->; apply VS).
  rewrite (revalidate_ok _ VS') in HFI. cbn [bind] in HFI.
  assert (HO : o = Output (st_cmf s) (if f_return_vars a then Some v else None) (out_diag o) /\ forall d, out_diag o = Some d -> d_errors d = h_errors h /\ d_gaps d = h_gaps h /\ d_losses d = h_losses h).
  { rewrite <- EV. destruct s', s; injection S1 as -> -> -> ->. destruct (p_return_errors P); cbn [bind] in HFI; injection HFI as <-; (split; [reflexivity|]); intros d Hd; [|discriminate].
    injection Hd as <-. auto. }
  destruct HO as (HO & HD). rewrite HO. split; [reflexivity|]. split; [intros ->; reflexivity|]. cbn [out_diag]. intros d Hd. destruct (HD d Hd) as (D1 & D2 & D3).
  unfold constant_record. rewrite D1, D2, D3.
  assert (D4 : 0 < data_sumsq (f_data a) -> Forall (fun e => e = Fin (rel_error (f_data a) (st_cmf s))) (h_errors h)).
  { intros D0. eapply Forall_impl; [|exact L1]. cbv beta. intros e ->. apply (state_error_ok (f_data a) (noi s)); [apply VS|now left|exact D0]. }
  split; [|exact D4]. split; [|split].
  - eapply Forall_constant; [|exact L1]. cbv beta. congruence.
  - eapply Forall_constant; [|exact L2]. cbv beta. congruence.
  - eapply Forall_constant; [|exact L3]. cbv beta. congruence.
Qed.

Lemma rest_total V IE rnd (a : fitR) rank c v : sensible V a rank -> ranks_kept IE -> svd_correct (e_ext V) rank -> (forall r, tv_correct (e_ext V) r) ->
  starts_at V IE rnd a c v -> start_rests V a c v -> held V a -> exists o, cmf_aoadmm V IE rnd a = Ok o.
Proof.
  intros HS RK HE HT ST (CW & l & HL & RA & RB & RC) (HD1 & HD2 & HD3).
  destruct (start_setup _ _ _ _ _ _ _ HS RK ST) as (s & l2 & SET & EC & EV).
  assert (CF : exists fl, const_flags (f_const a) = Ok fl).
  { destruct ST as (o & H & _). destruct (fit_run _ _ _ _ _ H) as (s_ & l2_ & flags & s' & d & _ & EF & _). exists flags. exact EF. }
  destruct CF as (fl & HC).
  destruct (setup_ok _ _ _ _ _ _ _ HS RK SET) as (VS & SI & MC & EL & _ & t & (EP & TA & TB & TC)).
  assert (HP := fit_params_ok V a rank l2 fl HS EL). pose proof (fit_params_fields a l2 fl) as PF. cbv zeta in PF.
  destruct (ridge_params a l2 fl l EL HL) as (LA & LB & LC).
  assert (HH : exists h0, init_hist (fit_params a l2 (false, false)) (f_data a) s = Ok h0).
  { unfold init_hist. cbv zeta. destruct (state_loss_total (fit_params a l2 (false, false)) (f_data a) s VS) as (lo & ->). destruct (state_gaps_ok (f_data a) s VS) as (g & -> & _). cbn. eauto. }
  destruct HH as (h0 & HH). rewrite (P50_Tolerances.aoadmm_finish V IE rnd a s l2 h0 fl SET HH HC).
  set (P := fit_params a l2 fl) in *. destruct PF as (PA & PB & PC & _ & _ & PT & PAT & _ & PR & KA & KB & PS).
  assert (PU : forall m ps, penalties_of V a m ps -> ps = map o_pen (pick t m)).
  { intros m ps (t' & E1 & ->). rewrite EP in E1. injection E1 as <-. reflexivity. }
  assert (FA : fst fl = constant_for_A (f_const a) /\ snd fl = constant_for_B (f_const a)).
  { clear - HC. destruct (f_const a); cbn in HC; try discriminate; injection HC as <-; split; reflexivity. }
  destruct FA as (FA & FB).
  assert (EVA : v_auxA v = map g_aux (st_rA s) /\ v_dualA v = map g_dual (st_rA s) /\ v_auxB v = map b_aux (st_rB s) /\ v_dualB v = map b_dual (st_rB s) /\
                v_auxC v = map g_aux (st_rC s) /\ v_dualC v = map g_dual (st_rC s)) by (rewrite <- EV; repeat split).
  destruct EVA as (X1 & X2 & X3 & X4 & X5 & X6). rewrite <- EC in *.
  assert (STILL : still (f_data a) s s). { split; [reflexivity|]. now left. }
  assert (NE : forall {T} (k : list T) (u : list (pobj (N:=RNum))) (g : T -> penalty (N:=RNum)), map g k = map o_pen u -> map o_pen u <> [] -> k <> []).
  { intros T k u g E1 E2 ->. now rewrite <- E1 in E2. }
  destruct (still_loop_total (e_ext V) P (f_data a) s VS HP CW) with (n := Z.to_nat (f_n_iter a)) (it := 0%nat) (s := s) (h := h0) as ((((s' & h) & n) & msg) & LP); auto.
  { rewrite MC. exact HE. }
  { rewrite PA, LA, KA, PS, FA. intros U. destruct (RA U) as (ps & K1 & K2). apply PU in K1. rewrite U in TA. rewrite K1, X1, X2, <- TA, with_vars_id in K2. exact K2. }
  { rewrite PB, LB, KB, PS, FB. intros U. destruct (RB U) as (ps & K1 & K2). apply PU in K1. rewrite U in TB. rewrite K1, X3, X4, <- TB, with_vars_B_id in K2. exact K2. }
  { rewrite PC, LC, PS. intros U. destruct (RC U) as (ps & K1 & K2). apply PU in K1. rewrite U in TC. rewrite K1, X5, X6, <- TC, with_vars_id in K2. exact K2. }
  { rewrite PA, LA, KA, FA. intros U. destruct (RA U) as (ps & K1 & _). pose proof (PU _ _ K1) as E1. rewrite U in TA. split.
    - destruct (HD1 0%nat ps l ltac:(lia) U K1 HL) as [K|K]; [now left|right]. rewrite E1 in K. exact (NE _ _ _ _ TA K).
    - intros F. pose proof (HD2 ps U F K1) as K. apply (pens_Forall (fun p => p) g_pen rowwise ps); [rewrite map_id, E1; now symmetry|exact K]. }
  { rewrite PB, LB. intros U. destruct (RB U) as (ps & K1 & _). pose proof (PU _ _ K1) as E1. rewrite U in TB.
    destruct (HD1 1%nat ps l ltac:(lia) U K1 HL) as [K|K]; [now left|right]. rewrite E1 in K. exact (NE _ _ _ _ TB K). }
  { rewrite PC, LC. intros U. destruct (RC U) as (ps & K1 & _). pose proof (PU _ _ K1) as E1. rewrite U in TC.
    destruct (HD1 2%nat ps l ltac:(lia) U K1 HL) as [K|K]; [now left|right]. rewrite E1 in K. exact (NE _ _ _ _ TC K). }
  { rewrite PT, PAT. intros T. apply HD3. now apply otruthy_spec. }
  rewrite LP. cbn [bind].
  destruct (still_loop (e_ext V) P (f_data a) s VS HP CW) with (n := Z.to_nat (f_n_iter a)) (it := 0%nat) (s := s) (h := h0) (s' := s') (h' := h) (it' := n) (msg := msg) as ((S1 & S2) & _); auto.
  { rewrite MC. exact HE. }
  { rewrite PA, LA, KA, PS, FA. intros U. destruct (RA U) as (ps & K1 & K2). apply PU in K1. rewrite U in TA. rewrite K1, X1, X2, <- TA, with_vars_id in K2. exact K2. }
  { rewrite PB, LB, KB, PS, FB. intros U. destruct (RB U) as (ps & K1 & K2). apply PU in K1. rewrite U in TB. rewrite K1, X3, X4, <- TB, with_vars_B_id in K2. exact K2. }
  { rewrite PC, LC, PS. intros U. destruct (RC U) as (ps & K1 & K2). apply PU in K1. rewrite U in TC. rewrite K1, X5, X6, <- TC, with_vars_id in K2. exact K2. }
  { apply flat_start; [exact VS|now left|]. rewrite <- HH. unfold P; destruct l2 as [[? ?] ?]; reflexivity. }
  assert (VS' : valid_state (f_data a) s') by (apply (still_valid (f_data a) s VS); split; assumption).
  unfold finish. destruct (state_gaps_ok (f_data a) s' VS') as (g & -> & _).
  match goal with |- context[let* feas := ?x in _] => assert (EX : exists fe, x = Ok fe) by (destruct (p_feas_tol P) as [tt_|]; [|eauto]; destruct (ntruthy tt_ && _); cbn; eauto) end.
  destruct EX as (fe & ->). cbn [bind]. rewrite (revalidate_ok _ (proj1 (proj1 VS'))). cbn [bind]. destruct (p_return_errors P); eexists; reflexivity.
Qed.
