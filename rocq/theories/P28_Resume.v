(** C68: a fit can be continued from what it returned. *)
From Coq Require Import Reals Lra Lia List Arith Bool ZArith.
From Verif Require Import Num Numpy RFacts Spec SpecFacts MatFacts ModelSpec Penalties PenaltySpec CoupledMatrices CmfSpec CmfProofs Decomp DecompSpec
  DecompFacts AoPrefix AoLoop AoRun AoMain TotalRun InitVars InitSpec InitProofs Parse ParseSpec ParseProofs P05_Runs P06_Init P07_Parse Fit FitSpec FitProofs
  P11_Total FitExamples Ideal ResumeSpec ResumeLoop ResumeProofs.
Import ListNotations.
Local Open Scope R_scope.

Lemma error_noi (Xs : list rmat) (s : state (N:=RNum)) : data_fits Xs (st_cmf s) -> inter_ok Xs s -> state_error Xs (noi s) = state_error Xs s.
Proof.
  intros DF HI. unfold state_error. cbv zeta. f_equal. rewrite (state_error_sqrt Xs s DF HI). apply (state_error_sqrt Xs (noi s)); [exact DF|now left].
Qed.
Lemma loss_noi (P : params (N:=RNum)) (Xs : list rmat) (s : state (N:=RNum)) : data_fits Xs (st_cmf s) -> inter_ok Xs s -> state_loss P Xs (noi s) = state_loss P Xs s.
Proof. intros DF HI. unfold state_loss. now rewrite (error_noi Xs s DF HI). Qed.
Lemma maps_mregs (u : list pobjR) : forall r, map o_pen u = map g_pen r -> map o_aux u = map given_mat (map g_aux r) -> map o_dual u = map given_mat (map g_dual r) -> Forall2 same_mreg u r.
Proof.
  induction u as [|o u IH]; intros [|g r] E1 E2 E3; try discriminate; [constructor|]. cbn in E1, E2, E3. injection E1 as E1 F1. injection E2 as E2 F2. injection E3 as E3 F3.
  constructor; [|now apply IH]. repeat split; assumption.
Qed.
Lemma maps_bregs (u : list pobjR) : forall r, map o_pen u = map b_pen r -> map o_aux u = map given_auxes (map b_aux r) -> map o_dual u = map given_mats (map b_dual r) -> Forall2 same_breg u r.
Proof.
  induction u as [|o u IH]; intros [|g r] E1 E2 E3; try discriminate; [constructor|]. cbn in E1, E2, E3. injection E1 as E1 F1. injection E2 as E2 F2. injection E3 as E3 F3.
  constructor; [|now apply IH]. repeat split; assumption.
Qed.
Lemma tol_set_truthy (t : option R) : ~ tol_set t -> otruthy (N:=RNum) t = false.
Proof.
  intros H. destruct t as [x|]; [|reflexivity]. cbn. destruct (ntruthy (N:=RNum) x) eqn:E0; [|reflexivity]. apply ntruthy_true in E0. destruct H. exists x. auto.
Qed.

Theorem C68_resume V IE IE' rnd rnd' (a b : fitR) rank out :
  sensible V a rank -> ranks_kept IE -> svd_correct (e_ext V) rank -> (0 <= f_n_iter a)%Z -> (0 <= f_n_iter b)%Z ->
  cmf_aoadmm V IE rnd a = Ok out -> unfinished a out -> cw (out_cmf out) = None -> continued V a out b ->
  match cmf_aoadmm V IE' rnd' b with
  | Ok out2 => exists out3, cmf_aoadmm V IE rnd (with_n_iter a (f_n_iter a + f_n_iter b)) = Ok out3 /\
      out_cmf out3 = out_cmf out2 /\ out_vars out3 = out_vars out2 /\ joined_diag (out_diag out) (out_diag out2) (out_diag out3)
  | Err e => cmf_aoadmm V IE rnd (with_n_iter a (f_n_iter a + f_n_iter b)) = Err e
  end.
Proof.
  intros HS RK HE N1 N2 H UN CW CO.
  assert (HX : f_data a <> []) by apply HS. assert (HR : f_rank a = PyInt (Z.of_nat rank)) by apply HS.
  destruct (fit_run _ _ _ _ _ H) as (s & l2 & flags & s' & d & SET & EF & ER & ->). cbn [out_cmf out_vars out_diag] in *.
  pose proof (near_setup _ _ _ _ _ _ _ HS RK SET) as NS.
  destruct (setup_ok _ _ _ _ _ _ _ HS RK SET) as (VS & SI & MC & EL & _ & t & (EP & TA & TB & TC)).
  assert (HP := fit_params_ok V a rank l2 flags HS EL). pose proof (fit_params_fields a l2 flags) as PF. cbv zeta in PF. set (P := fit_params a l2 flags) in *.
  destruct PF as (_ & _ & _ & _ & _ & PT & PAT & PFT & PRE & _).
  (* the first run *)
  assert (ER' := ER). unfold run in ER'. destruct (init_hist P (f_data a) s) as [h0|] eqn:EH0; [|discriminate]. cbn [bind] in ER'.
  destruct (ao_loop (e_ext V) P (f_data a) (Z.to_nat (f_n_iter a)) 0 s h0) as [[[[s1 h1] it1] msg]|] eqn:EL1; [|discriminate]. cbn [bind] in ER'.
  match type of ER' with (let* feas := ?x in _) = _ => destruct x as [feas|] eqn:EFE; [|discriminate ER'] end. cbn [bind] in ER'.
  destruct (revalidate (st_cmf s1)) as [c1|] eqn:ERV; [|discriminate]. cbn [bind] in ER'.
  destruct (loop_traj _ _ _ _ _ _ _ _ _ _ _ EL1) as (m & tr & _ & _ & _ & T0 & T1 & TR). rewrite <- T0 in VS, NS. 
  assert (HE0 : svd_correct (e_ext V) (mc (cA (st_cmf (tr 0%nat))))) by (rewrite T0, MC; exact HE).
  destruct (trajectory_ok (e_ext V) P (f_data a) HP m tr TR VS HE0 m (le_n m)) as ((V1 & (_ & SS & _) & (SP1 & SP2 & SP3) & _) & _ & IO & _).
  assert (IO1 : inter_ok (f_data a) s1) by (rewrite <- T1; apply IO; left; now rewrite T0).
  pose proof (near_trajectory (e_ext V) P (f_data a) m tr HP TR VS HE0 NS m (le_n m)) as NS1.
  rewrite T1 in V1, SS, SP1, SP2, SP3, NS1. rewrite T0 in *.
  assert (DF1 : data_fits (f_data a) (st_cmf s1)) by apply V1.
  rewrite (revalidate_ok _ (proj1 DF1)) in ERV. injection ERV as <-.
  assert (ES : s' = s1 /\ d = (if f_return_errors a then Some (Diag (h_errors h1) (h_gaps h1) (h_losses h1) (if negb (match msg with MaxIter => false | _ => true end) && negb (otruthy (N:=RNum) (p_tol P) || otruthy (N:=RNum) (p_abs_tol P))
                then None else Some (match msg with MaxIter => false | _ => true end)) feas it1 msg) else None)).
  { rewrite PRE in ER'. destruct (f_return_errors a); injection ER' as <- <-; (split; [now destruct s1|reflexivity]). }
  clear ER'. destruct ES as (-> & ED).
  assert (MM : msg = MaxIter).
  { unfold unfinished in UN. cbn [out_diag] in UN. destruct UN as [(d0 & E0 & E1)|(K1 & K2)].
    - rewrite E0 in ED. destruct (f_return_errors a); [|discriminate ED]. injection ED as ->. exact E1.
    - apply (notol_max (e_ext V) P (f_data a) _ _ _ _ _ _ _ _) in EL1; [exact EL1|]. unfold notol. rewrite PT, PAT. split; now apply tol_set_truthy. }
  subst msg.
  (* the second call *)
  destruct CO as (C1 & C2 & C3 & C4 & C5 & C6 & C7 & C8 & C9 & C10 & C11 & C12 & C13 & C14 & C15 & C16 & (l & IL & PL) & CK & v & u0 & u1 & u2 & EV & CR & K0 & K1 & K2).
  assert (RV : f_return_vars a = true) by (destruct (f_return_vars a); [reflexivity|discriminate EV]). rewrite RV in *. injection EV as <-.
  cbn [vars_of v_auxA v_auxB v_auxC v_dualA v_dualB v_dualC] in K0, K1, K2.
  assert (IMP : forall m lp, penalties_of V a m lp -> lp = map o_pen (pick t m)).
  { intros k lp (t' & E0 & ->). rewrite EP in E0. injection E0 as <-. reflexivity. }
  assert (FA : Forall2 same_mreg (if f_updA b then u0 else []) (st_rA s1)).
  { rewrite C12. unfold carried in K0. cbn [updates] in K0. destruct (f_updA a).
    - destruct (K0 eq_refl) as (Q1 & Q2 & Q3). apply maps_mregs; [|exact Q2|exact Q3]. rewrite (IMP _ _ Q1), SP1, TA. reflexivity.
    - cbn in TA. rewrite TA in SP1. destruct (st_rA s1); [constructor|discriminate SP1]. }
  assert (FB : Forall2 same_breg (if f_updB b then u1 else []) (st_rB s1)).
  { rewrite C13. unfold carried in K1. cbn [updates] in K1. destruct (f_updB a).
    - destruct (K1 eq_refl) as (Q1 & Q2 & Q3). apply maps_bregs; [|exact Q2|exact Q3]. rewrite (IMP _ _ Q1), SP2, TB. reflexivity.
    - cbn in TB. rewrite TB in SP2. destruct (st_rB s1); [constructor|discriminate SP2]. }
  assert (FC : Forall2 same_mreg (if f_updC b then u2 else []) (st_rC s1)).
  { rewrite C14. unfold carried in K2. cbn [updates] in K2. destruct (f_updC a).
    - destruct (K2 eq_refl) as (Q1 & Q2 & Q3). apply maps_mregs; [|exact Q2|exact Q3]. rewrite (IMP _ _ Q1), SP3, TC. reflexivity.
    - cbn in TC. rewrite TC in SP3. destruct (st_rC s1); [constructor|discriminate SP3]. }
  assert (SV : f_svd a = true) by (unfold setup in SET; destruct (f_svd a); [reflexivity|discriminate SET]).
  assert (SETB : setup V IE' rnd' b = Ok (noi s1, l2)).
  { apply (setup_again V IE' rnd' b s1 l2 rank l u0 u1 u2); try assumption; try (rewrite C1; assumption); try congruence. }
  assert (PB : forall fl, fit_params b l2 fl = fit_params a l2 fl).
  { intros fl. destruct l2 as [[x y] z]. unfold fit_params. rewrite C4, C7, C8, C9, C10, C11, C12, C13, C14, C16. reflexivity. }
  destruct (state_gaps_ok (f_data a) s1 V1) as (g & EG & _).
  assert (IH : forall P', exists lo, state_loss P' (f_data a) s1 = Ok lo /\ init_hist P' (f_data a) (noi s1) = Ok (Hist [state_error (f_data a) s1] [g] [lo])).
  { intros P'. destruct (state_loss_total P' (f_data a) s1 V1) as (lo & ELo). exists lo. split; [exact ELo|]. unfold init_hist. cbv zeta. rewrite (loss_noi _ _ _ DF1 IO1), ELo. cbn [bind]. rewrite gaps_noi, EG. cbn [bind].
    now rewrite (error_noi _ _ DF1 IO1). }
  unfold cmf_aoadmm at 1. rewrite SETB. cbn [bind]. rewrite C1, PB. destruct (IH (fit_params a l2 (false, false))) as (lo' & _ & ->). cbn [bind]. rewrite C5, EF. cbn [bind]. rewrite PB. fold P. rewrite C15.
  (* the longer call *)
  assert (EH' : exists h', init_hist (fit_params a l2 (false, false)) (f_data a) s = Ok h').
  { unfold cmf_aoadmm in H. rewrite SET in H. cbn [bind] in H. destruct (init_hist (fit_params a l2 (false, false)) (f_data a) s); [eauto|discriminate]. }
  destruct EH' as (h' & EH').
  assert (LONG : cmf_aoadmm V IE rnd (with_n_iter a (f_n_iter a + f_n_iter b)) =
     let* (s', d) := run (e_ext V) P (f_data a) (f_n_iter a + f_n_iter b) s in Ok (Output (st_cmf s') (Some (vars_of s')) d)).
  { unfold cmf_aoadmm. change (setup V IE rnd (with_n_iter a (f_n_iter a + f_n_iter b))) with (setup V IE rnd a). rewrite SET. cbn [bind]. change (f_data (with_n_iter a (f_n_iter a + f_n_iter b))) with (f_data a).
    change (fit_params (with_n_iter a (f_n_iter a + f_n_iter b)) l2 (false, false)) with (fit_params a l2 (false, false)). rewrite EH'. cbn [bind].
    change (f_const (with_n_iter a (f_n_iter a + f_n_iter b))) with (f_const a). rewrite EF. cbn [bind]. change (f_return_vars (with_n_iter a (f_n_iter a + f_n_iter b))) with (f_return_vars a). rewrite RV. reflexivity. }
  rewrite LONG. clear LONG. unfold run. destruct (IH P) as (lo & ELo & ->). cbn [bind]. rewrite EH0. cbn [bind]. rewrite Z2Nat.inj_add by assumption. rewrite loop_extend, EL1.
  set (hb := Hist [state_error (f_data a) s1] [g] [lo]).
  assert (LS : (p_return_errors P = true /\ last_x (h_losses h1) = last_x (h_losses hb)) \/ notol P).
  { destruct (f_return_errors a) eqn:RE; rewrite ?RE in PRE.
    - left. split; [exact PRE|]. destruct (loop_ends (e_ext V) P (f_data a) _ _ _ _ _ _ _ _ PRE (init_ends _ _ _ _ EH0) EL1) as (x & y & z & g' & lo1 & _ & E2 & ->). rewrite ELo in E2. injection E2 as <-.
      unfold last_x. cbn [h_losses hb]. now rewrite last_last.
    - right. unfold unfinished in UN. cbn [out_diag] in UN. destruct UN as [(d0 & E0 & _)|(Q1 & Q2)]; [rewrite ED in E0; discriminate E0|]. unfold notol. rewrite PT, PAT. split; now apply tol_set_truthy. }
  pose proof (loop_shift (e_ext V) P (f_data a) (Z.to_nat (f_n_iter b)) it1 0 (noi s1) h1 hb LS) as SH.
  pose proof (loop_noi_res (e_ext V) P (f_data a) (Z.to_nat (f_n_iter b)) it1 s1 h1) as NR.
  destruct (ao_loop (e_ext V) P (f_data a) (Z.to_nat (f_n_iter b)) 0 (noi s1) hb) as [[[[s2 h2] it2] msg2]|e].
  2:{ rewrite SH in NR. rewrite NR. reflexivity. }
  destruct SH as (x & y & z & dd & -> & -> & SH). rewrite SH in NR. destruct NR as (s3 & EN & NR). rewrite NR. cbn [bind].
  destruct s2 as [c2 rA2 rB2 rC2 i2], s3 as [c3 rA3 rB3 rC3 i3]. unfold noi in EN. cbn [st_cmf st_rA st_rB st_rC] in EN. injection EN as -> -> -> ->.
  change (state_gaps (St c2 rA2 rB2 rC2 i3)) with (state_gaps (St (N:=RNum) c2 rA2 rB2 rC2 i2)). cbn [st_cmf st_rA st_rB st_rC st_inter].
  match goal with |- context[let* feas := ?x in _] => destruct x as [feas2|e]; [|reflexivity] end. cbn [bind].
  destruct (revalidate c2) as [c4|e]; [|reflexivity]. cbn [bind]. rewrite PRE. destruct (f_return_errors a) eqn:RE; cbn [bind]; eexists; (split; [reflexivity|]); cbn [out_cmf out_vars out_diag st_cmf]; (split; [reflexivity|]); (split; [reflexivity|]).
  - subst d. cbn [joined_diag]. destruct (loop_ends (e_ext V) P (f_data a) _ _ _ _ _ _ _ _ PRE (init_ends _ _ _ _ EH0) EL1) as (x1 & y1 & z1 & g1 & lo1 & E1 & E2 & ->).
    rewrite EG in E1. injection E1 as <-. rewrite ELo in E2. injection E2 as <-. unfold joined, hplus, overlap. cbn [d_errors d_gaps d_losses d_n_iter d_stopped d_feasible d_message h_errors h_gaps h_losses hb app].
    split; [do 3 eexists; split; [reflexivity|]; split; [reflexivity|]; now rewrite <- app_assoc|].
    split; [do 3 eexists; split; [reflexivity|]; split; [reflexivity|]; now rewrite <- app_assoc|].
    split; [do 3 eexists; split; [reflexivity|]; split; [reflexivity|]; now rewrite <- app_assoc|]. auto.
  - subst d. exact Logic.I.
Qed.
Print Assumptions C68_resume.

(** ** Every fit that returns its variables can be continued *)
Lemma fit_end V IE rnd (a : fitR) rank out : sensible V a rank -> ranks_kept IE -> svd_correct (e_ext V) rank -> cmf_aoadmm V IE rnd a = Ok out ->
  exists s1 t, out_cmf out = st_cmf s1 /\ out_vars out = (if f_return_vars a then Some (vars_of s1) else None) /\
    parse_all V (f_kw a) (f_regs a) (f_aux a) (f_dual a) = Ok t /\
    (f_updA a = true -> map g_pen (st_rA s1) = map o_pen (pick t 0)) /\ (f_updB a = true -> map b_pen (st_rB s1) = map o_pen (pick t 1)) /\
    (f_updC a = true -> map g_pen (st_rC s1) = map o_pen (pick t 2)) /\
    ((0 < f_n_iter a)%Z -> f_updA a || f_updB a || f_updC a = true -> (forall d, out_diag out = Some d -> d_n_iter d <> 0%nat) -> f_return_errors a = true -> cw (out_cmf out) = None) /\
    ((0 < f_n_iter a)%Z -> f_updA a || f_updB a || f_updC a = true -> ~ tol_set (f_tol a) -> ~ tol_set (f_abs_tol a) -> cw (out_cmf out) = None).
Proof.
  intros HS RK HE H. destruct (fit_run _ _ _ _ _ H) as (s & l2 & flags & s' & d & SET & EF & ER & ->). cbn [out_cmf out_vars out_diag].
  destruct (setup_ok _ _ _ _ _ _ _ HS RK SET) as (VS & SI & MC & EL & _ & t & (EP & TA & TB & TC)).
  assert (HP := fit_params_ok V a rank l2 flags HS EL). pose proof (fit_params_fields a l2 flags) as PF. cbv zeta in PF. set (P := fit_params a l2 flags) in *.
  destruct PF as (PUA & PUB & PUC & _ & _ & PT & PAT & PFT & PRE & _).
  unfold run in ER. destruct (init_hist P (f_data a) s) as [h0|] eqn:EH0; [|discriminate]. cbn [bind] in ER.
  destruct (ao_loop (e_ext V) P (f_data a) (Z.to_nat (f_n_iter a)) 0 s h0) as [[[[s1 h1] it1] msg]|] eqn:EL1; [|discriminate]. cbn [bind] in ER.
  match type of ER with (let* feas := ?x in _) = _ => destruct x as [feas|] eqn:EFE; [|discriminate ER] end. cbn [bind] in ER.
  destruct (revalidate (st_cmf s1)) as [c1|] eqn:ERV; [|discriminate]. cbn [bind] in ER.
  destruct (loop_traj _ _ _ _ _ _ _ _ _ _ _ EL1) as (m & tr & IT & _ & MX & T0 & T1 & TR). rewrite <- T0 in VS.
  assert (HE0 : svd_correct (e_ext V) (mc (cA (st_cmf (tr 0%nat))))) by (rewrite T0, MC; exact HE).
  destruct (trajectory_ok (e_ext V) P (f_data a) HP m tr TR VS HE0 m (le_n m)) as ((V1 & _ & (SP1 & SP2 & SP3) & _) & _ & _ & CW & _).
  rewrite T1 in V1, SP1, SP2, SP3, CW. rewrite T0 in *.
  assert (DF1 : data_fits (f_data a) (st_cmf s1)) by apply V1.
  rewrite (revalidate_ok _ (proj1 DF1)) in ERV. injection ERV as <-.
  assert (ES : s' = s1 /\ (f_return_errors a = true -> exists d', d = Some d' /\ d_n_iter d' = it1)).
  { rewrite PRE in ER. destruct (f_return_errors a); injection ER as <- <-; (split; [now destruct s1|]); [eauto|discriminate]. }
  destruct ES as (-> & ED). exists s1, t. split; [reflexivity|]. split; [reflexivity|]. split; [exact EP|].
  split; [intros U; rewrite SP1, TA; cbn [updates]; now rewrite U|]. split; [intros U; rewrite SP2, TB; cbn [updates]; now rewrite U|].
  split; [intros U; rewrite SP3, TC; cbn [updates]; now rewrite U|].
  assert (CW' : (0 < m)%nat -> f_updA a || f_updB a || f_updC a = true -> cw (st_cmf s1) = None).
  { intros Hm U. apply CW; [exact Hm|]. unfold any_update. rewrite PUA, PUB, PUC. exact U. }
  split.
  - intros _ U HN RE. destruct (ED RE) as (d' & E1 & E2). specialize (HN d' E1). apply CW'; [lia|exact U].
  - intros HN U Q1 Q2. apply CW'; [|exact U]. assert (msg = MaxIter).
    { apply (notol_max (e_ext V) P (f_data a) _ _ _ _ _ _ _ _) in EL1; [exact EL1|]. unfold notol. rewrite PT, PAT. split; now apply tol_set_truthy. }
    destruct (Nat.eq_dec m 0) as [->|]; [|lia]. exfalso. apply MX; [|assumption]. lia.
Qed.

(** The call that continues a fit. *)
Definition m_obj (g : mreg (N:=RNum)) : pobjR := PObj (N:=RNum) (g_pen g) (given_mat (g_aux g)) (given_mat (g_dual g)).
Definition b_obj (g : bregR) : pobjR := PObj (N:=RNum) (b_pen g) (given_auxes (b_aux g)) (given_mats (b_dual g)).
Theorem C68_can_continue V IE rnd (a : fitR) rank out n : sensible V a rank -> ranks_kept IE -> svd_correct (e_ext V) rank ->
  cmf_aoadmm V IE rnd a = Ok out -> f_return_vars a = true -> exists b, f_n_iter b = n /\ continued V a out b.
Proof.
  intros HS RK HE H RV. destruct (fit_end _ _ _ _ _ _ HS RK HE H) as (s1 & t & EC & EV & EP & TA & TB & TC & _). rewrite RV in EV.
  set (c := out_cmf out).
  exists (FitArgs (N:=RNum) (f_data a) (f_rank a) (InitSeq [match cw c with None => PNone | Some w => py_of_vec w end; PSeq [py_of_mat (cA c); PSeq (map py_of_mat (cBs c)); py_of_mat (cC c)]]) n (f_l2 a) no_kw
    (RList [EList (map RPen (map m_obj (st_rA s1))); EList (map RPen (map b_obj (st_rB s1))); EList (map RPen (map m_obj (st_rC s1)))])
    (f_scale a) (f_const a) (f_aux a) (f_dual a) (f_svd a) (f_tol a) (f_abs_tol a) (f_feas_tol a)
    (f_inner_tol a) (f_inner a) (f_updA a) (f_updB a) (f_updC a) (f_return_vars a) (f_return_errors a)).
  split; [reflexivity|]. unfold continued. do 16 (split; [reflexivity|]). split; [eexists; split; reflexivity|]. split; [reflexivity|].
  exists (vars_of s1), (map m_obj (st_rA s1)), (map b_obj (st_rB s1)), (map m_obj (st_rC s1)). split; [exact EV|]. split; [reflexivity|].
  unfold carried, penalties_of. cbn [vars_of v_auxA v_auxB v_auxC v_dualA v_dualB v_dualC updates]. rewrite !map_map.
  split; [|split]; intros U; (split; [exists t; split; [exact EP|]|split; apply map_ext; reflexivity]);
    [rewrite <- TA by assumption|rewrite <- TB by assumption|rewrite <- TC by assumption]; apply map_ext; reflexivity.
Qed.
Print Assumptions C68_can_continue.

(** With an iteration and a mode to update the returned weights are None. *)
Theorem C68_no_weights V IE rnd (a : fitR) rank out : sensible V a rank -> ranks_kept IE -> svd_correct (e_ext V) rank -> cmf_aoadmm V IE rnd a = Ok out ->
  (0 < f_n_iter a)%Z -> f_updA a || f_updB a || f_updC a = true -> unfinished a out -> cw (out_cmf out) = None.
Proof.
  intros HS RK HE H HN U UN. destruct (fit_end _ _ _ _ _ _ HS RK HE H) as (s1 & t & _ & _ & _ & _ & _ & _ & C1 & C2).
  destruct UN as [(d & E0 & EM)|(Q1 & Q2)]; [|now apply C2].
  assert (RE : f_return_errors a = true /\ d_n_iter d <> 0%nat).
  { clear C1 C2. destruct (fit_run _ _ _ _ _ H) as (s & l2 & flags & s' & d' & SET & EF & ER & ->). cbn [out_diag] in E0. subst d'.
    pose proof (fit_params_fields a l2 flags) as PF. cbv zeta in PF. destruct PF as (_ & _ & _ & _ & _ & _ & _ & _ & PRE & _). set (P := fit_params a l2 flags) in *.
    unfold run in ER. destruct (init_hist P (f_data a) s) as [h0|]; [|discriminate]. cbn [bind] in ER.
    destruct (ao_loop (e_ext V) P (f_data a) (Z.to_nat (f_n_iter a)) 0 s h0) as [[[[s2 h1] it1] msg]|] eqn:EL1; [|discriminate]. cbn [bind] in ER.
    match type of ER with (let* feas := ?x in _) = _ => destruct x as [feas|] eqn:EFE; [|discriminate ER] end. cbn [bind] in ER.
    destruct (revalidate (st_cmf s2)) as [c1|]; [|discriminate]. cbn [bind] in ER. rewrite PRE in ER. destruct (f_return_errors a); [|discriminate]. split; [reflexivity|].
    injection ER as _ <-. cbn [d_n_iter d_message] in *. destruct (loop_traj _ _ _ _ _ _ _ _ _ _ _ EL1) as (m & tr & IT & _ & MX & _). subst it1 msg. intros K. apply MX; [lia|reflexivity]. }
  destruct RE as (RE & ND). apply C1; try assumption. intros d1 E1. congruence.
Qed.
Print Assumptions C68_no_weights.

(** Without keywords the penalties of a call are the objects in its lists. *)
Lemma penalties_of_lists V (a : fitR) w0 w1 w2 m : f_kw a = no_kw -> f_regs a = RList [EList (map RPen w0); EList (map RPen w1); EList (map RPen w2)] -> (m < 3)%nat ->
  penalties_of V a m (map o_pen (pick (w0, w1, w2) m)).
Proof.
  intros EK ER Hm. exists (w0, w1, w2). split; [|reflexivity]. rewrite EK, ER. apply parse_given.
Qed.
(** With non_negative=True for all modes and nothing else there is one penalty for each mode. *)
Lemma penalties_of_nonneg V (a : fitR) m : f_kw a = KwArgs (AOne (Some true)) (AOne None) (AOne None) (AOne None) (AOne None) false (AOne None) (AOne None) (AOne None) -> f_regs a = RNone -> (m < 3)%nat ->
  penalties_of V a m [NonNegativity].
Proof.
  intros EK ER Hm. unfold penalties_of. rewrite EK, ER. assert (Z : ntruthy (N:=RNum) 0 = false) by now apply ntruthy_false.
  unfold parse_all. cbn [check_regs bind a_nn a_upper a_lower a_norm a_uni a_l1 a_gl2 a_tv a_pf2 listify].
  unfold parse_mode. cbn [k_nn k_lower k_upper k_norm k_uni k_pf2 k_l1 k_tv k_gl2 btruthy otruthy bind]. change (@n0 RNum) with 0. rewrite Z. cbn. eexists. split; [reflexivity|].
  destruct m as [|[|[|m]]]; [reflexivity|reflexivity|reflexivity|lia].
Qed.

(** ** The hypotheses are met: the call [ex_args] without tolerances, seven iterations and then [k] more *)
Definition args68 : fitR :=
  FitArgs (N:=RNum) (f_data ex_args) (f_rank ex_args) (f_init ex_args) (f_n_iter ex_args) (f_l2 ex_args) (f_kw ex_args) (f_regs ex_args)
    (f_scale ex_args) (f_const ex_args) (f_aux ex_args) (f_dual ex_args) (f_svd ex_args) None None (f_feas_tol ex_args)
    (f_inner_tol ex_args) (f_inner ex_args) (f_updA ex_args) (f_updB ex_args) (f_updC ex_args) true true.
Lemma args68_dependable E : dependable (Env (N:=RNum) E (fun _ => []) true) args68 1.
Proof.
  destruct (ex_dependable E) as (D1 & D2 & D3 & D4 & D5 & D6 & D7 & D8 & D9 & D10 & D11 & D12 & D13 & _). repeat (split; [assumption|]). intros (x & K & _). discriminate K.
Qed.
Example C68_nonvacuous rnd k : (0 <= k)%Z -> exists V out b, sensible V args68 1 /\ ranks_kept no_ext /\ svd_correct (e_ext V) 1 /\ (0 <= f_n_iter args68)%Z /\ f_n_iter b = k /\
  cmf_aoadmm V no_ext rnd args68 = Ok out /\ unfinished args68 out /\ cw (out_cmf out) = None /\ continued V args68 out b /\
  (exists out3, cmf_aoadmm V no_ext rnd (with_n_iter args68 (7 + k)) = Ok out3).
Proof.
  intros Hk. destruct ideal_exists as (E & HE & _). set (V := Env (N:=RNum) E (fun _ => []) true).
  assert (HD : dependable V args68 1) by apply args68_dependable. assert (HS : sensible V args68 1) by apply HD.
  destruct (C51_fit_total V no_ext rnd args68 1 HD no_ext_ranks (HE 1%nat)) as (out & H).
  destruct (C68_can_continue V no_ext rnd args68 1 out k HS no_ext_ranks (HE 1%nat) H eq_refl) as (b & EN & CO).
  assert (UN : unfinished args68 out) by (right; split; intros (x & K & _); discriminate K).
  exists V, out, b. split; [exact HS|]. split; [apply no_ext_ranks|]. split; [apply HE|]. split; [discriminate|]. split; [exact EN|]. split; [exact H|]. split; [exact UN|].
  split; [now apply (C68_no_weights V no_ext rnd args68 1 out HS no_ext_ranks (HE 1%nat) H)|]. split; [exact CO|].
  apply (C51_fit_total V no_ext rnd (with_n_iter args68 (7 + k)) 1 HD no_ext_ranks (HE 1%nat)).
Qed.
