(** Properties of the starting point of a fit and of whole calls that cannot fail: C41, C51, C53. *)
From Coq Require Import Reals Lra Lia List Arith Bool ZArith.
From Verif Require Import Num Numpy RFacts Spec SpecFacts MatFacts ModelSpec Penalties PenaltySpec CoupledMatrices CmfSpec CmfProofs Decomp DecompSpec
  DecompFacts ProxProofs AdmmProofs AdmmOne AoLoop AoRun AoMain AoMono TotalRun InitVars InitSpec InitProofs Parse ParseSpec ParseProofs P05_Runs P06_Init P07_Parse Fit FitSpec
  FitProofs P08_Fit P09_Calls DecompExamples Ideal.
Import ListNotations.
Local Open Scope R_scope.

(** ** C41: a given factorization keeps the matrices it represents *)
Lemma cmf_init_of (c : rcmf) : valid_cmf c -> exists sh k, cmf_init (py_of_cmf c) = Ok (sh, k, c).
Proof.
  intros V. pose proof (revalidate_ok c V) as H. unfold revalidate in H. destruct (cmf_init (py_of_cmf c)) as [[[sh k] c']|]; [|discriminate].
  cbn [bind] in H. injection H as ->. eauto.
Qed.
Theorem C41_given_start_partial E IE rnd (Xs : list matR) rank (c0 : rcmf) l pos :
  valid_cmf c0 -> PSeq l = py_of_cmf c0 ->
  exists c, initialize_cmf E IE rnd Xs rank (InitSeq l) pos = Ok (c, pos) /\ valid_cmf c /\
    cw c = None /\ mc (cA c) = mc (cA c0) /\ cBs c = cBs c0 /\ cC c = cC c0 /\
    forall i j k, (i < length (cBs c0))%nat -> (j < mr (nthB c0 i))%nat -> (k < mr (cC c0))%nat -> cmf_entry c i j k = cmf_entry c0 i j k.
Proof.
  intros V EQ. unfold py_of_cmf in EQ. injection EQ as EQ. subst l. unfold initialize_cmf. cbn [unpack2 unpack3 py_iter bind].
  destruct (cw c0) as [w|] eqn:EW.
  - pose proof V as (HA & HC & HcC & HrA & HB & Hw). specialize (Hw w EW).
    set (c1 := Cmf (N:=RNum) None (mcolscale (cA c0) w) (cBs c0) (cC c0)).
    assert (V1 : valid_cmf c1).
    { split; [cbn; auto with mwf|]. split; [exact HC|]. split; [exact HcC|]. split; [exact HrA|]. split; [exact HB|]. discriminate. }
    destruct (cmf_init_of c1 V1) as (sh & k & E1). exists c1.
    assert (T : times_weights (py_of_vec w) (py_of_mat (cA c0)) = Ok (py_of_mat (mcolscale (cA c0) w))).
    { rewrite <- (arr_mat_of_mat (cA c0) HA) at 2. unfold times_weights, py_of_vec, py_of_mat at 1. rewrite Hw, Nat.eqb_refl. reflexivity. }
    unfold py_of_vec in *. rewrite T. cbn [bind]. change (PSeq [PNone; PSeq [py_of_mat (mcolscale (cA c0) w); PSeq (map py_of_mat (cBs c0)); py_of_mat (cC c0)]]) with (py_of_cmf c1).
    rewrite E1. cbn [bind]. split; [reflexivity|]. split; [exact V1|]. split; [reflexivity|]. split; [reflexivity|]. split; [reflexivity|]. split; [reflexivity|].
    intros i j k' Hi Hj Hk. unfold cmf_entry. change (mc (cA c1)) with (mc (cA c0)). apply Sum_ext. intros r Hr.
    change (nthB c1 i) with (nthB c0 i). change (cC c1) with (cC c0). unfold weight. rewrite EW. change (cw c1) with (@None (list R)). cbn [cA c1].
    rewrite mget_mcolscale by (rewrite ?HrA; auto). unfold at_. rn. change (vg w r) with (nth r w 0). generalize (nth r w 0). intros z. ring.
  - destruct (cmf_init_of c0 V) as (sh & k & E1). unfold py_of_cmf in E1. rewrite EW in E1. rewrite E1. cbn [bind]. exists c0. auto 12.
Qed.
Print Assumptions C41_given_start_partial.

(** The initialisers 'parafac' and 'parafac2' return weights, and these are dropped by the
    first update instead of being folded into A.  Data 2 and the exact CP decomposition
    with weight 2 and factors 1, 1, 1: one iteration takes the error from 0 to 1/4, while the same
    factorization passed as a tuple keeps it at 0. *)
Definition ie41 : initextR :=
  InitExt (N:=RNum) (fun _ _ _ => Err ValueError) (fun _ k pos => if match k with PyInt z => Z.eqb z 1 | PyNotInt => false end then Ok (Cpt (N:=RNum) [2] [m11 1; m11 1; m11 1], pos) else Err ValueError) (fun _ _ _ => Err ValueError).
Definition args41 (i : initarg (N:=RNum)) : fitR :=
  FitArgs (N:=RNum) [m11 2] (PyInt 1) i 1 (AOne None)
    (KwArgs (AOne (Some true)) (AOne None) (AOne None) (AOne None) (AOne None) false (AOne None) (AOne None) (AOne None)) RNone
    2 (CBool false) (ITensor [1; 1]%nat [1]) (IStr Zeros) true None None None None 1 false false true false true.
Definition cs' (w : option (list R)) (al c a d : R) : state (N:=RNum) :=
  St (N:=RNum) (Cmf (N:=RNum) w (m11 al) [m11 1] (m11 c)) [] [] [MReg (N:=RNum) NonNegativity (m11 a) (m11 d)] None.
Lemma one_iteration E P (Xs : list matR) s s' : valid_state Xs s -> valid_state Xs s' -> inter_ok Xs s -> inter_ok Xs s' -> 0 < data_sumsq Xs ->
  p_tol P = None -> p_abs_tol P = None -> p_feas_tol P = None -> p_return_errors P = true -> outer_step E P Xs s = Ok s' ->
  exists d, run E P Xs 1 s = Ok (s', Some d) /\ d_errors d = [Fin (rel_error Xs (st_cmf s)); Fin (rel_error Xs (st_cmf s'))] /\ d_n_iter d = 1%nat /\
    exists g g', d_gaps d = [g; g'] /\ state_gaps s = Ok g /\ state_gaps s' = Ok g'.
Proof.
  intros V V' HI HI' HD T1 T2 T3 T4 HO. unfold run, init_hist. rewrite (state_loss_ok _ _ _ V HI HD). cbn [bind].
  rewrite (state_gaps_val _ _ V). cbn [bind]. change (Z.to_nat 1) with 1%nat. cbn [ao_loop]. rewrite HO. cbn [bind]. rewrite T1, T2, T3, T4. cbn [otruthy orb].
  rewrite (state_gaps_val _ _ V'). cbn [bind andb negb]. rewrite (state_loss_ok _ _ _ V' HI' HD). cbn [bind h_errors h_gaps h_losses].
  rewrite revalidate_ok by apply V'. cbn [bind]. rewrite (state_error_ok _ _ (proj1 V) HI HD), (state_error_ok _ _ (proj1 V') HI' HD).
  destruct s'. eexists. split; [reflexivity|]. split; [reflexivity|]. split; [reflexivity|]. do 2 eexists. split; [reflexivity|]. split; reflexivity.
Qed.
Lemma cs'_valid w al c a d : (forall v, w = Some v -> length v = 1%nat) -> valid_state [m11 2] (cs' w al c a d).
Proof.
  intros HW. split; [|split; [|split; [constructor|split; [constructor|]]]].
  - split; [|split; [reflexivity|]].
    + split; [apply m11_wf|]. split; [apply m11_wf|]. split; [reflexivity|]. split; [reflexivity|]. split; [|exact HW].
      intros [|i] Hi; [|cbn in Hi; lia]. split; [apply m11_wf|reflexivity].
    + intros [|i] Hi; [|cbn in Hi; lia]. split; [apply m11_wf|split; reflexivity].
  - repeat split; try (cbn; lia). intros [|i] Hi; cbn in *; lia.
  - constructor; [|constructor]. split; [auto|]. split; [exact Logic.I|]. split; (split; [apply m11_wf|split; reflexivity]).
Qed.
Lemma cs'_update E w : svd_correct E 1 ->
  admm_update_C E [m11 2] (Cmf (N:=RNum) w (m11 2) [m11 1] (m11 1)) [MReg (N:=RNum) NonNegativity (m11 1) (m11 0)] 0 1 None 2 =
  Ok (Cmf (N:=RNum) None (m11 2) [m11 1] (m11 1), [MReg (N:=RNum) NonNegativity (m11 1) (m11 0)]).
Proof.
  intros HE. unfold admm_update_C. cbn [cA cBs cC].
  assert (L : msum_list (N:=RNum) (C_lhs_terms [m11 2] [m11 1] (m11 2)) = Some (m11 4)) by (meq; ring).
  assert (H : msum_list (N:=RNum) (C_rhs_terms [m11 2] [m11 1] (m11 2)) = Some (m11 4)) by (meq; ring).
  rewrite L, H. cbv zeta.
  assert (F : feas_penalty (N:=RNum) 2 (m11 4) = 4) by (mcomp; field). rewrite F.
  assert (D : ridge (N:=RNum) (m11 4) 4 1 0 = m11 8) by (meq; field).
  cbn [length]. rewrite D. cbn [inner_loop]. unfold C_step.
  assert (S : shifted_mats (N:=RNum) [MReg (N:=RNum) NonNegativity (m11 1) (m11 0)] = Ok [m11 (1 - 0)]) by reflexivity.
  rewrite S. cbn [bind].
  assert (T : madd (mscale (N:=RNum) 4 (sum_mats (N:=RNum) (mr (m11 4)) (mc (m11 4)) [m11 (1 - 0)])) (m11 4) = m11 8) by (meq; ring).
  rewrite T, solve1 by (auto using m11_wf; lra). cbn [bind].
  assert (U : mscale (N:=RNum) (/ 8) (m11 8) = m11 1) by (meq; field).
  rewrite U. cbn [mapM]. unfold C_reg_step. cbn [g_pen g_dual].
  assert (V : factor_matrix_update E NonNegativity (madd (m11 1) (m11 0)) 4 = Ok (m11 1)).
  { transitivity (@Ok (mat (N:=RNum)) (m11 (Rmax (1 + 0) 0))); [rewrite <- relu_R; reflexivity|]. rewrite Rmax_left by lra. now rewrite Rplus_0_r. }
  rewrite V. cbn [bind]. assert (W : msub (m11 1) (msub (m11 1) (m11 0)) = m11 0) by (meq; ring).
  assert (W2 : subtract_from_aux NonNegativity (m11 1) (m11 0) = Ok (msub (m11 1) (m11 0))) by reflexivity.
  rewrite W2. cbn [bind]. rewrite W. reflexivity.
Qed.
Lemma zero_not_truthy : ntruthy (N:=RNum) 0 = false.
Proof. destruct (ntruthy (N:=RNum) 0) eqn:H; [|reflexivity]. apply ntruthy_true in H. now elim H. Qed.
Lemma parse41 V i : parse_all V (f_kw (args41 i)) RNone (f_aux (args41 i)) (f_dual (args41 i)) =
  let p := [PObj (N:=RNum) NonNegativity (ITensor [1; 1]%nat [1]) (IStr Zeros)] in Ok (p, p, p).
Proof.
  unfold parse_all. cbn [f_kw args41 f_aux f_dual check_regs a_nn a_upper a_lower a_norm a_uni a_l1 a_gl2 a_tv a_pf2 listify bind].
  assert (K : forall ai di, parse_mode V (ModeKw (N:=RNum) (Some true) None None None None false None None None) ai di = Ok [PObj (N:=RNum) NonNegativity ai di]).
  { intros ai di. unfold parse_mode. cbn [k_nn k_lower k_upper k_norm k_uni k_pf2 k_l1 k_tv k_gl2 btruthy bind otruthy]. cbv zeta. cbv iota.
    change (ntruthy (N:=RNum) n0) with (ntruthy (N:=RNum) 0). rewrite zero_not_truthy. reflexivity. }
  rewrite K. reflexivity.
Qed.
Lemma setup41_named V rnd : setup V ie41 rnd (args41 (InitName MParafac)) = Ok (cs' (Some [2]) 1 1 1 0, (None, None, None)).
Proof. unfold setup, args41. cbn [f_svd f_data f_rank f_init f_l2 f_kw f_regs f_aux f_dual f_updA f_updB f_updC negb].
  assert (E1 : initialize_cmf (e_ext V) ie41 rnd [m11 2] (PyInt 1) (InitName MParafac) 0 = Ok (Cmf (N:=RNum) (Some [2]) (m11 1) [m11 1] (m11 1), 0%nat)).
  { reflexivity. }
  rewrite E1. cbn [bind listify]. pose proof (parse41 V (InitName MParafac)) as PA. unfold args41 in PA. cbn [f_kw f_aux f_dual] in PA. rewrite PA. reflexivity.
Qed.
Lemma setup41_given V rnd : setup V ie41 rnd (args41 (InitSeq [py_of_vec (N:=RNum) [2]; PSeq [py_of_mat (m11 1); PSeq [py_of_mat (m11 1)]; py_of_mat (m11 1)]])) =
  Ok (cs' None 2 1 1 0, (None, None, None)).
Proof.
  unfold setup, args41. cbn [f_svd f_data f_rank f_init f_l2 f_kw f_regs f_aux f_dual f_updA f_updB f_updC negb].
  match goal with |- context[initialize_cmf ?a ?b ?c ?d ?e ?f ?g] =>
    assert (E1 : initialize_cmf a b c d e f g = Ok (Cmf (N:=RNum) None (m11 (1 * 2)) [m11 1] (m11 1), 0%nat)) by reflexivity end.
  replace (1 * 2) with 2 in E1 by lra. rewrite E1. cbn [bind listify]. pose proof (parse41 V (InitName MParafac)) as PA. unfold args41 in PA. cbn [f_kw f_aux f_dual] in PA. rewrite PA. reflexivity.
Qed.
Lemma sensible41 V i : init_rank i 1 -> sensible V (args41 i) 1.
Proof.
  intros HI. unfold sensible. cbn [f_data f_rank f_init f_scale f_l2 f_kw f_regs args41]. split; [discriminate|].
  split; [constructor; [|constructor]; split; [apply m11_wf|cbn; lia]|]. split; [reflexivity|]. split; [lia|]. split; [exact HI|]. split; [lra|].
  split; [intros m v _ K; cbn in K; subst v; cbn; lra|].
  split; [intros m r kw _ _ (_ & L & U & _ & _ & _ & _ & G & _); cbn in L, U, G; split; [intros hi K; congruence|intros M K; congruence]|].
  split; [intros m r u _ _ ->; constructor|]. intros [K|(u & -> & K)]; [discriminate K|inversion K].
Qed.
Theorem C41_named_start_refuted : exists (V : envR) IE out1 out2 d1 d2 c0 l pos,
  ranks_kept IE /\ svd_correct (e_ext V) 1 /\ PSeq l = py_of_cmf c0 /\
  (forall rnd, sensible V (args41 (InitName MParafac)) 1 /\ sensible V (args41 (InitSeq l)) 1 /\
    (* both start from the same factorization, which represents the data exactly *)
    initialize_cmf (e_ext V) IE rnd [m11 2] (PyInt 1) (InitName MParafac) 0 = Ok (c0, pos) /\ cmf_entry c0 0 0 0 = 2 /\
    cmf_aoadmm V IE rnd (args41 (InitName MParafac)) = Ok out1 /\ cmf_aoadmm V IE rnd (args41 (InitSeq l)) = Ok out2) /\
  out_diag out1 = Some d1 /\ d_errors d1 = [Fin 0; Fin (1 / 4)] /\
  out_diag out2 = Some d2 /\ d_errors d2 = [Fin 0; Fin 0].
Proof.
  destruct ideal_exists as (E & HE & _). set (V := Env (N:=RNum) E (fun _ => []) true).
  set (l := [py_of_vec (N:=RNum) [2]; PSeq [py_of_mat (m11 1); PSeq [py_of_mat (m11 1)]; py_of_mat (m11 1)]]).
  set (c0 := Cmf (N:=RNum) (Some [2]) (m11 1) [m11 1] (m11 1)).
  set (P := fit_params (N:=RNum) (args41 (InitSeq l)) (None, None, None) (false, false)).
  assert (VW : forall al c a d, valid_state [m11 2] (cs' (Some [2]) al c a d)) by (intros; apply cs'_valid; intros v K; injection K as <-; reflexivity).
  assert (VN : forall al c a d, valid_state [m11 2] (cs' None al c a d)) by (intros; apply cs'_valid; discriminate).
  assert (HD : 0 < data_sumsq [m11 2]) by (rewrite cs_data; lra).
  assert (IO : forall w al c a d, inter_ok [m11 2] (cs' w al c a d)) by (intros; left; reflexivity).
  assert (S1 : outer_step E P [m11 2] (cs' (Some [2]) 1 1 1 0) = Ok (cs' None 1 (3 / 2) (3 / 2) 0)).
  { unfold outer_step, upd_B, upd_C, upd_A. cbn [P fit_params args41 f_updA f_updB f_updC p_updA p_updB p_updC p_l2C p_inner p_inner_tol p_scale bind f_scale f_inner f_inner_tol l2_value].
    cbn [st_cmf st_rC cs'].
    change (admm_update_C E [m11 2] (Cmf (N:=RNum) (Some [2]) (m11 1) [m11 1] (m11 1)) [MReg (N:=RNum) NonNegativity (m11 1) (m11 0)] n0 (Z.to_nat 1) None 2)
      with (admm_update_C E [m11 2] (Cmf (N:=RNum) None (m11 1) [m11 1] (m11 1)) [MReg (N:=RNum) NonNegativity (m11 1) (m11 0)] 0 1 None 2).
    rewrite cs_update by apply HE. cbv zeta. cbn [bind].
    assert (K : forall c a d c' a' d' : R, c = c' -> a = a' -> d = d' -> @Ok (state (N:=RNum)) (cs' None 1 c a d) = Ok (cs' None 1 c' a' d')) by (intros; congruence).
    apply K; rewrite ?Rmax_left by lra; lra. }
  assert (S2 : outer_step E P [m11 2] (cs' None 2 1 1 0) = Ok (cs' None 2 1 1 0)).
  { unfold outer_step, upd_B, upd_C, upd_A. cbn [P fit_params args41 f_updA f_updB f_updC p_updA p_updB p_updC p_l2C p_inner p_inner_tol p_scale bind f_scale f_inner f_inner_tol l2_value].
    cbn [st_cmf st_rC cs'].
    change (admm_update_C E [m11 2] (Cmf (N:=RNum) None (m11 2) [m11 1] (m11 1)) [MReg (N:=RNum) NonNegativity (m11 1) (m11 0)] n0 (Z.to_nat 1) None 2)
      with (admm_update_C E [m11 2] (Cmf (N:=RNum) None (m11 2) [m11 1] (m11 1)) [MReg (N:=RNum) NonNegativity (m11 1) (m11 0)] 0 1 None 2).
    rewrite cs'_update by apply HE. reflexivity. }
  assert (RE : forall w al c a d e, 0 <= e -> residual [m11 2] (st_cmf (cs' w al c a d)) = e ^ 2 -> rel_error [m11 2] (st_cmf (cs' w al c a d)) = e / 2).
  { intros w al c a d e He K. unfold rel_error. rewrite K, cs_data. rewrite !sqrt_pow2 by lra. reflexivity. }
  destruct (one_iteration E P [m11 2] _ _ (VW _ _ _ _) (VN _ _ _ _) (IO _ _ _ _ _) (IO _ _ _ _ _) HD eq_refl eq_refl eq_refl eq_refl S1) as (d1 & R1 & D1 & _).
  destruct (one_iteration E P [m11 2] _ _ (VN _ _ _ _) (VN _ _ _ _) (IO _ _ _ _ _) (IO _ _ _ _ _) HD eq_refl eq_refl eq_refl eq_refl S2) as (d2 & R2 & D2 & _).
  assert (HIST : forall s, valid_state [m11 2] s -> inter_ok [m11 2] s -> exists h, init_hist P [m11 2] s = Ok h).
  { intros s Vs Is. unfold init_hist. rewrite (state_loss_ok _ _ _ Vs Is HD). cbn [bind]. rewrite (state_gaps_val _ _ Vs). cbn [bind]. eauto. }
  destruct (HIST _ (VW 1 1 1 0) (IO _ _ _ _ _)) as (h1 & H1). destruct (HIST _ (VN 2 1 1 0) (IO _ _ _ _ _)) as (h2 & H2).
  exists V, ie41, (Output (N:=RNum) (st_cmf (cs' None 1 (3 / 2) (3 / 2) 0)) None (Some d1)), (Output (N:=RNum) (st_cmf (cs' None 2 1 1 0)) None (Some d2)), d1, d2, c0, l, 0%nat.
  assert (Z1 : rel_error [m11 2] (st_cmf (cs' (Some [2]) 1 1 1 0)) = 0) by (rewrite (RE _ _ _ _ _ 0); [lra|lra|mcomp; ring]).
  assert (Z2 : rel_error [m11 2] (st_cmf (cs' None 2 1 1 0)) = 0) by (rewrite (RE _ _ _ _ _ 0); [lra|lra|mcomp; ring]).
  split; [split; [|split]; intros; try discriminate|].
  { cbn in H. destruct (Z.eqb_spec r 1) as [->|]; [|discriminate H]. injection H as <- _. cbn in H0. destruct H0 as [<-|[<-|[<-|[]]]]; reflexivity. }
  split; [apply HE|]. split; [reflexivity|]. split; [|split; [reflexivity|split; [|split; [reflexivity|]]]].
  - intros rnd. split; [apply sensible41; exact Logic.I|]. split; [apply sensible41; do 5 eexists; reflexivity|].
    split; [reflexivity|]. split; [mcomp; ring|]. split.
    + unfold cmf_aoadmm. rewrite setup41_named. cbn [bind]. cbn [f_data f_const f_n_iter args41 const_flags f_return_vars].
      change (fit_params (N:=RNum) (args41 (InitName MParafac)) (None, None, None) (false, false)) with P. rewrite H1. cbn [bind]. 
      match goal with |- context[run ?e ?p ?x ?n ?s] => change (run e p x n s) with (run E P [m11 2] 1 (cs' (Some [2]) 1 1 1 0)) end. rewrite R1. reflexivity.
    + unfold cmf_aoadmm, l. rewrite setup41_given. fold l. cbn [bind]. cbn [f_data f_const f_n_iter args41 const_flags f_return_vars].
      change (fit_params (N:=RNum) (args41 (InitSeq l)) (None, None, None) (false, false)) with P. rewrite H2. cbn [bind]. 
      match goal with |- context[run ?e ?p ?x ?n ?s] => change (run e p x n s) with (run E P [m11 2] 1 (cs' None 2 1 1 0)) end. rewrite R2. reflexivity.
  - rewrite D1. rewrite Z1. f_equal. f_equal. f_equal. rewrite (RE _ _ _ _ _ (1 / 2)); [lra|lra|]. mcomp. lra.
  - rewrite D2, Z2. reflexivity.
Qed.
Print Assumptions C41_named_start_refuted.
