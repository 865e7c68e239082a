(** Concrete calls that meet the hypotheses of the theorems of P08-P11. *)
From Coq Require Import Reals Lra Lia List Arith Bool ZArith.
From Verif Require Import Num Numpy RFacts Spec SpecFacts MatFacts ModelSpec Penalties PenaltySpec CoupledMatrices CmfSpec CmfProofs Decomp DecompSpec
  DecompFacts ProxProofs AdmmProofs AdmmOne AoLoop AoRun AoMain AoMono TotalRun InitVars InitSpec InitProofs Parse ParseSpec ParseProofs P03_CoupledMatrices P04_Updates P05_Runs P06_Init P07_Parse Fit FitSpec
  FitProofs P08_Fit P09_Calls P10_Start P11_Total DecompExamples Ideal.
Import ListNotations.
Local Open Scope R_scope.

(** ** Two matrices with one column, two and one rows; ridge and non-negativity on all modes, an upper
    bound for B, a norm ball for C given as a penalty object; random start, default tolerances. *)
Definition ex_kw : kwargs (N:=RNum) :=
  KwArgs (AOne (Some true)) (AOne None) (ADict (fun m => if (m =? 1)%nat then Some (Some 5) else None)) (AOne None) (AIter [None; Some true; None]) false (AOne None) (AOne (Some 0)) (AOne (Some GFalse)).
Definition ex_user : list pobjR := [PObj (N:=RNum) (L2Ball 3 true) (IStr Zeros) (IStr RandomStandardNormal)].
Definition ex_args : fitR :=
  FitArgs (N:=RNum) [Mat (N:=RNum) 2 1 [[1]; [2]]; m11 3] (PyInt 1) (InitName MRandom) 7 (AOne (Some (1 / 10))) ex_kw
    (RList [EList []; EList []; EList (map RPen ex_user)]) 1 CB (IStr RandomUniform) (IStr RandomUniform) true
    (Some (1 / 100)) (Some (1 / 1000)) (Some (1 / 10000)) None 5 true true true true true.
Lemma ex_dependable E : dependable (Env (N:=RNum) E (fun _ => []) true) ex_args 1.
Proof.
  assert (UPX : forall m u, (m < 3)%nat -> user_penalties (f_regs ex_args) m u -> u = if (m =? 2)%nat then ex_user else []).
  { intros m u Hm H. eapply user_unique; [exact H|]. destruct m as [|[|[|m]]]; [reflexivity|reflexivity|reflexivity|lia]. }
  assert (KWX : forall m kw, mode_values (f_kw ex_args) m kw -> k_nn kw = Some true /\ k_lower kw = None /\ (forall hi, k_upper kw = Some hi -> hi = 5) /\ k_norm kw = None /\
     (k_uni kw = if (m =? 1)%nat then Some true else None) /\ k_l1 kw = None /\ k_tv kw = Some 0 /\ k_gl2 kw = Some GFalse /\ k_pf2 kw = false).
  { intros m kw (M1 & M2 & M3 & M4 & M5 & M6 & M7 & M8 & M9). cbn in M1, M2, M4, M6, M7, M8, M9. do 2 (split; [assumption|]). split; [|split; [assumption|split; [|auto]]].
    - intros hi E0. rewrite E0 in M3. cbn in M3. destruct (m =? 1)%nat; destruct M3 as [K|(K & K')]; congruence.
    - destruct M5 as (_ & K). destruct m as [|[|[|m]]]; cbn in K |- *; try congruence. destruct m; discriminate. }
  split.
  { unfold sensible. cbn [f_data f_rank f_init f_scale f_l2 ex_args]. split; [discriminate|]. split.
    { repeat constructor. }
    split; [reflexivity|]. split; [lia|]. split; [exact Logic.I|]. split; [lra|]. split; [intros m v _ ->; cbn; lra|]. split.
    - intros m r kw Hm _ MV. destruct (KWX m kw MV) as (K1 & K2 & K3 & K4 & K5 & K6 & K7 & K8 & K9). split.
      + intros hi E0. apply K3 in E0. subst hi. split; [intros lo E1; congruence|intros _; lra].
      + intros M E0. congruence.
    - split.
      + intros m r u Hm _ HU. rewrite (UPX m u Hm HU). destruct (m =? 2)%nat; repeat constructor; cbn; lra.
      + intros [K|(u & HU & K)]; [discriminate K|]. rewrite (UPX 1%nat u ltac:(lia) HU) in K. inversion K. }
  split; [intros X [<-|[<-|[]]]; reflexivity|]. split; [exact Logic.I|]. split; [reflexivity|]. split; [discriminate|].
  split; [eexists; split; [reflexivity|discriminate]|]. split; [eexists; split; [reflexivity|discriminate]|].
  split; [exact Logic.I|]. split; [repeat split; exact Logic.I|]. split.
  { cbn. split.
    - intros e [<-|[<-|[<-|[]]]]; [exists []|exists []|exists ex_user]; now left.
    - intros [|[|[|m]]] Hm; [exists []|exists []|exists ex_user|lia]; reflexivity. }
  split.
  { intros m kw Hm MV. destruct (KWX m kw MV) as (K1 & K2 & K3 & K4 & K5 & K6 & K7 & K8 & K9). unfold acceptable. rewrite K4, K6, K7, K8. cbn.
    split; [lra|]. split; [lra|]. split; [congruence|]. split; [lra|exact Logic.I]. }
  split.
  { intros m Hm _. split; [intros v ->; cbn; lra|]. split.
    - intros kw MV. destruct (KWX m kw MV) as (K1 & K2 & K3 & K4 & K5 & K6 & K7 & K8 & K9). unfold asks_plain. rewrite K6, K7, K8, K9. cbn. auto.
    - intros u HU. rewrite (UPX m u Hm HU). destruct (m =? 2)%nat; [|constructor]. constructor; [|constructor].
      split; [exact Logic.I|]. split; eexists; (split; [reflexivity|discriminate]). }
  split.
  { intros _ _ [(kw & MV & K)|(u & HU & K)].
    - destruct (KWX 0%nat kw MV) as (K1 & K2 & K3 & K4 & K5 & K6 & K7 & K8 & K9). unfold asks_matrixwise in K. rewrite K4, K5, K7, K8 in K. cbn in K.
      destruct K as [K|[K|[K|(M & K)]]]; try discriminate K; lra.
    - rewrite (UPX 0%nat u ltac:(lia) HU) in K. inversion K. }
  intros _. discriminate.
Qed.
Definition no_ext : initextR := InitExt (N:=RNum) (fun _ _ _ => Err ValueError) (fun _ _ _ => Err ValueError) (fun _ _ _ => Err ValueError).
Lemma no_ext_ranks : ranks_kept no_ext.
Proof. repeat split; discriminate. Qed.
(** C27, C32, C33, C34 (fit), C51: the call succeeds. *)
Example ex_fit rnd : exists V out, dependable V ex_args 1 /\ sensible V ex_args 1 /\ ranks_kept no_ext /\ svd_correct (e_ext V) 1 /\ 0 < data_sumsq (f_data ex_args) /\
  user_parafac2_ready ex_args /\ (0 < f_n_iter ex_args)%Z /\ (0 < f_inner ex_args)%Z /\ f_return_vars ex_args = true /\
  user_penalties (f_regs ex_args) 2 ex_user /\ cmf_aoadmm V no_ext rnd ex_args = Ok out.
Proof.
  destruct ideal_exists as (E & HE & _). set (V := Env (N:=RNum) E (fun _ => []) true). destruct (C51_fit_total V no_ext rnd ex_args 1 (ex_dependable E) no_ext_ranks (HE 1%nat)) as (out & H).
  exists V, out. split; [apply ex_dependable|]. split; [apply (proj1 (ex_dependable E))|]. split; [apply no_ext_ranks|]. split; [apply HE|].
  split; [mcomp; lra|]. split.
  { intros u HU. cbn in HU. change (Some (EList []) = Some (EList (map (RPen (N:=RNum)) u))) in HU. destruct u; [constructor|discriminate]. }
  repeat split; try reflexivity. exact H.
Qed.

(** ** No penalties, no ridge term: data 2, A = B = C = 1, only C updated *)
Definition args29 : fitR :=
  FitArgs (N:=RNum) [m11 2] (PyInt 1) (InitSeq [PNone; PSeq [py_of_mat (m11 1); PSeq [py_of_mat (m11 1)]; py_of_mat (m11 1)]]) 1 (AOne None)
    no_kw RNone 1 (CBool false) (IStr Zeros) (IStr Zeros) true None None None None 1 false false true false true.
Definition us (c : R) : state (N:=RNum) := St (N:=RNum) (Cmf (N:=RNum) None (m11 1) [m11 1] (m11 c)) [] [] [] None.
Lemma us_valid c : valid_state [m11 2] (us c).
Proof.
  split; [|split; [|split; [constructor|split; constructor]]].
  - split; [|split; [reflexivity|]].
    + split; [apply m11_wf|]. split; [apply m11_wf|]. split; [reflexivity|]. split; [reflexivity|]. split; [|discriminate].
      intros [|i] Hi; [|cbn in Hi; lia]. split; [apply m11_wf|reflexivity].
    + intros [|i] Hi; [|cbn in Hi; lia]. split; [apply m11_wf|split; reflexivity].
  - repeat split; try (cbn; lia). intros [|i] Hi; cbn in *; lia.
Qed.
Lemma us_update E : svd_correct E 1 -> admm_update_C E [m11 2] (Cmf (N:=RNum) None (m11 1) [m11 1] (m11 1)) [] 0 1 None 1 = Ok (Cmf (N:=RNum) None (m11 1) [m11 1] (m11 2), []).
Proof.
  intros HE. unfold admm_update_C. cbn [cA cBs cC].
  assert (L : msum_list (N:=RNum) (C_lhs_terms [m11 2] [m11 1] (m11 1)) = Some (m11 1)) by (meq; ring).
  assert (H : msum_list (N:=RNum) (C_rhs_terms [m11 2] [m11 1] (m11 1)) = Some (m11 2)) by (meq; ring).
  rewrite L, H. cbv zeta. cbn [length].
  match goal with |- context[lhs_svd E ?m] => assert (D : m = m11 1) by (meq; field) end.
  rewrite D. cbn [inner_loop]. unfold C_step. cbn [shifted_mats mapM bind].
  match goal with |- context[solve_mat _ ?m] => assert (T : m = m11 2) by (meq; ring) end.
  rewrite T, solve1 by (auto using m11_wf; lra). cbn [bind].
  assert (U : mscale (N:=RNum) (/ 1) (m11 2) = m11 2) by (meq; field). rewrite U. reflexivity.
Qed.
Lemma parse29 V : parse_all V (f_kw args29) (f_regs args29) (f_aux args29) (f_dual args29) = Ok ([], [], []).
Proof.
  unfold parse_all. cbn [f_kw f_regs args29 f_aux f_dual check_regs no_kw a_nn a_upper a_lower a_norm a_uni a_l1 a_gl2 a_tv a_pf2 listify bind].
  assert (K : forall ai di, parse_mode V (ModeKw (N:=RNum) None None None None None false None None None) ai di = Ok []).
  { intros ai di. unfold parse_mode. cbn [k_nn k_lower k_upper k_norm k_uni k_pf2 k_l1 k_tv k_gl2 btruthy bind otruthy]. cbv zeta. cbv iota.
    change (ntruthy (N:=RNum) n0) with (ntruthy (N:=RNum) 0). rewrite zero_not_truthy. reflexivity. }
  rewrite K. reflexivity.
Qed.
Example ex_unpenalised rnd : exists V out d, sensible V args29 1 /\ svd_correct (e_ext V) 1 /\ 0 < data_sumsq (f_data args29) /\ unpenalised args29 /\ without_ridge args29 /\
  (0 < f_inner args29)%Z /\ cmf_aoadmm V no_ext rnd args29 = Ok out /\ out_diag out = Some d /\ d_n_iter d = 1%nat /\ Forall (all_gaps not_nan) (d_gaps d) /\
  cC (out_cmf out) = m11 2.
Proof.
  destruct ideal_exists as (E & HE & _). set (V := Env (N:=RNum) E (fun _ => []) true).
  assert (HD : 0 < data_sumsq [m11 2]) by (rewrite cs_data; lra).
  assert (HS : sensible V args29 1).
  { unfold sensible. cbn [f_data f_rank f_init f_scale f_l2 f_kw f_regs args29]. split; [discriminate|].
    split; [constructor; [|constructor]; split; [apply m11_wf|cbn; lia]|]. split; [reflexivity|]. split; [lia|]. split; [do 5 eexists; reflexivity|]. split; [lra|].
    split; [intros m v _ K; cbn in K; subst v; cbn; lra|].
    split; [intros m r kw _ _ (_ & L & U & _ & _ & _ & _ & G & _); cbn in L, U, G; split; [intros hi K; congruence|intros M K; congruence]|].
    split; [intros m r u _ _ ->; constructor|]. intros [K|(u & -> & K)]; [discriminate K|inversion K]. }
  assert (ES : setup V no_ext rnd args29 = Ok (us 1, (None, None, None))).
  { unfold setup, args29. cbn [f_svd f_data f_rank f_init f_l2 f_kw f_regs f_aux f_dual f_updA f_updB f_updC negb].
    match goal with |- context[initialize_cmf ?a ?b ?c ?d ?e ?f ?g] =>
      assert (E1 : initialize_cmf a b c d e f g = Ok (Cmf (N:=RNum) None (m11 1) [m11 1] (m11 1), 0%nat)) by reflexivity end.
    rewrite E1. cbn [bind listify]. pose proof (parse29 V) as PA. unfold args29 in PA. cbn [f_kw f_aux f_dual f_regs] in PA. rewrite PA. reflexivity. }
  set (P := fit_params (N:=RNum) args29 (None, None, None) (false, false)).
  assert (S1 : outer_step E P [m11 2] (us 1) = Ok (us 2)).
  { unfold outer_step, upd_B, upd_C, upd_A. cbn [P fit_params args29 f_updA f_updB f_updC p_updA p_updB p_updC p_l2C p_inner p_inner_tol p_scale bind f_scale f_inner f_inner_tol l2_value].
    cbn [st_cmf st_rC us]. 
    match goal with |- context[admm_update_C E ?x ?c ?r ?l ?n ?t ?q] => change (admm_update_C E x c r l n t q) with (admm_update_C E [m11 2] (Cmf (N:=RNum) None (m11 1) [m11 1] (m11 1)) [] 0 1 None 1) end.
    rewrite us_update by apply HE. reflexivity. }
  destruct (one_iteration E P [m11 2] _ _ (us_valid 1) (us_valid 2) (or_introl eq_refl) (or_introl eq_refl) HD eq_refl eq_refl eq_refl eq_refl S1) as (d & R1 & D1 & D2 & g1 & g2 & DG & G1 & G2).
  assert (OK : cmf_aoadmm V no_ext rnd args29 = Ok (Output (N:=RNum) (st_cmf (us 2)) None (Some d))).
  { unfold cmf_aoadmm. rewrite ES. cbn [bind]. cbn [f_data f_const f_n_iter args29 const_flags f_return_vars].
    match goal with |- context[init_hist ?p ?x ?s] => assert (H1 : exists h, init_hist p x s = Ok h) end.
    { unfold init_hist. change (state_loss (fit_params _ _ _) [m11 2] (us 1)) with (state_loss P [m11 2] (us 1)). rewrite (state_loss_ok _ _ _ (us_valid 1) (or_introl eq_refl) HD). cbn [bind]. rewrite (state_gaps_val _ _ (us_valid 1)). cbn [bind]. eauto. }
    destruct H1 as (h & H1). rewrite H1. cbn [bind]. match goal with |- context[run ?e ?p ?x ?n ?s] => change (run e p x n s) with (run E P [m11 2] 1 (us 1)) end.
    rewrite R1. reflexivity. }
  exists V, (Output (N:=RNum) (st_cmf (us 2)) None (Some d)), d. split; [exact HS|]. split; [apply HE|]. split; [exact HD|]. split.
  { intros m Hm _. split; [|intros u ->; reflexivity]. intros kw (M1 & M2 & M3 & M4 & M5 & M6 & M7 & M8 & M9). cbn in M1, M2, M3, M4, M5, M6, M7, M8, M9.
    unfold asks_nothing, wants. rewrite M1, M2, M3, M4, M5, M6, M7, M8, M9. cbn. repeat split; auto; discriminate. }
  split; [intros m v _ K; cbn in K; now subst v|]. split; [reflexivity|]. split; [exact OK|]. split; [reflexivity|]. split; [exact D2|]. split; [|reflexivity].
  rewrite DG. injection G1 as <-. injection G2 as <-. repeat constructor.
Qed.

(** ** PARAFAC2: two one-row matrices, only B updated *)
Definition args_pf2 : fitR :=
  FitArgs (N:=RNum) [m11 2; m11 3] (PyInt 1) (InitSeq [PNone; PSeq [py_of_mat (Mat (N:=RNum) 2 1 [[1]; [1]]); PSeq [py_of_mat (m11 1); py_of_mat (m11 1)]; py_of_mat (m11 1)]]) 1 (AOne None)
    (KwArgs (AOne None) (AOne None) (AOne None) (AOne None) (AOne None) true (AOne None) (AOne None) (AOne None)) RNone
    1 (CBool false) (IStr Zeros) (IStr Zeros) true None None None None 1 false true false true true.
Definition ps : state (N:=RNum) :=
  St (N:=RNum) (Cmf (N:=RNum) None (Mat (N:=RNum) 2 1 [[1]; [1]]) [m11 1; m11 1] (m11 1)) []
    [BReg (N:=RNum) (Parafac2 1 true true) (APf2 [m11 1; m11 1] (m11 0)) [m11 0; m11 0]] [] None.
Lemma parse_pf2 V : parse_all V (f_kw args_pf2) (f_regs args_pf2) (f_aux args_pf2) (f_dual args_pf2) = Ok ([], [PObj (N:=RNum) (Parafac2 1 true true) (IStr Zeros) (IStr Zeros)], []).
Proof.
  unfold parse_all. cbn [f_kw f_regs args_pf2 f_aux f_dual check_regs a_nn a_upper a_lower a_norm a_uni a_l1 a_gl2 a_tv a_pf2 listify bind].
  assert (K : forall b ai di, parse_mode V (ModeKw (N:=RNum) None None None None None b None None None) ai di = Ok (if b then [PObj (N:=RNum) (Parafac2 1 true true) ai di] else [])).
  { intros b ai di. unfold parse_mode. cbn [k_nn k_lower k_upper k_norm k_uni k_pf2 k_l1 k_tv k_gl2 btruthy bind otruthy]. cbv zeta. cbv iota.
    change (ntruthy (N:=RNum) n0) with (ntruthy (N:=RNum) 0). rewrite zero_not_truthy. destruct b; reflexivity. }
  rewrite !K. reflexivity.
Qed.
Example ex_parafac2 rnd : exists V out, sensible V args_pf2 1 /\ svd_correct (e_ext V) 1 /\ 0 < data_sumsq (f_data args_pf2) /\ user_parafac2_ready args_pf2 /\
  a_pf2 (f_kw args_pf2) = true /\ f_updB args_pf2 = true /\ cmf_aoadmm V no_ext rnd args_pf2 = Ok out.
Proof.
  destruct ideal_exists as (E & HE & _). set (V := Env (N:=RNum) E (fun _ => []) true).
  assert (HD : 0 < data_sumsq [m11 2; m11 3]) by (mcomp; lra).
  assert (HS : sensible V args_pf2 1).
  { unfold sensible. cbn [f_data f_rank f_init f_scale f_l2 f_kw f_regs args_pf2]. split; [discriminate|].
    split; [repeat constructor|]. split; [reflexivity|]. split; [lia|]. split; [do 5 eexists; reflexivity|]. split; [lra|].
    split; [intros m v _ K; cbn in K; subst v; cbn; lra|].
    split; [intros m r kw _ _ (_ & L & U & _ & _ & _ & _ & G & _); cbn in L, U, G; split; [intros hi K; congruence|intros M K; congruence]|].
    split; [intros m r u _ _ ->; constructor|]. intros _ X [<-|[<-|[]]]; cbn; lia. }
  assert (ES : setup V no_ext rnd args_pf2 = Ok (ps, (None, None, None))).
  { unfold setup, args_pf2. cbn [f_svd f_data f_rank f_init f_l2 f_kw f_regs f_aux f_dual f_updA f_updB f_updC negb].
    match goal with |- context[initialize_cmf ?a ?b ?c ?d ?e ?f ?g] =>
      assert (E1 : initialize_cmf a b c d e f g = Ok (st_cmf ps, 0%nat)) by reflexivity end.
    rewrite E1. cbn [bind listify]. pose proof (parse_pf2 V) as PA. unfold args_pf2 in PA. cbn [f_kw f_aux f_dual f_regs] in PA. rewrite PA. reflexivity. }
  destruct (setup_ok _ _ _ _ _ _ _ HS no_ext_ranks ES) as (VS & _ & _ & _).
  set (P := fit_params (N:=RNum) args_pf2 (None, None, None) (false, false)).
  assert (S1 : exists s', outer_step E P [m11 2; m11 3] ps = Ok s' /\ st_inter s' = None).
  { unfold outer_step, upd_B. cbn [P fit_params args_pf2 f_updB p_updB].
    destruct VS as (VD & VN & VA & VB & VC).
    match goal with |- context[admm_update_B E ?x ?c ?r ?l ?n ?t ?q ?b] => 
      destruct (C51_update_B_total E x c l q b r n t (rho_B q c)) as ([c' r'] & EB) end; auto; cbn [p_l2B p_scale fit_params l2_value].
    - rn; lra.
    - cbn; lra.
    - intros i Hi. reflexivity.
    - intros i Hi. split; [|right; split; [|discriminate]].
      + constructor; [|constructor]. split; [discriminate|]. right. cbn in Hi. destruct i as [|[|i]]; [mcomp; lra|mcomp; lra|lia].
      + cbn in Hi. destruct i as [|[|i]]; [mcomp; lra|mcomp; lra|lia].
    - match type of EB with ?l = _ => match goal with |- context[admm_update_B ?e ?x ?c ?r ?l2 ?n ?t ?q ?b] => change (admm_update_B e x c r l2 n t q b) with l end end. rewrite EB. cbn [bind]. unfold upd_C, upd_A. cbn [p_updC p_updA f_updA f_updC]. eexists. split; reflexivity. }
  destruct S1 as (s' & S1 & SI').
  assert (PO : params_ok P) by (eapply fit_params_ok; [exact HS|reflexivity]).
  destruct (outer_step_ok E P [m11 2; m11 3] PO ps s' VS (HE 1%nat) S1) as ((VS' & _) & _).
  destruct (one_iteration E P [m11 2; m11 3] _ _ VS VS' (or_introl eq_refl) (or_introl SI') HD eq_refl eq_refl eq_refl eq_refl S1) as (d & R1 & D1 & D2 & _).
  exists V. eexists. split; [exact HS|]. split; [apply HE|]. split; [exact HD|]. split; [intros u ->; constructor|]. split; [reflexivity|]. split; [reflexivity|].
  unfold cmf_aoadmm. rewrite ES. cbn [bind]. cbn [f_data f_const f_n_iter args_pf2 const_flags f_return_vars].
  match goal with |- context[init_hist ?p ?x ?s] => assert (H1 : exists h, init_hist p x s = Ok h) end.
  { unfold init_hist. change (state_loss (fit_params _ _ _) [m11 2; m11 3] ps) with (state_loss P [m11 2; m11 3] ps). rewrite (state_loss_ok _ _ _ VS (or_introl eq_refl) HD). cbn [bind]. rewrite (state_gaps_val _ _ VS). cbn [bind]. eauto. }
  destruct H1 as (h & H1). rewrite H1. cbn [bind]. match goal with |- context[run ?e ?p ?x ?n ?s] => change (run e p x n s) with (run E P [m11 2; m11 3] 1 ps) end.
  rewrite R1. reflexivity.
Qed.

(** ** C40: a PARAFAC2 object for C; unimodality for A without a constant feasibility penalty *)
Example ex_bad_mode : exists a u : _, updates a 2 = true /\ user_penalties (f_regs a) 2 u /\ Exists (fun o => is_parafac2 (o_pen o)) u.
Proof.
  exists (FitArgs (N:=RNum) [m11 2] (PyInt 1) (InitName MRandom) 1 (AOne None) no_kw
    (RList [EList []; EList []; EList [RPen (PObj (N:=RNum) (Parafac2 1 true true) (IStr Zeros) (IStr Zeros))]]) 1 (CBool false) (IStr Zeros) (IStr Zeros) true None None None None 1 true true true false false).
  exists [PObj (N:=RNum) (Parafac2 1 true true) (IStr Zeros) (IStr Zeros)]. repeat split. now left.
Qed.
Example ex_needs_constant : exists a : fitR, f_data a <> [] /\ f_updA a = true /\ needs_constant_A a /\ constant_for_A (f_const a) = false /\ (0 < f_n_iter a)%Z /\ (0 < f_inner a)%Z.
Proof.
  exists (FitArgs (N:=RNum) [m11 2] (PyInt 1) (InitName MRandom) 1 (AOne None)
    (KwArgs (AOne None) (AOne None) (AOne None) (AOne None) (ADict (fun m => match m with 0%nat => Some (Some true) | _ => None end)) false (AOne None) (AOne None) (AOne None))
    RNone 1 CB (IStr Zeros) (IStr Zeros) true None None None None 1 true true true false false).
  split; [discriminate|]. split; [reflexivity|]. split; [|repeat split].
  left. exists (ModeKw (N:=RNum) None None None None (Some true) false None None None). split; [|right; left; reflexivity].
  repeat split; try reflexivity. now left.
Qed.

(** ** C53: data and an SVD routine with the documented shapes *)
Example ex_svd_start : exists (E : extR) (Xs : list matR), Xs <> [] /\ same_columns Xs /\ (forall X, In X Xs -> mwf X /\ (1 <= mr X)%nat /\ (1 <= mc X)%nat) /\ svd_shapes E 1.
Proof.
  destruct ideal_exists as (E0 & _ & _).
  exists (Ext (N:=RNum) (fun M k => (mones (N:=RNum) (mr M) k, [], mones (N:=RNum) k (mc M))) (x_tv E0)), [Mat (N:=RNum) 2 1 [[1]; [2]]; m11 3].
  split; [discriminate|]. split; [intros X [<-|[<-|[]]]; reflexivity|]. split; [intros X [<-|[<-|[]]]; (split; [repeat constructor|cbn; lia])|].
  intros M W _ _. cbn. split; (split; [apply mwf_mbuild|split; reflexivity]).
Qed.
Example ex_parafac_start : exists IE T (Xs : list matR), create_padded_tensor Xs = Ok T /\ same_columns Xs /\ (forall X, In X Xs -> (0 < mr X)%nat) /\
  exists w A B C pos', i_parafac IE T (PyInt 1) 0 = Ok (Cpt (N:=RNum) w [A; B; C], pos') /\ valid_cp3 w A B C /\ mr A = length Xs /\
    (forall X, In X Xs -> (mr X <= mr B)%nat) /\ mr C = colsX Xs.
Proof.
  exists ie41. eexists. exists [m11 2]. split; [reflexivity|]. split; [intros X [<-|[]]; reflexivity|]. split; [intros X [<-|[]]; cbn; lia|].
  do 5 eexists. split; [reflexivity|]. split; [repeat split; repeat constructor|]. split; [reflexivity|]. split; [intros X [<-|[]]; cbn; lia|reflexivity].
Qed.
