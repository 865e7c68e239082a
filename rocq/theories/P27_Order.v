(** C67: the order of the data matrices plays no part. *)
From Coq Require Import Reals Lra Lia List Arith Bool ZArith Permutation.
From Verif Require Import Num Numpy RFacts MatFacts Spec ModelSpec Penalties PenaltySpec CoupledMatrices CmfSpec CmfProofs Decomp DecompSpec DecompFacts InitVars Parse ParseSpec ParseProofs
  Fit FitSpec FitProofs StartSpec OrderSpec OrderProofs OrderSizes P09_Calls P10_Start P11_Total DecompExamples Ideal FitExamples P25_Starts ReorderSpec ReorderFacts ReorderPen ReorderRun ReorderFit.
Import ListNotations.
Local Open Scope R_scope.

Lemma wide_of (c : rcmf) n : valid_cmf c -> length (cBs c) = n -> wide n (mc (cA c)) (cBs c).
Proof.
  intros (_ & _ & _ & _ & HB & _) L. split; [exact L|]. apply Forall_forall. intros B IB. apply (In_nth _ _ no_mat) in IB as (i & Hi & <-). now destruct (HB i Hi).
Qed.
Lemma tall_of (c : rcmf) n : valid_cmf c -> length (cBs c) = n -> tall n (cA c).
Proof. intros ((W & _) & _ & _ & HrA & _) L. split; congruence. Qed.
Lemma match_cols Xs (c : rcmf) rank b : shapes_match Xs c rank b = true -> length Xs = length (cBs c) /\ (forall X, In X Xs -> mc X = mr (cC c)) /\
  (forall i, (i < length Xs)%nat -> mr (nth i (cBs c) no_mat) = mr (nth i Xs no_mat)) /\ (b = true -> rank = PyInt (Z.of_nat (mc (cA c)))).
Proof.
  unfold shapes_match. intros H. apply andb_prop in H as (H & HR). apply andb_prop in H as (HL & HF). apply Nat.eqb_eq in HL. rewrite forallb_forall in HF. split; [exact HL|].
  assert (K : forall i, (i < length Xs)%nat -> mr (nth i Xs no_mat) = mr (nth i (cBs c) no_mat) /\ mc (nth i Xs no_mat) = mr (cC c)).
  { intros i Hi. specialize (HF (nth i Xs no_mat, nth i (cBs c) no_mat)). rewrite <- combine_nth in HF by exact HL.
    assert (Lc : (i < length (combine Xs (cBs c)))%nat) by (rewrite combine_length; lia). specialize (HF (nth_In _ _ Lc)). rewrite combine_nth in HF by exact HL. cbn [fst snd] in HF.
    apply andb_prop in HF as (H1 & H2). apply Nat.eqb_eq in H1, H2. auto. }
  split; [|split].
  - intros X IX. apply (In_nth _ _ no_mat) in IX as (i & Hi & <-). now destruct (K i Hi).
  - intros i Hi. now destruct (K i Hi).
  - intros ->. cbn [negb orb] in HR. destruct rank as [z|]; [|discriminate]. apply Z.eqb_eq in HR. congruence.
Qed.
Lemma match_re p n (Hp : Permutation p (seq 0 n)) Xs (c : rcmf) rank b : length Xs = n -> length (cBs c) = n -> shapes_match Xs c rank b = true -> shapes_match (reorder p Xs) (cmf_re p c) rank b = true.
Proof.
  intros LX LB H. unfold shapes_match in *. apply andb_prop in H as (H & HR). apply andb_prop in H as (HL & HF). cbn [cmf_re cBs cC cA mreorder mc]. rewrite !(reorder_length p n Hp) by assumption. rewrite Nat.eqb_refl, HR, andb_true_r. cbn [andb].
  rewrite forallb_forall in *. intros x Hx. apply HF. rewrite combine_map2 in *. rewrite <- reorder_map2 in Hx by congruence. apply (in_re p n Hp) in Hx; [exact Hx|]. rewrite length_map2. lia.
Qed.
Lemma order_starts p n (Hp : Permutation p (seq 0 n)) (c c' : rcmf) : length (cBs c) = n -> valid_cmf c -> cmf_in_order p c c' ->
  Cmf (N:=RNum) None (scaled_A c') (cBs c') (cC c') = cmf_re p (Cmf (N:=RNum) None (scaled_A c) (cBs c) (cC c)).
Proof.
  intros LB VC (HW & HA & HB & HC). pose proof (tall_of c n VC LB) as TA. assert (LA : length (me (cA c)) = n) by apply TA.
  apply (rows_re p n Hp (cBs c) LB) in HA; [|exact LA]. apply in_order_reorder in HB; [|now rewrite LB]. unfold cmf_re. cbn [cw cA cBs cC]. rewrite HB, HC. f_equal.
  unfold scaled_A. rewrite HW, HA. destruct (cw c) as [w|]; [|reflexivity]. now apply (mcolscale_re p n Hp).
Qed.

Lemma setup_re p (V : envR) IE rnd (a b : fitR) s l2 : Permutation p (seq 0 (length (f_data a))) -> same_but_order p a b -> rows_alike a -> setup V IE rnd a = Ok (s, l2) ->
  setup V IE rnd b = Ok (state_re p s, l2) /\ f_data b = reorder p (f_data a) /\ exists R K, sok (length (f_data a)) R s /\ state_sized (f_data a) R K s /\ (forall X, In X (f_data a) -> mc X = K).
Proof.
  intros Hp (OD & (c & c' & (VC & l & IL & PL) & (VC' & l' & IL' & PL') & CO) & RO & A1 & A2 & A3 & A4 & S2 & S3 & S4 & S5 & S6 & S7 & S8 & S9 & S10 & S11 & S12 & S13 & S14 & S15 & S16 & S17 & S18) RA H.
  apply (proj1 (in_order_reorder p _ _ Hp)) in OD. set (n := length (f_data a)) in *. unfold setup in *. cbv zeta in *. rewrite S8. destruct (f_svd a); [|discriminate]. cbn [negb] in *.
  rewrite IL in H. rewrite IL'. destruct (given_start (e_ext V) IE rnd (f_data a) (f_rank a) c l 0 VC PL) as (G1 & V1). destruct (given_start (e_ext V) IE rnd (f_data b) (f_rank b) c' l' 0 VC' PL') as (G2 & V2).
  rewrite G1 in H. rewrite G2. cbn [bind] in *. rewrite S4, S5. destruct (listify (f_l2 a)) as [l2'|]; [|discriminate]. cbn [bind] in *. rewrite A1, A2 in H. rewrite A3, A4.
  destruct (parse_all V (f_kw a) (f_regs a) (IStr Zeros) (IStr Zeros)) as [[[rA rB] rC]|] eqn:EP; [|discriminate]. cbn [bind] in H.
  destruct (parse_re p V _ _ _ _ _ _ RO EP) as (rA' & rB' & rC' & EP' & FA & FB & ->). rewrite EP'. cbn [bind]. rewrite S14, S15, S16, S2.
  assert (FA0 : Forall2 (fun o o' : pobj (N:=RNum) => pen_in_order p 0 o o' /\ order_free (o_pen o)) (if f_updA a then rA else []) (if f_updA a then rA' else [])).
  { destruct (f_updA a) eqn:EU; [|constructor]. destruct (RA EU) as (RA1 & RA2).
    destruct (parse_all_ok _ _ _ _ _ _ EP 0%nat ltac:(lia)) as (kw & pa & u & MV & PM & U & EQ). cbn [pick] in EQ. destruct (RA1 kw MV) as (Q1 & Q2 & Q3).
    assert (QP : k_pf2 kw = false) by (destruct MV as (_ & _ & _ & _ & _ & _ & _ & _ & E9); rewrite E9; apply andb_false_r).
    assert (OF : Forall (fun o => order_free (o_pen o)) rA) by (change (fst (fst (rA, rB, rC))) with rA in EQ; rewrite EQ; apply Forall_app; split; [eapply parsed_order_free; eauto|now apply RA2]).
    clear - FA OF. induction FA as [|o o' x y HO FA IH]; [constructor|]. inversion OF; subst. constructor; auto. }
  assert (FB0 : Forall2 (pen_in_order p 1) (if f_updB a then rB else []) (if f_updB a then rB' else [])) by (destruct (f_updB a); [exact FB|constructor]).
  set (tA := if f_updA a then rA else []) in *. set (tA' := if f_updA a then rA' else []) in *. set (tB := if f_updB a then rB else []) in *. set (tB' := if f_updB a then rB' else []) in *. set (tC := if f_updC a then rC else []) in *.
  clearbody tA tA' tB tB' tC. unfold initialize_aux, initialize_dual, initialize in *.
  destruct (mapS (fun o => init_aux rnd true o (f_data a) (f_rank a) (PyInt 0)) tA 0) as [[aA q1]|] eqn:EA1; [|discriminate]. cbn [bind] in H.
  destruct (mapS (fun o => init_aux rnd true o (f_data a) (f_rank a) (PyInt 1)) tB q1) as [[aB q2]|] eqn:EB1; [|discriminate]. cbn [bind] in H.
  destruct (mapS (fun o => init_aux rnd true o (f_data a) (f_rank a) (PyInt 2)) tC q2) as [[aC q3]|] eqn:EC1; [|discriminate]. cbn [bind] in H.
  destruct (mapS (fun o => init_dual rnd o (f_data a) (f_rank a) (PyInt 0)) tA q3) as [[dA q4]|] eqn:EA2; [|discriminate]. cbn [bind] in H.
  destruct (mapS (fun o => init_dual rnd o (f_data a) (f_rank a) (PyInt 1)) tB q4) as [[dB q5]|] eqn:EB2; [|discriminate]. cbn [bind] in H.
  destruct (mapS (fun o => init_dual rnd o (f_data a) (f_rank a) (PyInt 2)) tC q5) as [[dC q6]|] eqn:EC2; [|discriminate]. cbn [bind] in H.
  set (c1 := Cmf (N:=RNum) None (scaled_A c) (cBs c) (cC c)) in *.
  match type of H with (if negb ?e then _ else _) = _ => destruct e eqn:ESM; [|discriminate] end. cbn [negb] in H.
  destruct (match_cols _ _ _ _ ESM) as (ML & MC & MR & MK). change (length (f_data a)) with n in ML. symmetry in ML. assert (LB : length (cBs c) = n) by exact ML.
  rewrite (order_starts p n Hp c c' LB VC CO).
  destruct (make_mregs tA aA dA) as [gA|] eqn:MA; [|discriminate]. cbn [bind] in H. destruct (make_bregs tB aB dB) as [gB|] eqn:MB; [|discriminate]. cbn [bind] in H. destruct (make_mregs tC aC dC) as [gC|] eqn:MC'; [|discriminate]. cbn [bind] in H.
  injection H as <- <-.
  destruct (mode0_re p n Hp (f_data a) eq_refl (mr (cC c1)) MC (f_rank a) rnd _ _ _ _ _ _ _ _ FA0 EA1 q3 EA2 MA) as (-> & -> & GA & aA' & dA' & K1 & K2 & K3).
  assert (HR : tB <> [] -> f_rank a = PyInt (Z.of_nat (mc (cA c1)))).
  { intros NB. apply MK. destruct tB as [|o tB]; [now destruct NB|]. cbn. now rewrite andb_false_r. }
  destruct (mode1_re p n Hp (f_data a) eq_refl (f_rank a) (mc (cA c1)) rnd _ _ _ _ _ _ _ _ FB0 HR EB1 _ EB2 MB) as (-> & -> & GB & aB' & dB' & K4 & K5 & K6).
  rewrite <- OD in K1, K2, K4, K5. rewrite K1. cbn [bind]. rewrite K4. cbn [bind].
  rewrite (mapS_ext (fun o => init_aux rnd true o (f_data b) (f_rank a) (PyInt 2)) (fun o => init_aux rnd true o (f_data a) (f_rank a) (PyInt 2))) by (intros; rewrite OD; apply (init2_aux_re p n Hp (f_data a) eq_refl _ MC)).
  rewrite EC1. cbn [bind]. rewrite K2. cbn [bind]. rewrite K5. cbn [bind].
  rewrite (mapS_ext (fun o => init_dual rnd o (f_data b) (f_rank a) (PyInt 2)) (fun o => init_dual rnd o (f_data a) (f_rank a) (PyInt 2))) by (intros; rewrite OD; apply (init2_re p n Hp (f_data a) eq_refl _ MC)).
  rewrite EC2. cbn [bind].
  assert (EN : is_nil tA' && is_nil tB' && is_nil tC = is_nil tA && is_nil tB && is_nil tC) by (destruct FA0, FB0; reflexivity).
  rewrite EN, OD. pose proof (match_re p n Hp _ c1 _ _ eq_refl LB ESM) as SM. fold c1. rewrite SM. cbn [negb bind]. rewrite K3. cbn [bind]. rewrite K6. cbn [bind]. rewrite MC'. cbn [bind].
  split; [reflexivity|]. split; [reflexivity|]. exists (mc (cA c1)), (mr (cC c1)).
  assert (TA := tall_of c1 n V1 LB). assert (WB := wide_of c1 n V1 LB). pose proof V1 as (W1 & W2 & W3 & W4 & W5 & W6).
  split; [|split; [|exact MC]].
  - split; [split; [exact TA|split; [exact WB|split; [exact W3|reflexivity]]]|]. split; [exact GA|]. split; [exact GB|exact Logic.I].
  - split.
    + split; [split; [exact (proj1 TA)|split; [reflexivity|split; [exact (proj2 TA)|exact (proj2 W1)]]]|]. split; [exact LB|]. split; [|split; [reflexivity|split; [exact W3|split; [apply W2|]]]].
      * intros i Hi. destruct (W5 i (eq_ind_r (fun k => (i < k)%nat) Hi LB)) as ((Q1 & Q2) & Q3). unfold nthB in *. change (Mat 0 0 []) with no_mat. cbn [cBs st_cmf c1] in *.
        rewrite Q3 in Q2. split; [now apply MR|]. split; [exact Q3|]. split; [rewrite Q1; now apply MR|exact Q2].
      * rewrite <- W3. apply W2.
    + cbn [st_rB]. eapply Forall_impl; [|exact GB]. intros g (AX & LD). split; [exact LD|]. destruct (b_aux g); cbn in AX; [exact AX|apply AX].
Qed.
Lemma run_re p (E : ext (N:=RNum)) P Xs N s s' d R K : Permutation p (seq 0 (length Xs)) -> right_width E -> (forall X, In X Xs -> mc X = K) -> sok (length Xs) R s -> state_sized Xs R K s ->
  run E P Xs N s = Ok (s', d) -> run E P (reorder p Xs) N (state_re p s) = Ok (state_re p s', d) /\ sok (length Xs) R s'.
Proof.
  intros Hp HE HK SO SZ H. unfold run in *. destruct (init_hist P Xs s) as [h0|] eqn:EH; [|discriminate]. cbn [bind] in H. rewrite (init_hist_re p _ Hp R Xs eq_refl P s h0 SO EH). cbn [bind].
  destruct (ao_loop E P Xs (Z.to_nat N) 0 s h0) as [[[[s1 h] it] msg]|] eqn:EL; [|discriminate]. cbn [bind] in H.
  destruct (loop_re p _ Hp E HE R Xs eq_refl K HK P _ _ _ _ _ _ _ _ SO EL) as (KL & SO1). rewrite KL. cbn [bind].
  destruct (loop_sizes E (HV E HE) Xs R K HK P _ _ _ _ _ _ _ _ SZ EL) as ((F1 & _) & _).
  assert (V1 : valid_cmf (st_cmf s1) /\ valid_cmf (cmf_re p (st_cmf s1))).
  { destruct F1 as (FA & LB & FB & FC). destruct SO1 as ((TA & WB & HC & HN) & _). destruct FA as (Q1 & Q2 & Q3 & Q4). destruct FC as (Q5 & Q6 & Q7 & Q8).
    assert (BV : forall i, (i < length (cBs (st_cmf s1)))%nat -> mwf (nthB (st_cmf s1) i) /\ mc (nthB (st_cmf s1) i) = R).
    { intros i Hi. rewrite LB in Hi. destruct (FB i Hi) as (P1 & P2 & P3 & P4). unfold nthB. change no_mat with (Mat (N:=RNum) 0 0 []). split; [|exact P2]. split; [congruence|]. now rewrite P2. }
    assert (CV : mwf (cC (st_cmf s1))) by (split; [congruence|now rewrite Q6]).
    split.
    - split; [split; [congruence|now rewrite Q2]|]. split; [exact CV|]. split; [congruence|]. split; [congruence|]. split; [intros i Hi; rewrite Q2; now apply BV|]. intros w Hw. congruence.
    - unfold cmf_re. split; [split; cbn [cA mreorder mr mc me]; [rewrite (reorder_length p _ Hp); congruence|]|].
      { rewrite Q2. apply Forall_forall. intros row Hr. apply (in_re p _ Hp) in Hr; [|exact Q3]. rewrite Forall_forall in Q4. now apply Q4. }
      cbn [cA cBs cC cw mreorder mr mc me]. split; [exact CV|]. split; [congruence|]. split; [rewrite (reorder_length p _ Hp); congruence|]. split; [|intros w Hw; congruence].
      intros i Hi. rewrite (reorder_length p _ Hp) in Hi by exact LB. unfold nthB. cbn [cBs]. rewrite (reorder_nth p _ Hp) by assumption. rewrite Q2. apply BV. rewrite LB. apply (p_lt p _ Hp), nth_In; rewrite (p_len p _ Hp); exact Hi. }
  destruct V1 as (V1 & V2). match type of H with (let* feas := ?e in _) = _ => destruct e as [feas|] eqn:EF; [|discriminate] end. cbn [bind] in H. rewrite (revalidate_ok _ V1) in H. cbn [bind] in H.
  assert (KF : match p_feas_tol P with Some t => if ntruthy t && p_return_errors P then let* g := state_gaps (state_re p s1) in Ok (Some (check_feasibility g t)) else Ok None | None => Ok None end = Ok feas).
  { destruct (p_feas_tol P) as [t|]; [|exact EF]. destruct (ntruthy t && p_return_errors P); [|exact EF]. destruct (state_gaps s1) as [g|] eqn:EG; [|discriminate]. now rewrite (state_gaps_re p _ Hp R _ _ SO1 EG). }
  rewrite KF. cbn [bind]. change (st_cmf (state_re p s1)) with (cmf_re p (st_cmf s1)). rewrite (revalidate_ok _ V2). cbn [bind].
  assert (SS : sok (length Xs) R (St (st_cmf s1) (st_rA s1) (st_rB s1) (st_rC s1) (st_inter s1))) by (destruct s1; exact SO1).
  destruct (p_return_errors P); injection H as <- <-; (split; [reflexivity|exact SS]).
Qed.

(** If call b is call a with the data matrices, the rows of the start's A, its B_i and the
    initial auxiliary and dual variables in the order p, then it returns the same C, the same
    diagnostics (errors, losses, gaps, number of iterations, message), and A, the B_i and the variables
    of modes 0 and 1 in the order p. *)
Theorem C67_order p (V : envR) IE rnd (a b : fitR) out :
  right_width (e_ext V) -> Permutation p (seq 0 (length (f_data a))) -> same_but_order p a b -> rows_alike a ->
  cmf_aoadmm V IE rnd a = Ok out ->
  exists out', cmf_aoadmm V IE rnd b = Ok out' /\ output_in_order p out out'.
Proof.
  intros HE Hp SB RA H. unfold cmf_aoadmm in H. destruct (setup V IE rnd a) as [[s l2]|] eqn:ES; [|discriminate]. cbn [bind] in H.
  destruct (setup_re p V IE rnd a b s l2 Hp SB RA ES) as (KS & OD & R & K & SO & SZ & HK).
  destruct SB as (_ & _ & _ & _ & _ & _ & _ & S2 & S3 & S4 & S5 & S6 & S7 & S8 & S9 & S10 & S11 & S12 & S13 & S14 & S15 & S16 & S17 & S18).
  assert (PP : forall fl, fit_params b l2 fl = fit_params a l2 fl).
  { intros fl. unfold fit_params. destruct l2 as [[? ?] ?]. now rewrite S6, S13, S12, S14, S15, S16, S9, S10, S11, S18. }
  unfold cmf_aoadmm. rewrite KS. cbn [bind]. rewrite PP, OD, S7, S3, S17. destruct (init_hist _ (f_data a) s) as [h|] eqn:EH; [|discriminate]. cbn [bind] in H.
  rewrite (init_hist_re p _ Hp R _ eq_refl _ s h SO EH). cbn [bind]. destruct (const_flags (f_const a)) as [fl|]; [|discriminate]. cbn [bind] in *. rewrite PP.
  destruct (run (e_ext V) _ (f_data a) _ s) as [[s' d]|] eqn:ER; [|discriminate]. cbn [bind] in H. injection H as <-.
  destruct (run_re p _ _ _ _ _ _ _ _ _ Hp HE HK SO SZ ER) as (KR & ((TA & (LB & _) & _) & GA & GB & _)). rewrite KR. cbn [bind]. eexists. split; [reflexivity|].
  split; [|split; [reflexivity|]].
  - cbn [out_cmf state_re st_cmf]. split; [reflexivity|]. split; [apply (rows_re p _ Hp (f_data a) eq_refl); [apply TA|reflexivity]|]. split; [|reflexivity]. apply in_order_reorder; [rewrite LB; exact Hp|reflexivity].
  - cbn [out_vars]. destruct (f_return_vars a); [|exact Logic.I]. unfold vars_of, vars_in_order, state_re. cbn [st_rA st_rB st_rC v_auxA v_auxB v_auxC v_dualA v_dualB v_dualC]. rewrite !map_map.
    assert (M2 : forall {T U} (P : U -> U -> Prop) (f g : T -> U) (Q : T -> Prop) l, Forall Q l -> (forall x, Q x -> P (f x) (g x)) -> Forall2 P (map f l) (map g l)).
    { intros T U P f g Q l0 F0 HPQ. induction F0; constructor; auto. }
    split; [|split; [|split; [|split; [|split]]]]; try reflexivity.
    + apply (M2 _ _ _ _ _ _ _ GA). intros g (_ & T1 & _). apply (rows_re p _ Hp (f_data a) eq_refl); [apply T1|reflexivity].
    + apply (M2 _ _ _ _ _ _ _ GB). intros g (AX & _). cbn. destruct (b_aux g) as [l0|bb cc]; cbn in *; [apply in_order_reorder; [rewrite AX; exact Hp|reflexivity]|].
      split; [|reflexivity]. destruct AX as ((AX & _) & _). apply in_order_reorder; [rewrite AX; exact Hp|reflexivity].
    + apply (M2 _ _ _ _ _ _ _ GA). intros g (_ & _ & T1). apply (rows_re p _ Hp (f_data a) eq_refl); [apply T1|reflexivity].
    + apply (M2 _ _ _ _ _ _ _ GB). intros g (_ & LD). cbn. apply in_order_reorder; [rewrite LD; exact Hp|reflexivity].
Qed.
Print Assumptions C67_order.

(** ** The other direction *)
Lemma inverse_order p n : Permutation p (seq 0 n) -> exists q, Permutation q (seq 0 n) /\ forall k i, nth_error q k = Some i -> nth_error p i = Some k.
Proof.
  intros Hp. assert (EX : forall k, (k < n)%nat -> exists i, nth_error p i = Some k).
  { intros k Hk. apply In_nth_error. apply (Permutation_in _ (Permutation_sym Hp)). apply in_seq. lia. }
  assert (Q : forall m, (m <= n)%nat -> exists q, length q = m /\ forall k i, nth_error q k = Some i -> nth_error p i = Some k).
  { induction m as [|m IH]; intros Hm; [exists []; split; [reflexivity|]; now intros [|k]|]. destruct IH as (q & L & HQ); [lia|]. destruct (EX m ltac:(lia)) as (i & Hi). exists (q ++ [i]).
    split; [rewrite app_length; cbn; lia|]. intros k j Hk. destruct (Nat.lt_ge_cases k m) as [C|C]; [rewrite nth_error_app1 in Hk by lia; now apply HQ|].
    rewrite nth_error_app2 in Hk by lia. destruct (k - length q)%nat as [|d] eqn:ED; [|now destruct d]. injection Hk as <-. now replace k with m by lia. }
  destruct (Q n ltac:(lia)) as (q & L & HQ). exists q. split; [|exact HQ]. apply NoDup_Permutation_bis; [|rewrite seq_length; lia|].
  - apply NoDup_nth_error. intros i j Hi E0. destruct (nth_error q i) as [x|] eqn:E1; [|apply nth_error_None in E1; lia]. apply HQ in E1. symmetry in E0. apply HQ in E0. congruence.
  - intros x Hx. apply In_nth_error in Hx as (k & Hk). apply HQ in Hk. apply in_seq. assert (x < length p)%nat by (apply nth_error_Some; congruence). rewrite (Permutation_length Hp), seq_length in H. lia.
Qed.
Section Back.
Variables (p q : list nat).
Hypothesis HQ : forall k i, nth_error q k = Some i -> nth_error p i = Some k.
Lemma in_order_back {T} (l l' : list T) : in_order p l l' -> in_order q l' l.
Proof. intros (L & H). split; [now symmetry|]. intros k i Hk. symmetry. now apply H, HQ. Qed.
Lemma rows_back M M' : rows_in_order p M M' -> rows_in_order q M' M.
Proof. intros (H1 & H2 & H3). split; [now symmetry|]. split; [now symmetry|now apply in_order_back]. Qed.
Lemma cmf_back c c' : cmf_in_order p c c' -> cmf_in_order q c' c.
Proof. intros (H1 & H2 & H3 & H4). split; [now symmetry|]. split; [now apply rows_back|]. split; [now apply in_order_back|now symmetry]. Qed.
Lemma init_back m i i' : init_in_order p m i i' -> init_in_order q m i' i.
Proof. intros [m0|M M' W W' H|l l' H|l l' c H|v]; constructor; auto using rows_back, in_order_back. Qed.
Lemma pens_back m u v : Forall2 (pen_in_order p m) u v -> Forall2 (pen_in_order q m) v u.
Proof. induction 1 as [|o o' u v (H1 & H2 & H3) F IH]; constructor; auto. split; [now symmetry|]. split; now apply init_back. Qed.
Lemma regs_back r r' : regs_in_order p r r' -> regs_in_order q r' r.
Proof.
  intros [(-> & ->)|(u0 & u1 & u2 & v0 & v1 & v2 & -> & -> & F0 & F1 & F2)]; [now left|]. right. exists v0, v1, v2, u0, u1, u2. split; [reflexivity|]. split; [reflexivity|]. split; [|split]; now apply pens_back.
Qed.
Lemma same_back a b : same_but_order p a b -> same_but_order q b a.
Proof.
  intros (OD & (c & c' & SA & SB & CO) & RO & A1 & A2 & A3 & A4 & S2 & S3 & S4 & S5 & S6 & S7 & S8 & S9 & S10 & S11 & S12 & S13 & S14 & S15 & S16 & S17 & S18).
  split; [now apply in_order_back|]. split; [exists c', c; split; [exact SB|split; [exact SA|now apply cmf_back]]|]. split; [now apply regs_back|]. repeat (split; [first [assumption|symmetry; assumption]|]). now symmetry.
Qed.
End Back.
Lemma alike_back p a b : same_but_order p a b -> rows_alike a -> rows_alike b.
Proof.
  intros (_ & _ & RO & _ & _ & _ & _ & _ & _ & _ & S5 & _ & _ & _ & _ & _ & _ & _ & _ & S14 & _) H. unfold rows_alike in *. rewrite S14, S5. intros U. destruct (H U) as (H1 & H2). split; [exact H1|].
  destruct RO as [(E1 & E2)|(u0 & u1 & u2 & v0 & v1 & v2 & E1 & E2 & F0 & _)]; intros u HU; rewrite E2 in HU; [rewrite E1 in H2; now apply H2|]. rewrite E1 in H2. specialize (H2 u0 eq_refl). cbn in HU. injection HU as HU.
  apply (f_equal pens) in HU. rewrite !pens_map in HU. subst u. clear - F0 H2. induction F0 as [|o o' u v (EP & _) F IH]; [constructor|]. inversion H2; subst. constructor; [now rewrite EP|auto].
Qed.
(** One of the two calls returns if and only if the other does. *)
Theorem C67_both_return p (V : envR) IE rnd (a b : fitR) :
  right_width (e_ext V) -> Permutation p (seq 0 (length (f_data a))) -> same_but_order p a b -> rows_alike a ->
  (exists out, cmf_aoadmm V IE rnd a = Ok out) <-> (exists out, cmf_aoadmm V IE rnd b = Ok out).
Proof.
  intros HE Hp SB RA. split; intros (out & H).
  - destruct (C67_order p V IE rnd a b out HE Hp SB RA H) as (out' & H' & _). now exists out'.
  - destruct (inverse_order p _ Hp) as (q & Hq & HQ). assert (L : length (f_data b) = length (f_data a)) by apply SB. rewrite <- L in Hq.
    destruct (C67_order q V IE rnd b a out HE Hq (same_back p q HQ a b SB) (alike_back p a b SB RA) H) as (out' & H' & _). now exists out'.
Qed.
Print Assumptions C67_both_return.

(** ** A call that meets the hypotheses: data (1), (3) and (3), (1); start A = (1, 2), B = (5), (7), C = (1) and
    A = (2, 1), B = (7), (5), C = (1); ridge terms; non-negativity on all modes *)
Definition start67 (a0 a1 b0 b1 : R) : rcmf := Cmf (N:=RNum) None (Mat 2 1 [[a0]; [a1]]) [m11 b0; m11 b1] (m11 1).
Definition args67 (Xs : list matR) (c : rcmf) : fitR :=
  FitArgs (N:=RNum) Xs (PyInt 1) (InitSeq (seq66 c)) 3 (AOne (Some (1 / 10)))
    (KwArgs (AOne (Some true)) (AOne None) (AOne None) (AOne None) (AOne None) false (AOne None) (AOne None) (AOne None)) RNone
    1 (CBool false) (IStr Zeros) (IStr Zeros) true (Some (1 / 100)) (Some (1 / 1000)) (Some (1 / 10000)) None 5 true true true true true.
Definition a67 : fitR := args67 [m11 1; m11 3] (start67 1 2 5 7).
Definition b67 : fitR := args67 [m11 3; m11 1] (start67 2 1 7 5).
Lemma start67_valid a0 a1 b0 b1 : valid_cmf (start67 a0 a1 b0 b1).
Proof.
  split; [repeat constructor|]. split; [repeat constructor|]. split; [reflexivity|]. split; [reflexivity|]. split; [|discriminate].
  intros [|[|i]] Hi; [split; [apply m11_wf|reflexivity]|split; [apply m11_wf|reflexivity]|cbn in Hi; lia].
Qed.
Lemma ex_same_but_order : same_but_order [1; 0]%nat a67 b67.
Proof.
  assert (IO : forall {T} (x y : T), in_order [1; 0]%nat [x; y] [y; x]).
  { intros T x y. split; [reflexivity|]. intros [|[|k]] i Hk; cbn in Hk; try (injection Hk as <-; reflexivity). now destruct k. }
  split; [apply IO|]. split.
  { exists (start67 1 2 5 7), (start67 2 1 7 5). split; [split; [apply start67_valid|exists (seq66 (start67 1 2 5 7)); split; reflexivity]|].
    split; [split; [apply start67_valid|exists (seq66 (start67 2 1 7 5)); split; reflexivity]|].
    split; [reflexivity|]. split; [split; [reflexivity|split; [reflexivity|apply IO]]|]. split; [apply IO|reflexivity]. }
  split; [left; split; reflexivity|]. repeat split.
Qed.
Lemma a67_kw m kw : mode_values (f_kw a67) m kw -> k_nn kw = Some true /\ k_lower kw = None /\ k_upper kw = None /\ k_norm kw = None /\
  k_uni kw = None /\ k_l1 kw = None /\ k_tv kw = None /\ k_gl2 kw = None /\ k_pf2 kw = false.
Proof. intros (M1 & M2 & M3 & M4 & M5 & M6 & M7 & M8 & M9). cbn in *. auto 12. Qed.
Lemma a67_dependable E : dependable (Env (N:=RNum) E (fun _ => []) true) a67 1.
Proof.
  assert (UPX : forall m u, user_penalties (f_regs a67) m u -> u = []) by (intros m u H; exact H).
  assert (KWX := a67_kw).
  split.
  { unfold sensible. split; [discriminate|]. split; [repeat constructor|].
    split; [reflexivity|]. split; [lia|]. split; [do 5 eexists; reflexivity|]. split; [cbn; lra|]. split; [intros m v _ ->; cbn; lra|]. split.
    - intros m r kw Hm _ MV. destruct (KWX m kw MV) as (K1 & K2 & K3 & K4 & K5 & K6 & K7 & K8 & K9). split; [intros hi E0; congruence|intros M E0; congruence].
    - split.
      + intros m r u Hm _ HU. rewrite (UPX m u HU). constructor.
      + intros [K|(u & HU & K)]; [discriminate K|]. rewrite (UPX 1%nat u HU) in K. inversion K. }
  split; [intros X [<-|[<-|[]]]; reflexivity|]. split.
  { exists (start67 1 2 5 7). split; [reflexivity|]. split; [|reflexivity]. split; [apply start67_valid|]. split; [reflexivity|].
    intros [|[|i]] Hi; [split; [apply m11_wf|split; reflexivity]|split; [apply m11_wf|split; reflexivity]|cbn in Hi; lia]. }
  split; [reflexivity|]. split; [discriminate|].
  split; [eexists; split; [reflexivity|discriminate]|]. split; [eexists; split; [reflexivity|discriminate]|].
  split; [exact Logic.I|]. split; [repeat split; exact Logic.I|]. split; [exact Logic.I|]. split.
  { intros m kw Hm MV. destruct (KWX m kw MV) as (K1 & K2 & K3 & K4 & K5 & K6 & K7 & K8 & K9). unfold acceptable. rewrite K4, K6, K7, K8. cbn.
    split; [lra|]. split; [lra|]. split; [intros K; now destruct K|]. split; [lra|exact Logic.I]. }
  split.
  { intros m Hm _. split; [intros v ->; cbn; lra|]. split.
    - intros kw MV. destruct (KWX m kw MV) as (K1 & K2 & K3 & K4 & K5 & K6 & K7 & K8 & K9). unfold asks_plain. rewrite K6, K7, K8, K9. cbn. auto.
    - intros u HU. rewrite (UPX m u HU). constructor. }
  split.
  { intros _ _ [(kw & MV & K)|(u & HU & K)].
    - destruct (KWX 0%nat kw MV) as (K1 & K2 & K3 & K4 & K5 & K6 & K7 & K8 & K9). unfold asks_matrixwise, wants in K. rewrite K4, K5, K7, K8 in K. cbn in K.
      destruct K as [K|[K|[K|(M & K)]]]; try discriminate K; lra.
    - rewrite (UPX 0%nat u HU) in K. inversion K. }
  intros K. discriminate.
Qed.
Lemma exact_svd_right_width : exists E : ext (N:=RNum), right_width E /\ forall k, svd_correct E k.
Proof.
  destruct ideal_exists as (E & HE & _).
  exists (Ext (N:=RNum) (fun M k => if Nat.eqb (mc (snd (x_svd E M k))) (mc M) then x_svd E M k else (M, [], M)) (x_tv E)). split.
  - intros M. cbn [x_svd]. destruct (Nat.eqb_spec (mc (snd (x_svd E M (mc M)))) (mc M)) as [K|K]; [exact K|reflexivity].
  - intros k M W Mk Hk. cbn [x_svd]. pose proof (HE k M W Mk Hk) as H. destruct (x_svd E M k) as [[U s] Vh] eqn:EX. cbn [snd]. destruct H as (H1 & H2 & H3 & H4 & H5 & H6 & H7 & H8).
    rewrite (proj2 (Nat.eqb_eq _ _) H7). repeat (split; [assumption|]). exact H8.
Qed.
Example C67_nonvacuous rnd : exists V out, right_width (e_ext V) /\ Permutation [1; 0]%nat (seq 0 (length (f_data a67))) /\ same_but_order [1; 0]%nat a67 b67 /\ rows_alike a67 /\
  cmf_aoadmm V no_ext rnd a67 = Ok out.
Proof.
  destruct exact_svd_right_width as (E & HW & HE). set (V := Env (N:=RNum) E (fun _ => []) true).
  destruct (C51_fit_total V no_ext rnd _ 1 (a67_dependable E) no_ext_ranks (HE 1%nat)) as (out & H). exists V, out. split; [exact HW|]. split; [apply perm_swap|]. split; [apply ex_same_but_order|].
  split; [|exact H]. intros _. split.
  - intros kw MV. destruct (a67_kw 0%nat kw MV) as (K1 & K2 & K3 & K4 & K5 & K6 & K7 & K8 & K9). rewrite K5, K7, K8. split; [discriminate|]. split; [reflexivity|now left].
  - intros u ->. constructor.
Qed.
