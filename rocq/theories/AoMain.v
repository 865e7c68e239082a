(** Whole runs. *)
From Coq Require Import Reals Lra Lia List Arith Bool Classical_Prop FunctionalExtensionality ZArith.
From Verif Require Import Num Numpy Unimodal RFacts Spec SpecFacts MatFacts SvdFacts ModelSpec Penalties PenaltySpec
  ProxProofs TVProofs GenL2Proofs SimplexProofs Parafac2Proofs PenaltyMain CoupledMatrices CmfSpec CmfProofs
  Decomp DecompSpec DecompFacts AdmmProofs AdmmB AdmmA AdmmRegs AdmmLoop AdmmOne AoState AoLoop AoRun AoHist.
Import ListNotations.
Local Open Scope R_scope.

Lemma bstop_ok (P : params (N:=RNum)) (Xs : list rmat) p s : valid_state Xs s -> no_nan s ->
  (bstop P Xs p s = true <-> stops P Xs p s).
Proof.
  intros V N. unfold bstop, stops. rewrite andb_true_iff, (ck_ok P Xs) by assumption. apply and_iff_compat_l.
  unfold rel_stop, abs_stop. destruct (p_tol P) as [t|].
  - rewrite andb_true_iff, orb_true_iff, rel_crit_ok, (ntruthy_R t). split.
    + intros (T & [H|H]); [left; now exists t|right]. split; [now exists t|].
      destruct (p_abs_tol P) as [a|]; [|discriminate]. exists a. split; [reflexivity|]. now apply nltb_true in H.
    + intros [(u & Eu & T & H)|((u & Eu & T) & a & -> & H)]; injection Eu as <-; (split; [assumption|]); [now left|right].
      now apply nltb_true.
  - split; [discriminate|]. intros [(u & Eu & _)|((u & Eu & _) & _)]; discriminate.
Qed.
Lemma bmsg_ok (P : params (N:=RNum)) (Xs : list rmat) p s : valid_state Xs s -> no_nan s ->
  message_ok P Xs (bmsg P Xs p s) p s.
Proof.
  intros V N. pose proof (bstop_ok P Xs p s V N) as HB. unfold bmsg. destruct (bstop P Xs p s).
  - assert (HS : stops P Xs p s) by now apply HB. destruct HS as (F & HS). 
    destruct (p_tol P) as [t|] eqn:PT.
    2:{ exfalso. destruct HS as [(u & Eu & _)|((u & Eu & _) & _)]; congruence. }
    assert (T : t <> 0) by (destruct HS as [(u & Eu & T & _)|((u & Eu & T) & _)]; congruence).
    destruct (rel_crit (N:=RNum) t (Fin (N:=RNum) (loss P Xs p)) (Fin (N:=RNum) (loss P Xs s))) eqn:RC; cbn [message_ok].
    + split; [assumption|]. exists t. apply rel_crit_ok in RC. auto.
    + assert (NR : ~ rel_stop P (loss P Xs p) (loss P Xs s)).
      { intros (u & Eu & _ & H). assert (u = t) as -> by congruence. apply rel_crit_ok in H. congruence. }
      split; [assumption|]. split; [assumption|]. destruct HS as [HS|HS]; [contradiction|assumption].
  - cbn [message_ok]. intros HS. apply HB in HS. discriminate.
Qed.

Lemma run_main (E : ext (N:=RNum)) (P : params (N:=RNum)) (Xs : list rmat) (N : Z) (s s' : stateR) od :
  params_ok P -> valid_state Xs s -> st_inter s = None -> svd_correct E (mc (cA (st_cmf s))) -> 0 < data_sumsq Xs ->
  run E P Xs N s = Ok (s', od) ->
  exists m tr pv msg, (m <= Z.to_nat N)%nat /\ tr 0%nat = s /\ tr m = s' /\ trajectory E P Xs m tr /\
    ((forall j, (0 < j <= m)%nat -> no_nan (tr j)) -> compared P m tr pv /\ stopping_rule P Xs (Z.to_nat N) m msg tr pv) /\
    (p_return_errors P = false -> od = None) /\
    (p_return_errors P = true -> (forall j, (j <= m)%nat -> pv j = tr j) /\ exists d, od = Some d /\ d_message d = msg /\ history P Xs m tr d /\
       (no_nan s' -> flags_ok P s' d)).
Proof.
  intros HP V HI Hsvd HD H. unfold run in H.
  assert (I0 : inter_ok Xs s) by now left. pose proof V as (VF & _).
  unfold init_hist in H. rewrite state_loss_ok, state_error_ok in H by assumption. cbn [bind] in H.
  rewrite (state_gaps_val Xs) in H by assumption. cbn [bind] in H. fold (gval s) in H.
  match type of H with context[ao_loop _ _ _ _ _ _ ?h] => set (h0 := h) in H end.
  destruct (ao_loop E P Xs (Z.to_nat N) 0 s h0) as [[[[s1 h1] it1] msg]|] eqn:HL; [|discriminate]. cbn [bind] in H.
  assert (HL0 : otruthy (p_tol P) = true -> last_x (h_losses h0) = Fin (N:=RNum) (loss P Xs s)) by (intros _; reflexivity).
  destruct (loop_facts E P Xs _ HP Hsvd HD _ _ _ _ _ _ _ _ s V eq_refl HL0 HL)
    as (m & tr & pv & C1 & C2 & C3 & C4 & C5 & C6 & C7 & C8 & C9 & C10 & C11 & C12).
  assert (TO : forall j, (j <= m)%nat -> valid_state Xs (tr j)).
  { intros j Hj. destruct (trajectory_ok E P Xs HP m tr C5 ltac:(now rewrite C3) ltac:(now rewrite C3) j Hj) as ((K & _) & _). exact K. }
  assert (V1 : valid_state Xs s1) by (rewrite <- C4; apply TO; lia).
  assert (RV : revalidate (st_cmf s1) = Ok (st_cmf s1)) by (apply revalidate_ok; apply V1).
  assert (FE : (match p_feas_tol P with
    | Some t => if ntruthy t && p_return_errors P then let* g := state_gaps s1 in Ok (Some (check_feasibility g t)) else Ok None
    | None => Ok None end) =
    Ok (match p_feas_tol P with
    | Some t => if ntruthy t && p_return_errors P then Some (check_feasibility (gval s1) t) else None
    | None => None end)).
  { destruct (p_feas_tol P) as [t|]; [|reflexivity]. destruct (ntruthy t && p_return_errors P); [|reflexivity].
    now rewrite (state_gaps_val Xs). }
  rewrite FE in H. cbn [bind] in H. rewrite RV in H. cbn [bind] in H.
  assert (S1 : St (st_cmf s1) (st_rA s1) (st_rB s1) (st_rC s1) (st_inter s1) = s1) by now destruct s1.
  rewrite S1 in H.
  assert (S2 : s' = s1) by (destruct (p_return_errors P); congruence). subst s'.
  exists m, tr, pv, msg. split; [assumption|]. split; [assumption|]. split; [assumption|]. split; [assumption|]. split; [|split].
  - intros NN. split.
    + split; [now rewrite C6, C3|]. intros j Hj. rewrite (C7 j Hj). unfold recorded.
      assert (CK := ck_ok P Xs (tr (S j)) (TO (S j) ltac:(lia)) (NN (S j) ltac:(lia))). split.
      * intros [->|F]; [reflexivity|]. apply CK in F. rewrite F, orb_true_r. reflexivity.
      * intros -> F. destruct (ck P (tr (S j))); [exfalso; apply F; now apply CK|reflexivity].
    + split; [|split; [assumption|split; [assumption|]]].
      * intros j Hj HS. apply (bstop_ok P Xs) in HS; [|apply TO; lia|apply NN; lia]. rewrite C8 in HS by assumption. discriminate.
      * intros j Ej. rewrite (C11 j Ej). subst m. apply bmsg_ok; [apply TO; lia|apply NN; lia].
  - intros R. rewrite R in H. congruence.
  - intros R. rewrite R in H. injection H as <-.
    split. { intros [|j] Hj; [congruence|]. rewrite C7 by lia. unfold recorded. now rewrite R. }
    eexists. split; [reflexivity|]. split; [reflexivity|]. destruct (C12 R) as (D1 & D2 & D3).
    split.
    + split; [|split; [|split; [|split]]]; cbn [d_errors d_losses d_gaps d_n_iter].
      * rewrite D1. cbn [seq map]. rewrite C3, <- seq_shift, map_map. reflexivity.
      * rewrite D2. cbn [seq map]. rewrite C3, <- seq_shift, map_map. reflexivity.
      * rewrite D3. rewrite app_length, map_length, seq_length. reflexivity.
      * intros j Hj.
        assert (EG : nth j (h_gaps h1) ([], [], []) = gval (tr j)).
        { rewrite D3. cbn [h0 h_gaps]. destruct j as [|j]; [cbn; now rewrite C3|]. cbn [app nth].
          rewrite (nth_map_lt _ _ j _ 0%nat) by (rewrite seq_length; lia). now rewrite seq_nth by lia. }
        rewrite EG. destruct (state_gaps_ok Xs (tr j) (TO j Hj)) as (g & E1 & E2). rewrite (state_gaps_val Xs) in E1 by (apply TO; lia).
        injection E1 as <-. exact E2.
      * rewrite C2. lia.
    + intros NN. unfold flags_ok. cbn [d_stopped d_message d_feasible]. split; [|split].
      * destruct msg; cbn [negb andb stopped_flag]; [|reflexivity|reflexivity]. unfold tol_set. rewrite <- !otruthy_spec.
        destruct (otruthy (p_tol P)), (otruthy (p_abs_tol P)); cbn [orb]; split; intuition congruence.
      * intros b Eb. assert (CK := ck_ok P Xs s1 V1 NN). unfold ck in CK. destruct (p_feas_tol P) as [t|]; [|discriminate].
        rewrite andb_true_r in Eb. destruct (ntruthy t); [|discriminate]. injection Eb as <-. exact CK.
      * unfold tol_set. rewrite <- otruthy_spec. destruct (p_feas_tol P) as [t|]; cbn [otruthy]; [|split; congruence].
        rewrite andb_true_r. destruct (ntruthy t); split; congruence.
Qed.
