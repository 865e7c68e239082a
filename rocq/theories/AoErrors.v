(** When requesting diagnostics does not change the fit. *)
From Coq Require Import Reals Lra Lia List Arith Bool Classical_Prop ZArith.
From Verif Require Import Num Numpy Unimodal RFacts Spec SpecFacts MatFacts SvdFacts ModelSpec Penalties PenaltySpec
  ProxProofs TVProofs GenL2Proofs SimplexProofs Parafac2Proofs PenaltyMain CoupledMatrices CmfSpec CmfProofs
  Decomp DecompSpec DecompFacts AdmmProofs AdmmB AdmmA AdmmRegs AdmmLoop AdmmOne AoState AoLoop AoRun AoHist AoMain.
Import ListNotations.
Local Open Scope R_scope.

Definition benign (P : params (N:=RNum)) (s : stateR) : Prop :=
  ~ tol_set (p_tol P) \/ (p_abs_tol P <> None /\ (~ tol_set (p_feas_tol P) \/ no_penalties s)).
Lemma pens_nil s s' : same_penalties s s' -> no_penalties s -> no_penalties s'.
Proof.
  intros (A & B & C) (X & Y & Z). unfold no_penalties. rewrite X in A. rewrite Y in B. rewrite Z in C. cbn in *.
  now rewrite (map_eq_nil _ _ A), (map_eq_nil _ _ B), (map_eq_nil _ _ C).
Qed.
Lemma check_nil s t : no_penalties s -> check_feasibility (gval s) t = true.
Proof. intros (X & Y & Z). unfold gval, gapsA, gapsB, gapsC. rewrite X, Y, Z. reflexivity. Qed.
Lemma outer_same E P Xs b s : outer_step E (with_errors b P) Xs s = outer_step E P Xs s.
Proof. reflexivity. Qed.
Lemma loss_same P Xs b s : state_loss (with_errors b P) Xs s = state_loss P Xs s.
Proof. reflexivity. Qed.

Section Errors.
Variables (E : ext (N:=RNum)) (P : params (N:=RNum)) (Xs : list rmat) (k0 : nat).
Hypothesis (HP : params_ok P) (Hsvd : svd_correct E k0) (HD : 0 < data_sumsq Xs).
Lemma loop_errors n : forall it s h1 h2,
  valid_state Xs s -> mc (cA (st_cmf s)) = k0 -> benign P s ->
  (tol_set (p_tol P) -> tol_set (p_feas_tol P) -> last_x (h_losses h1) = last_x (h_losses h2)) ->
  match ao_loop E (with_errors true P) Xs n it s h1, ao_loop E (with_errors false P) Xs n it s h2 with
  | Ok (s1, _, it1, m1), Ok (s2, _, it2, m2) => s1 = s2 /\ it1 = it2 /\ m1 = m2 /\ valid_state Xs s1
  | Err e1, Err e2 => e1 = e2
  | _, _ => False
  end.
Proof.
  induction n as [|n IH]; intros it s h1 h2 V Hk HB HL; cbn [ao_loop].
  - auto.
  - rewrite !outer_same. destruct (outer_step E P Xs s) as [s'|e] eqn:HS; [|reflexivity]. cbn [bind]. cbv zeta.
    destruct (outer_step_ok E P Xs HP s s' V ltac:(rewrite Hk; exact Hsvd) HS) as ((V1 & (_ & SK & _) & SP & _) & I1 & _).
    assert (Hk1 : mc (cA (st_cmf s')) = k0) by congruence.
    assert (HB1 : benign P s').
    { destruct HB as [B|(B1 & [B2|B2])]; [now left|right; split; [assumption|now left]|right; split; [assumption|right]]. now apply (pens_nil s). }
    rewrite !loss_same, !(state_gaps_val Xs s' V1), !(state_loss_ok P Xs s' V1 I1 HD). rewrite !(state_error_ok Xs s' (proj1 V1) I1 HD).
    cbn [bind h_errors h_gaps h_losses with_errors p_tol p_abs_tol p_feas_tol p_return_errors].
    fold (gval s').
    rewrite orb_true_r, orb_false_r. cbn [negb]. rewrite andb_false_r, andb_true_r.
    assert (NT : otruthy (p_tol P) = true -> tol_set (p_tol P)) by (intros X; now apply otruthy_spec).
    destruct (p_tol P) as [t|] eqn:PT; [cbn [otruthy] in *; destruct (ntruthy t) eqn:TT|]; cbn [orb andb otruthy].
    + specialize (NT eq_refl). destruct HB1 as [B|(B1 & HB1)]; [rewrite PT in B; contradiction|].
      destruct (p_abs_tol P) as [ab|] eqn:PA; [|now destruct B1].
      destruct HB1 as [B2|B2].
      * assert (F : match p_feas_tol P with Some t0 => ntruthy t0 && check_feasibility (gval s') t0 | None => false end = false).
        { destruct (p_feas_tol P) as [f|]; [|reflexivity]. destruct (ntruthy f) eqn:TF; [|reflexivity]. exfalso. apply B2. exists f. split; [reflexivity|]. now apply ntruthy_R. }
        rewrite F. cbn [andb negb]. apply IH; auto; [|contradiction]. right. rewrite PA. split; [discriminate|now left].
      * destruct (p_feas_tol P) as [f|] eqn:PF; [destruct (ntruthy f) eqn:TF|].
        -- rewrite (check_nil s' f B2). cbn [andb negb].
           assert (X : tol_set (Some f)) by (exists f; split; [reflexivity|now apply ntruthy_R]). rewrite (HL NT X).
           destruct (rel_crit t _ _); [auto|]. destruct (xlt _ ab); [auto|]. apply IH; auto; [right; rewrite PA; auto|].
           intros _ _. unfold last_x. cbn [h_losses]. now rewrite !last_last.
        -- cbn [andb negb]. apply IH; auto; [right; rewrite PA; auto|]. intros _ (f' & E1 & E2). exfalso. injection E1 as <-.
           apply ntruthy_R in E2. congruence.
        -- cbn [andb negb]. apply IH; auto; [right; rewrite PA; auto|]. intros _ (f' & E1 & _). discriminate.
    + assert (B : ~ tol_set (p_tol P)) by (rewrite PT; intros (x & E1 & E2); injection E1 as <-; apply ntruthy_R in E2; congruence).
      assert (Bs : benign P s') by now left. rewrite PT in B.
      destruct (otruthy (p_abs_tol P)); cbn [andb];
        [match goal with |- context[negb ?b] => destruct b end; cbn [negb]|]; apply IH; auto; intros; contradiction.
    + assert (B : ~ tol_set (@None R)) by (intros (x & E1 & _); discriminate).
      destruct (otruthy (p_abs_tol P)); cbn [andb];
        [match goal with |- context[negb ?b] => destruct b end; cbn [negb]|]; apply IH; auto; intros; contradiction.
Qed.
End Errors.
Lemma run_errors (E : ext (N:=RNum)) (P : params (N:=RNum)) (Xs : list rmat) (N : Z) (s : stateR) :
  params_ok P -> valid_state Xs s -> st_inter s = None -> svd_correct E (mc (cA (st_cmf s))) -> 0 < data_sumsq Xs ->
  benign P s ->
  match run E (with_errors true P) Xs N s, run E (with_errors false P) Xs N s with
  | Ok (s1, _), Ok (s2, _) => s1 = s2
  | Err e1, Err e2 => e1 = e2
  | _, _ => False
  end.
Proof.
  intros HP V HI Hsvd HD HB. unfold run. change (init_hist (with_errors true P) Xs s) with (init_hist P Xs s).
  change (init_hist (with_errors false P) Xs s) with (init_hist P Xs s). destruct (init_hist P Xs s) as [h0|]; [|reflexivity]. cbn [bind].
  pose proof (loop_errors E P Xs _ HP Hsvd HD (Z.to_nat N) 0 s h0 h0 V eq_refl HB (fun _ _ => eq_refl)) as K.
  destruct (ao_loop E (with_errors true P) Xs _ 0 s h0) as [[[[s1 h1] it1] m1]|e1], (ao_loop E (with_errors false P) Xs _ 0 s h0) as [[[[s2 h2] it2] m2]|e2];
    try contradiction; [|assumption]. destruct K as (-> & -> & -> & V2). cbn [bind].
  cbn [with_errors p_return_errors p_feas_tol p_tol p_abs_tol].
  assert (RV : revalidate (st_cmf s2) = Ok (st_cmf s2)) by (apply revalidate_ok; apply V2).
  destruct (p_feas_tol P) as [t|]; [|cbn [bind]; rewrite RV; reflexivity].
  rewrite andb_true_r, andb_false_r. rewrite (state_gaps_val Xs s2 V2). cbn [bind].
  destruct (ntruthy t); cbn [bind]; rewrite RV; reflexivity.
Qed.
