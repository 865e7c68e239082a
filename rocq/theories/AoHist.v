(** Histories and the stopping rule of the outer loop. *)
From Coq Require Import Reals Lra Lia List Arith Bool Classical_Prop FunctionalExtensionality ZArith.
From Verif Require Import Num Numpy Unimodal RFacts Spec SpecFacts MatFacts SvdFacts ModelSpec Penalties PenaltySpec
  ProxProofs TVProofs GenL2Proofs SimplexProofs Parafac2Proofs PenaltyMain CoupledMatrices CmfSpec CmfProofs
  Decomp DecompSpec DecompFacts AdmmProofs AdmmB AdmmA AdmmRegs AdmmLoop AdmmOne AoState AoLoop AoRun.
Import ListNotations.
Local Open Scope R_scope.

Definition stateR := state (N:=RNum).
Definition gval (s : stateR) : gaps (N:=RNum) := (gapsA s, gapsB s, gapsC s).
(** the tests made by the loop *)
Definition ck (P : params (N:=RNum)) (s : stateR) : bool :=
  match p_feas_tol P with Some t => ntruthy t && check_feasibility (gval s) t | None => false end.
Lemma ck_ok (P : params (N:=RNum)) (Xs : list rmat) s : valid_state Xs s -> no_nan s -> (ck P s = true <-> feasible_by P s).
Proof.
  intros V N. unfold ck, feasible_by, gval. destruct (p_feas_tol P) as [t|].
  - rewrite andb_true_iff, (check_feasibility_ok Xs) by assumption. split.
    + intros (T & H). exists t. split; [reflexivity|]. split; [now apply ntruthy_R|assumption].
    + intros (u & E & T & H). injection E as <-. split; [now apply ntruthy_R|assumption].
  - split; [discriminate|]. intros (t & E & _). discriminate.
Qed.
Lemma otruthy_spec (t : option R) : otruthy (N:=RNum) t = true <-> exists x, t = Some x /\ x <> 0.
Proof.
  destruct t as [x|]; cbn [otruthy]; [|split; [discriminate|intros (x & E & _); discriminate]].
  rewrite ntruthy_R. split; [intros H; now exists x|intros (y & E & H); congruence].
Qed.
Lemma rel_crit_ok t (a b : R) : rel_crit (N:=RNum) t (Fin a) (Fin b) = true <-> Rabs (a - b) < t * a.
Proof. cbn [rel_crit]. rewrite nltb_true. rewrite nabs_R. rn. reflexivity. Qed.

Section Loop.
Variables (E : ext (N:=RNum)) (P : params (N:=RNum)) (Xs : list rmat) (k0 : nat).
Hypothesis (HP : params_ok P) (Hsvd : svd_correct E k0) (HD : 0 < data_sumsq Xs).
Let L (s : stateR) := loss P Xs s.

(** what one call of the loop does *)
Definition recorded (s : stateR) : bool := p_return_errors P || ck P s.
Definition bstop (p s : stateR) : bool :=
  ck P s && match p_tol P with
            | Some t => ntruthy t && (rel_crit (N:=RNum) t (Fin (N:=RNum) (L p)) (Fin (N:=RNum) (L s)) ||
                                      match p_abs_tol P with Some a => xlt (N:=RNum) (Fin (N:=RNum) (L s)) a | None => false end)
            | None => false end.
Definition bmsg (p s : stateR) : message :=
  if bstop p s then
    match p_tol P with
    | Some t => if rel_crit (N:=RNum) t (Fin (N:=RNum) (L p)) (Fin (N:=RNum) (L s)) then RelLoss else AbsLoss
    | None => MaxIter end
  else MaxIter.

Lemma loop_facts n : forall it (s : stateR) h s' h' it' msg prev,
  valid_state Xs s -> mc (cA (st_cmf s)) = k0 ->
  (otruthy (p_tol P) = true -> last_x (h_losses h) = Fin (N:=RNum) (L prev)) ->
  ao_loop E P Xs n it s h = Ok (s', h', it', msg) ->
  exists m tr pv, (m <= n)%nat /\ it' = (it + m)%nat /\ tr 0%nat = s /\ tr m = s' /\ trajectory E P Xs m tr /\
    pv 0%nat = prev /\
    (forall j, (j < m)%nat -> pv (S j) = if recorded (tr (S j)) then tr (S j) else pv j) /\
    (forall j, (S j < m)%nat -> bstop (pv j) (tr (S j)) = false) /\
    ((m < n)%nat -> msg <> MaxIter) /\ (m = 0%nat -> msg = MaxIter) /\
    (forall j, m = S j -> msg = bmsg (pv j) (tr m)) /\
    (p_return_errors P = true ->
      h_errors h' = h_errors h ++ map (fun j => Fin (rel_error Xs (st_cmf (tr (S j))))) (seq 0 m) /\
      h_losses h' = h_losses h ++ map (fun j => Fin (N:=RNum) (L (tr (S j)))) (seq 0 m) /\
      h_gaps h' = h_gaps h ++ map (fun j => gval (tr (S j))) (seq 0 m)).
Proof.
  induction n as [|n IH]; intros it s h s' h' it' msg prev V Hk Hl H; cbn [ao_loop] in H.
  - injection H as <- <- <- <-. exists 0%nat, (fun _ => s), (fun _ => prev). 
    split; [lia|]. split; [lia|]. split; [reflexivity|]. split; [reflexivity|]. split; [intros j Hj; lia|]. split; [reflexivity|].
    split; [lia|]. split; [lia|]. split; [lia|]. split; [reflexivity|]. split; [discriminate|].
    intros _. cbn. now rewrite !app_nil_r.
  - destruct (outer_step E P Xs s) as [s1|] eqn:HS; [|discriminate]. cbn [bind] in H.
    assert (HO := outer_step_ok E P Xs HP s s1 V ltac:(rewrite Hk; exact Hsvd) HS).
    destruct HO as ((V1 & (_ & SK & _) & _) & I1 & _).
    assert (Hk1 : mc (cA (st_cmf s1)) = k0) by congruence.
    (* one more iteration in front of a trajectory *)
    assert (CONT : forall h1 prev1,
      prev1 = (if recorded s1 then s1 else prev) -> bstop prev s1 = false ->
      (otruthy (p_tol P) = true -> last_x (h_losses h1) = Fin (N:=RNum) (L prev1)) ->
      (p_return_errors P = true -> h_errors h1 = h_errors h ++ [Fin (rel_error Xs (st_cmf s1))] /\
         h_losses h1 = h_losses h ++ [Fin (N:=RNum) (L s1)] /\ h_gaps h1 = h_gaps h ++ [gval s1]) ->
      ao_loop E P Xs n (S it) s1 h1 = Ok (s', h', it', msg) ->
      exists m tr pv, (m <= S n)%nat /\ it' = (it + m)%nat /\ tr 0%nat = s /\ tr m = s' /\ trajectory E P Xs m tr /\
        pv 0%nat = prev /\
        (forall j, (j < m)%nat -> pv (S j) = if recorded (tr (S j)) then tr (S j) else pv j) /\
        (forall j, (S j < m)%nat -> bstop (pv j) (tr (S j)) = false) /\
        ((m < S n)%nat -> msg <> MaxIter) /\ (m = 0%nat -> msg = MaxIter) /\
        (forall j, m = S j -> msg = bmsg (pv j) (tr m)) /\
        (p_return_errors P = true ->
          h_errors h' = h_errors h ++ map (fun j => Fin (rel_error Xs (st_cmf (tr (S j))))) (seq 0 m) /\
          h_losses h' = h_losses h ++ map (fun j => Fin (N:=RNum) (L (tr (S j)))) (seq 0 m) /\
          h_gaps h' = h_gaps h ++ map (fun j => gval (tr (S j))) (seq 0 m))).
    { intros h1 prev1 EP NS HL1 HH HR.
      destruct (IH _ _ _ _ _ _ _ prev1 V1 Hk1 HL1 HR) as (m & tr & pv & C1 & C2 & C3 & C4 & C5 & C6 & C7 & C8 & C9 & C10 & C11 & C12).
      exists (S m), (fun j => match j with O => s | S i => tr i end), (fun j => match j with O => prev | S i => pv i end).
      split; [lia|]. split; [lia|]. split; [reflexivity|]. split; [assumption|]. 
      split; [intros [|j] Hj; [now rewrite C3|apply C5; lia]|]. split; [reflexivity|].
      split; [intros [|j] Hj; [now rewrite C3, C6|apply C7; lia]|].
      split; [intros [|j] Hj; [now rewrite C3|apply C8; lia]|].
      split; [intros Hm; apply C9; lia|]. split; [discriminate|].
      split.
      { intros j Ej. injection Ej as Ej. destruct j as [|j].
        - subst m. rewrite C10 by reflexivity. rewrite C3. unfold bmsg. now rewrite NS.
        - now apply C11. }
      intros HRE. destruct (C12 HRE) as (D1 & D2 & D3). destruct (HH HRE) as (F1 & F2 & F3).
      rewrite D1, D2, D3, F1, F2, F3. rewrite <- !app_assoc.
      cbn [seq map]. rewrite C3. rewrite <- !seq_shift, !map_map. now repeat split. }
    (* stopping right here *)
    assert (STOP : forall h1 msg1, s' = s1 -> h' = h1 -> it' = S it -> msg = msg1 -> bstop prev s1 = true -> msg1 = bmsg prev s1 -> msg1 <> MaxIter ->
      (p_return_errors P = true -> h_errors h1 = h_errors h ++ [Fin (rel_error Xs (st_cmf s1))] /\
         h_losses h1 = h_losses h ++ [Fin (N:=RNum) (L s1)] /\ h_gaps h1 = h_gaps h ++ [gval s1]) ->
      exists m tr pv, (m <= S n)%nat /\ it' = (it + m)%nat /\ tr 0%nat = s /\ tr m = s' /\ trajectory E P Xs m tr /\
        pv 0%nat = prev /\
        (forall j, (j < m)%nat -> pv (S j) = if recorded (tr (S j)) then tr (S j) else pv j) /\
        (forall j, (S j < m)%nat -> bstop (pv j) (tr (S j)) = false) /\
        ((m < S n)%nat -> msg <> MaxIter) /\ (m = 0%nat -> msg = MaxIter) /\
        (forall j, m = S j -> msg = bmsg (pv j) (tr m)) /\
        (p_return_errors P = true ->
          h_errors h' = h_errors h ++ map (fun j => Fin (rel_error Xs (st_cmf (tr (S j))))) (seq 0 m) /\
          h_losses h' = h_losses h ++ map (fun j => Fin (N:=RNum) (L (tr (S j)))) (seq 0 m) /\
          h_gaps h' = h_gaps h ++ map (fun j => gval (tr (S j))) (seq 0 m))).
    { intros h1 msg1 -> -> -> -> NS EM NM HH.
      exists 1%nat, (fun j => match j with O => s | S _ => s1 end), (fun j => match j with O => prev | S _ => if recorded s1 then s1 else prev end).
      split; [lia|]. split; [lia|]. split; [reflexivity|]. split; [reflexivity|].
      split; [intros [|j] Hj; [assumption|lia]|]. split; [reflexivity|].
      split; [intros [|j] Hj; [reflexivity|lia]|]. split; [lia|]. split; [auto|]. split; [discriminate|].
      split; [intros j Ej; injection Ej as <-; exact EM|]. exact HH. }
    assert (NOTOL : otruthy (p_tol P) = false -> bstop prev s1 = false).
    { intros T. unfold bstop. destruct (p_tol P) as [t|]; [|apply andb_false_r]. cbn [otruthy] in T. rewrite T. apply andb_false_r. }
    cbv zeta in H.
    destruct (otruthy (p_tol P) || otruthy (p_abs_tol P)) eqn:TL; cbn [orb] in H.
    2:{ apply orb_false_elim in TL. destruct TL as (T1 & T2). 
        destruct (p_return_errors P) eqn:HRE.
        - rewrite (state_gaps_val Xs) in H by assumption. cbn [bind andb h_errors h_gaps h_losses] in H.
          rewrite state_loss_ok, state_error_ok in H by (try assumption; apply V1). cbn [bind] in H. 
          fold (L s1) in H. fold (gval s1) in H.
          assert (H' : ao_loop E P Xs n (S it) s1 (Hist (N:=RNum) (h_errors h ++ [Fin (N:=RNum) (rel_error Xs (st_cmf s1))]) (h_gaps h ++ [gval s1]) (h_losses h ++ [Fin (N:=RNum) (L s1)])) = Ok (s', h', it', msg)).
          { destruct (p_tol P) as [t|]; [|exact H]. cbn [otruthy] in T1. rewrite T1 in H. exact H. }
          apply (CONT _ (if recorded s1 then s1 else prev) eq_refl) in H'; [exact H'|now apply NOTOL|congruence|]. intros _. now repeat split.
        - apply (CONT _ (if recorded s1 then s1 else prev) eq_refl) in H; [exact H|now apply NOTOL|congruence|]. congruence. }
    rewrite (state_gaps_val Xs) in H by assumption. cbn [bind andb h_errors h_gaps h_losses] in H. fold (gval s1) in H.
    change (match p_feas_tol P with Some t => ntruthy t && check_feasibility (gval s1) t | None => false end) with (ck P s1) in H.
    destruct (negb (ck P s1) && negb (p_return_errors P)) eqn:SK1.
    { apply andb_true_iff in SK1. destruct SK1 as (K1 & K2). apply negb_true_iff in K1, K2.
      assert (RC : recorded s1 = false) by (unfold recorded; now rewrite K1, K2).
      apply (CONT _ prev) in H; [exact H|now rewrite RC| |exact Hl|congruence]. unfold bstop. now rewrite K1. }
    assert (RC : recorded s1 = true).
    { unfold recorded. destruct (ck P s1), (p_return_errors P); try reflexivity. discriminate SK1. }
    rewrite state_loss_ok, state_error_ok in H by (try assumption; apply V1). cbn [bind] in H. fold (L s1) in H.
    set (h2 := Hist (N:=RNum) (h_errors h ++ [Fin (N:=RNum) (rel_error Xs (st_cmf s1))]) (h_gaps h ++ [gval s1]) (h_losses h ++ [Fin (N:=RNum) (L s1)])) in H.
    assert (HL2 : last_x (h_losses h2) = Fin (N:=RNum) (L s1)) by (unfold last_x; cbn [h2 h_losses]; apply last_last).
    assert (HH2 : p_return_errors P = true -> h_errors h2 = h_errors h ++ [Fin (rel_error Xs (st_cmf s1))] /\
         h_losses h2 = h_losses h ++ [Fin (N:=RNum) (L s1)] /\ h_gaps h2 = h_gaps h ++ [gval s1]) by (intros _; now repeat split).
    assert (EP : s1 = if recorded s1 then s1 else prev) by now rewrite RC.
    pose proof (fun B HR => CONT h2 s1 EP B (fun _ => HL2) HH2 HR) as C0.
    destruct (p_tol P) as [t|] eqn:PT.
    2:{ apply C0; [|exact H]. apply NOTOL. reflexivity. }
    destruct (ntruthy t) eqn:TT.
    2:{ apply C0; [|exact H]. apply NOTOL. exact TT. }
    destruct (p_abs_tol P) as [ab|] eqn:PA; [|discriminate].
    rewrite Hl in H by exact TT.
    destruct (ck P s1) eqn:CK; cbn [andb] in H.
    + destruct (rel_crit (N:=RNum) t (Fin (N:=RNum) (L prev)) (Fin (N:=RNum) (L s1))) eqn:RCR.
      * injection H as <- <- <- <-. 
        assert (B : bstop prev s1 = true) by (unfold bstop; rewrite CK, PT, TT, RCR; reflexivity).
        apply (STOP h2 RelLoss); auto; [|discriminate]. unfold bmsg. now rewrite B, PT, RCR.
      * destruct (xlt (N:=RNum) (Fin (N:=RNum) (L s1)) ab) eqn:XL.
        -- injection H as <- <- <- <-.
           assert (B : bstop prev s1 = true) by (unfold bstop; rewrite CK, PT, TT, RCR, PA, XL; reflexivity).
           apply (STOP h2 AbsLoss); auto; [|discriminate]. unfold bmsg. now rewrite B, PT, RCR.
        -- apply C0; [|exact H]. unfold bstop. now rewrite CK, PT, TT, RCR, PA, XL.
    + apply C0; [|exact H]. unfold bstop. now rewrite CK.
Qed.
End Loop.
