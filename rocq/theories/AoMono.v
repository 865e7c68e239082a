(** Without penalties no outer iteration increases the regularised residual. *)
From Coq Require Import Reals Lra Lia List Arith Bool Classical_Prop FunctionalExtensionality ZArith.
From Verif Require Import Num Numpy Unimodal RFacts Spec SpecFacts MatFacts SvdFacts ModelSpec Penalties PenaltySpec
  ProxProofs TVProofs GenL2Proofs SimplexProofs Parafac2Proofs PenaltyMain CoupledMatrices CmfSpec CmfProofs
  Decomp DecompSpec DecompFacts AdmmProofs AdmmB AdmmA AdmmRegs AdmmLoop AdmmOne AoState AoLoop.
Import ListNotations.
Local Open Scope R_scope.

Lemma residual_fit (Xs : list rmat) (c : rcmf) : cw c = None ->
  residual Xs c = fit Xs (mr (cC c)) (mc (cA c)) (rget (cA c)) (entB (cBs c)) (rget (cC c)).
Proof.
  intros H. unfold residual, fit. apply Sum_ext. intros i Hi. apply dist2_ext; intros j k Hj Hk; [reflexivity|].
  unfold cmf_entry, weight. rewrite H. apply Sum_ext. intros r Hr. unfold entB, nthB. ring.
Qed.
Lemma unweighted_id (c : rcmf) : cw c = None -> unweighted c = c.
Proof. destruct c as [w A Bs C]. cbn. now intros ->. Qed.
Lemma F2_nil {A B} (R : A -> B -> Prop) l : Forall2 R [] l -> l = [].
Proof. inversion 1. reflexivity. Qed.

Section Mono.
Variables (E : ext (N:=RNum)) (P : params (N:=RNum)) (Xs : list rmat).
Hypothesis HP : params_ok P.

Lemma mono_C c c' regs' n tol : data_fits Xs c -> nonempty c -> svd_correct E (mc (cA c)) -> cw c = None ->
  admm_update_C E Xs c [] (p_l2C P) n tol (p_scale P) = Ok (c', regs') -> regs' = [] /\ objective P Xs c' <= objective P Xs c.
Proof.
  intros HF HN Hsvd Hw H. destruct HP as (PA & PB & PC & PS).
  destruct (update_C_trace E Xs c _ _ HF HN PC PS Hsvd [] regs' c' n tol (Forall_nil _) H) as (m & tr & HI & Hinv).
  pose proof HI as (I1 & I2 & I3 & I4 & _).
  assert (HE : forall i, (i <= m)%nat -> C_inv c (tr i) /\ snd (tr i) = []).
  { apply (iterates_inv _ _ _ _ _ _ _ (fun s => C_inv c s /\ snd s = []) HI).
    - split; [rewrite <- I2; apply Hinv; lia|reflexivity].
    - intros a b (A1 & A2) Hs. destruct (C_inv_step E Xs c _ _ HF HN PC PS Hsvd a b A1 Hs) as (B1 & B2 & _). split; [assumption|].
      rewrite A2 in B2. now apply F2_nil in B2. }
  split. { destruct (HE m (le_n m)) as (_ & X). now rewrite I3 in X. }
  destruct (Nat.eq_dec m 0) as [->|Hm].
  - rewrite I2 in I3. injection I3 as <- _. rewrite (unweighted_id c Hw). lra.
  - destruct (HE (m - 1)%nat ltac:(lia)) as (J1 & J2).
    assert (HS := I4 (m - 1)%nat ltac:(lia)). replace (S (m - 1)) with m in HS by lia. rewrite I3 in HS.
    destruct (C_inv_step E Xs c _ _ HF HN PC PS Hsvd _ _ J1 HS) as ((B1 & (_ & S1 & S2) & _) & _ & B3). cbn [fst snd] in *.
    specialize (B3 (rget (cC c))). rewrite J2 in B3. unfold obj_C in B3. cbn [length Sum] in B3.
    pose proof HF as ((WA & WC & HC & _) & _).
    unfold objective, l2_sum. rewrite (residual_fit Xs c Hw). rewrite (residual_fit Xs c') by (now rewrite B1).
    rewrite B1. cbn [cA cBs cC]. rewrite S1, S2, HC. unfold Sum in B3. cbn [fold_left seq map] in B3. 
    unfold nthB in *. cbn [cBs]. lra.
Qed.
Lemma mono_A c c' regs' n tol inter : data_fits Xs c -> nonempty c -> svd_correct E (mc (cA c)) -> cw c = None ->
  admm_update_A E Xs c [] (p_l2A P) n tol (p_scale P) (p_constA P) = Ok (c', regs', inter) -> regs' = [] /\ objective P Xs c' <= objective P Xs c.
Proof.
  intros HF HN Hsvd Hw H. destruct HP as (PA & PB & PC & PS).
  destruct (update_A_trace E Xs c _ _ _ HF HN PA PS Hsvd [] regs' c' n tol inter (Forall_nil _) H) as (_ & m & tr & HI & Hinv).
  pose proof HI as (I1 & I2 & I3 & I4 & _).
  assert (HE : forall i, (i <= m)%nat -> A_inv c (tr i) /\ snd (tr i) = []).
  { apply (iterates_inv _ _ _ _ _ _ _ (fun s => A_inv c s /\ snd s = []) HI).
    - split; [rewrite <- I2; apply Hinv; lia|reflexivity].
    - intros a b (A1 & A2) Hs. destruct (A_inv_step E Xs c _ _ _ HF HN PA PS Hsvd a b A1 Hs) as (B1 & B2 & _). split; [assumption|].
      rewrite A2 in B2. now apply F2_nil in B2. }
  split. { destruct (HE m (le_n m)) as (_ & X). now rewrite I3 in X. }
  destruct (Nat.eq_dec m 0) as [->|Hm].
  - rewrite I2 in I3. injection I3 as <- _. rewrite (unweighted_id c Hw). lra.
  - destruct (HE (m - 1)%nat ltac:(lia)) as (J1 & J2).
    assert (HS := I4 (m - 1)%nat ltac:(lia)). replace (S (m - 1)) with m in HS by lia. rewrite I3 in HS.
    destruct (A_inv_step E Xs c _ _ _ HF HN PA PS Hsvd _ _ J1 HS) as ((B1 & (_ & S1 & S2) & _) & _ & rho & _ & B3). cbn [fst snd] in *.
    specialize (B3 (rget (cA c))). rewrite J2 in B3. unfold obj_A in B3. cbn [length Sum] in B3.
    unfold objective, l2_sum. rewrite (residual_fit Xs c Hw). rewrite (residual_fit Xs c') by (now rewrite B1).
    rewrite B1. cbn [cA cBs cC]. rewrite S1, S2. unfold Sum in B3. cbn [fold_left seq map] in B3. 
    unfold nthB in *. cbn [cBs]. lra.
Qed.
Lemma mono_B c c' regs' n tol : data_fits Xs c -> nonempty c -> svd_correct E (mc (cA c)) -> cw c = None ->
  admm_update_B E Xs c [] (p_l2B P) n tol (p_scale P) (p_constB P) = Ok (c', regs') -> regs' = [] /\ objective P Xs c' <= objective P Xs c.
Proof.
  intros HF HN Hsvd Hw H. destruct HP as (PA & PB & PC & PS).
  destruct (update_B_trace E Xs c _ _ _ HF HN PB PS Hsvd [] regs' c' n tol (Forall_nil _) H) as (m & tr & HI & Hinv).
  pose proof HI as (I1 & I2 & I3 & I4 & _).
  assert (HE : forall i, (i <= m)%nat -> B_inv Xs c (tr i) /\ snd (tr i) = []).
  { apply (iterates_inv _ _ _ _ _ _ _ (fun s => B_inv Xs c s /\ snd s = []) HI).
    - split; [rewrite <- I2; apply Hinv; lia|reflexivity].
    - intros a b (A1 & A2) Hs. destruct (B_inv_step E Xs c _ _ _ HF HN PB PS Hsvd a b A1 Hs) as (B1 & B2 & _). split; [assumption|].
      rewrite A2 in B2. now apply F2_nil in B2. }
  split. { destruct (HE m (le_n m)) as (_ & X). now rewrite I3 in X. }
  destruct (Nat.eq_dec m 0) as [->|Hm].
  - rewrite I2 in I3. injection I3 as <- _. rewrite (unweighted_id c Hw). lra.
  - destruct (HE (m - 1)%nat ltac:(lia)) as (J1 & J2).
    assert (HS := I4 (m - 1)%nat ltac:(lia)). replace (S (m - 1)) with m in HS by lia. rewrite I3 in HS.
    destruct (B_inv_step E Xs c _ _ _ HF HN PB PS Hsvd _ _ J1 HS) as ((B1 & (L & S1) & _) & _ & rho & _ & B3). cbn [fst snd] in *.
    specialize (B3 (entB (cBs c))). rewrite J2 in B3. unfold obj_B in B3. cbn [length] in B3.
    pose proof HF as ((_ & _ & _ & _ & HB & _) & EL & _).
    unfold objective, l2_sum. rewrite (residual_fit Xs c Hw). rewrite (residual_fit Xs c') by (now rewrite B1).
    assert (Q1 : Sum (length (cBs c')) (fun i => sumsq (mr (nthB c' i)) (mc (nthB c' i)) (rget (nthB c' i))) =
                 Sum (length (cBs c)) (fun i => sumsq (mr (nthB c i)) (mc (cA c)) (entB (cBs c') i))).
    { rewrite L, EL. apply Sum_ext. intros i Hi. unfold nthB at 1 2 3. destruct (S1 i ltac:(rn; lia)) as (_ & -> & ->). reflexivity. }
    assert (Q2 : Sum (length (cBs c)) (fun i => sumsq (mr (nthB c i)) (mc (nthB c i)) (rget (nthB c i))) =
                 Sum (length (cBs c)) (fun i => sumsq (mr (nthB c i)) (mc (cA c)) (entB (cBs c) i))).
    { apply Sum_ext. intros i Hi. destruct (HB i Hi) as (_ & ->). reflexivity. }
    rewrite Q1, Q2. rewrite B1. cbn [cA cBs cC]. assert (Z0 : forall f, Sum 0 f = 0) by reflexivity. rewrite !Z0 in B3. lra.
Qed.
Lemma mono_outer s s' : valid_state Xs s -> svd_correct E (mc (cA (st_cmf s))) -> no_penalties s -> cw (st_cmf s) = None ->
  outer_step E P Xs s = Ok s' -> no_penalties s' /\ cw (st_cmf s') = None /\ objective P Xs (st_cmf s') <= objective P Xs (st_cmf s).
Proof.
  intros V0 Hsvd (NA & NB & NC) Hw H. unfold outer_step in H.
  destruct (upd_B E P Xs s) as [s1|] eqn:H1; [|discriminate]. cbn [bind] in H.
  destruct (upd_C E P Xs s1) as [s2|] eqn:H2; [|discriminate]. cbn [bind] in H.
  destruct (upd_B_ok E P Xs HP s s1 V0 Hsvd H1) as ((V1 & _) & _ & B1 & B2 & B3 & B4 & B5 & B6 & _).
  assert (Hsvd1 : svd_correct E (mc (cA (st_cmf s1)))) by (rewrite B3; exact Hsvd).
  destruct (upd_C_ok E P Xs HP s1 s2 V1 Hsvd1 H2) as ((V2 & _) & _ & C1 & C2 & C3 & C4 & C5 & C6 & _).
  assert (Hsvd2 : svd_correct E (mc (cA (st_cmf s2)))) by (rewrite C3; exact Hsvd1).
  assert (K1 : st_rB s1 = [] /\ cw (st_cmf s1) = None /\ objective P Xs (st_cmf s1) <= objective P Xs (st_cmf s)).
  { unfold upd_B in H1. destruct (p_updB P).
    - rewrite NB in H1. destruct (admm_update_B _ _ _ _ _ _ _ _ _) as [[c' r']|] eqn:HU; [|discriminate]. cbn [bind] in H1. injection H1 as <-.
      destruct V0 as (VF & VN & _). destruct (mono_B _ _ _ _ _ VF VN Hsvd Hw HU) as (M1 & M2). cbn [st_rB st_cmf] in *. split; [assumption|]. split; [now apply B6|assumption].
    - destruct (B5 eq_refl) as (-> & ->). split; [assumption|]. split; [assumption|lra]. }
  destruct K1 as (KB1 & KB2 & KB3).
  assert (K2 : st_rC s2 = [] /\ cw (st_cmf s2) = None /\ objective P Xs (st_cmf s2) <= objective P Xs (st_cmf s1)).
  { unfold upd_C in H2. destruct (p_updC P).
    - rewrite B2, NC in H2. destruct (admm_update_C _ _ _ _ _ _ _ _) as [[c' r']|] eqn:HU; [|discriminate]. cbn [bind] in H2. injection H2 as <-.
      destruct V1 as (VF & VN & _). destruct (mono_C _ _ _ _ _ VF VN Hsvd1 KB2 HU) as (M1 & M2). cbn [st_rC st_cmf] in *. split; [assumption|]. split; [now apply C6|assumption].
    - rewrite (C5 eq_refl). split; [congruence|]. split; [assumption|lra]. }
  destruct K2 as (KC1 & KC2 & KC3).
  destruct (upd_A_ok E P Xs HP s2 s' V2 Hsvd2 H) as (_ & A1 & A2 & A3 & A4 & A5 & A6 & _).
  assert (K3 : st_rA s' = [] /\ cw (st_cmf s') = None /\ objective P Xs (st_cmf s') <= objective P Xs (st_cmf s2)).
  { unfold upd_A in H. destruct (p_updA P).
    - rewrite C1, B1, NA in H. destruct (admm_update_A _ _ _ _ _ _ _ _ _) as [[[c' r'] i']|] eqn:HU; [|discriminate]. cbn [bind] in H. injection H as <-.
      destruct V2 as (VF & VN & _). destruct (mono_A _ _ _ _ _ _ VF VN Hsvd2 KC2 HU) as (M1 & M2). cbn [st_rA st_cmf] in *. split; [assumption|]. split; [now apply A6|assumption].
    - rewrite (A5 eq_refl). split; [congruence|]. split; [assumption|lra]. }
  destruct K3 as (KA1 & KA2 & KA3).
  split; [|split; [assumption|lra]]. split; [assumption|]. split; congruence.
Qed.
Lemma mono_trajectory n tr : trajectory E P Xs n tr -> valid_state Xs (tr 0%nat) -> svd_correct E (mc (cA (st_cmf (tr 0%nat)))) ->
  no_penalties (tr 0%nat) -> cw (st_cmf (tr 0%nat)) = None ->
  forall j, (j <= n)%nat -> no_penalties (tr j) /\ cw (st_cmf (tr j)) = None /\
    forall i, (i <= j)%nat -> objective P Xs (st_cmf (tr j)) <= objective P Xs (st_cmf (tr i)).
Proof.
  intros HT V Hsvd NP Hw. induction j as [|j IH]; intros Hj.
  - split; [assumption|]. split; [assumption|]. intros i Hi. assert (i = 0%nat) as -> by lia. lra.
  - destruct (IH ltac:(lia)) as (N1 & W1 & M1).
    destruct (trajectory_ok E P Xs HP n tr HT V Hsvd j ltac:(lia)) as ((V1 & (_ & S2 & _) & _) & _).
    assert (Hsvd1 : svd_correct E (mc (cA (st_cmf (tr j))))) by (rewrite S2; exact Hsvd).
    destruct (mono_outer _ _ V1 Hsvd1 N1 W1 (HT j ltac:(lia))) as (N2 & W2 & M2).
    split; [assumption|]. split; [assumption|]. intros i Hi. destruct (Nat.eq_dec i (S j)) as [->|]; [lra|].
    specialize (M1 i ltac:(lia)). lra.
Qed.
(** A weighted start: without a ridge term the first update absorbs the weights. *)
Lemma residual_fit_w (c : rcmf) :
  residual Xs c = fit Xs (mr (cC c)) (mc (cA c)) (rget (cA c)) (entB (cBs c)) (fun k r => weight c r * rget (cC c) k r) /\
  residual Xs c = fit Xs (mr (cC c)) (mc (cA c)) (fun i r => weight c r * rget (cA c) i r) (entB (cBs c)) (rget (cC c)) /\
  residual Xs c = fit Xs (mr (cC c)) (mc (cA c)) (rget (cA c)) (fun i j r => weight c r * entB (cBs c) i j r) (rget (cC c)).
Proof.
  split; [|split]; unfold residual, fit; apply Sum_ext; intros i Hi; apply dist2_ext; intros j k Hj Hk; try reflexivity;
    unfold cmf_entry; apply Sum_ext; intros r Hr; unfold entB, nthB; ring.
Qed.
Lemma monow_C c c' regs' n tol : data_fits Xs c -> nonempty c -> svd_correct E (mc (cA c)) -> p_l2C P = 0 -> (0 < n)%nat ->
  admm_update_C E Xs c [] (p_l2C P) n tol (p_scale P) = Ok (c', regs') -> residual Xs c' <= residual Xs c.
Proof.
  intros HF HN Hsvd HZ Hn H. destruct HP as (PA & PB & PC & PS).
  destruct (update_C_trace E Xs c _ _ HF HN PC PS Hsvd [] regs' c' n tol (Forall_nil _) H) as (m & tr & HI & Hinv).
  pose proof HI as (I1 & I2 & I3 & I4 & _ & I6).
  assert (HE : forall i, (i <= m)%nat -> C_inv c (tr i) /\ snd (tr i) = []).
  { apply (iterates_inv _ _ _ _ _ _ _ (fun s => C_inv c s /\ snd s = []) HI).
    - split; [rewrite <- I2; apply Hinv; lia|reflexivity].
    - intros a b (A1 & A2) Hs. destruct (C_inv_step E Xs c _ _ HF HN PC PS Hsvd a b A1 Hs) as (B1 & B2 & _). split; [assumption|].
      rewrite A2 in B2. now apply F2_nil in B2. }
  assert (Hm : m <> 0%nat) by (intros ->; apply I6 in Hn; lia).
  destruct (HE (m - 1)%nat ltac:(lia)) as (J1 & J2).
  assert (HS := I4 (m - 1)%nat ltac:(lia)). replace (S (m - 1)) with m in HS by lia. rewrite I3 in HS.
  destruct (C_inv_step E Xs c _ _ HF HN PC PS Hsvd _ _ J1 HS) as ((B1 & (_ & S1 & S2) & _) & _ & B3). cbn [fst snd] in *.
  specialize (B3 (fun k r => weight c r * rget (cC c) k r)). rewrite J2 in B3. unfold obj_C in B3. cbn [length] in B3.
  assert (Z0 : forall f, Sum 0 f = 0) by reflexivity. rewrite !Z0, HZ in B3.
  rewrite (proj1 (residual_fit_w c)). rewrite (residual_fit Xs c') by (now rewrite B1). rewrite B1 at 1 2 3 4. cbn [cA cBs cC]. rewrite S1. lra.
Qed.
Lemma monow_A c c' regs' n tol inter : data_fits Xs c -> nonempty c -> svd_correct E (mc (cA c)) -> p_l2A P = 0 -> (0 < n)%nat ->
  admm_update_A E Xs c [] (p_l2A P) n tol (p_scale P) (p_constA P) = Ok (c', regs', inter) -> residual Xs c' <= residual Xs c.
Proof.
  intros HF HN Hsvd HZ Hn H. destruct HP as (PA & PB & PC & PS).
  destruct (update_A_trace E Xs c _ _ _ HF HN PA PS Hsvd [] regs' c' n tol inter (Forall_nil _) H) as (_ & m & tr & HI & Hinv).
  pose proof HI as (I1 & I2 & I3 & I4 & _ & I6).
  assert (HE : forall i, (i <= m)%nat -> A_inv c (tr i) /\ snd (tr i) = []).
  { apply (iterates_inv _ _ _ _ _ _ _ (fun s => A_inv c s /\ snd s = []) HI).
    - split; [rewrite <- I2; apply Hinv; lia|reflexivity].
    - intros a b (A1 & A2) Hs. destruct (A_inv_step E Xs c _ _ _ HF HN PA PS Hsvd a b A1 Hs) as (B1 & B2 & _). split; [assumption|].
      rewrite A2 in B2. now apply F2_nil in B2. }
  assert (Hm : m <> 0%nat) by (intros ->; apply I6 in Hn; lia).
  destruct (HE (m - 1)%nat ltac:(lia)) as (J1 & J2).
  assert (HS := I4 (m - 1)%nat ltac:(lia)). replace (S (m - 1)) with m in HS by lia. rewrite I3 in HS.
  destruct (A_inv_step E Xs c _ _ _ HF HN PA PS Hsvd _ _ J1 HS) as ((B1 & (_ & S1 & S2) & _) & _ & rho & _ & B3). cbn [fst snd] in *.
  specialize (B3 (fun i r => weight c r * rget (cA c) i r)). rewrite J2 in B3. unfold obj_A in B3. cbn [length] in B3.
  assert (Z0 : forall f, Sum 0 f = 0) by reflexivity. rewrite !Z0, HZ in B3.
  rewrite (proj1 (proj2 (residual_fit_w c))). rewrite (residual_fit Xs c') by (now rewrite B1). rewrite S2. rewrite B1 at 1 3 4. cbn [cA cBs cC]. lra.
Qed.
Lemma monow_B c c' regs' n tol : data_fits Xs c -> nonempty c -> svd_correct E (mc (cA c)) -> p_l2B P = 0 -> (0 < n)%nat ->
  admm_update_B E Xs c [] (p_l2B P) n tol (p_scale P) (p_constB P) = Ok (c', regs') -> residual Xs c' <= residual Xs c.
Proof.
  intros HF HN Hsvd HZ Hn H. destruct HP as (PA & PB & PC & PS).
  destruct (update_B_trace E Xs c _ _ _ HF HN PB PS Hsvd [] regs' c' n tol (Forall_nil _) H) as (m & tr & HI & Hinv).
  pose proof HI as (I1 & I2 & I3 & I4 & _ & I6).
  assert (HE : forall i, (i <= m)%nat -> B_inv Xs c (tr i) /\ snd (tr i) = []).
  { apply (iterates_inv _ _ _ _ _ _ _ (fun s => B_inv Xs c s /\ snd s = []) HI).
    - split; [rewrite <- I2; apply Hinv; lia|reflexivity].
    - intros a b (A1 & A2) Hs. destruct (B_inv_step E Xs c _ _ _ HF HN PB PS Hsvd a b A1 Hs) as (B1 & B2 & _). split; [assumption|].
      rewrite A2 in B2. now apply F2_nil in B2. }
  assert (Hm : m <> 0%nat) by (intros ->; apply I6 in Hn; lia).
  destruct (HE (m - 1)%nat ltac:(lia)) as (J1 & J2).
  assert (HS := I4 (m - 1)%nat ltac:(lia)). replace (S (m - 1)) with m in HS by lia. rewrite I3 in HS.
  destruct (B_inv_step E Xs c _ _ _ HF HN PB PS Hsvd _ _ J1 HS) as ((B1 & (L & S1) & _) & _ & rho & _ & B3). cbn [fst snd] in *.
  specialize (B3 (fun i j r => weight c r * entB (cBs c) i j r)). rewrite J2 in B3. unfold obj_B in B3. cbn [length] in B3.
  assert (Z0 : forall f, Sum 0 f = 0) by reflexivity. rewrite !Z0, HZ in B3.
  rewrite (proj2 (proj2 (residual_fit_w c))). rewrite (residual_fit Xs c') by (now rewrite B1). rewrite B1 at 1 2 3 5. cbn [cA cBs cC]. lra.
Qed.
Lemma residual_of_objective c c' : p_l2A P = 0 -> p_l2B P = 0 -> p_l2C P = 0 -> objective P Xs c' <= objective P Xs c -> residual Xs c' <= residual Xs c.
Proof. intros H1 H2 H3. unfold objective, l2_sum. rewrite H1, H2, H3. intros H. lra. Qed.
Lemma monow_outer s s' : valid_state Xs s -> svd_correct E (mc (cA (st_cmf s))) -> no_penalties s -> p_l2A P = 0 -> p_l2B P = 0 -> p_l2C P = 0 -> (0 < p_inner P)%nat ->
  outer_step E P Xs s = Ok s' -> residual Xs (st_cmf s') <= residual Xs (st_cmf s).
Proof.
  intros V0 Hsvd (NA & NB & NC) Z1 Z2 Z3 Hn H. unfold outer_step in H.
  destruct (upd_B E P Xs s) as [s1|] eqn:H1; [|discriminate]. cbn [bind] in H.
  destruct (upd_C E P Xs s1) as [s2|] eqn:H2; [|discriminate]. cbn [bind] in H.
  destruct (upd_B_ok E P Xs HP s s1 V0 Hsvd H1) as ((V1 & _) & _ & B1 & B2 & B3 & B4 & B5 & B6 & _).
  assert (Hsvd1 : svd_correct E (mc (cA (st_cmf s1)))) by (rewrite B3; exact Hsvd).
  destruct (upd_C_ok E P Xs HP s1 s2 V1 Hsvd1 H2) as ((V2 & _) & _ & C1 & C2 & C3 & C4 & C5 & C6 & _).
  assert (Hsvd2 : svd_correct E (mc (cA (st_cmf s2)))) by (rewrite C3; exact Hsvd1).
  assert (K1 : residual Xs (st_cmf s1) <= residual Xs (st_cmf s)).
  { unfold upd_B in H1. destruct (p_updB P).
    - rewrite NB in H1. destruct (admm_update_B _ _ _ _ _ _ _ _ _) as [[c' r']|] eqn:HU; [|discriminate]. cbn [bind] in H1. injection H1 as <-.
      destruct V0 as (VF & VN & _). exact (monow_B _ _ _ _ _ VF VN Hsvd Z2 Hn HU).
    - destruct (B5 eq_refl) as (-> & _). lra. }
  assert (K2 : residual Xs (st_cmf s2) <= residual Xs (st_cmf s1)).
  { unfold upd_C in H2. destruct (p_updC P).
    - rewrite B2, NC in H2. destruct (admm_update_C _ _ _ _ _ _ _ _) as [[c' r']|] eqn:HU; [|discriminate]. cbn [bind] in H2. injection H2 as <-.
      destruct V1 as (VF & VN & _). exact (monow_C _ _ _ _ _ VF VN Hsvd1 Z3 Hn HU).
    - rewrite (C5 eq_refl). lra. }
  assert (K3 : residual Xs (st_cmf s') <= residual Xs (st_cmf s2)).
  { destruct (upd_A_ok E P Xs HP s2 s' V2 Hsvd2 H) as (_ & _ & _ & _ & _ & A5 & _). unfold upd_A in H. destruct (p_updA P).
    - rewrite C1, B1, NA in H. destruct (admm_update_A _ _ _ _ _ _ _ _ _) as [[[c' r'] i']|] eqn:HU; [|discriminate]. cbn [bind] in H. injection H as <-.
      destruct V2 as (VF & VN & _). exact (monow_A _ _ _ _ _ _ VF VN Hsvd2 Z1 Hn HU).
    - rewrite (A5 eq_refl). lra. }
  lra.
Qed.
End Mono.
