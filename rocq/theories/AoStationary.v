(** The block updates of an unpenalised run are the rounds of Stationary.v. *)
From Coq Require Import Reals Lra Lia List Arith Bool Classical_Prop FunctionalExtensionality ZArith.
From Verif Require Import Num Numpy Unimodal RFacts Spec SpecFacts MatFacts SvdFacts ModelSpec Penalties PenaltySpec
  ProxProofs TVProofs GenL2Proofs SimplexProofs Parafac2Proofs PenaltyMain CoupledMatrices CmfSpec CmfProofs
  Decomp DecompSpec InitVars InitSpec DecompFacts AdmmProofs AdmmB AdmmA AdmmRegs AdmmLoop AdmmOne AoState AoLoop AoMono
  StationarySpec Stationary.
Import ListNotations.
Local Open Scope R_scope.

Definition to_pt (c : rcmf) : pt := Pt (rget (cA c)) (entB (cBs c)) (rget (cC c)).

Definition entX (Xs : list rmat) (i : nat) : ent := rget (nthX Xs i).

Section Run.
Variables (E : ext (N:=RNum)) (P : params (N:=RNum)) (Xs : list rmat).
Hypothesis HP : params_ok P.
Notation Fx K n := (F (length Xs) K n (rowsX Xs) (entX Xs) (p_l2A P) (p_l2B P) (p_l2C P)).
Notation bestA K n := (best_A (length Xs) K n (rowsX Xs) (entX Xs) (p_l2A P) (p_l2B P) (p_l2C P)).
Notation bestB K n := (best_B (length Xs) K n (rowsX Xs) (entX Xs) (p_l2A P) (p_l2B P) (p_l2C P)).
Notation bestC K n := (best_C (length Xs) K n (rowsX Xs) (entX Xs) (p_l2A P) (p_l2B P) (p_l2C P)).

Lemma Sum_sumsq r c M : Sum r (fun i => Sum c (fun j => M i j * M i j)) = sumsq r c M.
Proof. unfold sumsq. apply Sum_ext. intros. apply Sum_ext. intros. ring. Qed.
Lemma F_fit K n A B C : Fx K n (Pt A B C) =
  1 / 2 * fit Xs K n A B C + (p_l2A P / 2 * sumsq (length Xs) n A + p_l2B P / 2 * Sum (length Xs) (fun i => sumsq (rowsX Xs i) n (B i)) + p_l2C P / 2 * sumsq K n C).
Proof.
  unfold F, fit, S3, dist2, pair2, T, entX, rowsX. cbn [pA pB pC]. rewrite !Sum_sumsq.
  replace (Sum (length Xs) (fun i => Sum (mr (nthX Xs i)) (fun j => Sum n (fun r => B i j r * B i j r)))) with (Sum (length Xs) (fun i => sumsq (mr (nthX Xs i)) n (B i))).
  2: { apply Sum_ext. intros. symmetry. apply Sum_sumsq. }
  field.
Qed.
Lemma objective_F c : data_fits Xs c -> cw c = None -> objective P Xs c = Fx (mr (cC c)) (mc (cA c)) (to_pt c).
Proof.
  intros ((_ & _ & HC & HA & HB & _) & EL & HX) Hw. unfold objective, l2_sum, to_pt. rewrite (residual_fit Xs c Hw), F_fit. rewrite HA, HC, <- EL.
  f_equal. f_equal. f_equal. f_equal. apply Sum_ext. intros i Hi. unfold rowsX, entB. destruct (HX i Hi) as (_ & -> & _).
  rewrite EL in Hi. destruct (HB i Hi) as (_ & ->). reflexivity.
Qed.

Lemma best_of_C c c' regs' n tol : data_fits Xs c -> nonempty c -> svd_correct E (mc (cA c)) -> (0 < n)%nat ->
  admm_update_C E Xs c [] (p_l2C P) n tol (p_scale P) = Ok (c', regs') -> regs' = [] /\ bestC (mr (cC c)) (mc (cA c)) (to_pt c').
Proof.
  intros HF HN Hsvd Hn H. destruct HP as (PA & PB & PC & PS).
  destruct (update_C_trace E Xs c _ _ HF HN PC PS Hsvd [] regs' c' n tol (Forall_nil _) H) as (m & tr & HI & Hinv).
  pose proof HI as (I1 & I2 & I3 & I4 & _ & I6).
  assert (HE : forall i, (i <= m)%nat -> C_inv c (tr i) /\ snd (tr i) = []).
  { apply (iterates_inv _ _ _ _ _ _ _ (fun s => C_inv c s /\ snd s = []) HI).
    - split; [rewrite <- I2; apply Hinv; lia|reflexivity].
    - intros a b (A1 & A2) Hs. destruct (C_inv_step E Xs c _ _ HF HN PC PS Hsvd a b A1 Hs) as (B1 & B2 & _). split; [assumption|].
      rewrite A2 in B2. now apply F2_nil in B2. }
  split. { destruct (HE m (le_n m)) as (_ & X). now rewrite I3 in X. }
  assert (Hm : m <> 0%nat) by (intros ->; apply I6 in Hn; lia).
  destruct (HE (m - 1)%nat ltac:(lia)) as (J1 & J2).
  assert (HS := I4 (m - 1)%nat ltac:(lia)). replace (S (m - 1)) with m in HS by lia. rewrite I3 in HS.
  destruct (C_inv_step E Xs c _ _ HF HN PC PS Hsvd _ _ J1 HS) as ((B1 & (_ & S1 & S2) & _) & _ & B3). cbn [fst snd] in *.
  intros Z. specialize (B3 Z). rewrite J2 in B3. unfold obj_C in B3. cbn [length] in B3.
  assert (Z0 : forall f, Sum 0 f = 0) by reflexivity. rewrite !Z0 in B3.
  unfold to_pt. cbn [pA pB pC]. rewrite !F_fit. assert (EA : cA c' = cA c) by now rewrite B1. assert (EB : cBs c' = cBs c) by now rewrite B1. rewrite EA, EB. lra.
Qed.
Lemma best_of_A c c' regs' n tol inter : data_fits Xs c -> nonempty c -> svd_correct E (mc (cA c)) -> (0 < n)%nat ->
  admm_update_A E Xs c [] (p_l2A P) n tol (p_scale P) (p_constA P) = Ok (c', regs', inter) -> regs' = [] /\ bestA (mr (cC c)) (mc (cA c)) (to_pt c').
Proof.
  intros HF HN Hsvd Hn H. destruct HP as (PA & PB & PC & PS).
  destruct (update_A_trace E Xs c _ _ _ HF HN PA PS Hsvd [] regs' c' n tol inter (Forall_nil _) H) as (_ & m & tr & HI & Hinv).
  pose proof HI as (I1 & I2 & I3 & I4 & _ & I6).
  assert (HE : forall i, (i <= m)%nat -> A_inv c (tr i) /\ snd (tr i) = []).
  { apply (iterates_inv _ _ _ _ _ _ _ (fun s => A_inv c s /\ snd s = []) HI).
    - split; [rewrite <- I2; apply Hinv; lia|reflexivity].
    - intros a b (A1 & A2) Hs. destruct (A_inv_step E Xs c _ _ _ HF HN PA PS Hsvd a b A1 Hs) as (B1 & B2 & _). split; [assumption|].
      rewrite A2 in B2. now apply F2_nil in B2. }
  split. { destruct (HE m (le_n m)) as (_ & X). now rewrite I3 in X. }
  assert (Hm : m <> 0%nat) by (intros ->; apply I6 in Hn; lia).
  destruct (HE (m - 1)%nat ltac:(lia)) as (J1 & J2).
  assert (HS := I4 (m - 1)%nat ltac:(lia)). replace (S (m - 1)) with m in HS by lia. rewrite I3 in HS.
  destruct (A_inv_step E Xs c _ _ _ HF HN PA PS Hsvd _ _ J1 HS) as ((B1 & (_ & S1 & S2) & _) & _ & rho & _ & B3). cbn [fst snd] in *.
  intros Z. specialize (B3 Z). rewrite J2 in B3. unfold obj_A in B3. cbn [length] in B3.
  assert (Z0 : forall f, Sum 0 f = 0) by reflexivity. rewrite !Z0 in B3.
  pose proof HF as ((_ & _ & _ & HA & _) & EL & _). rewrite HA, <- EL in B3.
  unfold to_pt. cbn [pA pB pC]. rewrite !F_fit. assert (EA : cC c' = cC c) by now rewrite B1. assert (EB : cBs c' = cBs c) by now rewrite B1. rewrite EA, EB. lra.
Qed.
Lemma best_of_B c c' regs' n tol : data_fits Xs c -> nonempty c -> svd_correct E (mc (cA c)) -> (0 < n)%nat ->
  admm_update_B E Xs c [] (p_l2B P) n tol (p_scale P) (p_constB P) = Ok (c', regs') -> regs' = [] /\ bestB (mr (cC c)) (mc (cA c)) (to_pt c').
Proof.
  intros HF HN Hsvd Hn H. destruct HP as (PA & PB & PC & PS).
  destruct (update_B_trace E Xs c _ _ _ HF HN PB PS Hsvd [] regs' c' n tol (Forall_nil _) H) as (m & tr & HI & Hinv).
  pose proof HI as (I1 & I2 & I3 & I4 & _ & I6).
  assert (HE : forall i, (i <= m)%nat -> B_inv Xs c (tr i) /\ snd (tr i) = []).
  { apply (iterates_inv _ _ _ _ _ _ _ (fun s => B_inv Xs c s /\ snd s = []) HI).
    - split; [rewrite <- I2; apply Hinv; lia|reflexivity].
    - intros a b (A1 & A2) Hs. destruct (B_inv_step E Xs c _ _ _ HF HN PB PS Hsvd a b A1 Hs) as (B1 & B2 & _). split; [assumption|].
      rewrite A2 in B2. now apply F2_nil in B2. }
  split. { destruct (HE m (le_n m)) as (_ & X). now rewrite I3 in X. }
  assert (Hm : m <> 0%nat) by (intros ->; apply I6 in Hn; lia).
  destruct (HE (m - 1)%nat ltac:(lia)) as (J1 & J2).
  assert (HS := I4 (m - 1)%nat ltac:(lia)). replace (S (m - 1)) with m in HS by lia. rewrite I3 in HS.
  destruct (B_inv_step E Xs c _ _ _ HF HN PB PS Hsvd _ _ J1 HS) as ((B1 & (L & S1) & _) & _ & rho & _ & B3). cbn [fst snd] in *.
  intros Z. specialize (B3 Z). rewrite J2 in B3. unfold obj_B in B3. cbn [length] in B3.
  assert (Z0 : forall f, Sum 0 f = 0) by reflexivity. rewrite !Z0 in B3.
  pose proof HF as (_ & EL & HX).
  assert (RW : forall W, Sum (length (cBs c)) (fun i => sumsq (mr (nthB c i)) (mc (cA c)) (W i)) = Sum (length Xs) (fun i => sumsq (rowsX Xs i) (mc (cA c)) (W i))).
  { intros W. rewrite <- EL. apply Sum_ext. intros i Hi. unfold rowsX. destruct (HX i Hi) as (_ & -> & _). reflexivity. }
  rewrite !RW in B3.
  unfold to_pt. cbn [pA pB pC]. rewrite !F_fit. assert (EA : cC c' = cC c) by now rewrite B1. assert (EB : cA c' = cA c) by now rewrite B1. rewrite EA, EB. lra.
Qed.

Lemma outer_round s s' : valid_state Xs s -> svd_correct E (mc (cA (st_cmf s))) -> ridge_only P s -> (0 < p_inner P)%nat ->
  outer_step E P Xs s = Ok s' ->
  ridge_only P s' /\ exists y1 y2,
    round (length Xs) (mr (cC (st_cmf s))) (mc (cA (st_cmf s))) (rowsX Xs) (entX Xs) (p_l2A P) (p_l2B P) (p_l2C P) (p_updA P) (p_updB P) (p_updC P)
      (to_pt (st_cmf s)) y1 y2 (to_pt (st_cmf s')).
Proof.
  intros V0 Hsvd (NA & NB & NC & NX) Hn H. unfold outer_step in H.
  destruct (upd_B E P Xs s) as [s1|] eqn:H1; [|discriminate]. cbn [bind] in H.
  destruct (upd_C E P Xs s1) as [s2|] eqn:H2; [|discriminate]. cbn [bind] in H.
  destruct (upd_B_ok E P Xs HP s s1 V0 Hsvd H1) as ((V1 & Z1 & _) & _ & B1 & B2 & B3 & B4 & B5 & B6 & _).
  assert (Hsvd1 : svd_correct E (mc (cA (st_cmf s1)))) by (rewrite B3; exact Hsvd).
  destruct (upd_C_ok E P Xs HP s1 s2 V1 Hsvd1 H2) as ((V2 & Z2 & _) & _ & C1 & C2 & C3 & C4 & C5 & C6 & _).
  assert (Hsvd2 : svd_correct E (mc (cA (st_cmf s2)))) by (rewrite C3; exact Hsvd1).
  set (K := mr (cC (st_cmf s))). set (n := mc (cA (st_cmf s))).
  assert (K1 : (p_updB P = true -> st_rB s1 = []) /\ if p_updB P then bestB K n (to_pt (st_cmf s1)) else pB (to_pt (st_cmf s1)) = pB (to_pt (st_cmf s))).
  { unfold upd_B in H1. destruct (p_updB P).
    - destruct (NB eq_refl) as (_ & NB'). rewrite NB' in H1. destruct (admm_update_B _ _ _ _ _ _ _ _ _) as [[c' r']|] eqn:HU; [|discriminate]. cbn [bind] in H1. injection H1 as <-.
      destruct V0 as (VF & VN & _). destruct (best_of_B _ _ _ _ _ VF VN Hsvd Hn HU) as (M1 & M2). cbn [st_rB st_cmf] in *. auto.
    - destruct (B5 eq_refl) as (-> & _). split; [discriminate|reflexivity]. }
  destruct K1 as (KB1 & KB2).
  destruct Z1 as (_ & Zn1 & ZK1 & _). destruct Z2 as (_ & Zn2 & ZK2 & _).
  assert (K2 : (p_updC P = true -> st_rC s2 = []) /\ if p_updC P then bestC K n (to_pt (st_cmf s2)) else pC (to_pt (st_cmf s2)) = pC (to_pt (st_cmf s1))).
  { unfold upd_C in H2. destruct (p_updC P).
    - destruct (NC eq_refl) as (_ & NC'). rewrite B2, NC' in H2. destruct (admm_update_C _ _ _ _ _ _ _ _) as [[c' r']|] eqn:HU; [|discriminate]. cbn [bind] in H2. injection H2 as <-.
      destruct V1 as (VF & VN & _). destruct (best_of_C _ _ _ _ _ VF VN Hsvd1 Hn HU) as (M1 & M2). cbn [st_rC st_cmf] in *. split; [auto|].
      unfold K, n. rewrite <- ZK1, <- Zn1. exact M2.
    - rewrite (C5 eq_refl). split; [discriminate|reflexivity]. }
  destruct K2 as (KC1 & KC2).
  destruct (upd_A_ok E P Xs HP s2 s' V2 Hsvd2 H) as (_ & A1 & A2 & A3 & A4 & A5 & A6 & _).
  assert (K3 : (p_updA P = true -> st_rA s' = []) /\ if p_updA P then bestA K n (to_pt (st_cmf s')) else pA (to_pt (st_cmf s')) = pA (to_pt (st_cmf s2))).
  { unfold upd_A in H. destruct (p_updA P).
    - destruct (NA eq_refl) as (_ & NA'). rewrite C1, B1, NA' in H. destruct (admm_update_A _ _ _ _ _ _ _ _ _) as [[[c' r'] i']|] eqn:HU; [|discriminate]. cbn [bind] in H. injection H as <-.
      destruct V2 as (VF & VN & _). destruct (best_of_A _ _ _ _ _ _ VF VN Hsvd2 Hn HU) as (M1 & M2). cbn [st_rA st_cmf] in *. split; [auto|].
      unfold K, n. rewrite <- ZK1, <- Zn1, <- ZK2, <- Zn2. exact M2.
    - rewrite (A5 eq_refl). split; [discriminate|reflexivity]. }
  destruct K3 as (KA1 & KA2).
  split.
  - split; [|split; [|split]]; try assumption.
    + intros U. destruct (NA U) as (N1 & _). auto.
    + intros U. destruct (NB U) as (N1 & _). split; [assumption|]. rewrite A1, C2. auto.
    + intros U. destruct (NC U) as (N1 & _). split; [assumption|]. rewrite A2. auto.
  - exists (to_pt (st_cmf s1)), (to_pt (st_cmf s2)). split; unfold to_pt in *; cbn [pA pB pC] in *.
    + split; [now rewrite B3|]. split; [now rewrite B4|exact KB2].
    + split; [now rewrite C3|]. split; [now rewrite C4|exact KC2].
    + split; [now rewrite A3|]. split; [now rewrite A4|exact KA2].
Qed.
End Run.
