(** The outer loop: trajectories, recorded quantities, stopping. *)
From Coq Require Import Reals Lra Lia List Arith Bool Classical_Prop FunctionalExtensionality ZArith.
From Verif Require Import Num Numpy Unimodal RFacts Spec SpecFacts MatFacts SvdFacts ModelSpec Penalties PenaltySpec
  ProxProofs TVProofs GenL2Proofs SimplexProofs Parafac2Proofs PenaltyMain CoupledMatrices CmfSpec CmfProofs
  Decomp DecompSpec DecompFacts AdmmProofs AdmmB AdmmA AdmmRegs AdmmLoop AdmmOne AoState.
Import ListNotations.
Local Open Scope R_scope.

(** ** One outer iteration *)
(** The intermediate results, if kept, belong to the current B_i and C. *)
Definition inter_ok (Xs : list rmat) (s : state (N:=RNum)) : Prop :=
  st_inter s = None \/
  (cw (st_cmf s) = None /\ st_inter s = Some (A_rhses (cBs (st_cmf s)) (cC (st_cmf s)) Xs, A_cross (cBs (st_cmf s)) (cC (st_cmf s)) Xs)).
Definition keeps (P : params (N:=RNum)) (Xs : list rmat) (s s' : state (N:=RNum)) : Prop :=
  valid_state Xs s' /\ same_sizes (st_cmf s) (st_cmf s') /\ same_penalties s s' /\
  (ready_state s -> ready_state s') /\
  (p_updA P = false -> cA (st_cmf s') = cA (st_cmf s)) /\
  (p_updB P = false -> cBs (st_cmf s') = cBs (st_cmf s)) /\
  (p_updC P = false -> cC (st_cmf s') = cC (st_cmf s)).
Lemma same_sizes_refl c : same_sizes c c.
Proof. repeat split. Qed.
Lemma same_sizes_rows c c' : same_sizes c c' -> rowsB c' = rowsB c.
Proof. intros (_ & _ & _ & _ & H). now apply functional_extensionality. Qed.
Lemma same_sizes_trans c c' c'' : same_sizes c c' -> same_sizes c' c'' -> same_sizes c c''.
Proof.
  intros (A1 & A2 & A3 & A4 & A5) (B1 & B2 & B3 & B4 & B5). repeat split; try congruence.
Qed.
Lemma nonempty_sizes c c' : same_sizes c c' -> nonempty c -> nonempty c'.
Proof.
  intros (A1 & A2 & A3 & A4 & A5) (N1 & N2 & N3 & N4). unfold nonempty. rewrite A4, A3, A2. repeat (split; [assumption|]).
  intros i Hi. change (0 < rowsB c' i)%nat. rewrite A5. now apply N4.
Qed.
Lemma sizes_C c C' : shaped C' (mr (cC c)) (mc (cA c)) -> same_sizes c (Cmf None (cA c) (cBs c) C').
Proof. intros (_ & S1 & _). repeat split. exact S1. Qed.
Lemma sizes_A c A' : shaped A' (mr (cA c)) (mc (cA c)) -> same_sizes c (Cmf None A' (cBs c) (cC c)).
Proof. intros (_ & S1 & S2). repeat split; assumption. Qed.
Lemma sizes_B c Bs : list_shaped (length (cBs c)) (rowsB c) (mc (cA c)) Bs -> same_sizes c (Cmf None (cA c) Bs (cC c)).
Proof.
  intros H. repeat split; [exact (proj1 H)|]. intros i. now rewrite (rowsB_shaped c Bs H).
Qed.

Section Outer.
Variables (E : ext (N:=RNum)) (P : params (N:=RNum)) (Xs : list rmat).
Hypothesis HP : params_ok P.

Lemma upd_B_ok s s' : valid_state Xs s -> svd_correct E (mc (cA (st_cmf s))) -> upd_B E P Xs s = Ok s' ->
  keeps P Xs s s' /\ st_inter s' = None /\ st_rA s' = st_rA s /\ st_rC s' = st_rC s /\
  cA (st_cmf s') = cA (st_cmf s) /\ cC (st_cmf s') = cC (st_cmf s) /\
  (p_updB P = false -> st_cmf s' = st_cmf s /\ st_rB s' = st_rB s) /\
  (p_updB P = true -> cw (st_cmf s') = None) /\
  (p_updB P = true -> (0 < p_inner P)%nat -> ready_state s ->
     Forall (b_exact (length (cBs (st_cmf s))) (rowsB (st_cmf s)) (mc (cA (st_cmf s)))) (st_rB s')).
Proof.
  destruct s as [c rA rB rC inter]. intros (V1 & V2 & V3 & V4 & V5) Hsvd H. cbn [st_cmf st_rA st_rB st_rC st_inter] in *.
  destruct HP as (PA & PB & PC & PS). unfold upd_B in H. cbn [st_cmf st_rA st_rB st_rC st_inter] in *. destruct (p_updB P) eqn:U.
  - destruct (admm_update_B _ _ _ _ _ _ _ _ _) as [[c' r']|] eqn:H1; [|discriminate]. cbn [bind] in H. injection H as <-.
    destruct (keep_B E Xs c _ _ _ V1 V2 PB PS Hsvd rB r' c' _ _ V4 H1) as (K1 & K2 & K3 & K4 & K5).
    cbn [st_cmf st_rA st_rB st_rC st_inter]. rewrite K1.
    pose proof (sizes_B c _ K2) as SS. pose proof (same_sizes_rows _ _ SS) as SR.
    assert (SL : length (cBs c') = length (cBs c)) by exact (proj1 K2).
    split; [split; [|split; [exact SS|split; [|split; [|split; [|split]]]]]|].
    + split; [now apply data_fits_B|]. split; [now apply (nonempty_sizes c)|]. cbn [st_rA st_rB st_rC st_cmf cA cBs cC].
      split; [exact V3|]. split; [|exact V5]. rewrite SR, SL. exact K3.
    + split; [reflexivity|]. split; [exact K4|reflexivity].
    + unfold ready_state. cbn [st_rB st_cmf cA cBs]. rewrite SR, SL. intros HR. now apply K5.
    + intros; reflexivity.
    + intros; congruence.
    + intros; reflexivity.
    + repeat (split; [reflexivity|]). split; [discriminate|]. split; [reflexivity|].
      intros _ Hn HR. now apply K5.
  - injection H as <-. cbn [st_cmf st_rA st_rB st_rC st_inter].
    split; [split; [|split; [apply same_sizes_refl|]]|].
    + repeat (split; [assumption|]). assumption.
    + split; [now repeat split|]. split; [tauto|]. repeat split.
    + repeat (split; [reflexivity|]). split; [now split|]. split; discriminate.
Qed.
Lemma upd_C_ok s s' : valid_state Xs s -> svd_correct E (mc (cA (st_cmf s))) -> upd_C E P Xs s = Ok s' ->
  keeps P Xs s s' /\ st_inter s' = st_inter s /\ st_rA s' = st_rA s /\ st_rB s' = st_rB s /\
  cA (st_cmf s') = cA (st_cmf s) /\ cBs (st_cmf s') = cBs (st_cmf s) /\
  (p_updC P = false -> s' = s) /\
  (p_updC P = true -> cw (st_cmf s') = None) /\
  (p_updC P = true -> (0 < p_inner P)%nat ->
     Forall (fun g => exact_domain (g_pen g) (mr (cC (st_cmf s))) (mc (cA (st_cmf s))) (rget (g_aux g))) (st_rC s')).
Proof.
  destruct s as [c rA rB rC inter]. intros (V1 & V2 & V3 & V4 & V5) Hsvd H. cbn [st_cmf st_rA st_rB st_rC st_inter] in *.
  destruct HP as (PA & PB & PC & PS). unfold upd_C in H. cbn [st_cmf st_rA st_rB st_rC st_inter] in *. destruct (p_updC P) eqn:U.
  - destruct (admm_update_C _ _ _ _ _ _ _ _) as [[c' r']|] eqn:H1; [|discriminate]. cbn [bind] in H. injection H as <-.
    destruct (keep_C E Xs c _ _ V1 V2 PC PS Hsvd rC r' c' _ _ V5 H1) as (K1 & K2 & K3 & K4 & K5).
    cbn [st_cmf st_rA st_rB st_rC st_inter]. rewrite K1.
    pose proof (sizes_C c _ K2) as SS.
    split; [split; [|split; [exact SS|split; [|split; [|split; [|split]]]]]|].
    + split; [now apply data_fits_C|]. split; [now apply (nonempty_sizes c)|]. cbn [st_rA st_rB st_rC st_cmf cA cBs cC].
      split; [exact V3|]. split; [exact V4|]. destruct K2 as (_ & S1 & _). rewrite S1. exact K3.
    + split; [reflexivity|]. split; [reflexivity|exact K4].
    + intros HR. exact HR.
    + intros; reflexivity.
    + intros; reflexivity.
    + intros; congruence.
    + repeat (split; [reflexivity|]). split; [discriminate|]. split; [reflexivity|]. intros _ Hn. now apply K5.
  - injection H as <-. cbn [st_cmf st_rA st_rB st_rC st_inter].
    split; [split; [|split; [apply same_sizes_refl|]]|].
    + repeat (split; [assumption|]). assumption.
    + split; [now repeat split|]. split; [tauto|]. repeat split.
    + repeat (split; [reflexivity|]). split; discriminate.
Qed.
Lemma upd_A_ok s s' : valid_state Xs s -> svd_correct E (mc (cA (st_cmf s))) -> upd_A E P Xs s = Ok s' ->
  keeps P Xs s s' /\ st_rB s' = st_rB s /\ st_rC s' = st_rC s /\
  cBs (st_cmf s') = cBs (st_cmf s) /\ cC (st_cmf s') = cC (st_cmf s) /\
  (p_updA P = false -> s' = s) /\
  (p_updA P = true -> cw (st_cmf s') = None /\ inter_ok Xs s') /\
  (p_updA P = true -> (0 < p_inner P)%nat ->
     Forall (fun g => exact_domain (g_pen g) (mr (cA (st_cmf s))) (mc (cA (st_cmf s))) (rget (g_aux g))) (st_rA s')).
Proof.
  destruct s as [c rA rB rC inter]. intros (V1 & V2 & V3 & V4 & V5) Hsvd H. cbn [st_cmf st_rA st_rB st_rC st_inter] in *.
  destruct HP as (PA & PB & PC & PS). unfold upd_A in H. cbn [st_cmf st_rA st_rB st_rC st_inter] in *. destruct (p_updA P) eqn:U.
  - destruct (admm_update_A _ _ _ _ _ _ _ _ _) as [[[c' r'] i']|] eqn:H1; [|discriminate]. cbn [bind] in H. injection H as <-.
    destruct (keep_A E Xs c _ _ _ V1 V2 PA PS Hsvd rA r' c' _ _ _ V3 H1) as (K0 & K1 & K2 & K3 & K4 & K5).
    cbn [st_cmf st_rA st_rB st_rC st_inter]. rewrite K1.
    pose proof (sizes_A c _ K2) as SS. destruct K2 as (W & S1 & S2).
    split; [split; [|split; [exact SS|split; [|split; [|split; [|split]]]]]|].
    + split; [now apply data_fits_A|]. split; [now apply (nonempty_sizes c)|]. cbn [st_rA st_rB st_rC st_cmf cA cBs cC].
      rewrite S1, S2. split; [exact K3|]. split; [exact V4|exact V5].
    + split; [exact K4|]. split; reflexivity.
    + unfold ready_state. cbn [st_cmf st_rB cA cBs]. rewrite S2. intros HR. exact HR.
    + intros; congruence.
    + intros; reflexivity.
    + intros; reflexivity.
    + repeat (split; [reflexivity|]). split; [discriminate|]. split; [|intros _ Hn; now apply K5].
      intros _. split; [reflexivity|]. right. cbn [st_cmf st_inter cw cBs cC]. split; [reflexivity|]. now rewrite K0.
  - injection H as <-. cbn [st_cmf st_rA st_rB st_rC st_inter].
    split; [split; [|split; [apply same_sizes_refl|]]|].
    + repeat (split; [assumption|]). assumption.
    + split; [now repeat split|]. split; [tauto|]. repeat split.
    + repeat (split; [reflexivity|]). split; discriminate.
Qed.

Lemma keeps_trans s s' s'' : keeps P Xs s s' -> keeps P Xs s' s'' -> keeps P Xs s s''.
Proof.
  intros (A1 & A2 & (A3 & A4 & A5) & A6 & A7 & A8 & A9) (B1 & B2 & (B3 & B4 & B5) & B6 & B7 & B8 & B9).
  split; [assumption|]. split; [eapply same_sizes_trans; eassumption|]. split; [repeat split; congruence|]. split; [tauto|].
  split; [intros U; now rewrite B7, A7|]. split; [intros U; now rewrite B8, A8|]. intros U; now rewrite B9, A9.
Qed.
Definition any_update : bool := p_updA P || p_updB P || p_updC P.
Lemma outer_step_ok s s' : valid_state Xs s -> svd_correct E (mc (cA (st_cmf s))) -> outer_step E P Xs s = Ok s' ->
  keeps P Xs s s' /\ inter_ok Xs s' /\ frozen P s s' /\
  (any_update = true -> cw (st_cmf s') = None) /\ (any_update = false -> st_cmf s' = st_cmf s) /\
  ((0 < p_inner P)%nat -> ready_state s -> exact_state P s').
Proof.
  intros V0 Hsvd H. unfold outer_step in H.
  destruct (upd_B E P Xs s) as [s1|] eqn:H1; [|discriminate]. cbn [bind] in H.
  destruct (upd_C E P Xs s1) as [s2|] eqn:H2; [|discriminate]. cbn [bind] in H.
  destruct (upd_B_ok s s1 V0 Hsvd H1) as (KB & IB & B1 & B2 & B3 & B4 & B5 & B6 & B7).
  pose proof KB as (V1 & SB & PB & RB & FB).
  assert (Hsvd1 : svd_correct E (mc (cA (st_cmf s1)))) by (rewrite B3; exact Hsvd).
  destruct (upd_C_ok s1 s2 V1 Hsvd1 H2) as (KC & IC & C1 & C2 & C3 & C4 & C5 & C6 & C7).
  pose proof KC as (V2 & SC & PC & RC & FC).
  assert (Hsvd2 : svd_correct E (mc (cA (st_cmf s2)))) by (rewrite C3; exact Hsvd1).
  destruct (upd_A_ok s2 s' V2 Hsvd2 H) as (KA & A1 & A2 & A3 & A4 & A5 & A6 & A7).
  pose proof KA as (V3 & SA & PA & RA & FA).
  assert (K : keeps P Xs s s') by (eapply keeps_trans; [eapply keeps_trans; eassumption|assumption]).
  split; [assumption|]. split; [|split; [|split; [|split]]].
  - destruct (p_updA P) eqn:UA; [now apply A6|]. rewrite (A5 eq_refl). left. now rewrite IC, IB.
  - split; [|split].
    + intros UA. rewrite (A5 UA), C3, C1, B3, B1. now split.
    + intros UB. rewrite A3, A1, C4, C2. destruct (B5 UB) as (X & Y). rewrite Y, X. now split.
    + intros UC. rewrite A4, A2, (C5 UC), B4, B2. now split.
  - unfold any_update. intros U. destruct (p_updA P) eqn:UA; [now apply A6|]. rewrite (A5 eq_refl). cbn in U.
    destruct (p_updC P) eqn:UC; [now apply C6|]. rewrite (C5 eq_refl). destruct (p_updB P); [now apply B6|discriminate].
  - unfold any_update. intros U. apply orb_false_elim in U. destruct U as (U & UC). apply orb_false_elim in U. destruct U as (UA & UB).
    rewrite (A5 UA), (C5 UC). now apply B5.
  - intros Hn HR. destruct K as (_ & SS & _). pose proof (same_sizes_rows _ _ SS) as SR. destruct SS as (Z1 & Z2 & Z3 & Z4 & _).
    destruct SB as (Y1 & Y2 & Y3 & Y4 & Y5). destruct SC as (W1 & W2 & W3 & W4 & W5).
    split; [|split].
    + intros UA. rewrite Z1, Z2. rewrite <- Y1, <- Y2, <- W1, <- W2. now apply A7.
    + intros UB. rewrite Z4, SR, Z2. rewrite A1, C2. now apply B7.
    + intros UC. rewrite Z3, Z2. rewrite A2. rewrite <- Y3, <- Y2. now apply C7.
Qed.

(** ** Trajectories *)
Lemma trajectory_ok n tr : trajectory E P Xs n tr -> valid_state Xs (tr 0%nat) -> svd_correct E (mc (cA (st_cmf (tr 0%nat)))) ->
  forall j, (j <= n)%nat ->
    keeps P Xs (tr 0%nat) (tr j) /\ frozen P (tr 0%nat) (tr j) /\
    (inter_ok Xs (tr 0%nat) -> inter_ok Xs (tr j)) /\
    ((0 < j)%nat -> any_update = true -> cw (st_cmf (tr j)) = None) /\ (any_update = false -> st_cmf (tr j) = st_cmf (tr 0%nat)) /\
    ((0 < j)%nat -> (0 < p_inner P)%nat -> ready_state (tr 0%nat) -> exact_state P (tr j)).
Proof.
  intros HT V Hsvd. induction j as [|j IH]; intros Hj.
  - split; [|split; [|split; [|split; [|split]]]].
    + split; [assumption|]. split; [apply same_sizes_refl|]. split; [now repeat split|]. split; [tauto|]. now repeat split.
    + now repeat split.
    + tauto.
    + lia.
    + intros; reflexivity.
    + lia.
  - destruct (IH ltac:(lia)) as (K1 & K2 & K3 & K4 & K5 & K6). specialize (HT j ltac:(lia)).
    pose proof K1 as (V' & (S1 & S2 & _) & _ & RD & _).
    assert (Hsvd' : svd_correct E (mc (cA (st_cmf (tr j))))) by (rewrite S2; exact Hsvd).
    destruct (outer_step_ok _ _ V' Hsvd' HT) as (L1 & L2 & L3 & L4 & L5 & L6).
    split; [eapply keeps_trans; eassumption|]. split; [|split; [|split; [|split]]].
    + destruct K2 as (A1 & A2 & A3), L3 as (B1 & B2 & B3). split; [|split].
      * intros U. destruct (A1 U) as (X1 & X2), (B1 U) as (Y1 & Y2). split; congruence.
      * intros U. destruct (A2 U) as (X1 & X2), (B2 U) as (Y1 & Y2). split; congruence.
      * intros U. destruct (A3 U) as (X1 & X2), (B3 U) as (Y1 & Y2). split; congruence.
    + intros _. exact L2.
    + intros _. exact L4.
    + intros U. now rewrite (L5 U), (K5 U).
    + intros _ Hn HR. apply L6; [assumption|]. now apply RD.
Qed.
End Outer.
