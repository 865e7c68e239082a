(** Points at rest are kept by the updates. *)
From Coq Require Import Reals Lra Lia List Arith Bool ZArith.
From Verif Require Import Num Numpy RFacts Spec SpecFacts MatFacts SvdFacts ModelSpec Penalties PenaltySpec
  CoupledMatrices CmfSpec CmfProofs Decomp DecompSpec DecompFacts AdmmProofs AdmmB AdmmA AdmmRegs AdmmLoop AdmmOne AoState OptSpec AdmmConv AdmmFix AdmmFixB AdmmOpt
  RestSpec.
Import ListNotations.
Local Open Scope R_scope.

(** ** One iteration in the abstract *)
Lemma rest_kept n J c rho Q f pen dom (x : pt) (us z u : nat -> pt) (x' : pt) (z' u' : nat -> pt) :
  (forall i, (i < n)%nat -> 0 < rho i) ->
  asaddle n J c rho Q f pen dom x us -> astep n J c rho Q f pen dom z u x' z' u' ->
  (forall q, (q < Q)%nat -> psame n J c (z q) x /\ psame n J c (u q) (us q)) ->
  (Q = 0%nat -> forall y, f y <= f x -> psame n J c y x) ->
  psame n J c x' x /\ forall q, (q < Q)%nat -> psame n J c (z' q) x /\ psame n J c (u' q) (us q).
Proof.
  intros Hr (S1 & S2) (A1 & A2 & A3) HZ H0.
  assert (X : psame n J c x' x).
  { specialize (A1 x). specialize (S1 x').
    assert (E : rsum Q (fun q => wsum n J c rho (fun i j r => (x' i j r - (z q i j r - u q i j r)) * (x i j r - x' i j r))) +
                rsum Q (fun q => wsum n J c rho (fun i j r => us q i j r * (x' i j r - x i j r))) =
                - (INR Q * wsum n J c rho (fun i j r => (x' i j r - x i j r) ^ 2))).
    { rewrite <- rsum_add. rewrite <- rsum_const, <- rsum_opp. apply rsum_ext. intros q Hq. destruct (HZ q Hq) as (Z1 & Z2).
      rewrite <- wsum_add. transitivity (wsum n J c rho (fun i j r => (-1) * (x' i j r - x i j r) ^ 2)).
      - apply wsum_ext. intros i j r Hi Hj Hk. rewrite (Z1 i j r Hi Hj Hk), (Z2 i j r Hi Hj Hk). ring.
      - rewrite wsum_scal. ring. }
    destruct (Nat.eq_dec Q 0) as [->|NQ].
    - apply H0; [reflexivity|]. rewrite !rsum_0 in *. lra.
    - assert (P : 0 < INR Q) by (apply lt_0_INR; lia).
      assert (W : wsum n J c rho (fun i j r => (x' i j r - x i j r) ^ 2) <= 0).
      { apply Rmult_le_reg_l with (INR Q); [assumption|]. lra. }
      intros i j r Hi Hj Hk. pose proof (wsum_zero n J c rho _ Hr (fun i j r _ _ _ => pow2_ge_0 (x' i j r - x i j r)) W i j r Hi Hj Hk) as K.
      cbv beta in K. nra. }
  split; [exact X|]. intros q Hq. destruct (HZ q Hq) as (Z1 & Z2). destruct (S2 q Hq) as (D1 & P1), (A2 q Hq) as (D2 & P2).
  specialize (P1 _ D2). specialize (P2 _ D1).
  assert (W : wsum n J c rho (fun i j r => (z' q i j r - x i j r) ^ 2) <= 0).
  { replace (wsum n J c rho (fun i j r => (z' q i j r - x i j r) ^ 2)) with
      (wsum n J c rho (fun i j r => (x' i j r + u q i j r - z' q i j r) * (x i j r - z' q i j r)) +
       wsum n J c rho (fun i j r => us q i j r * (z' q i j r - x i j r))); [lra|].
    rewrite <- wsum_add. apply wsum_ext. intros i j r Hi Hj Hk. rewrite (X i j r Hi Hj Hk), (Z2 i j r Hi Hj Hk). ring. }
  assert (Z' : psame n J c (z' q) x).
  { intros i j r Hi Hj Hk. pose proof (wsum_zero n J c rho _ Hr (fun i j r _ _ _ => pow2_ge_0 (z' q i j r - x i j r)) W i j r Hi Hj Hk) as K.
    cbv beta in K. nra. }
  split; [exact Z'|]. intros i j r Hi Hj Hk.
  rewrite (A3 q Hq i j r Hi Hj Hk), (X i j r Hi Hj Hk), (Z' i j r Hi Hj Hk), (Z2 i j r Hi Hj Hk). ring.
Qed.

(** ** Matrices and variables that agree entry by entry are equal *)
Lemma shaped_eq r c (M M' : rmat) : shaped M r c -> shaped M' r c -> same r c (rget M) (rget M') -> M = M'.
Proof.
  intros (W & R1 & C1) (W' & R2 & C2) H. apply mat_ext; [assumption|assumption|congruence|congruence|].
  intros i j Hi Hj. apply H; congruence.
Qed.
Lemma list_shaped_eq n J c (l l' : list rmat) : list_shaped n J c l -> list_shaped n J c l' ->
  (forall i, (i < n)%nat -> same (J i) c (rget (nth i l no_mat)) (rget (nth i l' no_mat))) -> l = l'.
Proof.
  intros (L1 & H1) (L2 & H2) H. apply (list_eq_nth _ _ no_mat); [congruence|]. intros i Hi. rewrite L1 in Hi.
  apply (shaped_eq (J i) c); auto.
Qed.
Lemma mregs_eq r c (l l' : list mregR) : Forall (mreg_valid r c) l -> Forall (mreg_valid r c) l' -> map g_pen l' = map g_pen l ->
  (forall q, (q < length l)%nat -> same r c (aux_at l' q) (aux_at l q) /\ same r c (dual_at l' q) (dual_at l q)) -> l' = l.
Proof.
  intros V V' P H. assert (LL : length l' = length l) by (rewrite <- (map_length g_pen), P; apply map_length).
  set (d := nth_reg [] 0).
  apply (list_eq_nth _ _ d); [assumption|]. intros q Hq. rewrite LL in Hq.
  assert (V1 : mreg_valid r c (nth q l d)) by (apply (proj1 (Forall_nth _ _) V); assumption).
  assert (V2 : mreg_valid r c (nth q l' d)) by (apply (proj1 (Forall_nth _ _) V'); lia).
  assert (P' := pens_nth l l' P q). destruct (H q Hq) as (H1 & H2).
  unfold pen_at, aux_at, dual_at, nth_reg in *.
  change (nth q l _) with (nth q l d) in *. change (nth q l' _) with (nth q l' d) in *.
  destruct (nth q l d) as [p a u], (nth q l' d) as [p' a' u']. cbn [g_pen g_aux g_dual] in *.
  destruct V1 as (_ & _ & A1 & A2), V2 as (_ & _ & B1 & B2). cbn [g_aux g_dual] in *. subst p'. f_equal; eapply shaped_eq; eauto.
Qed.
Lemma bregs_eq n J c (l l' : list bregR) : Forall (breg_valid n J c) l -> Forall (breg_valid n J c) l' -> map b_pen l' = map b_pen l ->
  Forall (fun g => convex_pen (b_pen g)) l ->
  (forall q i, (q < length l)%nat -> (i < n)%nat -> same (J i) c (baux_at l' q i) (baux_at l q i) /\ same (J i) c (bdual_at l' q i) (bdual_at l q i)) -> l' = l.
Proof.
  intros V V' P HC H. assert (LL : length l' = length l) by (rewrite <- (map_length b_pen), P; apply map_length).
  set (d := nth_breg [] 0).
  apply (list_eq_nth _ _ d); [assumption|]. intros q Hq. rewrite LL in Hq.
  assert (V1 : breg_valid n J c (nth q l d)) by (apply (proj1 (Forall_nth _ _) V); assumption).
  assert (V2 : breg_valid n J c (nth q l' d)) by (apply (proj1 (Forall_nth _ _) V'); lia).
  assert (CP : convex_pen (b_pen (nth q l d))) by (apply (proj1 (Forall_nth _ _) HC); assumption).
  assert (P' := bpens_nth l l' P q). specialize (fun i => H q i Hq).
  unfold bpen_at, baux_at, bdual_at, nth_breg in *.
  change (nth q l _) with (nth q l d) in *. change (nth q l' _) with (nth q l' d) in *.
  destruct (nth q l d) as [p a u], (nth q l' d) as [p' a' u']. cbn [b_pen b_aux b_dual] in *. subst p'.
  destruct V1 as (D1 & A1), V2 as (D2 & A2). cbn [b_pen b_aux b_dual] in *.
  assert (EU : u' = u) by (apply (list_shaped_eq n J c); auto; intros i Hi; apply H; assumption).
  destruct p; try contradiction; destruct a as [la|]; try contradiction; destruct a' as [la'|]; try contradiction;
    (rewrite EU; do 2 f_equal; apply (list_shaped_eq n J c); [apply A2|apply A1|intros i Hi; apply (proj1 (H i Hi))]).
Qed.

(** ** Any number of iterations of the three updates *)
Section Modes.
Variables (E : ext (N:=RNum)) (Xs : list rmat) (c : rcmf) (l2 scale : R) (constant : bool).
Hypothesis HF : data_fits Xs c.
Hypothesis HN : nonempty c.
Hypothesis Hw : cw c = None.
Hypothesis Hl2 : 0 <= l2.
Hypothesis Hsc : 0 <= scale.
Hypothesis Hsvd : svd_correct E (mc (cA c)).
Lemma unweighted_id : unweighted c = c.
Proof. unfold unweighted. revert Hw. destruct c; cbn. now intros ->. Qed.

Lemma C_rest regs n tol r : Forall (mreg_valid (mr (cC c)) (mc (cA c))) regs -> tv_correct E (mr (cC c)) ->
  rests_C Xs c l2 scale regs -> admm_update_C E Xs c regs l2 n tol scale = Ok r -> r = (c, regs).
Proof.
  intros Hv Htv (Hr & HC & HA & HX & H0) H. destruct r as [c' regs'].
  destruct (update_C_trace E Xs c l2 scale HF HN Hl2 Hsc Hsvd regs regs' c' n tol Hv H) as (m & tr & HI & Hinv).
  rewrite unweighted_id in HI.
  assert (HP : forall i, (i <= m)%nat -> tr i = (c, regs)).
  { apply (iterates_inv _ _ _ _ _ _ _ (fun s => s = (c, regs)) HI); [reflexivity|].
    intros a b -> Hs. assert (I0 : C_inv c (c, regs)).
    { destruct HI as (_ & I2 & _). rewrite <- I2. apply Hinv. lia. }
    destruct (C_astep E Xs c l2 scale HF HN Hl2 Hsc Hsvd (c, regs) b I0 HC Hr Htv Hs) as ((B1 & B2 & B3) & EP & _ & _ & ST). cbn [fst snd] in *.
    destruct (rest_kept _ _ _ _ _ _ _ _ (e2p (rget (cC c))) (fun q => e2p (dual_at regs q)) _ _ _ _ _ (fun i _ => Hr) (certified_saddle _ _ _ _ _ _ _ HX) ST) as (K1 & K2).
    - intros q Hq. split; [|intros i j k Hi Hj Hk; reflexivity]. intros i j k Hi Hj Hk. apply (HA q Hq i k Hi Hk).
    - intros LQ y Hy. destruct regs; [|discriminate]. intros i j k Hi Hj Hk. replace j with 0%nat by lia. exact (H0 eq_refl (p2e y) Hy i k Hi Hk).
    - destruct b as [cb rb]. cbn [fst snd] in *. f_equal.
      + rewrite B1, <- unweighted_id. unfold unweighted. f_equal. apply (shaped_eq (mr (cC c)) (mc (cA c))); [exact B2|exact (proj1 (proj2 I0))|].
        intros i k Hi Hk. exact (K1 i 0%nat k Hi Nat.lt_0_1 Hk).
      + apply (mregs_eq (mr (cC c)) (mc (cA c))); auto. intros q Hq. destruct (K2 q Hq) as (K3 & K4). split; intros i k Hi Hk.
        * etransitivity; [exact (K3 i 0%nat k Hi Nat.lt_0_1 Hk)|]. symmetry. exact (HA q Hq i k Hi Hk).
        * exact (K4 i 0%nat k Hi Nat.lt_0_1 Hk). }
  destruct HI as (_ & _ & I3 & _). rewrite <- I3. apply HP. lia.
Qed.

Lemma rhos_exist b n f : (0 < n)%nat -> exists rho, rhos_used b n f rho.
Proof.
  intros Hn. destruct b; [|exists f; intros i Hi; reflexivity].
  assert (H : forall k, (0 < k)%nat -> exists i, (i < k)%nat /\ forall j, (j < k)%nat -> f j <= f i).
  { induction k as [|k IH]; [lia|]. intros _. destruct (Nat.eq_dec k 0) as [->|Hk].
    - exists 0%nat. split; [lia|]. intros j Hj. replace j with 0%nat by lia. lra.
    - destruct IH as (i & Hi & HI); [lia|]. destruct (Rle_lt_dec (f k) (f i)).
      + exists i. split; [lia|]. intros j Hj. destruct (Nat.eq_dec j k) as [->|]; [assumption|apply HI; lia].
      + exists k. split; [lia|]. intros j Hj. destruct (Nat.eq_dec j k) as [->|]; [lra|]. specialize (HI j ltac:(lia)). lra. }
  destruct (H n Hn) as (i & Hi & HI). exists (fun _ => f i). intros j Hj. split; [exists i; auto|exact HI].
Qed.
Lemma LXs : (0 < length Xs)%nat.
Proof. destruct HF as (_ & L & _), HN as (N1 & _). rn. lia. Qed.

Lemma A_rest regs n tol r i0 : Forall (mreg_valid (mr (cA c)) (mc (cA c))) regs -> tv_correct E (mr (cA c)) ->
  rests_A Xs c l2 scale constant regs -> admm_update_A E Xs c regs l2 n tol scale constant = Ok (r, i0) -> r = (c, regs).
Proof.
  intros Hv Htv (Hr & HR) H. destruct r as [c' regs'].
  destruct (rhos_exist constant (length Xs) (rho_A scale c) LXs) as (rho & Hu). destruct (HR rho Hu) as (HC & HA & HX & H0).
  assert (PR : forall i, (i < mr (cA c))%nat -> 0 < rho i) by (rewrite (RX Xs c HF); exact (rhos_used_pos _ _ _ _ Hu Hr)).
  destruct (update_A_trace E Xs c l2 scale constant HF HN Hl2 Hsc Hsvd regs regs' c' n tol i0 Hv H) as (_ & m & tr & HI & Hinv).
  rewrite unweighted_id in HI.
  assert (HP : forall i, (i <= m)%nat -> tr i = (c, regs)).
  { apply (iterates_inv _ _ _ _ _ _ _ (fun s => s = (c, regs)) HI); [reflexivity|].
    intros a b -> Hs. assert (I0 : A_inv c (c, regs)).
    { destruct HI as (_ & I2 & _). rewrite <- I2. apply Hinv. lia. }
    destruct (A_astep E Xs c l2 scale constant HF HN Hl2 Hsc Hsvd rho (c, regs) b I0 HC Hu Hr Htv Hs) as ((B1 & B2 & B3) & EP & _ & _ & ST). cbn [fst snd] in *.
    destruct (rest_kept _ _ _ _ _ _ _ _ (e2p (rget (cA c))) (fun q => e2p (dual_at regs q)) _ _ _ _ _ PR (certified_saddle _ _ _ _ _ _ _ HX) ST) as (K1 & K2).
    - intros q Hq. split; [|intros i j k Hi Hj Hk; reflexivity]. intros i j k Hi Hj Hk. apply (HA q Hq i k Hi Hk).
    - intros LQ y Hy. destruct regs; [|discriminate]. intros i j k Hi Hj Hk. replace j with 0%nat by lia. exact (H0 eq_refl (p2e y) Hy i k Hi Hk).
    - destruct b as [cb rb]. cbn [fst snd] in *. f_equal.
      + rewrite B1, <- unweighted_id. unfold unweighted. f_equal. apply (shaped_eq (mr (cA c)) (mc (cA c))); [exact B2|exact (proj1 (proj2 I0))|].
        intros i k Hi Hk. exact (K1 i 0%nat k Hi Nat.lt_0_1 Hk).
      + apply (mregs_eq (mr (cA c)) (mc (cA c))); auto. intros q Hq. destruct (K2 q Hq) as (K3 & K4). split; intros i k Hi Hk.
        * etransitivity; [exact (K3 i 0%nat k Hi Nat.lt_0_1 Hk)|]. symmetry. exact (HA q Hq i k Hi Hk).
        * exact (K4 i 0%nat k Hi Nat.lt_0_1 Hk). }
  destruct HI as (_ & _ & I3 & _). rewrite <- I3. apply HP. lia.
Qed.

Lemma B_rest regs n tol r : Forall (breg_valid (length Xs) (rowsB c) (mc (cA c))) regs -> (forall i, (i < length Xs)%nat -> tv_correct E (rowsB c i)) ->
  rests_B Xs c l2 scale constant regs -> admm_update_B E Xs c regs l2 n tol scale constant = Ok r -> r = (c, regs).
Proof.
  intros Hv Htv (Hr & HR) H. destruct r as [c' regs'].
  destruct (rhos_exist constant (length Xs) (rho_B scale c) LXs) as (rho & Hu). destruct (HR rho Hu) as (HC & HA & HX & H0).
  assert (PR : forall i, (i < length Xs)%nat -> 0 < rho i) by exact (rhos_used_pos _ _ _ _ Hu Hr).
  destruct (update_B_trace E Xs c l2 scale constant HF HN Hl2 Hsc Hsvd regs regs' c' n tol Hv H) as (m & tr & HI & Hinv).
  rewrite unweighted_id in HI.
  assert (HP : forall i, (i <= m)%nat -> tr i = (c, regs)).
  { apply (iterates_inv _ _ _ _ _ _ _ (fun s => s = (c, regs)) HI); [reflexivity|].
    intros a b -> Hs. assert (I0 : B_inv Xs c (c, regs)).
    { destruct HI as (_ & I2 & _). rewrite <- I2. apply Hinv. lia. }
    destruct (B_astep E Xs c l2 scale constant HF HN Hl2 Hsc Hsvd rho (c, regs) b I0 HC Hu Hr Htv Hs) as ((B1 & B2 & B3) & EP & _ & _ & ST). cbn [fst snd] in *.
    destruct (rest_kept _ _ _ _ _ _ _ _ (entB (cBs c)) (bdual_at regs) _ _ _ _ _ PR (certified_saddle_l _ _ _ _ _ _ _ _ HX) ST) as (K1 & K2).
    - intros q Hq. split; [|intros i j k Hi Hj Hk; reflexivity]. intros i j k Hi Hj Hk. apply (HA q i Hq Hi j k Hj Hk).
    - intros LQ y Hy. destruct regs; [|discriminate]. intros i j k Hi Hj Hk. exact (H0 eq_refl y Hy i Hi j k Hj Hk).
    - destruct b as [cb rb]. cbn [fst snd] in *. f_equal.
      + rewrite B1, <- unweighted_id. unfold unweighted. f_equal. apply (list_shaped_eq (length Xs) (rowsB c) (mc (cA c))); [exact B2|exact (proj1 (proj2 I0))|].
        intros i Hi j k Hj Hk. exact (K1 i j k Hi Hj Hk).
      + apply (bregs_eq (length Xs) (rowsB c) (mc (cA c))); auto. intros q i Hq Hi. destruct (K2 q Hq) as (K3 & K4). split; intros j k Hj Hk.
        * etransitivity; [exact (K3 i j k Hi Hj Hk)|]. symmetry. exact (HA q i Hq Hi j k Hj Hk).
        * exact (K4 i j k Hi Hj Hk). }
  destruct HI as (_ & _ & I3 & _). rewrite <- I3. apply HP. lia.
Qed.
End Modes.
