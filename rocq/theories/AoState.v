(** Outer iterations keep states valid and impose the constraints. *)
From Coq Require Import Reals Lra Lia List Arith Bool Classical_Prop FunctionalExtensionality.
From Verif Require Import Num Numpy Unimodal RFacts Spec SpecFacts MatFacts SvdFacts ModelSpec Penalties PenaltySpec
  ProxProofs TVProofs GenL2Proofs SimplexProofs Parafac2Proofs PenaltyMain CoupledMatrices CmfSpec CmfProofs
  Decomp DecompSpec DecompFacts AdmmProofs AdmmB AdmmA AdmmRegs AdmmLoop AdmmOne.
Import ListNotations.
Local Open Scope R_scope.

Lemma F2_map {A B C} (f : A -> C) (g : B -> C) (R : A -> B -> Prop) l m :
  Forall2 R l m -> (forall x y, R x y -> g y = f x) -> map g m = map f l.
Proof. intros H K. induction H; cbn; f_equal; auto. Qed.
Lemma iterates_last {S} (one done : S -> S -> Prop) n s s' m tr : iterates one done n s s' m tr -> (0 < n)%nat ->
  (0 < m)%nat /\ one (tr (m - 1)%nat) (tr m).
Proof.
  intros (H1 & _ & _ & H4 & _ & H6) Hn. assert (0 < m)%nat.
  { destruct (Nat.lt_ge_cases m n); [now apply H6|lia]. }
  split; [assumption|]. replace m with (Datatypes.S (m - 1)) at 2 by lia. apply H4. lia.
Qed.

(** ** One factor update with any number of inner iterations *)
Section Keep.
Variables (E : ext (N:=RNum)) (Xs : list rmat) (c : rcmf) (l2 scale : R) (constant : bool).
Hypothesis HF : data_fits Xs c.
Hypothesis HN : nonempty c.
Hypothesis Hl2 : 0 <= l2.
Hypothesis Hsc : 0 <= scale.
Hypothesis Hsvd : svd_correct E (mc (cA c)).

Lemma C_inv_step a b : C_inv c a -> admm_update_C E Xs (fst a) (snd a) l2 1 None scale = Ok b ->
  C_inv c b /\ Forall2 (mstep (mr (cC c)) (mc (cA c)) (rget (cC (fst b)))) (snd a) (snd b) /\
  (forall Z, obj_C Xs c l2 (rho_C scale c) (snd a) (rget (cC (fst b))) <= obj_C Xs c l2 (rho_C scale c) (snd a) Z).
Proof.
  destruct a as [ca ra], b as [cb rb]. cbn [fst snd]. intros (I1 & I2 & I3) H. cbn [fst snd] in I1, I2, I3.
  rewrite I1 in H.
  assert (HF' := data_fits_C Xs c (cC ca) HF I2). destruct I2 as (W & S1 & S2).
  assert (HN' : nonempty (Cmf None (cA c) (cBs c) (cC ca))).
  { destruct HN as (N1 & N2 & N3 & N4). split; [exact N1|]. split; [cbn [cC]; rn; lia|]. split; assumption. }
  destruct (update_C_one E Xs _ l2 scale HF' HN' Hl2 Hsc Hsvd ra rb cb None) as (K1 & K2 & K3 & K4); cbn [cA cBs cC] in *.
  { rewrite S1. exact I3. } { exact H. }
  rewrite S1 in K2, K4. 
  assert (K5 : Forall2 (mstep (mr (cC c)) (mc (cA c)) (rget (cC cb))) ra rb).
  { eapply F2_impl; [|exact K4]. intros x y (X & _). exact X. }
  split; [|split; [assumption|]].
  - split; [exact K1|]. split; [exact K2|]. now apply (mstep_valid _ _ _ _ _ K5).
  - intros Z. specialize (K3 Z). unfold obj_C in K3 |- *. cbn [cA cBs cC] in K3. rewrite S1 in K3. exact K3.
Qed.
Lemma keep_C (regs regs' : list mregR) (c' : rcmf) n tol :
  Forall (mreg_valid (mr (cC c)) (mc (cA c))) regs ->
  admm_update_C E Xs c regs l2 n tol scale = Ok (c', regs') ->
  c' = Cmf None (cA c) (cBs c) (cC c') /\ shaped (cC c') (mr (cC c)) (mc (cA c)) /\
  Forall (mreg_valid (mr (cC c)) (mc (cA c))) regs' /\ map g_pen regs' = map g_pen regs /\
  ((0 < n)%nat -> Forall (fun g => exact_domain (g_pen g) (mr (cC c)) (mc (cA c)) (rget (g_aux g))) regs').
Proof.
  intros Hv H. destruct (update_C_trace E Xs c l2 scale HF HN Hl2 Hsc Hsvd regs regs' c' n tol Hv H) as (m & tr & HI & Hinv).
  pose proof HI as (I1 & I2 & I3 & _).
  pose proof (Hinv m (le_n m)) as K. rewrite I3 in K. destruct K as (K1 & K2 & K3). cbn [fst snd] in *.
  split; [assumption|]. split; [assumption|]. split; [assumption|]. split.
  - assert (HP : forall i, (i <= m)%nat -> C_inv c (tr i) /\ map g_pen (snd (tr i)) = map g_pen regs).
    { apply (iterates_inv _ _ _ _ _ _ _ (fun s => C_inv c s /\ map g_pen (snd s) = map g_pen regs) HI).
      - split; [|reflexivity]. rewrite <- I2. apply Hinv. lia.
      - intros a b (A1 & A2) Hs. destruct (C_inv_step a b A1 Hs) as (B1 & B2 & _). split; [assumption|].
        rewrite <- A2. apply (F2_map _ _ _ _ _ B2). intros x y (X & _). exact X. }
    destruct (HP m (le_n m)) as (_ & X). rewrite I3 in X. exact X.
  - intros Hn. destruct (iterates_last _ _ _ _ _ _ _ HI Hn) as (L1 & L2).
    destruct (C_inv_step _ _ (Hinv (m - 1)%nat ltac:(lia)) L2) as (_ & B2 & _). rewrite I3 in B2. cbn [fst snd] in B2.
    eapply Forall2_right; [exact B2|]. intros x y (_ & _ & X & _). exact X.
Qed.

Lemma A_inv_step a b : A_inv c a -> (exists i, admm_update_A E Xs (fst a) (snd a) l2 1 None scale constant = Ok (b, i)) ->
  A_inv c b /\ Forall2 (mstep (mr (cA c)) (mc (cA c)) (rget (cA (fst b)))) (snd a) (snd b) /\
  exists rho, rhos_used constant (length Xs) (rho_A scale c) rho /\
  forall Z, obj_A Xs c l2 rho (snd a) (rget (cA (fst b))) <= obj_A Xs c l2 rho (snd a) Z.
Proof.
  destruct a as [ca ra], b as [cb rb]. cbn [fst snd]. intros (I1 & I2 & I3) (inter & H). cbn [fst snd] in I1, I2, I3.
  rewrite I1 in H.
  assert (HF' := data_fits_A Xs c (cA ca) HF I2). destruct I2 as (W & S1 & S2).
  assert (HN' : nonempty (Cmf None (cA ca) (cBs c) (cC c))).
  { destruct HN as (N1 & N2 & N3 & N4). split; [exact N1|]. split; [exact N2|]. split; [cbn [cA]; rn; lia|]. exact N4. }
  assert (Hsvd' : svd_correct E (mc (cA ca))) by (rewrite S2; exact Hsvd).
  destruct (update_A_one E Xs _ l2 scale constant HF' HN' Hl2 Hsc Hsvd' ra rb cb None inter) as (_ & K1 & K2 & fps & Kl & Kr & K3 & K4); cbn [cA cBs cC] in *.
  { rewrite S1, S2. exact I3. } { exact H. }
  rewrite S1, S2 in K2, K4.
  assert (K5 : Forall2 (mstep (mr (cA c)) (mc (cA c)) (rget (cA cb))) ra rb).
  { eapply F2_impl; [|exact K4]. intros x y (X & _). exact X. }
  split; [|split; [assumption|]].
  - split; [exact K1|]. split; [exact K2|]. now apply (mstep_valid _ _ _ _ _ K5).
  - exists (fun i => vg fps i). split.
    + revert Kr. apply rhos_used_ext. intros i Hi. unfold rho_A. cbn [cA cBs cC]. now rewrite S2.
    + intros Z. specialize (K3 Z). unfold obj_A in K3 |- *. cbn [cA cBs cC] in K3. rewrite S1, S2 in K3. exact K3.
Qed.
Lemma keep_A (regs regs' : list mregR) (c' : rcmf) n tol inter :
  Forall (mreg_valid (mr (cA c)) (mc (cA c))) regs ->
  admm_update_A E Xs c regs l2 n tol scale constant = Ok (c', regs', inter) ->
  inter = (A_rhses (cBs c) (cC c) Xs, A_cross (cBs c) (cC c) Xs) /\
  c' = Cmf None (cA c') (cBs c) (cC c) /\ shaped (cA c') (mr (cA c)) (mc (cA c)) /\
  Forall (mreg_valid (mr (cA c)) (mc (cA c))) regs' /\ map g_pen regs' = map g_pen regs /\
  ((0 < n)%nat -> Forall (fun g => exact_domain (g_pen g) (mr (cA c)) (mc (cA c)) (rget (g_aux g))) regs').
Proof.
  intros Hv H. destruct (update_A_trace E Xs c l2 scale constant HF HN Hl2 Hsc Hsvd regs regs' c' n tol inter Hv H) as (Ei & m & tr & HI & Hinv).
  split; [assumption|]. pose proof HI as (I1 & I2 & I3 & _).
  pose proof (Hinv m (le_n m)) as K. rewrite I3 in K. destruct K as (K1 & K2 & K3). cbn [fst snd] in *.
  split; [assumption|]. split; [assumption|]. split; [assumption|]. split.
  - assert (HP : forall i, (i <= m)%nat -> A_inv c (tr i) /\ map g_pen (snd (tr i)) = map g_pen regs).
    { apply (iterates_inv _ _ _ _ _ _ _ (fun s => A_inv c s /\ map g_pen (snd s) = map g_pen regs) HI).
      - split; [|reflexivity]. rewrite <- I2. apply Hinv. lia.
      - intros a b (A1 & A2) Hs. destruct (A_inv_step a b A1 Hs) as (B1 & B2 & _). split; [assumption|].
        rewrite <- A2. apply (F2_map _ _ _ _ _ B2). intros x y (X & _). exact X. }
    destruct (HP m (le_n m)) as (_ & X). rewrite I3 in X. exact X.
  - intros Hn. destruct (iterates_last _ _ _ _ _ _ _ HI Hn) as (L1 & L2).
    destruct (A_inv_step _ _ (Hinv (m - 1)%nat ltac:(lia)) L2) as (_ & B2 & _). rewrite I3 in B2. cbn [fst snd] in B2.
    eapply Forall2_right; [exact B2|]. intros x y (_ & _ & X & _). exact X.
Qed.

Lemma rowsB_shaped (Bs : list rmat) : list_shaped (length (cBs c)) (rowsB c) (mc (cA c)) Bs -> forall A C w, rowsB (Cmf w A Bs C) = rowsB c.
Proof.
  intros (L & H) A C w. apply functional_extensionality. intros i. unfold rowsB, nthB. cbn [cBs].
  destruct (Nat.lt_ge_cases i (length (cBs c))) as [Hi|Hi].
  - destruct (H i Hi) as (_ & X & _). exact X.
  - rewrite !nth_overflow by (rn; lia). reflexivity.
Qed.
Lemma B_inv_step a b : B_inv Xs c a -> admm_update_B E Xs (fst a) (snd a) l2 1 None scale constant = Ok b ->
  B_inv Xs c b /\ Forall2 (bstep (length Xs) (rowsB c) (mc (cA c)) (entB (cBs (fst b)))) (snd a) (snd b) /\
  exists rho, rhos_used constant (length Xs) (rho_B scale c) rho /\
  forall Z, obj_B Xs c l2 rho (snd a) (entB (cBs (fst b))) <= obj_B Xs c l2 rho (snd a) Z.
Proof.
  destruct a as [ca ra], b as [cb rb]. cbn [fst snd]. intros (I1 & I2 & I3) H. cbn [fst snd] in I1, I2, I3.
  rewrite I1 in H. fold (rowsB c) in I2, I3.
  assert (EL : length (cBs c) = length Xs) by (destruct HF as (_ & L & _); now symmetry).
  assert (I2' := I2). rewrite <- EL in I2'.
  assert (HF' := data_fits_B Xs c (cBs ca) HF I2').
  pose proof (rowsB_shaped (cBs ca) I2' (cA c) (cC c) None) as RB.
  assert (HN' : nonempty (Cmf None (cA c) (cBs ca) (cC c))).
  { destruct HN as (N1 & N2 & N3 & N4). destruct I2' as (L & _). split; [cbn [cBs]; rn; lia|]. split; [exact N2|]. split; [exact N3|].
    cbn [cBs]. intros i Hi. change (0 < rowsB (Cmf None (cA c) (cBs ca) (cC c)) i)%nat. rewrite RB. apply N4. rn; lia. }
  destruct (update_B_one E Xs _ l2 scale constant HF' HN' Hl2 Hsc Hsvd ra rb cb None) as (K1 & K2 & fps & Kl & Kr & K3 & K4).
  { fold (rowsB (Cmf None (cA c) (cBs ca) (cC c))). rewrite RB. exact I3. } { exact H. }
  fold (rowsB (Cmf None (cA c) (cBs ca) (cC c))) in K2, K4. rewrite RB in K2, K4. cbn [cA cBs cC] in *.
  assert (K5 : Forall2 (bstep (length Xs) (rowsB c) (mc (cA c)) (entB (cBs cb))) ra rb).
  { eapply F2_impl; [|exact K4]. intros x y (X & _). exact X. }
  split; [|split; [assumption|]].
  - split; [exact K1|]. split; [exact K2|]. now apply (bstep_valid _ _ _ _ _ _ K5).
  - exists (fun i => vg fps i). split.
    + revert Kr. apply rhos_used_ext. reflexivity.
    + intros Z. specialize (K3 Z). unfold obj_B in K3 |- *. cbn [cA cBs cC] in K3. destruct I2' as (L & _). rewrite L in K3.
      assert (X : forall i, mr (nthB (Cmf None (cA c) (cBs ca) (cC c)) i) = mr (nthB c i)) by (intros i; apply (f_equal (fun f => f i) RB)).
      replace (fun i : nat => sumsq (mr (nthB c i)) (mc (cA c)) (entB (cBs cb) i))
        with (fun i : nat => sumsq (mr (nthB (Cmf None (cA c) (cBs ca) (cC c)) i)) (mc (cA c)) (entB (cBs cb) i))
        by (apply functional_extensionality; intros i; now rewrite X).
      replace (fun i : nat => sumsq (mr (nthB c i)) (mc (cA c)) (Z i))
        with (fun i : nat => sumsq (mr (nthB (Cmf None (cA c) (cBs ca) (cC c)) i)) (mc (cA c)) (Z i))
        by (apply functional_extensionality; intros i; now rewrite X).
      match goal with |- ?a + ?b <= ?a' + ?b' => match type of K3 with ?u + ?v <= ?u' + ?v' =>
        assert (b = v) as ->; [|assert (b' = v') as ->; [|exact K3]] end end;
      apply Sum_ext; intros q Hq; apply Sum_ext; intros i Hi; now rewrite X.
Qed.
Lemma keep_B (regs regs' : list bregR) (c' : rcmf) n tol :
  Forall (breg_valid (length (cBs c)) (rowsB c) (mc (cA c))) regs ->
  admm_update_B E Xs c regs l2 n tol scale constant = Ok (c', regs') ->
  c' = Cmf None (cA c) (cBs c') (cC c) /\ list_shaped (length (cBs c)) (rowsB c) (mc (cA c)) (cBs c') /\
  Forall (breg_valid (length (cBs c)) (rowsB c) (mc (cA c))) regs' /\ map b_pen regs' = map b_pen regs /\
  (Forall (b_ready (length (cBs c)) (rowsB c) (mc (cA c))) regs ->
     Forall (b_ready (length (cBs c)) (rowsB c) (mc (cA c))) regs' /\
     ((0 < n)%nat -> Forall (b_exact (length (cBs c)) (rowsB c) (mc (cA c))) regs')).
Proof.
  assert (EL : length (cBs c) = length Xs) by (destruct HF as (_ & L & _); now symmetry). rewrite EL.
  intros Hv H. destruct (update_B_trace E Xs c l2 scale constant HF HN Hl2 Hsc Hsvd regs regs' c' n tol Hv H) as (m & tr & HI & Hinv).
  pose proof HI as (I1 & I2 & I3 & _).
  pose proof (Hinv m (le_n m)) as K. rewrite I3 in K. destruct K as (K1 & K2 & K3). cbn [fst snd] in *.
  split; [assumption|]. split; [assumption|]. split; [assumption|]. split.
  - assert (HP : forall i, (i <= m)%nat -> B_inv Xs c (tr i) /\ map b_pen (snd (tr i)) = map b_pen regs).
    { apply (iterates_inv _ _ _ _ _ _ _ (fun s => B_inv Xs c s /\ map b_pen (snd s) = map b_pen regs) HI).
      - split; [|reflexivity]. rewrite <- I2. apply Hinv. lia.
      - intros a b (A1 & A2) Hs. destruct (B_inv_step a b A1 Hs) as (B1 & B2 & _). split; [assumption|].
        rewrite <- A2. apply (F2_map _ _ _ _ _ B2). intros x y (X & _). exact X. }
    destruct (HP m (le_n m)) as (_ & X). rewrite I3 in X. exact X.
  - intros HR.
    assert (HP : forall i, (i <= m)%nat -> B_inv Xs c (tr i) /\ Forall (b_ready (length Xs) (rowsB c) (mc (cA c))) (snd (tr i))).
    { apply (iterates_inv _ _ _ _ _ _ _ (fun s => B_inv Xs c s /\ Forall (b_ready (length Xs) (rowsB c) (mc (cA c))) (snd s)) HI).
      - split; [|assumption]. rewrite <- I2. apply Hinv. lia.
      - intros a b (A1 & A2) Hs. destruct (B_inv_step a b A1 Hs) as (B1 & B2 & _). split; [assumption|].
        eapply Forall2_right; [exact (Forall2_Forall _ _ (fun x y => b_ready (length Xs) (rowsB c) (mc (cA c)) y) _ _ A2 B2 ltac:(
          intros x y X (_ & _ & Y & _); right; apply Y; exact X))|]. auto. }
    destruct (HP m (le_n m)) as (_ & X). rewrite I3 in X. split; [exact X|].
    intros Hn. destruct (iterates_last _ _ _ _ _ _ _ HI Hn) as (L1 & L2).
    destruct (HP (m - 1)%nat ltac:(lia)) as (Y1 & Y2).
    destruct (B_inv_step _ _ Y1 L2) as (_ & B2 & _). rewrite I3 in B2. cbn [fst snd] in B2.
    eapply Forall2_right; [exact (Forall2_Forall _ _ (fun x y => b_exact (length Xs) (rowsB c) (mc (cA c)) y) _ _ Y2 B2 ltac:(
          intros x y X0 (_ & _ & _ & Y & _); apply Y; exact X0))|]. auto.
Qed.
End Keep.
