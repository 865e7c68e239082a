(** The B_i at rest under a PARAFAC2 constraint. *)
From Coq Require Import Reals Lra Lia List Arith Bool ZArith.
From Verif Require Import Num Numpy RFacts Spec SpecFacts MatFacts SvdFacts ModelSpec Penalties PenaltySpec ProxProofs Parafac2Proofs Parafac2Main
  CoupledMatrices CmfSpec CmfProofs Decomp DecompSpec DecompFacts AdmmProofs AdmmB AdmmA AdmmRegs AdmmLoop AdmmOne AoState OptSpec AdmmConv AdmmFix AdmmFixB AdmmOpt
  InitVars InitSpec Parse ParseSpec Fit FitSpec SymSpec RestSpec Rest RestPerfect RestPf2Spec.
Import ListNotations.
Local Open Scope R_scope.

Lemma met_aux n J c x g i : meets_B n J c x g -> (i < n)%nat -> same (J i) c (baux g i) (x i) /\ same (J i) c (rget (nth i (b_dual g) no_mat)) (fun _ _ => 0).
Proof. intros [(_ & _ & H)|(_ & _ & H)] Hi; [|exact (H i Hi)]. destruct (H i Hi) as (_ & H1 & H2). exact (conj H1 H2). Qed.
Lemma meets_ext n J c x y g : (forall i, (i < n)%nat -> same (J i) c (x i) (y i)) -> meets_B n J c x g -> meets_B n J c y g.
Proof.
  intros E [(H1 & H2 & H3)|(H1 & H2 & H3)]; [left|right]; (split; [exact H1|split; [exact H2|]]); intros i Hi; specialize (H3 i Hi).
  - destruct H3 as (D & A & U). split; [|split; [|exact U]].
    + exact (doc_domain_ext _ _ _ _ _ H1 (E i Hi) D).
    + intros j k Hj Hk. rewrite (A j k Hj Hk). now apply E.
  - destruct H3 as (A & U). split; [|exact U]. intros j k Hj Hk. rewrite (A j k Hj Hk). now apply E.
Qed.
(** the auxiliary update *)
Lemma convex_kept E n J c (rho : nat -> R) (fps : list R) (Bs : list rmat) (g g' : bregR) :
  (forall i, (i < n)%nat -> 0 < vg fps i) -> length fps = n -> list_shaped n J c Bs -> breg_valid n J c g -> breg_valid n J c g' -> b_pen g' = b_pen g ->
  (forall i, (i < n)%nat -> tv_correct E (J i)) -> met_l n J c (entB Bs) g ->
  factor_matrices_update E (b_pen g) (map2 madd Bs (b_dual g)) fps (b_aux g) = Ok (b_aux g') ->
  forall i, (i < n)%nat -> same (J i) c (baux g' i) (entB Bs i).
Proof.
  intros Hp Lf SB Vg Vg' Ep Htv (CP & CO & HM) H.
  destruct (breg_vi n J c (fun i => vg fps i) Hp E fps Bs g g' Lf (fun _ _ => eq_refl) SB Vg Vg' Ep CP Htv H) as (D & P).
  specialize (P (entB Bs) (fun i Hi => proj1 (HM i Hi))). unfold pen_l in P. rewrite !Sum_rsum in P.
  rewrite !rsum_zero in P by (intros; now apply constraint_zero). rewrite wdot_l_ws in P.
  assert (W : wsum n J c (fun i => vg fps i) (fun i j k => (baux g' i j k - entB Bs i j k) ^ 2) <= 0).
  { eapply Rle_trans; [|exact (Rle_trans _ _ _ (Req_le _ _ (eq_sym (Rplus_0_l _))) P)]. right. apply wsum_ext. intros i j k Hi Hj Hk.
    destruct (HM i Hi) as (_ & _ & U). unfold bdual_at, nth_breg in U. cbn [nth] in U. unfold lsub. rewrite (U j k Hj Hk). ring. }
  intros i Hi j k Hj Hk. pose proof (wsum_zero n J c _ _ Hp (fun i j k _ _ _ => pow2_ge_0 (baux g' i j k - entB Bs i j k)) W i j k Hi Hj Hk) as K. cbv beta in K. nra.
Qed.
Lemma baux_mat (P : list rmat) (D : rmat) n J c i : list_shaped n J c P -> shaped D c c -> (i < n)%nat -> forall j k, (j < J i)%nat -> (k < c)%nat ->
  Sum (mr D) (fun q => rget (nth i P no_mat) j q * rget D q k) = rget (nth i (map (fun Q => mmul Q D) P) no_mat) j k.
Proof.
  intros (L & HP) (WD & R1 & C1) Hi j k Hj Hk. destruct (HP i Hi) as (W & R2 & C2). rewrite (nth_map_lt _ _ i _ no_mat) by lia.
  rewrite mget_mmul by mlia. rewrite R1, C2. apply Sum_rsum.
Qed.
Lemma parafac2_kept E n J c (fps : list R) (Bs : list rmat) (g g' : bregR) : (0 < n)%nat -> svd_correct E c ->
  (forall i, (i < n)%nat -> 0 < vg fps i) -> length fps = n -> list_shaped n J c Bs -> breg_valid n J c g -> breg_valid n J c g' -> b_pen g' = b_pen g ->
  met_pf2 n J c (entB Bs) g ->
  factor_matrices_update E (b_pen g) (map2 madd Bs (b_dual g)) fps (b_aux g) = Ok (b_aux g') ->
  b_ortho n J c g' /\ forall i, (i < n)%nat -> same (J i) c (baux g' i) (entB Bs i).
Proof.
  intros Hn Hsvd Hp Lf (LB & SB) Vg Vg' Ep (IP & OR & HM) H.
  destruct g as [p a u], g' as [p' a' u']. cbn [b_pen b_aux b_dual] in *. subst p'.
  destruct p as [| | | | | | | |it ub uc]; try contradiction. destruct Vg as ((LU & SU) & Vg), Vg' as (_ & Vg'). cbn [b_pen b_aux b_dual] in *.
  destruct a as [|P D]; [contradiction|]. destruct a' as [|P' D']; [contradiction|]. cbn in OR. destruct Vg as (SP & SD & HJ), Vg' as (SP' & SD' & _).
  set (fms := map2 madd Bs u) in *.
  assert (LM : length fms = n) by (unfold fms; rewrite length_map2; rn; lia).
  assert (FM : forall i, (i < n)%nat -> shaped (nth i fms no_mat) (J i) c /\ same (J i) c (rget (nth i fms no_mat)) (entB Bs i)).
  { intros i Hi. unfold fms. rewrite (nth_map2 _ _ _ i no_mat no_mat no_mat) by (rn; lia). destruct (SB i Hi) as (W1 & R1 & C1), (SU i Hi) as (W2 & R2 & C2). split.
    - split; [auto with mwf|]. mshape. auto.
    - intros j k Hj Hk. rewrite mget_madd by (rewrite ?R1, ?C1; assumption). destruct (HM i Hi) as (_ & U). rewrite (U j k Hj Hk). unfold entB. rn. ring. }
  assert (IN : parafac2_input c fms fps).
  { split; [destruct fms; [cbn in LM; lia|discriminate]|]. split; [lia|]. split.
    - apply Forall_forall. intros x Hx. destruct (In_nth _ _ 0 Hx) as (i & Hi & <-). apply (Hp i). lia.
    - rewrite LM. intros i Hi. destruct (FM i Hi) as ((W & R1 & C1) & _). split; [exact W|]. split; [exact C1|]. rewrite R1. auto. }
  assert (OB : orthonormal_bases c fms P).
  { destruct SP as (L1 & SP). split; [congruence|]. rewrite LM. intros i Hi. destruct (FM i Hi) as ((_ & R1 & _) & _). rewrite R1. split; [apply SP|apply OR]; exact Hi. }
  destruct (pf2_update_main E c fms fps IN Hsvd it ub uc P D SD (or_intror OB)) as (b' & D1 & EU & S1 & O1 & _ & Hle).
  rewrite EU in H. injection H as -> ->. specialize (Hle OB).
  assert (Z : weighted_dist c fps fms (map (fun Q => mmul Q D) P) = 0).
  { unfold weighted_dist. rewrite Sum_rsum. apply rsum_zero. intros i Hi. rewrite LM in Hi. destruct (FM i Hi) as ((_ & R1 & _) & F1). rewrite R1.
    rewrite (dist2_same (J i) c); [ring|]. intros j k Hj Hk. rewrite (F1 j k Hj Hk). rewrite <- (baux_mat P D n J c i SP SD Hi j k Hj Hk). symmetry. exact (proj1 (HM i Hi) j k Hj Hk). }
  rewrite Z in Hle. destruct O1 as (L2 & O1). rewrite LM in O1. split.
  { cbn. intros i Hi. destruct (O1 i Hi) as (_ & O2). destruct (FM i Hi) as ((_ & R1 & _) & _). now rewrite R1 in O2. }
  intros i Hi. destruct (FM i Hi) as ((_ & R1 & _) & F1).
  assert (T : forall k, (k < n)%nat -> 0 <= at_ fps k * dist2 (mr (nth k fms no_mat)) c (rget (nth k fms no_mat)) (rget (nth k (map (fun Q => mmul Q D') P') no_mat))).
  { intros k Hk. apply Rmult_le_pos; [apply Rlt_le, (Hp k Hk)|apply dist2_nonneg]. }
  assert (DZ : dist2 (J i) c (rget (nth i fms no_mat)) (rget (nth i (map (fun Q => mmul Q D') P') no_mat)) = 0).
  { unfold weighted_dist in Hle. rewrite Sum_rsum, LM in Hle.
    pose proof (rsum_nonneg_zero n _ T (Rle_antisym _ _ Hle (rsum_nonneg n _ T)) i Hi) as K. cbv beta in K. rewrite R1 in K.
    apply Rmult_integral in K. destruct K as [K|K]; [|exact K]. specialize (Hp i Hi). unfold vg in Hp. unfold at_ in K. rn. lra. }
  apply dist2_zero in DZ. intros j k Hj Hk. cbn [baux b_aux]. etransitivity; [exact (baux_mat P' D' n J c i SP' SD' Hi j k Hj Hk)|]. rewrite <- (DZ j k Hj Hk). apply F1; auto.
Qed.

(** ** The update of the B_i *)
Lemma unweighted_none (c : rcmf) : cw c = None -> unweighted c = c.
Proof. destruct c; cbn. now intros ->. Qed.
Section Mode.
Variables (E : ext (N:=RNum)) (Xs : list rmat) (c : rcmf) (l2 scale : R) (constant : bool).
Hypothesis HF : data_fits Xs c.
Hypothesis HN : nonempty c.
Hypothesis Hw : cw c = None.
Hypothesis Hl2 : 0 <= l2.
Hypothesis Hsc : 0 <= scale.
Hypothesis Hsvd : svd_correct E (mc (cA c)).
Hypothesis Htv : forall r, tv_correct E r.
Definition calm (regs0 regs : list bregR) : Prop :=
  Forall (breg_valid (length Xs) (rowsB c) (mc (cA c))) regs /\ Forall (meets_B (length Xs) (rowsB c) (mc (cA c)) (entB (cBs c))) regs /\
  map b_pen regs = map b_pen regs0.
Lemma calm_step regs0 regs b : relaxed_B Xs c l2 scale regs0 -> calm regs0 regs -> admm_update_B E Xs c regs l2 1 None scale constant = Ok b ->
  fst b = c /\ calm regs0 (snd b).
Proof.
  intros (Hr & NE & HM & _) (HV & HC & HP) H. destruct b as [cb rb]. cbn [fst snd].
  assert (EL : length (cBs c) = length Xs) by (destruct HF as (_ & L & _); now symmetry).
  destruct (update_B_one E Xs c l2 scale constant HF HN Hl2 Hsc Hsvd regs rb cb None HV H) as (K1 & K2 & fps & Lf & Hu & K3 & K4).
  pose proof (rhos_used_pos _ _ _ _ Hu Hr) as PR. cbv beta in PR.
  assert (SB : list_shaped (length Xs) (rowsB c) (mc (cA c)) (cBs c)).
  { split; [exact EL|]. intros i Hi. destruct HF as ((_ & _ & _ & _ & HB & _) & _). rewrite <- EL in Hi. destruct (HB i Hi) as (W & C). split; [exact W|]. split; [reflexivity|exact C]. }
  assert (LR : (0 < length regs)%nat).
  { rewrite <- (map_length b_pen), HP, map_length. destruct regs0; [contradiction|cbn; lia]. }
  fold (rowsB c) in K2, K4.
  assert (AT : forall q, (q < length regs)%nat -> meets_B (length Xs) (rowsB c) (mc (cA c)) (entB (cBs c)) (nth_breg regs q)).
  { intros q Hq. rewrite Forall_forall in HC. apply HC. now apply nth_In. }
  assert (XB : forall i, (i < length Xs)%nat -> same (rowsB c i) (mc (cA c)) (entB (cBs cb) i) (entB (cBs c) i)).
  { specialize (K3 (entB (cBs c))). unfold obj_B in K3. fold (smooth_B Xs c l2 (entB (cBs c))) in K3. fold (smooth_B Xs c l2 (entB (cBs cb))) in K3. rewrite EL in K3.
    specialize (HM (entB (cBs cb))). rewrite !Sum_rsum in K3.
    rewrite (rsum_zero (length regs) (fun q => Sum (length Xs) (fun i => vg fps i / 2 * dist2 (mr (nthB c i)) (mc (cA c)) (entB (cBs c) i) _))) in K3.
    2:{ intros q Hq. rewrite Sum_rsum. apply rsum_zero. intros i Hi. destruct (met_aux _ _ _ _ _ i (AT q Hq) Hi) as (A1 & A2).
        rewrite dist2_same; [ring|]. intros j k Hj Hk. change (mr (nthB c i)) with (rowsB c i) in Hj. rewrite (A1 j k Hj Hk), (A2 j k Hj Hk). ring. }
    assert (T2 : forall q i, (i < length Xs)%nat -> 0 <= vg fps i / 2 * dist2 (mr (nthB c i)) (mc (cA c)) (entB (cBs cb) i)
        (fun j r => baux (nth_breg regs q) i j r - rget (nth i (b_dual (nth_breg regs q)) no_mat) j r)).
    { intros q i Hi. apply Rmult_le_pos; [specialize (PR i Hi); rn; lra|apply dist2_nonneg]. }
    assert (T1 : forall q, (q < length regs)%nat -> 0 <= Sum (length Xs) (fun i => vg fps i / 2 * dist2 (mr (nthB c i)) (mc (cA c)) (entB (cBs cb) i)
        (fun j r => baux (nth_breg regs q) i j r - rget (nth i (b_dual (nth_breg regs q)) no_mat) j r))).
    { intros q Hq. rewrite Sum_rsum. apply rsum_nonneg. intros i Hi. now apply T2. }
    pose proof (rsum_nonneg _ _ T1) as T0.
    match type of T0 with 0 <= ?S => assert (TZ : S = 0) by (apply Rle_antisym; [clear - K3 HM; lra|exact T0]) end.
    pose proof (rsum_nonneg_zero _ _ T1 TZ 0%nat LR) as Z0. cbv beta in Z0. rewrite Sum_rsum in Z0.
    intros i Hi. pose proof (rsum_nonneg_zero _ _ (fun i Hi => T2 0%nat i Hi) Z0 i Hi) as Z1. cbv beta in Z1. apply Rmult_integral in Z1.
    destruct Z1 as [Z1|Z1]; [specialize (PR i Hi); rn; lra|]. apply dist2_zero in Z1. destruct (met_aux _ _ _ _ _ i (AT 0%nat LR) Hi) as (A1 & A2).
    intros j k Hj Hk. rewrite (Z1 j k Hj Hk), (A1 j k Hj Hk), (A2 j k Hj Hk). ring. }
  assert (EB : cBs cb = cBs c) by (apply (list_shaped_eq (length Xs) (rowsB c) (mc (cA c))); auto).
  rewrite EB in K4.
  assert (KK : Forall2 (fun g g' => b_pen g' = b_pen g /\ breg_valid (length Xs) (rowsB c) (mc (cA c)) g' /\ meets_B (length Xs) (rowsB c) (mc (cA c)) (entB (cBs c)) g') regs rb).
  { pose proof (F2_left _ _ _ _ (F2_left _ _ _ _ K4 HC) HV) as K5. eapply F2_impl; [|exact K5]. cbv beta. intros g g' ((((P1 & P2 & _ & _ & P5) & P6) & M) & Vg).
    split; [exact P1|]. split; [exact P2|].
    assert (NX : (0 < length Xs)%nat) by (exact (Rest.LXs Xs c HF HN)).
    assert (DU : (forall i, (i < length Xs)%nat -> same (rowsB c i) (mc (cA c)) (baux g' i) (entB (cBs c) i)) -> forall i, (i < length Xs)%nat ->
       same (rowsB c i) (mc (cA c)) (baux g' i) (entB (cBs c) i) /\ same (rowsB c i) (mc (cA c)) (rget (nth i (b_dual g') no_mat)) (fun _ _ => 0)).
    { intros A i Hi. split; [now apply A|]. intros j k Hj Hk. destruct (met_aux _ _ _ _ _ i M Hi) as (_ & A2). rewrite (P5 i Hi j k Hj Hk), (A i Hi j k Hj Hk), (A2 j k Hj Hk). ring. }
    destruct M as [M|M].
    - left. pose proof (DU (convex_kept E _ _ _ (fun _ => 0) fps (cBs c) g g' PR Lf SB Vg P2 P1 (fun _ _ => Htv _) M P6)) as D. destruct M as (M1 & M2 & M3).
      split; [now rewrite P1|]. split; [now rewrite P1|]. intros i Hi. destruct (D i Hi) as (D1 & D2). split; [rewrite P1; apply M3; exact Hi|]. exact (conj D1 D2).
    - right. destruct (parafac2_kept E _ _ _ fps (cBs c) g g' NX Hsvd PR Lf SB Vg P2 P1 M P6) as (O & A). split; [rewrite P1; apply M|]. split; [exact O|]. exact (DU A). }
  split; [|split; [|split]].
  - rewrite K1, EB. exact (unweighted_none c Hw).
  - eapply Forall2_right; [exact KK|]. intros g g' (_ & K & _). exact K.
  - eapply Forall2_right; [exact KK|]. intros g g' (_ & _ & K). exact K.
  - rewrite <- HP. apply (F2_map _ _ _ _ _ KK). intros g g' (K & _). exact K.
Qed.
Lemma calm_update regs0 regs n tol b : relaxed_B Xs c l2 scale regs0 -> calm regs0 regs -> admm_update_B E Xs c regs l2 n tol scale constant = Ok b ->
  fst b = c /\ calm regs0 (snd b).
Proof.
  intros HR HC H. destruct b as [c' regs'].
  destruct (update_B_trace E Xs c l2 scale constant HF HN Hl2 Hsc Hsvd regs regs' c' n tol (proj1 HC) H) as (m & tr & HI & _).
  rewrite (unweighted_none c Hw) in HI.
  assert (HP : forall i, (i <= m)%nat -> fst (tr i) = c /\ calm regs0 (snd (tr i))).
  { apply (iterates_inv _ _ _ _ _ _ _ (fun s => fst s = c /\ calm regs0 (snd s)) HI); [split; [reflexivity|exact HC]|].
    intros a b (A1 & A2) Hs. rewrite A1 in Hs. exact (calm_step regs0 (snd a) b HR A2 Hs). }
  destruct HI as (_ & _ & I3 & _). rewrite <- I3. apply HP. lia.
Qed.
(** lists at rest with the same penalties give the same gaps and penalty values, and have the same dual variables *)
Lemma map2_map_l {T1 T2 T3 T4} (f : T1 -> T2) (g : T2 -> T3 -> T4) l : forall k, map2 g (map f l) k = map2 (fun x y => g (f x) y) l k.
Proof. induction l as [|x l IH]; intros [|y k]; cbn; auto. now rewrite IH. Qed.
Lemma calm_one g g' : breg_valid (length Xs) (rowsB c) (mc (cA c)) g -> breg_valid (length Xs) (rowsB c) (mc (cA c)) g' ->
  meets_B (length Xs) (rowsB c) (mc (cA c)) (entB (cBs c)) g -> meets_B (length Xs) (rowsB c) (mc (cA c)) (entB (cBs c)) g' -> b_pen g' = b_pen g ->
  b_dual g' = b_dual g /\ same_auxes (length Xs) (rowsB c) (mc (cA c)) (b_aux g) (b_aux g') /\ gap_list (cBs c) g' = gap_list (cBs c) g.
Proof.
  intros V V' M M' EP.
  assert (SA : forall i, (i < length Xs)%nat -> same (rowsB c i) (mc (cA c)) (baux g i) (baux g' i)).
  { intros i Hi j k Hj Hk. destruct (met_aux _ _ _ _ _ i M Hi) as (A & _), (met_aux _ _ _ _ _ i M' Hi) as (A' & _). now rewrite (A j k Hj Hk), (A' j k Hj Hk). }
  split; [|split].
  - apply (list_shaped_eq (length Xs) (rowsB c) (mc (cA c))); [apply V'|apply V|]. intros i Hi j k Hj Hk.
    destruct (met_aux _ _ _ _ _ i M Hi) as (_ & A), (met_aux _ _ _ _ _ i M' Hi) as (_ & A'). now rewrite (A j k Hj Hk), (A' j k Hj Hk).
  - exact SA.
  - destruct g as [p a u], g' as [p' a' u']. cbn [b_pen] in EP. subst p'. unfold gap_list. cbn [b_pen b_aux].
    destruct V as (_ & V), V' as (_ & V'). cbn [b_pen b_aux] in V, V'.
    assert (LS : forall l l', list_shaped (length Xs) (rowsB c) (mc (cA c)) l -> list_shaped (length Xs) (rowsB c) (mc (cA c)) l' -> a = AList l -> a' = AList l' -> l' = l).
    { intros l l' S1 S2 -> ->. apply (list_shaped_eq (length Xs) (rowsB c) (mc (cA c))); auto. intros i Hi j k Hj Hk. symmetry. exact (SA i Hi j k Hj Hk). }
    destruct p; destruct a as [l|P D]; try contradiction; destruct a' as [l'|P' D']; try contradiction;
      try (rewrite (LS l l' (proj1 V) (proj1 V') eq_refl eq_refl); reflexivity).
    cbn [subtract_from_auxes bind]. destruct V as (S1 & S2 & _), V' as (S1' & S2' & _).
    enough (EM : map (fun Q => mmul Q D') P' = map (fun Q => mmul Q D) P).
    { rewrite <- !(map2_map_l (fun Q => mmul Q _) (fun X Y => msub X Y)). now rewrite EM. }
    apply (list_shaped_eq (length Xs) (rowsB c) (mc (cA c))).
    + split; [rewrite map_length; apply S1'|]. intros i Hi. rewrite (nth_map_lt _ _ i _ no_mat) by (destruct S1'; lia). destruct (proj2 S1' i Hi) as (W1 & R1 & C1), S2' as (W2 & R2 & C2). split; [auto with mwf|]. mshape. auto.
    + split; [rewrite map_length; apply S1|]. intros i Hi. rewrite (nth_map_lt _ _ i _ no_mat) by (destruct S1; lia). destruct (proj2 S1 i Hi) as (W1 & R1 & C1), S2 as (W2 & R2 & C2). split; [auto with mwf|]. mshape. auto.
    + intros i Hi j k Hj Hk. rewrite <- (baux_mat P D _ _ _ i S1 S2 Hi j k Hj Hk), <- (baux_mat P' D' _ _ _ i S1' S2' Hi j k Hj Hk). symmetry. exact (SA i Hi j k Hj Hk).
Qed.
Lemma calm_same l l' : Forall (breg_valid (length Xs) (rowsB c) (mc (cA c))) l -> Forall (meets_B (length Xs) (rowsB c) (mc (cA c)) (entB (cBs c))) l -> calm l l' ->
  map b_dual l' = map b_dual l /\ Forall2 (same_auxes (length Xs) (rowsB c) (mc (cA c))) (map b_aux l) (map b_aux l') /\
  mapM (gap_list (cBs c)) l' = mapM (gap_list (cBs c)) l /\ mapM (fun g => penalty_list (b_pen g) (cBs c)) l' = mapM (fun g => penalty_list (b_pen g) (cBs c)) l.
Proof.
  intros V M (V' & M' & EP). revert l' V' M' EP. induction l as [|g l IH]; intros [|g' l'] V' M' EP; try discriminate; [repeat split; constructor|].
  inversion V as [|? ? V1 V2]; inversion V' as [|? ? V1' V2']; inversion M as [|? ? M1 M2]; inversion M' as [|? ? M1' M2']; subst. cbn [map] in EP. injection EP as EP1 EP2.
  destruct (IH V2 M2 l' V2' M2' EP2) as (I1 & I2 & I3 & I4). destruct (calm_one g g' V1 V1' M1 M1' EP1) as (J1 & J2 & J3).
  cbn [map mapM]. rewrite I1, J1, I3, J3, I4, EP1. split; [reflexivity|]. split; [|split; reflexivity]. constructor; assumption.
Qed.
End Mode.
