(** The update of the B_i: proofs. *)
From Coq Require Import Reals Lra Lia List Arith Bool.
From Verif Require Import Num Numpy RFacts Spec SpecFacts MatFacts SvdFacts ModelSpec Penalties PenaltySpec
  ProxProofs SimplexProofs PenaltyMain CoupledMatrices CmfSpec CmfProofs Decomp DecompSpec DecompFacts AdmmProofs.
Import ListNotations.
Local Open Scope R_scope.

(** ** Feasibility penalties *)
Lemma feas_penalties_spec scale constant (lhses : list rmat) (fps : list R) :
  feas_penalties (N:=RNum) scale constant lhses = Ok fps ->
  length fps = length lhses /\
  rhos_used constant (length lhses) (fun i => feas_penalty (N:=RNum) scale (nth i lhses no_mat)) (fun i => vg fps i).
Proof.
  unfold feas_penalties. intros H. set (l := map (feas_penalty (N:=RNum) scale) lhses) in *.
  assert (Ll : length l = length lhses) by (unfold l; now rewrite map_length).
  assert (Nl : forall i, (i < length lhses)%nat -> nth i l 0 = feas_penalty (N:=RNum) scale (nth i lhses no_mat)).
  { intros i Hi. unfold l. apply nth_map_lt. assumption. }
  destruct constant; cbn [rhos_used].
  - assert (H' : fps = map (fun _ => lmax (N:=RNum) l) l /\ l <> []).
    { destruct l; [discriminate|]. injection H as <-. split; [reflexivity|discriminate]. }
    destruct H' as (-> & Hne). rewrite map_length. split; [assumption|]. intros i Hi.
    destruct (lmax_spec l Hne) as (Hin & Hge).
    assert (E : vg (map (fun _ : R => lmax (N:=RNum) l) l) i = lmax (N:=RNum) l) by (apply (vg_map (fun _ => lmax (N:=RNum) l)); rn; lia).
    apply (eq_ind_r (fun v => is_max _ _ v)) with (2 := E). split.
    + destruct (In_nth _ _ 0 Hin) as (k & Hk & Ek). exists k. rn. split; [lia|]. rewrite <- Nl by lia. now symmetry.
    + intros k Hk. rewrite <- Nl by assumption. apply Hge, nth_In. rn; lia.
  - injection H as <-. split; [assumption|]. intros i Hi. unfold vget. now apply Nl.
Qed.
Lemma rhos_used_ext constant n f g rho : (forall i, (i < n)%nat -> f i = g i) -> rhos_used constant n f rho -> rhos_used constant n g rho.
Proof.
  intros H. destruct constant; cbn.
  - intros K i Hi. destruct (K i Hi) as ((k & Hk & E) & G). split.
    + exists k. split; [assumption|]. now rewrite <- H.
    + intros m Hm. rewrite <- H by assumption. now apply G.
  - intros K i Hi. rewrite <- H by assumption. now apply K.
Qed.
Lemma rhos_used_nonneg constant n f rho i : rhos_used constant n f rho -> (i < n)%nat ->
  (forall k, (k < n)%nat -> 0 <= f k) -> 0 <= rho i.
Proof.
  destruct constant; cbn; intros H Hi Hf.
  - destruct (H i Hi) as ((k & Hk & ->) & _). now apply Hf.
  - rewrite H by assumption. now apply Hf.
Qed.

(** ** Left and right-hand sides *)
Lemma B_lhs_gram (C : rmat) (a : list R) :
  B_lhs (N:=RNum) C a = mmul (mtrans (mcolscale (N:=RNum) C a)) (mcolscale (N:=RNum) C a).
Proof.
  unfold B_lhs. apply mat_ext; auto with mwf. intros r q Hr Hq. mshape.
  rewrite mget_mtrans by mlia. rewrite mget_mcolscale by mlia. rewrite mget_mtrans by mlia.
  rewrite mget_mcolscale by mlia. rewrite !mget_mmul by mlia. mshape. rn.
  rewrite <- rsum_scal_r, <- rsum_scal_r. apply rsum_ext. intros k Hk.
  rewrite !mget_mtrans by mlia. rewrite !mget_mcolscale by mlia. ring.
Qed.
Definition GC (c : rcmf) (i : nat) : rmat := mcolscale (cC c) (mrow (cA c) i).
Section B.
Variables (Xs : list rmat) (c : rcmf).
Hypothesis HF : data_fits Xs c.
Lemma HF_shapes i : (i < length Xs)%nat ->
  mwf (nthX Xs i) /\ mr (nthX Xs i) = mr (nthB c i) /\ mc (nthX Xs i) = mr (cC c) /\
  mwf (nthB c i) /\ mc (nthB c i) = mc (cA c) /\ mc (cC c) = mc (cA c) /\ mr (cA c) = length Xs /\
  length (cBs c) = length Xs /\ length (me (cA c)) = length Xs.
Proof.
  intros Hi. destruct HF as (Hv & HL & HX). destruct (HX i Hi) as (WX & X1 & X2).
  destruct Hv as (WA & WC & HC & HA & HB & Hw). destruct (HB i ltac:(lia)) as (WB & CB).
  pose proof (length_me _ WA) as LA. rn. repeat split; try assumption; try congruence; try apply WX; apply WB.
Qed.
Lemma HF_len : length (cBs c) = length Xs /\ length (me (cA c)) = length Xs.
Proof.
  destruct HF as (Hv & HL & HX). destruct Hv as (WA & WC & HC & HA & HB & Hw).
  pose proof (length_me _ WA) as LA. rn. split; congruence.
Qed.
Lemma GC_shape i : (i < length Xs)%nat -> mwf (GC c i) /\ mr (GC c i) = mr (cC c) /\ mc (GC c i) = mc (cA c).
Proof.
  intros Hi. destruct (HF_shapes i Hi) as (_ & _ & _ & _ & _ & H & _). unfold GC. split; [auto with mwf|]. mshape. now split.
Qed.
Lemma B_fps_eq scale i : (i < length Xs)%nat ->
  feas_penalty (N:=RNum) scale (nth i (map2 (fun _ a => B_lhs (N:=RNum) (cC c) a) Xs (me (cA c))) no_mat) = rho_B scale c i.
Proof.
  intros Hi. destruct HF_len as (L1 & L2). rewrite (nth_map2 _ _ _ _ no_mat []) by (rn; lia).
  change (nth i (me (cA c)) []) with (mrow (cA c) i). rewrite B_lhs_gram. fold (GC c i).
  destruct (GC_shape i Hi) as (G1 & G2 & G3).
  unfold feas_penalty, rho_B. rewrite nhalf_R. rn. f_equal. f_equal. unfold mtrace. rewrite nsum_rsum. mshape. rewrite G3.
  symmetry. apply Sum_rsum_ext. intros r Hr. rewrite mget_mmul by (mshape; rn; congruence). mshape. rewrite G2.
  apply Sum_rsum_ext. intros k Hk. rewrite mget_mtrans by (rn; congruence).
  unfold GC. rewrite mget_mcolscale by (rn; destruct (HF_shapes i Hi) as (_ & _ & _ & _ & _ & H & _); congruence).
  rewrite vg_mrow. ring.
Qed.
Lemma rho_B_nonneg scale i : 0 <= scale -> 0 <= rho_B scale c i.
Proof.
  intros H. unfold rho_B. apply Rmult_le_pos; [|assumption]. apply Rmult_le_pos; [lra|].
  rewrite Sum_rsum. apply rsum_nonneg. intros r Hr.
  rewrite Sum_rsum. apply rsum_nonneg. intros j Hj. nra.
Qed.
(** data fit of one matrix *)
Lemma fit_B_term (Z : rmat) i : (i < length Xs)%nat -> shaped Z (mr (nthB c i)) (mc (cA c)) ->
  dist2 (mr (nthX Xs i)) (mr (cC c)) (rget (nthX Xs i))
    (fun j k => Sum (mc (cA c)) (fun r => rget Z j r * rget (cA c) i r * rget (cC c) k r)) =
  nsq (nthX Xs i) + (mip (mmul Z (mmul (mtrans (GC c i)) (GC c i))) Z -
                     2 * mip Z (mmul (nthX Xs i) (GC c i))).
Proof.
  intros Hi (WZ & Z1 & Z2). destruct (HF_shapes i Hi) as (WX & X1 & X2 & WB & CB & CC & _).
  destruct (GC_shape i Hi) as (G1 & G2 & G3).
  transitivity (nsq (msub (nthX Xs i) (mmul Z (mtrans (GC c i))))).
  - rewrite <- (dist2_nsq _ _ (mr (nthX Xs i)) (mr (cC c))) by auto.
    apply dist2_ext; [intros ? ? _ _; reflexivity|]. intros j k Hj Hk.
    rewrite mget_mmul by (mshape; rn; congruence). rewrite Z2. apply Sum_rsum_ext. intros r Hr.
    rewrite mget_mtrans by (rn; congruence). unfold GC. rewrite mget_mcolscale by (rn; congruence). rewrite vg_mrow. ring.
  - rewrite expand_B by (auto; congruence). ring.
Qed.
(** auxiliaries minus duals *)
Lemma shifted_lists_ok (regs : list bregR) ll : bvars_shaped (length Xs) (fun i => mr (nthB c i)) (mc (cA c)) regs ->
  shifted_lists regs = Ok ll ->
  length ll = length regs /\
  forall i, (i < length Xs)%nat ->
    (forall T, In T (map (fun l => nth i l no_mat) ll) -> shaped T (mr (nthB c i)) (mc (cA c))) /\
    forall q, (q < length regs)%nat -> same (mr (nthB c i)) (mc (cA c))
      (rget (nth q (map (fun l => nth i l no_mat) ll) no_mat))
      (fun j r => baux (nth_breg regs q) i j r - rget (nth i (b_dual (nth_breg regs q)) no_mat) j r).
Proof.
  intros Hs H. unfold shifted_lists in H.
  apply (mapM_inv _ _ _ (BReg NonNegativity (AList []) []) []) in H. destruct H as (L & H).
  split; [assumption|]. intros i Hi.
  assert (Nq : forall q, (q < length regs)%nat -> nth q (map (fun l => nth i l no_mat) ll) no_mat = nth i (nth q ll []) no_mat).
  { intros q Hq. apply (nth_map_lt (fun l => nth i l no_mat)). congruence. }
  assert (K : forall q, (q < length regs)%nat -> shaped (nth i (nth q ll []) no_mat) (mr (nthB c i)) (mc (cA c)) /\
     same (mr (nthB c i)) (mc (cA c)) (rget (nth i (nth q ll []) no_mat))
      (fun j r => baux (nth_breg regs q) i j r - rget (nth i (b_dual (nth_breg regs q)) no_mat) j r)).
  { intros q Hq. specialize (H q Hq). fold (nth_breg regs q) in H.
    unfold bvars_shaped in Hs. rewrite Forall_forall in Hs.
    destruct (Hs _ (nth_In _ (BReg NonNegativity (AList []) []) Hq)) as (Ha & Hd). fold (nth_breg regs q) in Ha, Hd.
    destruct (nth_breg regs q) as [p a d]. cbn [b_aux b_dual b_pen] in *. destruct Hd as (Ld & Hd). specialize (Hd i Hi).
    unfold baux. cbn [b_aux]. destruct a as [la|P D]; cbn [baux_shaped] in Ha.
    - destruct Ha as (La & Ha). specialize (Ha i Hi). destruct Ha as (Wa & A1 & A2).
      assert (E : nth q ll [] = map2 (msub (N:=RNum)) la d).
      { unfold subtract_from_auxes in H. destruct p; try discriminate; now injection H. }
      rewrite E. rewrite (nth_map2 _ _ _ _ no_mat no_mat) by (rn; lia). split.
      + split; [auto with mwf|mshape; now split].
      + intros j r Hj Hr. now rewrite mget_msub by (rn; congruence).
    - destruct Ha as ((La & Ha) & WD & CD). specialize (Ha i Hi). destruct Ha as (Wa & A1 & A2).
      assert (E : nth q ll [] = map2 (fun P d => msub (N:=RNum) (mmul P D) d) P d).
      { unfold subtract_from_auxes in H. destruct p; try discriminate; now injection H. }
      rewrite E. rewrite (nth_map2 _ _ _ _ no_mat no_mat) by (rn; lia). split.
      + split; [auto with mwf|mshape; now split].
      + intros j r Hj Hr. rewrite mget_msub by (mshape; rn; congruence). f_equal.
        rewrite mget_mmul by (rn; congruence). rewrite A2. symmetry. apply Sum_rsum. }
  split.
  - apply (in_nth _ _ no_mat). rewrite map_length, L. intros q Hq. rewrite Nq by assumption. now apply K.
  - intros q Hq. rewrite Nq by assumption. now apply K.
Qed.
(** objective for one B_i *)
Definition obj_Bi (l2 : R) (rho : nat -> R) (regs : list bregR) (i : nat) (Z : ent) : R :=
  1 / 2 * dist2 (mr (nthX Xs i)) (mr (cC c)) (rget (nthX Xs i))
    (fun j k => Sum (mc (cA c)) (fun r => Z j r * rget (cA c) i r * rget (cC c) k r)) +
  l2 / 2 * sumsq (mr (nthB c i)) (mc (cA c)) Z +
  rsum (length regs) (fun q => rho i / 2 *
    dist2 (mr (nthB c i)) (mc (cA c)) Z
      (fun j r => baux (nth_breg regs q) i j r - rget (nth i (b_dual (nth_breg regs q)) no_mat) j r)).
Lemma obj_B_sum l2 rho regs (Z : nat -> ent) :
  obj_B Xs c l2 rho regs Z = rsum (length Xs) (fun i => obj_Bi l2 rho regs i (Z i)).
Proof.
  unfold obj_B, obj_Bi, fit. destruct HF_len as (L1 & _). rewrite L1.
  rewrite !rsum_add, !rsum_scal. f_equal.
  rewrite rsum_swap. apply Sum_rsum_ext. intros q Hq. apply Sum_rsum.
Qed.
Lemma obj_Bi_ext l2 rho regs i (Z Y : ent) : (i < length Xs)%nat ->
  same (mr (nthB c i)) (mc (cA c)) Z Y -> obj_Bi l2 rho regs i Z = obj_Bi l2 rho regs i Y.
Proof.
  intros Hi H. destruct (HF_shapes i Hi) as (WX & X1 & X2 & _). unfold obj_Bi.
  rewrite (sumsq_ext _ _ _ _ H). f_equal; [f_equal; f_equal|].
  - apply dist2_ext; [intros ? ? _ _; reflexivity|].
    intros j k Hj Hk. apply Sum_ext. intros r Hr. rewrite H; [reflexivity|congruence|assumption].
  - apply rsum_ext. intros q Hq. f_equal. apply dist2_ext; [assumption|]. intros ? ? _ _; reflexivity.
Qed.
Lemma obj_Bi_quad l2 (rho : nat -> R) regs ll i (Z : rmat) : (i < length Xs)%nat ->
  bvars_shaped (length Xs) (fun i => mr (nthB c i)) (mc (cA c)) regs -> shifted_lists regs = Ok ll ->
  shaped Z (mr (nthB c i)) (mc (cA c)) ->
  obj_Bi l2 rho regs i (rget Z) = 1 / 2 * nsq (nthX Xs i) +
    quad (mmul (mtrans (GC c i)) (GC c i)) (mmul (nthX Xs i) (GC c i)) l2 (rho i) (map (fun l => nth i l no_mat) ll) Z.
Proof.
  intros Hi Hs Hl HZ. destruct (shifted_lists_ok _ _ Hs Hl) as (L & K). destruct (K i Hi) as (_ & N1).
  unfold obj_Bi, quad. rewrite fit_B_term by assumption. rewrite (sumsq_nsq Z) by (apply HZ).
  rewrite map_length, L.
  rewrite (rsum_ext (length regs) (fun q => rho i / 2 * dist2 _ _ _ _)
    (fun q => rho i / 2 * nsq (msub Z (nth q (map (fun l => nth i l no_mat) ll) no_mat)))).
  - ring.
  - intros q Hq. f_equal. rewrite <- (dist2_nsq _ _ (mr (nthB c i)) (mc (cA c))) by apply HZ.
    apply dist2_ext; [intros ? ? _ _; reflexivity|]. intros j r Hj Hr. symmetry. now apply N1.
Qed.
(** One step of the B update. *)
Lemma B_step_min (E : ext (N:=RNum)) l2 scale constant (fps : list R) (regs regs' : list bregR) (B0 B' : list rmat) :
  0 <= l2 -> 0 <= scale -> svd_correct E (mc (cA c)) ->
  length B0 = length Xs ->
  bvars_shaped (length Xs) (fun i => mr (nthB c i)) (mc (cA c)) regs ->
  let lhses := map2 (fun _ a => B_lhs (N:=RNum) (cC c) a) Xs (me (cA c)) in
  let rhses := map2 (fun X a => B_rhs (N:=RNum) X (cC c) a) Xs (me (cA c)) in
  feas_penalties (N:=RNum) scale constant lhses = Ok fps ->
  B_step E (lhs_svds E lhses fps (length regs) l2) fps rhses (B0, regs) = Ok (B', regs') ->
  length fps = length Xs /\
  rhos_used constant (length Xs) (rho_B scale c) (fun i => vg fps i) /\
  list_shaped (length Xs) (fun i => mr (nthB c i)) (mc (cA c)) B' /\
  mapM (B_reg_step E fps B') regs = Ok regs' /\
  forall Z, obj_B Xs c l2 (fun i => vg fps i) regs (entB B') <= obj_B Xs c l2 (fun i => vg fps i) regs Z.
Proof.
  intros Hl2 Hsc HE LB0 Hs lhses rhses Hfps H. destruct HF_len as (L1 & L2).
  assert (Llhs : length lhses = length Xs) by (unfold lhses; rewrite length_map2; rn; lia).
  destruct (feas_penalties_spec _ _ _ _ Hfps) as (Lf & Hrho). rewrite Llhs in Lf, Hrho.
  split; [assumption|].
  assert (Hrho' : rhos_used constant (length Xs) (rho_B scale c) (fun i => vg fps i)).
  { revert Hrho. apply rhos_used_ext. intros i Hi. now apply B_fps_eq. }
  split; [assumption|]. unfold B_step in H.
  destruct (shifted_lists regs) as [ll|] eqn:Hsh; [|discriminate]. cbn [bind] in H.
  destruct (mapM _ (seq 0 (length B0))) as [B1|] eqn:HB; [|discriminate]. cbn [bind] in H.
  destruct (mapM _ regs) as [rg|] eqn:Hreg; [|discriminate]. cbn [bind] in H. injection H as -> ->.
  apply (mapM_inv _ _ _ 0%nat no_mat) in HB. rewrite seq_length, LB0 in HB. destruct HB as (LB & HB).
  destruct (shifted_lists_ok _ _ Hs Hsh) as (L & K).
  assert (Q : forall i Z, (i < length Xs)%nat -> shaped (nth i B' no_mat) (mr (nthB c i)) (mc (cA c)) /\
     (shaped Z (mr (nthB c i)) (mc (cA c)) ->
        quad (mmul (mtrans (GC c i)) (GC c i)) (mmul (nthX Xs i) (GC c i)) l2 (vg fps i) (map (fun l => nth i l no_mat) ll) (nth i B' no_mat) <=
        quad (mmul (mtrans (GC c i)) (GC c i)) (mmul (nthX Xs i) (GC c i)) l2 (vg fps i) (map (fun l => nth i l no_mat) ll) Z)).
  { intros i Z Hi. specialize (HB i Hi). rewrite seq_nth in HB by assumption. cbn [Nat.add] in HB.
    destruct (HF_shapes i Hi) as (WX & X1 & X2 & WB & CB & CC & RA & _). destruct (GC_shape i Hi) as (G1 & G2 & G3).
    assert (ER : nth i rhses (Mat 0 0 []) = mmul (nthX Xs i) (GC c i)).
    { unfold rhses. rewrite (nth_map2 _ _ _ _ no_mat []) by (rn; lia). reflexivity. }
    assert (ED : nth i (lhs_svds E lhses fps (length regs) l2) (Mat 0 0 [], [], Mat 0 0 []) =
                 lhs_svd E (ridge (N:=RNum) (mmul (mtrans (GC c i)) (GC c i)) (vg fps i) (length regs) l2)).
    { unfold lhs_svds. rewrite (nth_map2 _ _ _ _ no_mat 0) by (rn; lia). f_equal. f_equal.
      unfold lhses. rewrite (nth_map2 _ _ _ _ no_mat []) by (rn; lia). apply B_lhs_gram. }
    rewrite ER, ED in HB. mshape. rewrite X1, G3 in HB. fold no_mat in HB.
    assert (LM : length (map (fun l : list rmat => nth i l no_mat) ll) = length regs) by (now rewrite map_length).
    rewrite <- LM in HB. set (lt := map (fun l : list rmat => nth i l no_mat) ll) in *.
    assert (WG : mwf (mmul (mtrans (GC c i)) (GC c i))) by auto with mwf.
    destruct (ridge_shape (mmul (mtrans (GC c i)) (GC c i)) (vg fps i) (length lt) l2) as (M1 & M2 & M3).
    assert (Hd : has_svd (ridge (N:=RNum) (mmul (mtrans (GC c i)) (GC c i)) (vg fps i) (length lt) l2) (mc (cA c))
              (lhs_svd E (ridge (N:=RNum) (mmul (mtrans (GC c i)) (GC c i)) (vg fps i) (length lt) l2))).
    { unfold lhs_svd. rewrite M1. mshape. rewrite G3. apply HE; auto; mshape; try congruence. rewrite M1, G3. apply le_n. }
    eapply quad_solved with (Z := Z) in HB; [exact HB|..]; auto with mwf; mshape.
    - now apply gram_sym.
    - intros Y (WY & Y1 & Y2). rewrite gram_psd by congruence. apply nsq_nonneg.
    - split; [auto with mwf|mshape; now split].
    - intros T HT. now apply (K i Hi).
    - apply (rhos_used_nonneg _ _ _ (fun i => vg fps i) i Hrho' Hi). intros; now apply rho_B_nonneg. }
  split; [split; [assumption|]; intros i Hi; now apply (Q i no_mat)|]. split; [assumption|]. intros Z.
  rewrite !obj_B_sum. apply rsum_le. intros i Hi.
  set (Zm := mbuild (N:=RNum) (mr (nthB c i)) (mc (cA c)) (Z i)).
  assert (HZ : shaped Zm (mr (nthB c i)) (mc (cA c))) by (split; [apply mwf_mbuild|split; reflexivity]).
  rewrite (obj_Bi_ext _ _ _ i (Z i) (rget Zm)); auto.
  2:{ intros j r Hj Hr. unfold Zm. now rewrite mget_mbuild. }
  unfold entB. rewrite !(obj_Bi_quad _ _ _ ll) by (auto; now apply (Q i no_mat)).
  apply Rplus_le_compat_l. now apply Q.
Qed.
End B.
