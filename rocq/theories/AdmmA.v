(** The update of A: proofs. *)
From Coq Require Import Reals Lra Lia List Arith Bool.
From Verif Require Import Num Numpy RFacts Spec SpecFacts MatFacts SvdFacts ModelSpec Penalties PenaltySpec
  ProxProofs SimplexProofs PenaltyMain CoupledMatrices CmfSpec CmfProofs Decomp DecompSpec DecompFacts AdmmProofs AdmmB.
Import ListNotations.
Local Open Scope R_scope.

(** ** Vectors as one-row matrices *)
Lemma rowm_shaped (v : list R) n : length v = n -> shaped (rowm v) 1 n.
Proof. intros <-. split; [apply rowm_wf|split; reflexivity]. Qed.
Lemma shaped_rowm (Y : rmat) n : shaped Y 1 n -> exists v, length v = n /\ Y = rowm v.
Proof.
  intros (W & Y1 & Y2). exists (mrow Y 0). split.
  - rewrite <- Y2. apply length_mrow; [assumption|rn; lia].
  - apply mat_ext; auto; [apply rowm_wf|..].
    + cbn [rowm mc]. symmetry. apply length_mrow; [assumption|rn; lia].
    + intros i j Hi Hj. assert (i = 0)%nat as -> by (rn; lia). rewrite rowm_get, vg_mrow. reflexivity.
Qed.
Lemma mip_rowm (u v : list R) n : length u = n -> length v = n ->
  mip (rowm u) (rowm v) = rsum n (fun r => vg u r * vg v r).
Proof.
  intros H1 H2. unfold mip. cbn [rowm mr mc]. rewrite rsum_S, rsum_0, H1. rewrite Rplus_0_l. reflexivity.
Qed.
Lemma mip_rowm_quad (a : list R) (M : rmat) n : length a = n -> mr M = n -> mc M = n ->
  mip (mmul (rowm a) M) (rowm a) = msum (mmul (mmul (mdiagm (N:=RNum) a) M) (mdiagm (N:=RNum) a)).
Proof.
  intros H1 H2 H3. unfold msum. rewrite nsum_rsum. mshape. rn. rewrite H1.
  rewrite (rsum_ext n _ (fun r => rsum n (fun q => vg a r * rget M r q * vg a q))).
  2:{ intros r Hr. rewrite nsum_rsum. apply rsum_ext. intros q Hq.
      rewrite mget_mmul by (mshape; rn; congruence). mshape. rewrite H3.
      rewrite (rsum_single n q).
      - rewrite mget_mdiagm by (rn; congruence). rewrite Nat.eqb_refl.
        rewrite mget_mmul by (mshape; rn; congruence). mshape. rn. rewrite H1.
        rewrite (rsum_single n r).
        + rewrite mget_mdiagm by (rn; congruence). rewrite Nat.eqb_refl. reflexivity.
        + assumption.
        + intros k Hk Hkr. rewrite mget_mdiagm by (rn; congruence). destruct (Nat.eqb_spec r k); [congruence|]. rn. ring.
      - assumption.
      - intros k Hk Hkr. rewrite mget_mdiagm by (rn; congruence). destruct (Nat.eqb_spec k q); [congruence|]. rn. ring. }
  rewrite rsum_swap. unfold mip. mshape. cbn [rowm mr]. rewrite rsum_S, rsum_0, Rplus_0_l. rewrite H3.
  apply rsum_ext. intros q Hq. rewrite mget_mmul by (cbn [rowm mr mc]; rn; lia). cbn [rowm mc]. rn. rewrite H1.
  rewrite <- rsum_scal_r. apply rsum_ext. intros r Hr. rewrite !rowm_get. reflexivity.
Qed.
Lemma sum_mats_entry (l : list rmat) (acc : rmat) r c i j : (i < r)%nat -> (j < c)%nat ->
  mr acc = r -> mc acc = c -> (forall T, In T l -> mr T = r /\ mc T = c) ->
  rget (fold_left (madd (N:=RNum)) l acc) i j = rget acc i j + rsum (length l) (fun q => rget (nth q l no_mat) i j).
Proof.
  intros Hi Hj. revert acc. induction l as [|T l IH]; intros acc H1 H2 Hl; cbn [fold_left length].
  - rewrite rsum_0. symmetry. apply Rplus_0_r.
  - rewrite IH; [|mshape; assumption|mshape; assumption|intros; apply Hl; now right].
    rewrite mget_madd by (rn; congruence). rewrite rsum_head. cbn [nth]. rn. ring.
Qed.
Lemma sum_rows_entry (l : list rmat) n i (acc : list R) : length acc = n ->
  (forall T, In T l -> mwf T /\ (i < mr T)%nat /\ mc T = n) ->
  length (fold_left (fun acc M => vadd (N:=RNum) acc (mrow M i)) l acc) = n /\
  forall j, (j < n)%nat -> vg (fold_left (fun acc M => vadd (N:=RNum) acc (mrow M i)) l acc) j =
     vg acc j + rsum (length l) (fun q => rget (nth q l no_mat) i j).
Proof.
  revert acc. induction l as [|T l IH]; intros acc H1 Hl; cbn [fold_left length].
  - split; [assumption|]. intros. rewrite rsum_0. symmetry. apply Rplus_0_r.
  - destruct (Hl T (or_introl eq_refl)) as (WT & T1 & T2). pose proof (length_mrow T i WT T1) as LT.
    destruct (IH (vadd (N:=RNum) acc (mrow T i))) as (L & K).
    + unfold vadd. rewrite length_map2. rn. lia.
    + intros; apply Hl; now right.
    + split; [assumption|]. intros j Hj. rewrite K by assumption.
      rewrite vg_vadd by (rn; lia). rewrite vg_mrow, rsum_head. cbn [nth]. apply Rplus_assoc.
Qed.
Lemma row_rhs_mat (sh : list rmat) n i fp (h : list R) : length h = n ->
  (forall T, In T sh -> mwf T /\ (i < mr T)%nat /\ mc T = n) ->
  length (vadd (N:=RNum) (vscale (N:=RNum) fp (sum_rows (N:=RNum) n sh i)) h) = n /\
  rowm (vadd (N:=RNum) (vscale (N:=RNum) fp (sum_rows (N:=RNum) n sh i)) h) =
  madd (mscale (N:=RNum) fp (sum_mats (N:=RNum) 1 n (map (fun T : rmat => rowm (mrow T i)) sh))) (rowm h).
Proof.
  intros Lh Hsh. destruct (sum_rows_entry sh n i (repeat 0 n)) as (L & K); [now rewrite repeat_length|assumption|].
  fold (sum_rows (N:=RNum) n sh i) in L, K. change (repeat (0 : R) n) with (repeat (n0 (Num:=RNum)) n) in L, K.
  fold (sum_rows (N:=RNum) n sh i) in L, K.
  assert (Lv : length (vscale (N:=RNum) fp (sum_rows (N:=RNum) n sh i)) = n) by (unfold vscale; now rewrite map_length).
  assert (Lb : length (vadd (N:=RNum) (vscale (N:=RNum) fp (sum_rows (N:=RNum) n sh i)) h) = n)
    by (unfold vadd; rewrite length_map2; rn; lia).
  destruct (sum_mats_spec (map (fun T : rmat => rowm (mrow T i)) sh) 1 n (rowm h)) as ((WS & S1 & S2) & _); [|reflexivity|assumption|].
  { intros T HT. apply in_map_iff in HT. destruct HT as (T' & <- & HT'). destruct (Hsh T' HT') as (W' & R' & C').
      split; [reflexivity|]. cbn [rowm mc]. rewrite <- C'. now apply length_mrow. }
  split; [assumption|]. apply mat_ext.
  - apply rowm_wf.
  - auto with mwf.
  - mshape. symmetry. exact S1.
  - mshape. rewrite S2. exact Lb.
  - intros k j Hk Hj. assert (k = 0)%nat as -> by (cbn [rowm mr] in Hk; lia). cbn [rowm mc] in Hj.
    assert (Hj' : (j < n)%nat) by (rewrite <- Lb; exact Hj). rewrite rowm_get.
    rewrite vg_vadd by (rn; lia). unfold vscale. rewrite vg_map by (rn; lia). rewrite K by assumption.
    rewrite mget_madd by (mshape; rn; lia). rewrite mget_mscale by (rn; lia). rewrite rowm_get. f_equal. f_equal.
    unfold sum_mats. rewrite (sum_mats_entry _ _ 1 n); auto; try lia.
    + rewrite mget_mzeros by lia. rewrite map_length. rn. f_equal. f_equal; [apply nth_repeat_lt; assumption|].
      apply rsum_ext. intros q Hq. rewrite (nth_map_lt (fun T : rmat => rowm (mrow T i)) sh q no_mat no_mat Hq). now rewrite rowm_get, vg_mrow.
    + intros T HT. apply in_map_iff in HT. destruct HT as (T' & <- & HT'). destruct (Hsh T' HT') as (W' & R' & C').
      split; [reflexivity|]. cbn [rowm mc]. rewrite <- C'. now apply length_mrow.
Qed.

(** ** Cross products *)
Lemma cross_sym (C B : rmat) : mwf B -> mwf C -> mc B = mc C -> mtrans (cross_product (N:=RNum) C B) = cross_product (N:=RNum) C B.
Proof.
  intros WB WC H. unfold cross_product. apply mat_ext; auto with mwf. intros r q Hr Hq. mshape.
  rewrite mget_mtrans by mlia. rewrite !mget_mhad by mlia.
  rewrite <- (gram_sym B) at 1 by assumption. rewrite mget_mtrans by mlia.
  rewrite <- (gram_sym C) at 1 by assumption. rewrite mget_mtrans by mlia. reflexivity.
Qed.
Lemma cross_quad (C B : rmat) (a : list R) : mwf B -> mwf C -> mc B = mc C -> length a = mc B ->
  mip (mmul (rowm a) (cross_product (N:=RNum) C B)) (rowm a) =
  mip (mmul (mtrans (mcolscale B a)) (mcolscale B a)) (mmul (mtrans C) C).
Proof.
  intros WB WC H1 H2. rewrite (mip_rowm_quad _ _ (mc B)) by (unfold cross_product; mshape; congruence).
  now apply inter_sq.
Qed.
Lemma cross_psd (C B : rmat) (a : list R) : mwf B -> mwf C -> mc B = mc C -> length a = mc B ->
  0 <= mip (mmul (rowm a) (cross_product (N:=RNum) C B)) (rowm a).
Proof.
  intros WB WC H1 H2. rewrite cross_quad by assumption.
  replace (mip (mmul (mtrans (mcolscale B a)) (mcolscale B a)) (mmul (mtrans C) C))
    with (nsq (mmul (mcolscale B a) (mtrans C))); [apply nsq_nonneg|].
  rewrite <- gram_psd by (mshape; congruence). rewrite mip_mmul_r by mlia. reflexivity.
Qed.

Section A.
Variables (Xs : list rmat) (c : rcmf).
Hypothesis HF : data_fits Xs c.
Notation shapes := (HF_shapes Xs c HF).
Lemma WC : mwf (cC c). Proof. apply HF. Qed.
Lemma A_fps_eq scale i : (i < length Xs)%nat ->
  feas_penalty (N:=RNum) scale (nth i (A_cross (cBs c) (cC c) Xs) no_mat) = rho_A scale c i.
Proof.
  intros Hi. destruct (shapes i Hi) as (WX & X1 & X2 & WB & CB & CC & RA & LB & LA).
  unfold A_cross. rewrite (nth_map2 _ _ _ _ no_mat no_mat) by (rn; lia). fold (nthB c i).
  unfold feas_penalty, rho_A. rewrite nhalf_R. rn. f_equal. f_equal. unfold mtrace. rewrite nsum_rsum.
  unfold cross_product. mshape. rewrite CB. symmetry. apply Sum_rsum_ext. intros r Hr.
  rewrite mget_mhad by (mshape; rn; congruence). rewrite !mget_mmul by (mshape; rn; congruence). mshape.
  f_equal; apply Sum_rsum_ext; intros j Hj; rewrite mget_mtrans by (rn; congruence); ring.
Qed.
Lemma rho_A_nonneg scale i : 0 <= scale -> 0 <= rho_A scale c i.
Proof.
  intros H. unfold rho_A. apply Rmult_le_pos; [|assumption]. apply Rmult_le_pos; [lra|].
  rewrite Sum_rsum. apply rsum_nonneg. intros r Hr.
  apply Rmult_le_pos; rewrite Sum_rsum; apply rsum_nonneg; intros j Hj; nra.
Qed.
(** data fit of one matrix *)
Lemma fit_A_term (a : list R) i : (i < length Xs)%nat -> length a = mc (cA c) ->
  dist2 (mr (nthX Xs i)) (mr (cC c)) (rget (nthX Xs i))
    (fun j k => Sum (mc (cA c)) (fun r => entB (cBs c) i j r * vg a r * rget (cC c) k r)) =
  nsq (nthX Xs i) + (mip (mmul (rowm a) (cross_product (N:=RNum) (cC c) (nthB c i))) (rowm a) -
                     2 * mip (rowm a) (rowm (mdiag (btxc (N:=RNum) (nthX Xs i) (nthB c i) (cC c))))).
Proof.
  intros Hi La. destruct (shapes i Hi) as (WX & X1 & X2 & WB & CB & CC & RA & LB & LA). pose proof WC as WC'.
  transitivity (nsq (msub (nthX Xs i) (mmul (mcolscale (nthB c i) a) (mtrans (cC c))))).
  - rewrite <- (dist2_nsq _ _ (mr (nthX Xs i)) (mr (cC c))) by auto.
    apply dist2_ext; [intros ? ? _ _; reflexivity|]. intros j k Hj Hk.
    rewrite model_entry by (rn; congruence). rewrite CB. reflexivity.
  - rewrite expand_gram by (auto with mwf; mshape; congruence).
    rewrite cross_quad by congruence.
    assert (Lh : length (mdiag (btxc (N:=RNum) (nthX Xs i) (nthB c i) (cC c))) = mc (cA c)).
    { unfold mdiag. rewrite length_vbuild. rewrite btxc_eq by congruence. mshape. congruence. }
    rewrite (mip_rowm _ _ (mc (cA c))) by assumption.
    rewrite <- inter_inner by congruence.
    rewrite (lsum_len _ (mc (cA c))) by (unfold vmul; rewrite length_map2; rn; lia).
    rewrite (rsum_ext (mc (cA c)) (fun r => vg (vmul _ _) r) (fun r => vg a r * vg (mdiag (btxc (N:=RNum) (nthX Xs i) (nthB c i) (cC c))) r)).
    + ring.
    + intros r Hr. rewrite vg_vmul by (rn; lia). rn. ring.
Qed.
(** objective for one row of A *)
Definition obj_Ai (l2 : R) (rho : nat -> R) (regs : list mregR) (i : nat) (z : nat -> R) : R :=
  1 / 2 * dist2 (mr (nthX Xs i)) (mr (cC c)) (rget (nthX Xs i))
    (fun j k => Sum (mc (cA c)) (fun r => entB (cBs c) i j r * z r * rget (cC c) k r)) +
  l2 / 2 * rsum (mc (cA c)) (fun r => z r ^ 2) +
  rsum (length regs) (fun q => rho i / 2 *
    rsum (mc (cA c)) (fun r => (z r - (rget (g_aux (nth_reg regs q)) i r - rget (g_dual (nth_reg regs q)) i r)) ^ 2)).
Lemma obj_A_sum l2 rho regs (Z : ent) :
  obj_A Xs c l2 rho regs Z = rsum (length Xs) (fun i => obj_Ai l2 rho regs i (Z i)).
Proof.
  assert (LA : mr (cA c) = length Xs).
  { destruct HF as ((WA & _ & _ & HA & _) & HL & _). congruence. }
  unfold obj_A, obj_Ai, fit. rewrite !rsum_add, !rsum_scal. rewrite sumsq_rsum, LA. f_equal.
  rewrite rsum_swap. apply Sum_rsum_ext. intros q Hq. apply Sum_rsum_ext. intros i Hi. reflexivity.
Qed.
Lemma obj_Ai_ext l2 rho regs i z y : (forall r, (r < mc (cA c))%nat -> z r = y r) -> obj_Ai l2 rho regs i z = obj_Ai l2 rho regs i y.
Proof.
  intros H. unfold obj_Ai. f_equal; [f_equal; f_equal|].
  - apply dist2_ext; [intros ? ? _ _; reflexivity|]. intros j k Hj Hk. apply Sum_ext. intros r Hr. now rewrite H.
  - apply rsum_ext. intros r Hr. now rewrite H.
  - apply rsum_ext. intros q Hq. f_equal. apply rsum_ext. intros r Hr. now rewrite H.
Qed.
Lemma obj_Ai_quad l2 (rho : nat -> R) regs sh i (a : list R) : (i < length Xs)%nat -> length a = mc (cA c) ->
  vars_shaped (mr (cA c)) (mc (cA c)) regs -> shifted_mats regs = Ok sh ->
  obj_Ai l2 rho regs i (fun r => vg a r) = 1 / 2 * nsq (nthX Xs i) +
    quad (cross_product (N:=RNum) (cC c) (nthB c i)) (rowm (mdiag (btxc (N:=RNum) (nthX Xs i) (nthB c i) (cC c)))) l2 (rho i)
         (map (fun T : rmat => rowm (mrow T i)) sh) (rowm a).
Proof.
  intros Hi La Hs Hsh. destruct (shapes i Hi) as (WX & X1 & X2 & WB & CB & CC & RA & LB & LA).
  destruct (shifted_mats_ok _ _ _ _ Hs Hsh) as (L & Hin & N1).
  unfold obj_Ai, quad. rewrite fit_A_term by assumption. rewrite map_length, L.
  assert (E1 : nsq (rowm a) = rsum (mc (cA c)) (fun r => vg a r ^ 2)).
  { unfold nsq. rewrite (mip_rowm _ _ (mc (cA c))) by assumption. apply rsum_ext. intros; ring. }
  rewrite E1.
  rewrite (rsum_ext (length regs) (fun q => rho i / 2 * nsq _)
   (fun q => rho i / 2 * rsum (mc (cA c)) (fun r => (vg a r - (rget (g_aux (nth_reg regs q)) i r - rget (g_dual (nth_reg regs q)) i r)) ^ 2))).
  - ring.
  - intros q Hq. f_equal. rewrite (nth_map_lt (fun T : rmat => rowm (mrow T i)) sh q no_mat no_mat) by congruence.
    rewrite N1 by assumption. unfold nsq, mip. mshape. cbn [rowm mr mc]. rewrite rsum_S, rsum_0, Rplus_0_l.
    rn. rewrite La. apply rsum_ext. intros r Hr. 
    rewrite mget_msub by (cbn [rowm mr mc]; rn; lia). rewrite !rowm_get, vg_mrow.
    unfold vars_shaped in Hs. rewrite Forall_forall in Hs.
    destruct (Hs _ (nth_In _ (MReg NonNegativity no_mat no_mat) Hq)) as ((W1 & S1 & S2) & _). fold (nth_reg regs q) in *.
    rewrite mget_msub by (rn; congruence). ring.
Qed.
(** One step of the A update. *)
Lemma A_step_min (E : ext (N:=RNum)) l2 scale constant (fps : list R) (regs regs' : list mregR) (A0 A' : rmat) :
  0 <= l2 -> 0 <= scale -> svd_correct E (mc (cA c)) ->
  mr A0 = length Xs -> mc A0 = mc (cA c) ->
  vars_shaped (mr (cA c)) (mc (cA c)) regs ->
  let cross := A_cross (cBs c) (cC c) Xs in
  feas_penalties (N:=RNum) scale constant cross = Ok fps ->
  A_step E constant (lhs_svds E cross fps (length regs) l2) fps (A_rhses (cBs c) (cC c) Xs) (A0, regs) = Ok (A', regs') ->
  length fps = length Xs /\
  rhos_used constant (length Xs) (rho_A scale c) (fun i => vg fps i) /\
  shaped A' (mr (cA c)) (mc (cA c)) /\
  mapM (A_reg_step E constant fps A') regs = Ok regs' /\
  forall Z, obj_A Xs c l2 (fun i => vg fps i) regs (rget A') <= obj_A Xs c l2 (fun i => vg fps i) regs Z.
Proof.
  intros Hl2 Hsc HE RA0 CA0 Hs cross Hfps H. destruct (HF_len Xs c HF) as (L1 & L2).
  assert (RA : mr (cA c) = length Xs).
  { destruct HF as ((WA & _ & _ & HA & _) & HL & _). congruence. }
  assert (Lc : length cross = length Xs) by (unfold cross, A_cross; rewrite length_map2; rn; lia).
  destruct (feas_penalties_spec _ _ _ _ Hfps) as (Lf & Hrho). rewrite Lc in Lf, Hrho.
  split; [assumption|].
  assert (Hrho' : rhos_used constant (length Xs) (rho_A scale c) (fun i => vg fps i)).
  { revert Hrho. apply rhos_used_ext. intros i Hi. now apply A_fps_eq. }
  split; [assumption|]. unfold A_step in H.
  destruct (shifted_mats regs) as [sh|] eqn:Hsh; [|discriminate]. cbn [bind] in H.
  destruct (mapM _ (seq 0 (mr A0))) as [rows|] eqn:HB; [|discriminate]. cbn [bind] in H.
  destruct (mapM _ regs) as [rg|] eqn:Hreg; [|discriminate]. cbn [bind] in H. injection H as <- <-.
  apply (mapM_inv _ _ _ 0%nat []) in HB. rewrite seq_length, RA0 in HB. destruct HB as (LR & HB).
  destruct (shifted_mats_ok _ _ _ _ Hs Hsh) as (L & Hin & N1).
  assert (Hin' : forall i, (i < length Xs)%nat -> forall T, In T sh -> mwf T /\ (i < mr T)%nat /\ mc T = mc (cA c)).
  { intros i Hi T HT. destruct (Hin T HT) as (W & R1 & R2). split; [assumption|]. split; [rn; lia|assumption]. }
  pose proof WC as WC'.
  assert (Q : forall i, (i < length Xs)%nat -> length (nth i rows []) = mc (cA c) /\
     forall a, length a = mc (cA c) ->
        quad (cross_product (N:=RNum) (cC c) (nthB c i)) (rowm (mdiag (btxc (N:=RNum) (nthX Xs i) (nthB c i) (cC c)))) l2 (vg fps i)
         (map (fun T : rmat => rowm (mrow T i)) sh) (rowm (nth i rows [])) <=
        quad (cross_product (N:=RNum) (cC c) (nthB c i)) (rowm (mdiag (btxc (N:=RNum) (nthX Xs i) (nthB c i) (cC c)))) l2 (vg fps i)
         (map (fun T : rmat => rowm (mrow T i)) sh) (rowm a)).
  { intros i Hi. specialize (HB i Hi). rewrite seq_nth in HB by assumption. cbn [Nat.add] in HB.
    destruct (shapes i Hi) as (WX & X1 & X2 & WB & CB & CC & _).
    assert (ER : nth i (A_rhses (cBs c) (cC c) Xs) [] = mdiag (btxc (N:=RNum) (nthX Xs i) (nthB c i) (cC c))).
    { unfold A_rhses. rewrite (nth_map2 _ _ _ _ no_mat no_mat) by (rn; lia). reflexivity. }
    assert (ED : nth i (lhs_svds E cross fps (length regs) l2) (Mat 0 0 [], [], Mat 0 0 []) =
                 lhs_svd E (ridge (N:=RNum) (cross_product (N:=RNum) (cC c) (nthB c i)) (vg fps i) (length regs) l2)).
    { unfold lhs_svds. rewrite (nth_map2 _ _ _ _ no_mat 0) by (rn; lia). f_equal. f_equal.
      unfold cross, A_cross. rewrite (nth_map2 _ _ _ _ no_mat no_mat) by (rn; lia). reflexivity. }
    rewrite ER, ED, CA0 in HB.
    set (h := mdiag (btxc (N:=RNum) (nthX Xs i) (nthB c i) (cC c))) in *.
    assert (Lh : length h = mc (cA c)).
    { unfold h, mdiag. rewrite length_vbuild. rewrite btxc_eq by congruence. mshape. congruence. }
    destruct (row_rhs_mat sh (mc (cA c)) i (vg fps i) h Lh (Hin' i Hi)) as (Lb & Eb).
    set (lt := map (fun T : rmat => rowm (mrow T i)) sh) in *.
    assert (LM : length lt = length regs) by (unfold lt; now rewrite map_length).
    rewrite <- LM in HB.
    set (G := cross_product (N:=RNum) (cC c) (nthB c i)) in *.
    assert (G1 : mwf G /\ mr G = mc (cA c) /\ mc G = mc (cA c)).
    { unfold G, cross_product. split; [auto with mwf|mshape; split; congruence]. }
    destruct G1 as (WG & G1 & G2).
    destruct (ridge_shape G (vg fps i) (length lt) l2) as (M1 & M2 & M3).
    assert (Hd : has_svd (ridge (N:=RNum) G (vg fps i) (length lt) l2) (mc (cA c))
              (lhs_svd E (ridge (N:=RNum) G (vg fps i) (length lt) l2))).
    { unfold lhs_svd. rewrite M1, G1. apply HE; auto; try congruence. rewrite M1, G1. apply le_n. }
    destruct (solve_row_mat _ _ _ _ _ Hd ltac:(congruence) ltac:(congruence) Lb HB) as (HB' & Lz).
    split; [assumption|]. intros a La. rewrite Eb in HB'.
    eapply quad_solved with (Z := rowm a) in HB'; [apply HB'; now apply rowm_shaped|..]; auto.
    - unfold G. apply cross_sym; auto; congruence.
    - intros Y HY. destruct (shaped_rowm _ _ HY) as (v & Lv & ->). apply cross_psd; auto; congruence.
    - now apply rowm_shaped.
    - intros T HT. apply in_map_iff in HT. destruct HT as (T' & <- & HT'). destruct (Hin' i Hi T' HT') as (W' & R' & C').
      apply rowm_shaped. rewrite <- C'. now apply length_mrow.
    - apply (rhos_used_nonneg _ _ _ (fun i => vg fps i) i Hrho' Hi). intros; now apply rho_A_nonneg. }
  rewrite RA0, CA0 in *.
  split.
  { split; [|cbn [mr mc]; now split]. split; [cbn [me mr]; rn; lia|]. cbn [me mc]. apply Forall_forall.
    apply (in_nth _ _ []). rn. rewrite LR. intros i Hi. now apply Q. }
  split; [assumption|]. intros Z.
  rewrite !obj_A_sum. apply rsum_le. intros i Hi. destruct (Q i Hi) as (Lz & Hq).
  set (a := vbuild (N:=RNum) (mc (cA c)) (Z i)).
  assert (La : length a = mc (cA c)) by (apply length_vbuild).
  rewrite (obj_Ai_ext _ _ _ i (Z i) (fun r => vg a r)).
  2:{ intros r Hr. symmetry. now apply (vget_vbuild (mc (cA c)) (Z i)). }
  change (rget (Mat (N:=RNum) (length Xs) (mc (cA c)) rows) i) with (fun r => vg (nth i rows []) r).
  rewrite !(obj_Ai_quad _ _ _ sh) by assumption. apply Rplus_le_compat_l. now apply Hq.
Qed.
End A.
