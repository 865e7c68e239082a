(** Mode 1: one inner iteration as an abstract ADMM iteration. *)
From Coq Require Import Reals Lra Lia List Arith Bool.
From Verif Require Import Num Numpy Unimodal RFacts Spec SpecFacts MatFacts SvdFacts ModelSpec Penalties PenaltySpec
  ProxProofs TVProofs GenL2Proofs SimplexProofs Parafac2Proofs PenaltyMain CoupledMatrices CmfSpec CmfProofs
  Decomp DecompSpec DecompFacts AdmmProofs AdmmB AdmmA AdmmRegs AdmmLoop AdmmOne AoState OptSpec AdmmConv AdmmFix.
Import ListNotations.
Local Open Scope R_scope.

Section Lists.
Variables (n : nat) (J : nat -> nat) (c : nat) (rho : nat -> R) (f : (nat -> ent) -> R).
Hypothesis Hrho : forall i, (i < n)%nat -> 0 < rho i.
Hypothesis Hf : convex_fun (fun p => f p).
Notation ws := (wsum n J c rho).
Lemma wdot_l_ws U V : wdot_l n J c rho U V = ws (fun i j k => U i j k * V i j k).
Proof. reflexivity. Qed.
Lemma wsq_l_ws X Y : wsq_l n J c rho X Y = ws (fun i j k => (X i j k - Y i j k) ^ 2).
Proof. unfold wsq_l. rewrite wdot_l_ws. apply wsum_ext. intros. unfold lsub. ring. Qed.
Lemma wsq_l_nonneg X Y : 0 <= wsq_l n J c rho X Y.
Proof. rewrite wsq_l_ws. apply wsum_nonneg; [intros; left; auto|]. intros. apply pow2_ge_0. Qed.
Definition lpen (regs : list bregR) (q : nat) (p : pt) : R := pen_l n J c (bpen_at regs q) p.
Definition ldom (regs : list bregR) (q : nat) (p : pt) : Prop := dom_l n J c (bpen_at regs q) p.
Notation lstep regs := (astep n J c rho (length regs) f (lpen regs) (ldom regs)).
Definition lvi (X : nat -> ent) (g g' : bregR) : Prop :=
  dom_l n J c (b_pen g) (baux g') /\ forall Z, dom_l n J c (b_pen g) Z ->
    pen_l n J c (b_pen g) (baux g') +
      wdot_l n J c rho (fun i j k => X i j k + rget (nth i (b_dual g) no_mat) j k - baux g' i j k) (lsub Z (baux g'))
    <= pen_l n J c (b_pen g) Z.
Lemma F2_nth_breg (R : bregR -> bregR -> Prop) l l' : Forall2 R l l' -> forall q, (q < length l)%nat -> R (nth_breg l q) (nth_breg l' q).
Proof.
  induction 1 as [|x y l l' Hxy HR IH]; intros q Hq; [cbn in Hq; lia|].
  destruct q as [|q]; [exact Hxy|]. apply IH; cbn in *; lia.
Qed.
Lemma lists_astep (regs regs' : list bregR) (X : nat -> ent) :
  (forall Z, f X + Sum (length regs) (fun q => Sum n (fun i => rho i / 2 *
       dist2 (J i) c (X i) (fun j r => baux (nth_breg regs q) i j r - rget (nth i (b_dual (nth_breg regs q)) no_mat) j r))) <=
     f Z + Sum (length regs) (fun q => Sum n (fun i => rho i / 2 *
       dist2 (J i) c (Z i) (fun j r => baux (nth_breg regs q) i j r - rget (nth i (b_dual (nth_breg regs q)) no_mat) j r)))) ->
  Forall2 (fun g g' => b_dual_updated n J c X g g' /\ lvi X g g') regs regs' ->
  lstep regs (baux_at regs) (bdual_at regs) X (baux_at regs') (bdual_at regs').
Proof.
  intros Hm HR. pose proof (F2_nth_breg _ _ _ HR) as HR'.
  split; [|split].
  - intros y.
    apply (min_vi n J c rho (fun i Hi => Rlt_le _ _ (Hrho i Hi)) (length regs) f
             (fun q i j k => baux_at regs q i j k - bdual_at regs q i j k)); [exact Hf|].
    intros z. specialize (Hm z).
    assert (EQ : forall y : pt, rsum (length regs) (fun q => / 2 * ws (fun i j k => (y i j k - (baux_at regs q i j k - bdual_at regs q i j k)) ^ 2)) =
       Sum (length regs) (fun q => Sum n (fun i => rho i / 2 *
         dist2 (J i) c (y i) (fun j r => baux (nth_breg regs q) i j r - rget (nth i (b_dual (nth_breg regs q)) no_mat) j r)))).
    { intros y'. apply rsum_Sum_ext; intros q Hq. unfold wsum. rewrite <- rsum_scal. apply rsum_Sum_ext; intros i Hi.
      rewrite ProxProofs.dist2_rsum. unfold Rdiv. rewrite (Rmult_comm (rho i) (/2)), Rmult_assoc. reflexivity. }
    rewrite !EQ. exact Hm.
  - intros q Hq. destruct (HR' q Hq) as (_ & P5 & P6). split; [exact P5|]. intros y Hy. exact (P6 y Hy).
  - intros q Hq i j k Hi Hj Hk. destruct (HR' q Hq) as (P4 & _). exact (P4 i Hi j k Hj Hk).
Qed.
Lemma certified_saddle_l regs x us : certified_l n J c rho f regs x us ->
  asaddle n J c rho (length regs) f (lpen regs) (ldom regs) x us.
Proof. intros (H1 & H2). split; [exact H1|exact H2]. Qed.
Lemma energy_lyap_l regs x us : energy_l n J c rho x us regs = lyap n J c rho (length regs) x us (baux_at regs) (bdual_at regs).
Proof. unfold energy_l, lyap. apply Sum_rsum_ext. intros q Hq. rewrite !wsq_l_ws, <- wsum_add. reflexivity. Qed.
Lemma change_moved_l regs regs' : change_l n J c rho regs regs' =
  moved n J c rho (length regs) (baux_at regs) (bdual_at regs) (baux_at regs') (bdual_at regs').
Proof. unfold change_l, moved. apply Sum_rsum_ext. intros q Hq. rewrite !wsq_l_ws, <- wsum_add. reflexivity. Qed.
Lemma infeasible_change_l regs regs' (X : nat -> ent) : Forall2 (b_dual_updated n J c X) regs regs' ->
  infeasibility_l n J c rho regs' X <= change_l n J c rho regs regs'.
Proof.
  intros HR. pose proof (F2_length _ _ _ HR) as L. unfold infeasibility_l, change_l. rewrite <- L, !Sum_rsum.
  apply rsum_le. intros q Hq. pose proof (F2_nth_breg _ _ _ HR q Hq) as P4.
  replace (wsq_l n J c rho X (baux_at regs' q)) with (wsq_l n J c rho (bdual_at regs' q) (bdual_at regs q)).
  { pose proof (wsq_l_nonneg (baux_at regs' q) (baux_at regs q)). lra. }
  rewrite !wsq_l_ws. apply wsum_ext. intros i j k Hi Hj Hk. unfold bdual_at, baux_at. rewrite (P4 i Hi j k Hj Hk). ring.
Qed.
Lemma certified_optimal_l regs x us : certified_l n J c rho f regs x us -> optimal_l n J c f regs x.
Proof.
  intros H. split. { intros q Hq. now apply (proj2 H q Hq). }
  intros Z HZ. pose proof (saddle_optimal _ _ _ _ _ _ _ _ _ _ (certified_saddle_l _ _ _ H) Z) as K.
  unfold penalised_l. rewrite !Sum_rsum. apply K. intros q Hq. apply HZ. assumption.
Qed.
Lemma bpens_nth (regs regs' : list bregR) : map b_pen regs' = map b_pen regs -> forall q, bpen_at regs' q = bpen_at regs q.
Proof. intros H q. unfold bpen_at, nth_breg. rewrite <- !(map_nth b_pen). now rewrite H. Qed.
Lemma lists_fixed (regs : list bregR) (X : nat -> ent) : Forall (fun g => convex_pen (b_pen g)) regs ->
  lstep regs (baux_at regs) (bdual_at regs) X (baux_at regs) (bdual_at regs) ->
  (forall q i, (q < length regs)%nat -> (i < n)%nat -> same (J i) c (baux_at regs q i) (X i)) /\
  certified_l n J c rho f regs X (bdual_at regs).
Proof.
  intros HC (H1 & H2 & H3).
  assert (HS : forall q i, (q < length regs)%nat -> (i < n)%nat -> same (J i) c (baux_at regs q i) (X i)).
  { intros q i Hq Hi j k Hj Hk. specialize (H3 q Hq i j k Hi Hj Hk). cbv beta in H3. lra. }
  split; [assumption|]. split.
  - intros Z. specialize (H1 Z).
    assert (E : rsum (length regs) (fun q => ws (fun i j k => (X i j k - (baux_at regs q i j k - bdual_at regs q i j k)) *
       (Z i j k - X i j k))) = Sum (length regs) (fun q => wdot_l n J c rho (bdual_at regs q) (lsub Z X))).
    { apply rsum_Sum_ext. intros q Hq. rewrite wdot_l_ws. apply wsum_ext. intros i j k Hi Hj Hk. unfold lsub.
      rewrite (HS q i Hq Hi j k Hj Hk). ring. }
    rewrite E in H1. lra.
  - intros q Hq. destruct (H2 q Hq) as (D & P).
    assert (CP : convex_pen (bpen_at regs q)) by (unfold bpen_at, nth_breg; apply (proj1 (Forall_nth _ _) HC); assumption).
    split. { intros i Hi. exact (doc_domain_ext _ _ _ _ _ CP (HS q i Hq Hi) (D i Hi)). }
    intros Z HZ. specialize (P Z HZ). unfold lpen in P.
    assert (EP : pen_l n J c (bpen_at regs q) (baux_at regs q) = pen_l n J c (bpen_at regs q) X).
    { unfold pen_l. apply Sum_ext. intros i Hi. apply doc_penalty_ext. now apply HS. }
    rewrite EP in P. eapply Rle_trans; [|exact P]. right. f_equal.
    rewrite wdot_l_ws. apply wsum_ext. intros i j k Hi Hj Hk. unfold lsub. rewrite (HS q i Hq Hi j k Hj Hk). ring.
Qed.
Lemma lists_fejer (regs0 regs1 regs2 : list bregR) (X1 X2 : nat -> ent) x us :
  map b_pen regs1 = map b_pen regs0 -> map b_pen regs2 = map b_pen regs0 ->
  lstep regs0 (baux_at regs0) (bdual_at regs0) X1 (baux_at regs1) (bdual_at regs1) ->
  lstep regs1 (baux_at regs1) (bdual_at regs1) X2 (baux_at regs2) (bdual_at regs2) ->
  certified_l n J c rho f regs0 x us ->
  energy_l n J c rho x us regs2 + change_l n J c rho regs1 regs2 <= energy_l n J c rho x us regs1.
Proof.
  intros P1 P2 S1 S2 HC. apply certified_saddle_l in HC.
  assert (L1 : length regs1 = length regs0) by (rewrite <- (map_length b_pen), P1; apply map_length).
  assert (L2 : length regs2 = length regs0) by (rewrite <- (map_length b_pen), P2; apply map_length).
  rewrite !energy_lyap_l, change_moved_l, L1, L2.
  eapply fejer; [exact S1| |exact HC].
  destruct S2 as (A1 & A2 & A3). rewrite L1 in A1, A2, A3. split; [exact A1|]. split; [|exact A3].
  intros q Hq. destruct (A2 q Hq) as (D & P). unfold ldom, lpen in *. rewrite <- (bpens_nth _ _ P1 q). split; [exact D|exact P].
Qed.
(** what the auxiliary update of a convex mode-1 penalty gives *)
Lemma matrices_update_nth E p V fps : forall k l, length V = k -> length fps = k ->
  matrices_update_list (N:=RNum) E p V fps k = Ok l ->
  length l = k /\ forall i, (i < k)%nat -> factor_matrix_update E p (nth i V no_mat) (vg fps i) = Ok (nth i l no_mat).
Proof.
  revert fps. induction V as [|v V IH]; intros fps k l <- L H; cbn in H.
  - injection H as <-. split; [reflexivity|]. cbn. lia.
  - destruct fps as [|x fps]; [discriminate|]. destruct (factor_matrix_update E p v x) as [y|] eqn:Ey; [|discriminate]. cbn in H.
    destruct (matrices_update_list E p V fps (length V)) as [ys|] eqn:Eys; [|discriminate]. cbn in H. injection H as <-.
    destruct (IH fps (length V) ys eq_refl (eq_add_S _ _ L) Eys) as (L' & HI). split; [cbn; congruence|].
    intros [|i] Hi; [exact Ey|]. apply HI. cbn in Hi. lia.
Qed.
Lemma breg_vi E (fps : list R) (Bs : list rmat) (g g' : bregR) : length fps = n -> (forall i, (i < n)%nat -> rho i = vg fps i) ->
  list_shaped n J c Bs -> breg_valid n J c g -> breg_valid n J c g' -> b_pen g' = b_pen g -> convex_pen (b_pen g) ->
  (forall i, (i < n)%nat -> tv_correct E (J i)) ->
  factor_matrices_update E (b_pen g) (map2 madd Bs (b_dual g)) fps (b_aux g) = Ok (b_aux g') ->
  lvi (entB Bs) g g'.
Proof.
  intros Lf Hfp (LB & HB) ((LD & HD) & Hv) (_ & Hv') Ep Hc Htv H.
  assert (K : exists l l', b_aux g = AList l /\ b_aux g' = AList l' /\ length l = n /\ length l' = n /\
     (forall i, (i < n)%nat -> valid_penalty (b_pen g) (J i)) /\
     matrices_update_list E (b_pen g) (map2 madd Bs (b_dual g)) fps (length l) = Ok l').
  { destruct g as [p a d], g' as [p' a' d']. cbn [b_pen b_aux b_dual] in *. subst p'.
    destruct a as [l|P D].
    2:{ exfalso. destruct p; try contradiction; contradiction. }
    exists l. destruct a' as [l'|P' D'].
    2:{ exfalso. destruct p; try contradiction; contradiction. }
    exists l'. split; [reflexivity|]. split; [reflexivity|].
    assert (HV : list_shaped n J c l /\ (forall i, (i < n)%nat -> valid_penalty p (J i))) by (destruct p; try contradiction; exact Hv).
    assert (HV' : list_shaped n J c l') by (destruct p; try contradiction; exact (proj1 Hv')).
    split; [apply HV|]. split; [apply HV'|]. split; [apply HV|].
    assert (H' : (let* r := matrices_update_list E p (map2 madd Bs d) fps (length l) in Ok (AList r)) = Ok (AList l'))
      by (destruct p; try contradiction; exact H).
    destruct (matrices_update_list _ _ _ _ _); [|discriminate]. cbn in H'. now injection H' as ->. }
  destruct K as (l & l' & E1 & E2 & L1 & L2 & HV & HM). rewrite L1 in HM.
  assert (LM : length (map2 madd Bs (b_dual g)) = n) by (rewrite length_map2; rn; lia).
  destruct (matrices_update_nth E _ _ _ _ _ LM Lf HM) as (_ & HN).
  assert (HI : forall i, (i < n)%nat -> doc_domain (b_pen g) (J i) c (baux g' i) /\ forall Z, doc_domain (b_pen g) (J i) c Z ->
     doc_penalty (b_pen g) (J i) c (baux g' i) + rho i * rsum (J i) (fun j => rsum c (fun k =>
       (entB Bs i j k + rget (nth i (b_dual g) no_mat) j k - baux g' i j k) * (Z j k - baux g' i j k))) <= doc_penalty (b_pen g) (J i) c Z).
  { intros i Hi. specialize (HN i Hi). destruct (HB i Hi) as (W1 & R1 & C1). destruct (HD i Hi) as (W2 & R2 & C2).
    rewrite (nth_map2 _ _ _ i no_mat no_mat no_mat) in HN by (rn; lia).
    set (V := madd (nth i Bs no_mat) (nth i (b_dual g) no_mat)) in *.
    assert (WV : mwf V) by (unfold V; auto with mwf).
    assert (RV : mr V = J i) by (unfold V; mshape; exact R1). assert (CV : mc V = c) by (unfold V; mshape; exact C1).
    destruct (update_vi E (b_pen g) V (nth i l' no_mat) (vg fps i) WV) as (U1 & U2); auto.
    { rewrite <- Hfp by assumption. auto. } { rewrite RV. auto. } { rewrite RV. auto. }
    rewrite RV, CV in U1, U2. unfold baux. rewrite E2. split; [exact U1|]. intros Z HZ. specialize (U2 Z HZ).
    rewrite <- Hfp in U2 by assumption. eapply Rle_trans; [|exact U2]. right. f_equal. f_equal.
    apply rsum_ext. intros j Hj. apply rsum_ext. intros k Hk. unfold V, entB. rewrite mget_madd by (rn; lia). reflexivity. }
  split; [intros i Hi; now apply HI|]. intros Z HZ. unfold pen_l. rewrite wdot_l_ws, !Sum_rsum. unfold wsum. rewrite <- rsum_add.
  apply rsum_le. intros i Hi. exact (proj2 (HI i Hi) (Z i) (HZ i Hi)).
Qed.
End Lists.
