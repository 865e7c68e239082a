(** One inner iteration of each mode as an abstract ADMM iteration. *)
From Coq Require Import Reals Lra Lia List Arith Bool.
From Verif Require Import Num Numpy Unimodal RFacts Spec SpecFacts MatFacts SvdFacts ModelSpec Penalties PenaltySpec
  ProxProofs TVProofs GenL2Proofs SimplexProofs Parafac2Proofs PenaltyMain CoupledMatrices CmfSpec CmfProofs
  Decomp DecompSpec DecompFacts AdmmProofs AdmmB AdmmA AdmmRegs AdmmLoop AdmmOne AoState OptSpec AdmmConv.
Import ListNotations.
Local Open Scope R_scope.

Lemma convex_pen_penalty p : convex_pen p -> convex_penalty p.
Proof. destruct p; auto. Qed.

(** ** Penalties see only the entries of the matrix *)
Lemma abs_sum_ext r c X Y : same r c X Y -> abs_sum r c X = abs_sum r c Y.
Proof. intros H. unfold abs_sum. apply Sum_ext; intros i Hi. apply Sum_ext; intros j Hj. now rewrite H. Qed.
Lemma doc_penalty_ext p r c X Y : same r c X Y -> doc_penalty p r c X = doc_penalty p r c Y.
Proof.
  intros H. destruct p as [|lo hi|reg nn|M U s|reg l1|b nn| |nn|n ub uc]; cbn; try reflexivity.
  - now rewrite (abs_sum_ext r c X Y).
  - unfold quad. apply Sum_ext; intros j Hj. apply Sum_ext; intros i Hi. apply Sum_ext; intros k Hk. now rewrite !H.
  - rewrite (abs_sum_ext r c X Y H). do 2 f_equal. unfold total_variation. apply Sum_ext; intros j Hj. apply Sum_ext; intros i Hi.
    rewrite !H by lia. reflexivity.
Qed.
Lemma entries_ext r c P X Y : same r c X Y -> entries r c P X -> entries r c P Y.
Proof. intros H K i j Hi Hj. rewrite <- H by assumption. auto. Qed.
Lemma doc_domain_ext p r c X Y : convex_pen p -> same r c X Y -> doc_domain p r c X -> doc_domain p r c Y.
Proof.
  intros HC H. destruct p as [|lo hi|reg nn|M U s|reg l1|b nn| |nn|n ub uc]; try contradiction; cbn; try (intros; exact I).
  - now apply entries_ext.
  - now apply entries_ext.
  - intros K Hn. eapply entries_ext; eauto.
  - intros (K1 & K2). split.
    + intros j Hj. rewrite (Sum_ext r _ (fun i => X i j ^ 2)); [now apply K1|]. intros i Hi. now rewrite H.
    + intros Hn. eapply entries_ext; eauto.
Qed.

(** ** Proximal operators as variational inequalities *)
Lemma prox_vi r c g dom rho V X : is_prox r c g dom rho V X -> forall Z, dom Z ->
  g X + rho * rsum r (fun i => rsum c (fun k => (V i k - X i k) * (Z i k - X i k))) <= g Z.
Proof.
  intros (_ & H) Z HZ. specialize (H Z HZ). rewrite !ProxProofs.dist2_rsum in H.
  assert (E : rsum r (fun i => rsum c (fun k => (Z i k - V i k) ^ 2)) - rsum r (fun i => rsum c (fun k => (X i k - V i k) ^ 2))
              - rsum r (fun i => rsum c (fun k => (X i k - Z i k) ^ 2)) =
              (-2) * rsum r (fun i => rsum c (fun k => (V i k - X i k) * (Z i k - X i k)))).
  { rewrite <- !rsum_sub, <- rsum_scal. apply rsum_ext; intros i Hi. rewrite <- !rsum_sub, <- rsum_scal.
    apply rsum_ext; intros k Hk. ring. }
  set (a := rsum r (fun i => rsum c (fun k => (Z i k - V i k) ^ 2))) in *.
  set (b := rsum r (fun i => rsum c (fun k => (X i k - V i k) ^ 2))) in *.
  set (d := rsum r (fun i => rsum c (fun k => (X i k - Z i k) ^ 2))) in *.
  set (e := rsum r (fun i => rsum c (fun k => (V i k - X i k) * (Z i k - X i k)))) in *.
  assert (a = b + d - 2 * e) by lra. subst a. rewrite H0 in H. clearbody b d e. nra.
Qed.
(** the update of a convex penalty *)
Lemma update_vi E (p : penalty (N:=RNum)) (V X : rmat) rho : mwf V -> 0 < rho -> convex_pen p -> valid_penalty p (mr V) ->
  (forall reg l1, p = TotalVariation (N:=RNum) reg l1 -> tv_correct E (mr V)) -> factor_matrix_update E p V rho = Ok X ->
  doc_domain p (mr V) (mc V) (rget X) /\ forall Z, doc_domain p (mr V) (mc V) Z ->
  doc_penalty p (mr V) (mc V) (rget X) +
    rho * rsum (mr V) (fun i => rsum (mc V) (fun k => (rget V i k - rget X i k) * (Z i k - rget X i k)))
  <= doc_penalty p (mr V) (mc V) Z.
Proof.
  intros W Hr Hc Hv Htv H. destruct (convex_update E p V rho W Hr (convex_pen_penalty p Hc) Hv) as (X' & H1 & _ & _ & _ & H5).
  { intros reg l1 -> j Hj. apply (Htv reg l1 eq_refl); [now apply length_mcol|]. destruct Hv as (Hg & _). apply Rdiv_lt_0_compat; lra. }
  rewrite H1 in H. injection H as ->. split; [apply H5|]. exact (prox_vi _ _ _ _ _ _ _ H5).
Qed.

(** ** Convexity of the smooth part *)
Lemma sq_convex a u v t : 0 <= t <= 1 -> (a - ((1 - t) * u + t * v)) ^ 2 <= (1 - t) * (a - u) ^ 2 + t * (a - v) ^ 2.
Proof. intros H. assert (0 <= t * (1 - t) * (u - v) ^ 2) by (apply Rmult_le_pos; [nra|apply pow2_ge_0]). nra. Qed.
Lemma dist2_convex r c X Y U V t : 0 <= t <= 1 -> same r c Y (fun i j => (1 - t) * U i j + t * V i j) ->
  dist2 r c X Y <= (1 - t) * dist2 r c X U + t * dist2 r c X V.
Proof.
  intros Ht HY. rewrite !ProxProofs.dist2_rsum, <- !rsum_scal, <- rsum_add. apply rsum_le; intros i Hi.
  rewrite <- !rsum_scal, <- rsum_add. apply rsum_le; intros j Hj. rewrite HY by assumption. now apply sq_convex.
Qed.
Lemma sumsq_convex r c U V t : 0 <= t <= 1 ->
  sumsq r c (fun i j => (1 - t) * U i j + t * V i j) <= (1 - t) * sumsq r c U + t * sumsq r c V.
Proof.
  intros Ht. rewrite !sumsq_rsum, <- !rsum_scal, <- rsum_add. apply rsum_le; intros i Hi.
  rewrite <- !rsum_scal, <- rsum_add. apply rsum_le; intros j Hj.
  pose proof (sq_convex 0 (U i j) (V i j) t Ht). nra.
Qed.
Lemma fit_convex Xs K n A B C A' B' C' A'' B'' C'' t : 0 <= t <= 1 ->
  (forall i j k r, (r < n)%nat -> B i j r * A i r * C k r = (1 - t) * (B' i j r * A' i r * C' k r) + t * (B'' i j r * A'' i r * C'' k r)) ->
  fit Xs K n A B C <= (1 - t) * fit Xs K n A' B' C' + t * fit Xs K n A'' B'' C''.
Proof.
  intros Ht H. unfold fit. rewrite !Sum_rsum, <- !rsum_scal, <- rsum_add. apply rsum_le; intros i Hi.
  apply dist2_convex; [assumption|]. intros j k Hj Hk. rewrite !Sum_rsum, <- !rsum_scal, <- rsum_add.
  apply rsum_ext; intros r Hr. now apply H.
Qed.

Section Smooth.
Variables (Xs : list rmat) (c : rcmf) (l2 : R).
Hypothesis Hl2 : 0 <= l2.
Definition p2e (p : pt) : ent := fun i k => p i 0%nat k.
Definition e2p (Z : ent) : pt := fun i _ k => Z i k.
Lemma smooth_A_convex : convex_fun (fun p => smooth_A Xs c l2 (p2e p)).
Proof.
  intros x z t Ht. unfold smooth_A.
  assert (F := fit_convex Xs (mr (cC c)) (mc (cA c)) (p2e (pseg t x z)) (entB (cBs c)) (rget (cC c)) (p2e x) (entB (cBs c)) (rget (cC c))
     (p2e z) (entB (cBs c)) (rget (cC c)) t Ht ltac:(intros; unfold p2e, pseg; rn; ring)).
  assert (G := sumsq_convex (mr (cA c)) (mc (cA c)) (p2e x) (p2e z) t Ht).
  change (fun i j => (1 - t) * p2e x i j + t * p2e z i j) with (p2e (pseg t x z)) in G. rn. nra.
Qed.
Lemma smooth_C_convex : convex_fun (fun p => smooth_C Xs c l2 (p2e p)).
Proof.
  intros x z t Ht. unfold smooth_C.
  assert (F := fit_convex Xs (mr (cC c)) (mc (cA c)) (rget (cA c)) (entB (cBs c)) (p2e (pseg t x z)) (rget (cA c)) (entB (cBs c)) (p2e x)
     (rget (cA c)) (entB (cBs c)) (p2e z) t Ht ltac:(intros; unfold p2e, pseg; rn; ring)).
  assert (G := sumsq_convex (mr (cC c)) (mc (cA c)) (p2e x) (p2e z) t Ht).
  change (fun i j => (1 - t) * p2e x i j + t * p2e z i j) with (p2e (pseg t x z)) in G. rn. nra.
Qed.
Lemma smooth_B_convex : convex_fun (fun p => smooth_B Xs c l2 p).
Proof.
  intros x z t Ht. unfold smooth_B.
  assert (F := fit_convex Xs (mr (cC c)) (mc (cA c)) (rget (cA c)) (pseg t x z) (rget (cC c)) (rget (cA c)) x (rget (cC c))
     (rget (cA c)) z (rget (cC c)) t Ht ltac:(intros; unfold pseg; rn; ring)).
  assert (G : Sum (length (cBs c)) (fun i => sumsq (mr (nthB c i)) (mc (cA c)) (pseg t x z i)) <=
     (1 - t) * Sum (length (cBs c)) (fun i => sumsq (mr (nthB c i)) (mc (cA c)) (x i)) +
     t * Sum (length (cBs c)) (fun i => sumsq (mr (nthB c i)) (mc (cA c)) (z i))).
  { rewrite !Sum_rsum, <- !rsum_scal, <- rsum_add. apply rsum_le; intros i Hi.
    exact (sumsq_convex (mr (nthB c i)) (mc (cA c)) (x i) (z i) t Ht). }
  rn. nra.
Qed.
End Smooth.

(** ** One factor matrix with weighted rows *)
Section Rows.
Variables (r c : nat) (rho : nat -> R) (f : ent -> R).
Hypothesis Hrho : forall i, (i < r)%nat -> 0 < rho i.
Hypothesis Hf : convex_fun (fun p => f (p2e p)).
Notation one := (fun _ : nat => 1%nat).
Notation ws := (wsum r one c rho).
Lemma rsum_one (g : nat -> R) : rsum 1 g = g 0%nat.
Proof. rewrite rsum_S, rsum_0. ring. Qed.
Lemma wdot_ws U V : wdot r c rho U V = ws (fun i _ k => U i k * V i k).
Proof. unfold wdot, wsum. apply Sum_rsum_ext. intros i Hi. rewrite rsum_one. reflexivity. Qed.
Lemma wsq_ws X Y : wsq r c rho X Y = ws (fun i _ k => (X i k - Y i k) ^ 2).
Proof. unfold wsq. rewrite wdot_ws. apply wsum_ext. intros. unfold esub. ring. Qed.
Lemma wsq_nonneg X Y : 0 <= wsq r c rho X Y.
Proof. rewrite wsq_ws. apply wsum_nonneg; [intros; left; auto|]. intros. apply pow2_ge_0. Qed.
Definition rpen (regs : list mregR) (q : nat) (p : pt) : R := doc_penalty (pen_at regs q) r c (p2e p).
Definition rdom (regs : list mregR) (q : nat) (p : pt) : Prop := doc_domain (pen_at regs q) r c (p2e p).
Notation rz regs := (fun q => e2p (aux_at regs q)).
Notation ru regs := (fun q => e2p (dual_at regs q)).
Notation rstep regs := (astep r one c rho (length regs) (fun p => f (p2e p)) (rpen regs) (rdom regs)).
Definition rvi (X : ent) (g g' : mregR) : Prop :=
  doc_domain (g_pen g) r c (rget (g_aux g')) /\ forall Z, doc_domain (g_pen g) r c Z ->
    doc_penalty (g_pen g) r c (rget (g_aux g')) +
      wdot r c rho (fun i k => X i k + rget (g_dual g) i k - rget (g_aux g') i k) (esub Z (rget (g_aux g')))
    <= doc_penalty (g_pen g) r c Z.

Lemma rows_astep (regs regs' : list mregR) (X : rmat) :
  (forall Z, f (rget X) + Sum (length regs) (fun q => Sum r (fun i => rho i / 2 *
       Sum c (fun k => (rget X i k - (rget (g_aux (nth_reg regs q)) i k - rget (g_dual (nth_reg regs q)) i k)) ^ 2))) <=
     f Z + Sum (length regs) (fun q => Sum r (fun i => rho i / 2 *
       Sum c (fun k => (Z i k - (rget (g_aux (nth_reg regs q)) i k - rget (g_dual (nth_reg regs q)) i k)) ^ 2)))) ->
  Forall2 (fun g g' => mstep r c (rget X) g g' /\ rvi (rget X) g g') regs regs' ->
  rstep regs (rz regs) (ru regs) (e2p (rget X)) (rz regs') (ru regs').
Proof.
  intros Hm HR. pose proof (F2_length _ _ _ HR) as L.
  assert (HR' : forall q, (q < length regs)%nat -> mstep r c (rget X) (nth_reg regs q) (nth_reg regs' q) /\
                                                rvi (rget X) (nth_reg regs q) (nth_reg regs' q)).
  { clear Hm. induction HR as [|x y l l' Hxy HR IH]; intros q Hq; [cbn in Hq; lia|].
    destruct q as [|q]; [exact Hxy|]. apply IH; cbn in *; lia. }
  split; [|split].
  - intros y.
    apply (min_vi r one c rho (fun i Hi => Rlt_le _ _ (Hrho i Hi)) (length regs) (fun p => f (p2e p))
             (fun q i j k => e2p (aux_at regs q) i j k - e2p (dual_at regs q) i j k)); [exact Hf|].
    intros z. specialize (Hm (p2e z)).
    assert (EQ : forall y : pt, rsum (length regs) (fun q => / 2 * ws (fun i j k => (y i j k - (e2p (aux_at regs q) i j k - e2p (dual_at regs q) i j k)) ^ 2)) =
       Sum (length regs) (fun q => Sum r (fun i => rho i / 2 *
       Sum c (fun k => (p2e y i k - (rget (g_aux (nth_reg regs q)) i k - rget (g_dual (nth_reg regs q)) i k)) ^ 2)))).
    { intros y'. apply rsum_Sum_ext; intros q Hq. unfold wsum. rewrite <- rsum_scal. apply rsum_Sum_ext; intros i Hi.
      rewrite rsum_one. unfold Rdiv. rewrite (Rmult_comm (rho i) (/2)), Rmult_assoc. reflexivity. }
    rewrite !EQ. exact Hm.
  - intros q Hq. destruct (HR' q Hq) as ((P1 & P2 & P3 & P4) & P5 & P6). split; [exact P5|].
    intros y Hy. unfold rpen. specialize (P6 (p2e y) Hy). rewrite wdot_ws in P6.
    unfold aux_at, dual_at, pen_at in *. change (p2e (e2p ?a)) with a.
    replace (ws (fun i j k => (e2p (rget X) i j k + e2p (rget (g_dual (nth_reg regs q))) i j k - e2p (rget (g_aux (nth_reg regs' q))) i j k) *
        (y i j k - e2p (rget (g_aux (nth_reg regs' q))) i j k))) with
      (ws (fun i _ k => (rget X i k + rget (g_dual (nth_reg regs q)) i k - rget (g_aux (nth_reg regs' q)) i k) *
        esub (p2e y) (rget (g_aux (nth_reg regs' q))) i k)); [exact P6|].
    apply wsum_ext. intros i j k Hi Hj Hk. replace j with 0%nat by lia. reflexivity.
  - intros q Hq i j k Hi Hj Hk. destruct (HR' q Hq) as ((_ & _ & _ & P4) & _). apply (P4 i k Hi Hk).
Qed.

(** saddle points *)
Lemma certified_saddle regs x us : certified r c rho f regs x us ->
  asaddle r one c rho (length regs) (fun p => f (p2e p)) (rpen regs) (rdom regs) (e2p x) (fun q => e2p (us q)).
Proof.
  intros (H1 & H2). split.
  - intros y. specialize (H1 (p2e y)). change (p2e (e2p x)) with x. eapply Rle_trans; [exact H1|]. right. f_equal.
    apply Sum_rsum_ext. intros q Hq. rewrite wdot_ws. apply wsum_ext. intros i j k Hi Hj Hk. replace j with 0%nat by lia. reflexivity.
  - intros q Hq. destruct (H2 q Hq) as (D & P). split; [exact D|]. intros y Hy. specialize (P (p2e y) Hy). rewrite wdot_ws in P.
    unfold rpen. change (p2e (e2p x)) with x. eapply Rle_trans; [|exact P]. right. f_equal.
Qed.
Lemma energy_lyap regs x us : energy r c rho x us regs =
  lyap r one c rho (length regs) (e2p x) (fun q => e2p (us q)) (rz regs) (ru regs).
Proof.
  unfold energy, lyap. apply Sum_rsum_ext. intros q Hq. rewrite !wsq_ws, <- wsum_add. reflexivity.
Qed.
Lemma change_moved regs regs' : change r c rho regs regs' =
  moved r one c rho (length regs) (rz regs) (ru regs) (rz regs') (ru regs').
Proof.
  unfold change, moved. apply Sum_rsum_ext. intros q Hq. rewrite !wsq_ws, <- wsum_add. reflexivity.
Qed.
Lemma infeasible_change regs regs' (X : ent) : Forall2 (mstep r c X) regs regs' ->
  infeasibility r c rho regs' X <= change r c rho regs regs'.
Proof.
  intros HR. pose proof (F2_length _ _ _ HR) as L. unfold infeasibility, change. rewrite <- L, !Sum_rsum.
  apply rsum_le. intros q Hq.
  assert (P : mstep r c X (nth_reg regs q) (nth_reg regs' q)).
  { clear L. revert q Hq. induction HR as [|x y l l' Hxy HR IH]; intros q Hq; [cbn in Hq; lia|].
    destruct q as [|q]; [exact Hxy|]. apply IH; cbn in *; lia. }
  destruct P as (_ & _ & _ & P4).
  replace (wsq r c rho X (aux_at regs' q)) with (wsq r c rho (dual_at regs' q) (dual_at regs q)).
  { pose proof (wsq_nonneg (aux_at regs' q) (aux_at regs q)). lra. }
  rewrite !wsq_ws. apply wsum_ext. intros i j k Hi Hj Hk. unfold dual_at, aux_at. rewrite (P4 i k Hi Hk). ring.
Qed.
Lemma certified_optimal regs x us : certified r c rho f regs x us -> optimal r c f regs x.
Proof.
  intros H. split. { intros q Hq. now apply (proj2 H q Hq). }
  intros Z HZ. pose proof (saddle_optimal _ _ _ _ _ _ _ _ _ _ (certified_saddle _ _ _ H) (e2p Z)) as K.
  unfold penalised. rewrite !Sum_rsum. apply K. intros q Hq. apply HZ. assumption.
Qed.
Lemma pens_nth (regs regs' : list mregR) : map g_pen regs' = map g_pen regs -> forall q, pen_at regs' q = pen_at regs q.
Proof.
  intros H q. unfold pen_at, nth_reg. rewrite <- !(map_nth g_pen). now rewrite H.
Qed.
(** a fixed point *)
Lemma rows_fixed (regs : list mregR) (X : rmat) : Forall (fun g => convex_pen (g_pen g)) regs ->
  rstep regs (rz regs) (ru regs) (e2p (rget X)) (rz regs) (ru regs) ->
  (forall q, (q < length regs)%nat -> same r c (aux_at regs q) (rget X)) /\
  certified r c rho f regs (rget X) (dual_at regs).
Proof.
  intros HC (H1 & H2 & H3).
  assert (HS : forall q, (q < length regs)%nat -> same r c (aux_at regs q) (rget X)).
  { intros q Hq i k Hi Hk. specialize (H3 q Hq i 0%nat k Hi Nat.lt_0_1 Hk). unfold e2p in H3. rn. lra. }
  split; [assumption|]. split.
  - intros Z. specialize (H1 (e2p Z)). change (p2e (e2p ?a)) with a in H1. cbv beta in H1. change (p2e (e2p Z)) with Z in H1.
    change (p2e (e2p (rget X))) with (rget X) in H1.
    assert (E : rsum (length regs) (fun q => ws (fun i j k => (e2p (rget X) i j k - (e2p (aux_at regs q) i j k - e2p (dual_at regs q) i j k)) *
       (e2p Z i j k - e2p (rget X) i j k))) = Sum (length regs) (fun q => wdot r c rho (dual_at regs q) (esub Z (rget X)))).
    { apply rsum_Sum_ext. intros q Hq. rewrite wdot_ws. apply wsum_ext. intros i j k Hi Hj Hk. unfold e2p, esub.
      rewrite (HS q Hq i k Hi Hk). ring. }
    rewrite E in H1. lra.
  - intros q Hq. destruct (H2 q Hq) as (D & P).
    assert (CP : convex_pen (pen_at regs q)) by (unfold pen_at, nth_reg; apply (proj1 (Forall_nth _ _) HC); assumption).
    split. { exact (doc_domain_ext _ _ _ _ _ CP (HS q Hq) D). }
    intros Z HZ. specialize (P (e2p Z) HZ). unfold rpen in P. change (p2e (e2p Z)) with Z in P. change (p2e (e2p (aux_at regs q))) with (aux_at regs q) in P.
    rewrite (doc_penalty_ext _ _ _ _ _ (HS q Hq)) in P. eapply Rle_trans; [|exact P]. right. f_equal.
    rewrite wdot_ws. apply wsum_ext. intros i j k Hi Hj Hk. unfold e2p, esub. rewrite (HS q Hq i k Hi Hk). ring.
Qed.
Lemma rows_fejer (regs0 regs1 regs2 : list mregR) (X1 X2 : rmat) x us :
  map g_pen regs1 = map g_pen regs0 -> map g_pen regs2 = map g_pen regs0 ->
  rstep regs0 (rz regs0) (ru regs0) (e2p (rget X1)) (rz regs1) (ru regs1) ->
  rstep regs1 (rz regs1) (ru regs1) (e2p (rget X2)) (rz regs2) (ru regs2) ->
  certified r c rho f regs0 x us ->
  energy r c rho x us regs2 + change r c rho regs1 regs2 <= energy r c rho x us regs1.
Proof.
  intros P1 P2 S1 S2 HC. apply certified_saddle in HC.
  assert (L1 : length regs1 = length regs0) by (rewrite <- (map_length g_pen), P1; apply map_length).
  assert (L2 : length regs2 = length regs0) by (rewrite <- (map_length g_pen), P2; apply map_length).
  rewrite !energy_lyap, change_moved, L1, L2.
  eapply fejer; [exact S1| |exact HC].
  destruct S2 as (A1 & A2 & A3). rewrite L1 in A1, A2, A3. split; [exact A1|]. split; [|exact A3].
  intros q Hq. destruct (A2 q Hq) as (D & P). unfold rdom, rpen in *. rewrite <- (pens_nth _ _ P1 q). split; [exact D|exact P].
Qed.
End Rows.
