(** C12, C13: the PARAFAC2 update. *)
From Coq Require Import Reals Lra Lia List Arith Bool ZArith.
From Verif Require Import Num Numpy Unimodal RFacts MatFacts Spec SpecFacts ModelSpec SvdFacts Penalties ProxProofs UnimodalMain SimplexProofs.
Import ListNotations.
Local Open Scope R_scope.

Definition dm : rmat := Mat (N:=RNum) 0 0 [].
Notation mnth l i := (nth i l dm).


(** ** Procrustes *)
Lemma col_ip_le (A B : rmat) a b : mr A = mr B -> (a < mc A)%nat -> (b < mc B)%nat ->
  rsum (mr A) (fun i => rget A i a * rget A i a) = 1 -> rsum (mr A) (fun i => rget B i b * rget B i b) = 1 ->
  rsum (mr A) (fun i => rget A i a * rget B i b) <= 1.
Proof.
  intros S Ha Hb H1 H2.
  assert (0 <= rsum (mr A) (fun i => (rget A i a - rget B i b) ^ 2)) by (apply rsum_nonneg; intros; apply pow2_ge_0).
  assert (E : rsum (mr A) (fun i => (rget A i a - rget B i b) ^ 2) =
    rsum (mr A) (fun i => rget A i a * rget A i a) - 2 * rsum (mr A) (fun i => rget A i a * rget B i b) + rsum (mr A) (fun i => rget B i b * rget B i b)).
  { rewrite <- rsum_scal, <- rsum_sub, <- rsum_add. apply rsum_ext; intros; ring. }
  rewrite E in H. lra.
Qed.
Lemma orthocols_col (U : rmat) a : orthocols U -> (a < mc U)%nat -> rsum (mr U) (fun i => rget U i a * rget U i a) = 1.
Proof.
  intros H Ha. apply ortho_cols_mat in H. specialize (H a a Ha Ha). unfold kron in H. rewrite Nat.eqb_refl in H.
  rewrite Sum_rsum in H. exact H.
Qed.
Lemma orthocols_mmul (A B : rmat) : mwf B -> mc A = mr B -> orthocols A -> orthocols B -> orthocols (mmul A B).
Proof.
  intros WB S HA HB. unfold orthocols in *. mshape. rewrite mtrans_mmul by assumption.
  rewrite mmul_assoc by mlia. rewrite <- (mmul_assoc (mtrans A)) by mlia. rewrite HA.
  rewrite mmul_eye_l by (auto; mlia). exact HB.
Qed.
Lemma mip_diag (s : list R) (M : rmat) : mr M = length s -> mc M = length s ->
  mip (mdiagm (N:=RNum) s) M = rsum (length s) (fun a => vg s a * rget M a a).
Proof.
  intros H1 H2. unfold mip. mshape. rn. apply rsum_ext. intros i Hi. rewrite (rsum_single _ i); [|assumption|].
  - rewrite mget_mdiagm, Nat.eqb_refl by assumption. reflexivity.
  - intros k Hk Hne. rewrite mget_mdiagm by assumption. destruct (Nat.eqb_spec i k); [congruence|ring].
Qed.

Section Procrustes.
Variables (M U Vh : rmat) (s : list R) (k : nat).
Hypothesis WM : mwf M.
Hypothesis HM : mc M = k.
Hypothesis H : has_svd M k (U, s, Vh).

Lemma proc_shape : mwf (mmul U Vh) /\ mr (mmul U Vh) = mr M /\ mc (mmul U Vh) = k /\ mc U = mr Vh.
Proof. destruct H as (W1 & S1 & S2 & L & W2 & S3 & S4 & _). split; [auto with mwf|]. mshape. lia. Qed.
Lemma proc_orth : orthocols (mmul U Vh).
Proof.
  pose proof (svd_U _ _ _ _ _ H). pose proof (svd_VhtVh _ _ _ _ _ H HM) as V1.
  destruct H as (W1 & S1 & S2 & L & W2 & S3 & S4 & _).
  apply orthocols_mmul; auto; [lia|]. unfold orthocols. rewrite V1. f_equal. lia.
Qed.
(** <M, P> = sum_a s_a (U^T P Vh^T)_aa *)
Lemma proc_ip (P : rmat) : mr P = mr M -> mc P = k ->
  mip M P = rsum k (fun a => vg s a * rget (mmul (mmul (mtrans U) P) (mtrans Vh)) a a).
Proof.
  intros S1' S2'. pose proof (svd_eq _ _ _ _ _ WM H) as E.
  destruct H as (W1 & S1 & S2 & L & W2 & S3 & S4 & _). rn.
  rewrite E at 1. rewrite mip_mmul_l by mlia. rewrite mip_mmul_r by mlia.
  rewrite mmul_assoc by mlia. rewrite mip_diag by mlia. rewrite L. reflexivity.
Qed.
Lemma proc_opt (P : rmat) : mwf P -> mr P = mr M -> mc P = k -> orthocols P -> mip M P <= mip M (mmul U Vh).
Proof.
  intros WP SP1 SP2 OP. destruct proc_shape as (Q1 & Q2 & Q3 & Q4). rewrite !proc_ip by assumption.
  pose proof (svd_U _ _ _ _ _ H) as OU. pose proof (svd_Vh _ _ _ _ _ H) as OV. pose proof (svd_Vh_rows _ _ _ _ _ H) as OV2.
  destruct H as (W1 & S1 & S2 & L & W2 & S3 & S4 & O1 & O2 & Sn & _). rn.
  apply rsum_le. intros a Ha. apply Rmult_le_compat_l; [now apply Sn|].
  assert (R1 : rget (mmul (mmul (mtrans U) (mmul U Vh)) (mtrans Vh)) a a = 1).
  { rewrite <- (mmul_assoc (mtrans U)) by mlia. rewrite OU. rewrite mmul_eye_l by (auto; mlia). rewrite OV2.
    rewrite mget_meye, Nat.eqb_refl by mlia. reflexivity. }
  rewrite R1. rewrite mmul_assoc by mlia. rewrite mget_mmul by mlia. mshape.
  assert (OPV : orthocols (mmul P (mtrans Vh))) by (apply orthocols_mmul; auto with mwf; mlia).
  rewrite (rsum_ext (mr U) _ (fun i => rget U i a * rget (mmul P (mtrans Vh)) i a)).
  2:{ intros i Hi. rewrite mget_mtrans by mlia. reflexivity. }
  apply col_ip_le; [mlia|mlia|mlia| |].
  - apply orthocols_col; [assumption|mlia].
  - pose proof (orthocols_col _ a OPV ltac:(mlia)) as E. mshape. rewrite SP1, <- S1 in E. exact E.
Qed.
End Procrustes.

(** ||fm - P D||^2 for orthonormal P *)
Lemma orth_dist (fm P D : rmat) : mwf D -> orthocols P -> mr P = mr fm -> mc P = mr D -> mc D = mc fm ->
  nsq (msub fm (mmul P D)) = nsq fm - 2 * mip (mmul fm (mtrans D)) P + nsq D.
Proof.
  intros WD OP S1 S2 S3. rewrite nsq_msub by mlia. rewrite orthocols_nsq by assumption.
  rewrite (mip_sym fm) by mlia. rewrite mip_mmul_l by mlia. rewrite mip_sym by mlia. reflexivity.
Qed.
Lemma orth_dist2 (fm P D : rmat) : mwf D -> orthocols P -> mr P = mr fm -> mc P = mr D -> mc D = mc fm ->
  nsq (msub fm (mmul P D)) = nsq fm - 2 * mip (mmul (mtrans P) fm) D + nsq D.
Proof.
  intros WD OP S1 S2 S3. rewrite nsq_msub by mlia. rewrite orthocols_nsq by assumption.
  rewrite (mip_sym fm) by mlia. rewrite mip_mmul_r by mlia. rewrite mip_sym by mlia. reflexivity.
Qed.

(** ** Lists of matrices *)
Lemma fold_madd (ts : list rmat) : forall (t : rmat) r c, mwf t -> mr t = r -> mc t = c ->
  (forall x, In x ts -> mr x = r /\ mc x = c) ->
  let m := fold_left (madd (N:=RNum)) ts t in
  mwf m /\ mr m = r /\ mc m = c /\
  forall i j, (i < r)%nat -> (j < c)%nat -> rget m i j = rget t i j + rsum (length ts) (fun k => rget (mnth ts k) i j).
Proof.
  induction ts as [|a ts IH]; intros t r c W S1 S2 H; cbn [fold_left].
  - split; [assumption|]. split; [assumption|]. split; [assumption|]. intros. cbn [length]. rewrite rsum_0. lra.
  - destruct (H a (or_introl eq_refl)) as (A1 & A2).
    destruct (IH (madd t a) r c) as (B1 & B2 & B3 & B4); auto with mwf; try mlia.
    + intros; apply H; now right.
    + split; [assumption|]. split; [assumption|]. split; [assumption|]. intros i j Hi Hj.
      rewrite B4, mget_madd by mlia. cbn [length]. rewrite rsum_head. cbn [nth]. rn. lra.
Qed.
Lemma length_pf2_terms (fms basis : list rmat) (rhos : list R) :
  length basis = length fms -> length rhos = length fms -> length (pf2_terms (N:=RNum) fms basis rhos) = length fms.
Proof. intros. unfold pf2_terms. rewrite length_map2, combine_length. rn. lia. Qed.
Lemma nth_pf2_terms (fms basis : list rmat) (rhos : list R) i :
  length basis = length fms -> length rhos = length fms -> (i < length fms)%nat ->
  mnth (pf2_terms (N:=RNum) fms basis rhos) i =
  mmul (mscale (N:=RNum) (nth i rhos 0) (mtrans (mnth basis i))) (mnth fms i).
Proof.
  intros L1 L2 Hi. unfold pf2_terms. rewrite (nth_map2 _ _ _ _ (dm, dm) 0); try (rewrite ?combine_length; rn; lia).
  rewrite combine_nth by assumption. reflexivity.
Qed.

Section Pf2.
Variable E : ext (N:=RNum).
Variable R_ : nat.
Variables (fms : list rmat) (rhos : list R).
Hypothesis Hfm : forall i, (i < length fms)%nat -> mwf (mnth fms i) /\ mc (mnth fms i) = R_ /\ (R_ <= mr (mnth fms i))%nat.
Hypothesis Hsvd : forall M : rmat, mwf M -> mc M = R_ -> (R_ <= mr M)%nat -> has_svd M R_ (x_svd E M R_).
Hypothesis Hlr : length rhos = length fms.
Hypothesis Hrho : Forall (fun x => 0 < x) rhos.
Hypothesis Hne : fms <> [].

Definition coord_ok (D : rmat) : Prop := mwf D /\ mr D = R_ /\ mc D = R_.
Definition basis_ok (basis : list rmat) : Prop :=
  length basis = length fms /\
  forall i, (i < length fms)%nat -> mwf (mnth basis i) /\ mr (mnth basis i) = mr (mnth fms i) /\ mc (mnth basis i) = R_ /\
     orthocols (mnth basis i).
(** weighted distance *)
Definition obj (basis : list rmat) (D : rmat) : R :=
  rsum (length fms) (fun i => nth i rhos 0 * nsq (msub (mnth fms i) (mmul (mnth basis i) D))).

Lemma rho_pos i : (i < length fms)%nat -> 0 < nth i rhos 0.
Proof.
  intros Hi. pose proof Hrho as F. rewrite Forall_forall in F. apply F, nth_In. lia.
Qed.
Lemma rho_total : 0 < lsum (N:=RNum) rhos.
Proof.
  rewrite lsum_rsum, Hlr. apply rsum_pos; [intros; left; now apply rho_pos|].
  exists 0%nat. assert (0 < length fms)%nat by (destruct fms; [congruence|cbn; lia]). split; [lia|now apply rho_pos].
Qed.

Lemma mapM_nth {A B} (f : A -> res B) (da : A) (db : B) (l : list A) (P : nat -> B -> Prop) :
  (forall i, (i < length l)%nat -> exists y, f (nth i l da) = Ok y /\ P i y) ->
  exists r, mapM f l = Ok r /\ length r = length l /\ forall i, (i < length l)%nat -> P i (nth i r db).
Proof.
  revert P; induction l as [|x l IH]; intros P H.
  - exists []. split; [reflexivity|]. split; [reflexivity|]. cbn; intros; lia.
  - destruct (H 0%nat ltac:(cbn; lia)) as (y & Ey & Py). cbn [nth] in Ey.
    destruct (IH (fun i => P (S i))) as (r & Er & Lr & Hr).
    { intros i Hi. apply (H (S i)). cbn; lia. }
    exists (y :: r). cbn [mapM]. rewrite Ey. cbn [bind]. rewrite Er. split; [reflexivity|]. split; [cbn; lia|].
    intros [|i] Hi; cbn [nth]; [assumption|]. apply Hr. cbn in Hi; lia.
Qed.

(** the basis step *)
Lemma basis_step D : coord_ok D ->
  exists b, pf2_basis E fms D = Ok b /\ basis_ok b /\
    (forall i P, (i < length fms)%nat -> mwf P -> mr P = mr (mnth fms i) -> mc P = R_ -> orthocols P ->
       nsq (msub (mnth fms i) (mmul (mnth b i) D)) <= nsq (msub (mnth fms i) (mmul P D))).
Proof.
  intros (WD & D1 & D2). unfold pf2_basis.
  destruct (mapM_nth (fun fm => let '(U, _, Vh) := x_svd E (mmul fm (mtrans D)) (mr D) in matmul (N:=RNum) U Vh) dm dm fms
    (fun i b => (mwf b /\ mr b = mr (mnth fms i) /\ mc b = R_ /\ orthocols b) /\
       (forall P, mwf P -> mr P = mr (mnth fms i) -> mc P = R_ -> orthocols P ->
        nsq (msub (mnth fms i) (mmul b D)) <= nsq (msub (mnth fms i) (mmul P D))))) as (b & Eb & Lb & Hb).
  - intros i Hi. destruct (Hfm i Hi) as (W & C & Rr). set (fm := mnth fms i) in *.
    assert (HS : has_svd (mmul fm (mtrans D)) R_ (x_svd E (mmul fm (mtrans D)) (mr D))).
    { rewrite D1. apply Hsvd; auto with mwf; mlia. }
    destruct (x_svd E (mmul fm (mtrans D)) (mr D)) as ((U & s) & Vh).
    assert (HMc : mc (mmul fm (mtrans D)) = R_) by mlia.
    destruct (proc_shape _ _ _ _ _ HMc HS) as (Q1 & Q2 & Q3 & Q4).
    exists (mmul U Vh). unfold matmul. rewrite (proj2 (Nat.eqb_eq _ _) Q4). split; [reflexivity|].
    assert (OB : orthocols (mmul U Vh)) by (apply (proc_orth _ _ _ _ _ HMc HS)).
    split; [split; [assumption|]; split; [mlia|]; split; [mlia|assumption]|].
    intros P WP P1 P2 OP. rewrite !orth_dist by (auto; mlia).
    pose proof (proc_opt _ _ _ _ _ (mwf_mmul fm (mtrans D)) HMc HS P WP ltac:(mlia) ltac:(mlia) OP). lra.
  - exists b. split; [exact Eb|]. split; [split; [assumption|]; intros i Hi; apply (Hb i Hi)|].
    intros i P Hi. apply (Hb i Hi).
Qed.

(** the coordinate step *)
Lemma coord_step b : basis_ok b ->
  exists D, pf2_coord (N:=RNum) fms b rhos = Ok D /\ coord_ok D /\
    (forall D', coord_ok D' -> obj b D + lsum (N:=RNum) rhos * nsq (msub D D') = obj b D').
Proof.
  intros (Lb & Hb). unfold pf2_coord.
  assert (LT : length (pf2_terms (N:=RNum) fms b rhos) = length fms) by (now apply length_pf2_terms).
  pose proof (nth_pf2_terms fms b rhos) as NT. pose proof rho_total as HT.
  set (T := pf2_terms (N:=RNum) fms b rhos) in *.
  assert (ST : forall i, (i < length fms)%nat -> mwf (mnth T i) /\ mr (mnth T i) = R_ /\ mc (mnth T i) = R_).
  { intros i Hi. rewrite NT by assumption. destruct (Hb i Hi) as (B1 & B2 & B3 & B4). destruct (Hfm i Hi) as (W & C & Rr).
    split; [auto with mwf|]. mlia. }
  destruct T as [|t ts] eqn:ET.
  { exfalso. destruct fms; [congruence|]. cbn in LT. lia. }
  cbn [msum_list]. rewrite (ntruthy_pos (lsum (N:=RNum) rhos)) by assumption.
  destruct (fold_madd ts t R_ R_) as (F1 & F2 & F3 & F4).
  { apply (ST 0%nat). rewrite <- LT. cbn; lia. }
  { apply (ST 0%nat). rewrite <- LT. cbn; lia. }
  { apply (ST 0%nat). rewrite <- LT. cbn; lia. }
  { intros x Hx. apply (In_nth _ _ dm) in Hx. destruct Hx as (k & Hk & <-). apply (ST (S k)). rewrite <- LT. cbn; lia. }
  set (m := fold_left (madd (N:=RNum)) ts t) in *.
  assert (Fm : forall i j, (i < R_)%nat -> (j < R_)%nat ->
    rget m i j = rsum (length fms) (fun k => nth k rhos 0 * rget (mmul (mtrans (mnth b k)) (mnth fms k)) i j)).
  { intros i j Hi Hj. rewrite F4 by assumption.
    rewrite <- LT. cbn [length]. rewrite rsum_head.
    assert (EN : forall k, (k < length fms)%nat -> rget (mnth (t :: ts) k) i j = nth k rhos 0 * rget (mmul (mtrans (mnth b k)) (mnth fms k)) i j).
    { intros k Hk. rewrite NT by assumption. rewrite mmul_mscale_l.
      destruct (Hb k Hk) as (B1 & B2 & B3 & B4). destruct (Hfm k Hk) as (W & C & Rr).
      rewrite mget_mscale by mlia. reflexivity. }
    f_equal; [apply (EN 0%nat); rewrite <- LT; cbn; lia|].
    apply rsum_ext. intros k Hk. apply (EN (S k)). rewrite <- LT. cbn; lia. }
  set (D := mmap (fun x => @ndiv RNum x (lsum (N:=RNum) rhos)) m).
  exists D. split; [reflexivity|].
  assert (OD : coord_ok D) by (unfold D; split; [auto with mwf|split; mlia]).
  split; [exact OD|].
  (* <sum rho_k P_k^T fm_k, X> = total * <D, X> *)
  assert (Key : forall X, coord_ok X ->
     rsum (length fms) (fun k => nth k rhos 0 * mip (mmul (mtrans (mnth b k)) (mnth fms k)) X) = lsum (N:=RNum) rhos * mip D X).
  { intros X (WX & X1 & X2). unfold D. unfold mip at 2. mshape. rewrite F2, F3.
    rewrite <- rsum_scal.
    rewrite (rsum_ext R_ _ (fun i => rsum R_ (fun j => rsum (length fms) (fun k => nth k rhos 0 * rget (mmul (mtrans (mnth b k)) (mnth fms k)) i j * rget X i j)))).
    2:{ intros i Hi. rewrite <- rsum_scal. apply rsum_ext. intros j Hj. rewrite mget_mmap by mlia. rewrite Fm by assumption.
        rewrite rsum_scal_r. rn. field. lra. }
    rewrite (rsum_ext R_ _ (fun i => rsum (length fms) (fun k => rsum R_ (fun j => nth k rhos 0 * rget (mmul (mtrans (mnth b k)) (mnth fms k)) i j * rget X i j)))) by (intros; apply rsum_swap).
    rewrite rsum_swap. apply rsum_ext. intros k Hk.
    destruct (Hb k Hk) as (B1 & B2 & B3 & B4). destruct (Hfm k Hk) as (W & C & Rr).
    unfold mip. mshape. rewrite B3, C. rewrite <- rsum_scal. apply rsum_ext; intros i Hi. rewrite <- rsum_scal.
    apply rsum_ext; intros j Hj. ring. }
  assert (Obj : forall X, coord_ok X -> obj b X =
    rsum (length fms) (fun k => nth k rhos 0 * nsq (mnth fms k)) - 2 * (lsum (N:=RNum) rhos * mip D X) + lsum (N:=RNum) rhos * nsq X).
  { intros X OX. rewrite <- (Key X OX). destruct OX as (WX & X1 & X2). unfold obj. rewrite (lsum_rsum rhos), Hlr.
    rewrite <- rsum_scal, <- rsum_sub, <- rsum_scal_r, <- rsum_add. apply rsum_ext. intros k Hk.
    destruct (Hb k Hk) as (B1 & B2 & B3 & B4). destruct (Hfm k Hk) as (W & C & Rr).
    rewrite orth_dist2 by (auto; mlia). ring. }
  intros D' OD'. rewrite !Obj by assumption. destruct OD as (WD & D1 & D2). destruct OD' as (WD' & D1' & D2').
  rewrite nsq_msub by mlia. fold (nsq D). ring.
Qed.

Lemma obj_basis b b' D : (forall i, (i < length fms)%nat ->
   nsq (msub (mnth fms i) (mmul (mnth b i) D)) <= nsq (msub (mnth fms i) (mmul (mnth b' i) D))) -> obj b D <= obj b' D.
Proof.
  intros H. apply rsum_le. intros i Hi. apply Rmult_le_compat_l; [left; now apply rho_pos|]. now apply H.
Qed.

(** one iteration, whatever the flags *)
Lemma one_iter (ub uc : bool) b D : coord_ok D -> (ub = true \/ basis_ok b) ->
  exists b' D', (if ub then pf2_basis E fms D else Ok b) = Ok b' /\
     (if uc then pf2_coord (N:=RNum) fms b' rhos else Ok D) = Ok D' /\ coord_ok D' /\ basis_ok b' /\
     (basis_ok b -> obj b' D' <= obj b D).
Proof.
  intros OD Hb.
  assert (S1 : exists b', (if ub then pf2_basis E fms D else Ok b) = Ok b' /\ basis_ok b' /\ (basis_ok b -> obj b' D <= obj b D)).
  { destruct ub.
    - destruct (basis_step D OD) as (b' & Eb & Ob & Hopt). exists b'. split; [assumption|]. split; [assumption|].
      intros (Lb & Hb'). apply obj_basis. intros i Hi. destruct (Hb' i Hi) as (B1 & B2 & B3 & B4). now apply Hopt.
    - exists b. destruct Hb as [Hb|Hb]; [discriminate|]. split; [reflexivity|]. split; [assumption|]. intros _. lra. }
  destruct S1 as (b' & Eb & Ob & Hle). exists b'.
  assert (S2 : exists D', (if uc then pf2_coord (N:=RNum) fms b' rhos else Ok D) = Ok D' /\ coord_ok D' /\ obj b' D' <= obj b' D).
  { destruct uc.
    - destruct (coord_step b' Ob) as (D' & ED & OD' & Hopt). exists D'. split; [assumption|]. split; [assumption|].
      rewrite <- (Hopt D OD). pose proof rho_total. pose proof (nsq_nonneg (msub D' D)). nra.
    - exists D. split; [reflexivity|]. split; [assumption|lra]. }
  destruct S2 as (D' & ED & OD' & Hle2). exists D'. repeat (split; [assumption|]). intros Hb'. specialize (Hle Hb'). lra.
Qed.

Lemma pf2_loop_spec (ub uc : bool) n : forall b D, coord_ok D -> (basis_ok b \/ (ub = true /\ n <> 0%nat)) ->
  exists b' D', pf2_loop E ub uc fms rhos n b D = Ok (b', D') /\ coord_ok D' /\ basis_ok b' /\
    (basis_ok b -> obj b' D' <= obj b D).
Proof.
  induction n as [|n IH]; intros b D OD Hb.
  - destruct Hb as [Hb|[_ Hb]]; [|congruence]. exists b, D. cbn [pf2_loop]. split; [reflexivity|]. split; [assumption|].
    split; [assumption|]. intros _; lra.
  - destruct (one_iter ub uc b D OD) as (b1 & D1 & E1 & E2 & OD1 & Ob1 & Hle); [tauto|].
    cbn [pf2_loop]. rewrite E1. cbn [bind]. rewrite E2. cbn [bind].
    destruct (negb uc || negb ub).
    + exists b1, D1. auto.
    + destruct (IH b1 D1 OD1 (or_introl Ob1)) as (b2 & D2 & E3 & OD2 & Ob2 & Hle2).
      exists b2, D2. split; [exact E3|]. split; [assumption|]. split; [assumption|]. intros Hb'. specialize (Hle Hb'). specialize (Hle2 Ob1). lra.
Qed.

(** one more iteration is never worse *)
Lemma pf2_loop_more (ub uc : bool) n : forall b D, coord_ok D -> (basis_ok b) ->
  exists b1 D1 b2 D2, pf2_loop E ub uc fms rhos n b D = Ok (b1, D1) /\ pf2_loop E ub uc fms rhos (S n) b D = Ok (b2, D2) /\
    obj b2 D2 <= obj b1 D1.
Proof.
  induction n as [|n IH]; intros b D OD Hb.
  - destruct (pf2_loop_spec ub uc 1 b D OD (or_introl Hb)) as (b2 & D2 & E2 & _ & _ & Hle).
    exists b, D, b2, D2. split; [reflexivity|]. split; [assumption|auto].
  - destruct (one_iter ub uc b D OD (or_intror Hb)) as (b1 & D1 & E1 & E2 & OD1 & Ob1 & Hle).
    destruct (IH b1 D1 OD1 Ob1) as (b3 & D3 & b4 & D4 & E3 & E4 & Hle3).
    assert (Step : forall k, pf2_loop E ub uc fms rhos (S k) b D =
      if negb uc || negb ub then Ok (b1, D1) else pf2_loop E ub uc fms rhos k b1 D1).
    { intros k. cbn [pf2_loop]. rewrite E1. cbn [bind]. rewrite E2. reflexivity. }
    rewrite !Step. destruct (negb uc || negb ub).
    + exists b1, D1, b1, D1. repeat (split; [reflexivity|]). lra.
    + exists b3, D3, b4, D4. auto.
Qed.
End Pf2.

(** too few rows: numpy's reduced SVD of a wide matrix does not fit *)
Lemma pf2_wide_error (E : ext (N:=RNum)) (fms : list rmat) (rhos : list R) n uc b (D : rmat) i :
  (0 < n)%nat -> (i < length fms)%nat ->
  (forall fm, In fm fms -> let '(U, _, Vh) := x_svd E (mmul fm (mtrans D)) (mr D) in
      mc U = Nat.min (mr fm) (mr D) /\ mr Vh = mr D) ->
  (mr (mnth fms i) < mr D)%nat ->
  pf2_loop E true uc fms rhos n b D = Err ValueError.
Proof.
  intros Hn Hi Hsv Hlt. destruct n as [|n]; [lia|]. cbn [pf2_loop].
  enough (EB : pf2_basis E fms D = Err ValueError) by (rewrite EB; reflexivity).
  unfold pf2_basis. clear n Hn. revert i Hi Hlt Hsv. induction fms as [|f fs IH]; intros i Hi Hlt Hsv; [cbn in Hi; lia|].
  cbn [mapM]. pose proof (Hsv f (or_introl eq_refl)) as Hf.
  destruct (x_svd E (mmul f (mtrans D)) (mr D)) as ((U & s) & Vh). destruct Hf as (H1 & H2).
  unfold matmul. rewrite H1, H2. destruct (Nat.eqb_spec (Nat.min (mr f) (mr D)) (mr D)) as [Eq|Ne]; [|reflexivity].
  cbn [bind]. destruct i as [|i]; [cbn [nth] in Hlt; lia|].
  assert (IHi := IH i ltac:(cbn in Hi; lia) Hlt (fun fm Hin => Hsv fm (or_intror Hin))).
  unfold matmul in IHi. rewrite IHi. reflexivity.
Qed.
