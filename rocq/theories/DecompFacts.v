(** Linear algebra behind the factor updates. *)
From Coq Require Import Reals Lra Lia List Arith Bool.
From Verif Require Import Num Numpy RFacts Spec SpecFacts MatFacts SvdFacts ModelSpec Penalties PenaltySpec
  ProxProofs PenaltyMain CoupledMatrices CmfSpec CmfProofs Decomp DecompSpec.
Import ListNotations.
Local Open Scope R_scope.

(** ** dist2, sumsq and norms *)
Lemma dist2_rsum r c X Y : dist2 r c X Y = rsum r (fun i => rsum c (fun j => (X i j - Y i j) ^ 2)).
Proof. unfold dist2. apply Sum_rsum_ext. intros. apply Sum_rsum. Qed.
Lemma dist2_ext r c X X' Y Y' : same r c X X' -> same r c Y Y' -> dist2 r c X Y = dist2 r c X' Y'.
Proof.
  intros H1 H2. rewrite !dist2_rsum. apply rsum_ext; intros i Hi. apply rsum_ext; intros j Hj.
  now rewrite H1, H2.
Qed.
Lemma dist2_nsq (X Y : rmat) r c : mr X = r -> mc X = c -> dist2 r c (rget X) (rget Y) = nsq (msub X Y).
Proof.
  intros <- <-. rewrite dist2_rsum. unfold nsq, mip. mshape. apply rsum_ext; intros i Hi. apply rsum_ext; intros j Hj.
  rewrite mget_msub by mlia. ring.
Qed.
Lemma sumsq_rsum r c X : sumsq r c X = rsum r (fun i => rsum c (fun j => X i j ^ 2)).
Proof. unfold sumsq. apply Sum_rsum_ext. intros. apply Sum_rsum. Qed.
Lemma sumsq_nsq (X : rmat) r c : mr X = r -> mc X = c -> sumsq r c (rget X) = nsq X.
Proof.
  intros <- <-. rewrite sumsq_rsum. unfold nsq, mip. apply rsum_ext; intros i Hi. apply rsum_ext; intros j Hj. ring.
Qed.
Lemma sumsq_ext r c X Y : same r c X Y -> sumsq r c X = sumsq r c Y.
Proof.
  intros H. rewrite !sumsq_rsum. apply rsum_ext; intros i Hi. apply rsum_ext; intros j Hj. now rewrite H.
Qed.

(** ** The model matrix D C^T *)
Lemma model_entry (B C : rmat) (a : list R) j k : (j < mr B)%nat -> (k < mr C)%nat -> mc C = mc B ->
  rget (mmul (mcolscale B a) (mtrans C)) j k = Sum (mc B) (fun r => rget B j r * vg a r * rget C k r).
Proof.
  intros Hj Hk Hc. rewrite mget_mmul by mlia. mshape. apply rsum_Sum_ext. intros r Hr.
  rewrite mget_mcolscale, mget_mtrans by mlia. reflexivity.
Qed.

(** ** Expanding the squares *)
(** nsq (X - D Z^T), in terms of Z *)
Lemma expand_C (X D Z : rmat) : mwf X -> mwf D -> mwf Z -> mr X = mr D -> mc X = mr Z -> mc D = mc Z ->
  nsq (msub X (mmul D (mtrans Z))) =
  nsq X - 2 * mip Z (mmul (mtrans X) D) + mip (mmul Z (mmul (mtrans D) D)) Z.
Proof.
  intros WX WD WZ H1 H2 H3. rewrite nsq_msub by mlia. f_equal; [f_equal; f_equal|].
  - rewrite mip_sym by mlia. rewrite mip_mmul_r by mlia.
    rewrite <- (mip_mtrans Z) by mlia. f_equal.
    rewrite mtrans_mmul by mlia. rewrite mtrans_involutive by assumption. reflexivity.
  - unfold nsq. rewrite mip_mmul_r by mlia. rewrite <- mmul_assoc by mlia.
    rewrite <- mip_mtrans by mlia. rewrite mtrans_involutive by assumption.
    rewrite mtrans_mmul by mlia. rewrite mtrans_mmul by mlia. rewrite !mtrans_involutive by assumption.
    rewrite mip_sym by mlia. reflexivity.
Qed.
(** nsq (X - Z G^T), in terms of Z *)
Lemma expand_B (X G Z : rmat) : mwf X -> mwf G -> mwf Z -> mr X = mr Z -> mc X = mr G -> mc G = mc Z ->
  nsq (msub X (mmul Z (mtrans G))) =
  nsq X - 2 * mip Z (mmul X G) + mip (mmul Z (mmul (mtrans G) G)) Z.
Proof.
  intros WX WG WZ H1 H2 H3. rewrite <- nsq_mtrans.
  replace (mtrans (msub X (mmul Z (mtrans G)))) with (msub (mtrans X) (mmul G (mtrans Z))).
  - rewrite expand_C by (auto with mwf; mlia). rewrite nsq_mtrans, mtrans_involutive by assumption. reflexivity.
  - rewrite <- (mtrans_involutive G) at 1 by assumption. rewrite <- mtrans_mmul by mlia.
    apply mat_ext; auto with mwf. intros i j Hi Hj. mshape. rewrite mget_msub, !mget_mtrans, mget_msub by mlia. reflexivity.
Qed.
(** nsq (X - D C^T), in terms of the Gram matrices *)
Lemma expand_gram (X D C : rmat) : mwf X -> mwf D -> mwf C -> mr X = mr D -> mc X = mr C -> mc D = mc C ->
  nsq (msub X (mmul D (mtrans C))) =
  nsq X - 2 * mip D (mmul X C) + mip (mmul (mtrans D) D) (mmul (mtrans C) C).
Proof.
  intros WX WD WC H1 H2 H3. rewrite expand_B by (assumption || congruence). f_equal.
  rewrite mip_mmul_r by mlia. rewrite mip_sym by mlia. reflexivity.
Qed.

Lemma lsum_len (l : list R) n : length l = n -> lsum (N:=RNum) l = rsum n (fun i => vg l i).
Proof. intros <-. apply lsum_rsum. Qed.
(** traces and sums as inner products *)
Lemma mtrace_mip (D Y : rmat) : mr D = mr Y -> mc D = mc Y -> mtrace (mmul (mtrans D) Y) = mip D Y.
Proof.
  intros H1 H2. unfold mtrace, mip. mshape. rewrite nsum_rsum.
  rewrite (rsum_swap (mr D)). apply rsum_ext. intros r Hr. rewrite mget_mmul by mlia. mshape.
  apply rsum_ext. intros j Hj. now rewrite mget_mtrans by mlia.
Qed.
Lemma msum_mhad (P Q : rmat) : msum (mhad P Q) = mip P Q.
Proof.
  unfold msum, mip. mshape. rewrite nsum_rsum. apply rsum_ext; intros i Hi. rewrite nsum_rsum.
  apply rsum_ext; intros j Hj. now rewrite mget_mhad by mlia.
Qed.
Lemma rec_inner_mip (X D C : rmat) : mr X = mr D -> mc X = mr C -> mc D = mc C ->
  rec_inner X D C = mip D (mmul X C).
Proof.
  intros H1 H2 H3. unfold rec_inner. rewrite mmul_assoc by mlia.
  destruct (mr C <? mr D)%nat; apply mtrace_mip; mlia.
Qed.
Lemma btxc_eq (X B C : rmat) : mr X = mr B -> mc X = mr C -> btxc X B C = mmul (mtrans B) (mmul X C).
Proof.
  intros H1 H2. unfold btxc. rewrite mmul_assoc by mlia. now destruct (mr C <? mr B)%nat.
Qed.
(** the same inner product and square out of the intermediate results of A *)
Lemma inter_inner (X B C : rmat) (a : list R) : mr X = mr B -> mc X = mr C -> mc B = mc C -> length a = mc B ->
  lsum (N:=RNum) (vmul (N:=RNum) (mdiag (btxc X B C)) a) = mip (mcolscale B a) (mmul X C).
Proof.
  intros H1 H2 H3 H4. rewrite btxc_eq by assumption. 
  assert (L : length (vmul (N:=RNum) (mdiag (mmul (mtrans B) (mmul X C))) a) = mc B).
  { unfold vmul, mdiag. rewrite length_map2, length_vbuild. mshape. rn. lia. }
  etransitivity; [exact (lsum_len _ _ L)|]. unfold vmul, mdiag, mip. mshape. rewrite (rsum_swap (mr B)).
  apply rsum_ext. intros r Hr.
  change (vg (map2 Rmult (vbuild (N:=RNum) (mc B) (fun i => rget (mmul (mtrans B) (mmul X C)) i i)) a) r =
    rsum (mr B) (fun j => rget (mcolscale B a) j r * rget (mmul X C) j r)).
  rewrite vg_map2 by (rewrite ?length_vbuild; rn; lia). rewrite vget_vbuild by assumption.
  rewrite mget_mmul by mlia. mshape. rewrite <- rsum_scal_r. apply rsum_ext. intros j Hj.
  rewrite mget_mtrans, mget_mcolscale by mlia. ring.
Qed.
Lemma inter_sq (B C : rmat) (a : list R) : mc B = mc C -> length a = mc B ->
  msum (mmul (mmul (mdiagm (N:=RNum) a) (cross_product C B)) (mdiagm (N:=RNum) a)) =
  mip (mmul (mtrans (mcolscale B a)) (mcolscale B a)) (mmul (mtrans C) C).
Proof.
  intros H1 H2. unfold msum, mip, cross_product. mshape. rewrite nsum_rsum. rn. rewrite H2. apply rsum_ext. intros r Hr.
  rewrite nsum_rsum. apply rsum_ext. intros q Hq.
  rewrite <- (mcolscale_mdiag _ a) by (mshape; rn; lia). rewrite mget_mcolscale by mlia.
  rewrite (mget_mmul (mdiagm (N:=RNum) a)) by mlia. mshape.
  rn. rewrite H2. rewrite (rsum_single (mc B) r); [|assumption|].
  - rewrite mget_mdiagm, Nat.eqb_refl by mlia. rewrite mget_mhad by mlia.
    rewrite (mget_mmul (mtrans B)), (mget_mmul (mtrans (mcolscale B a))) by mlia. mshape.
    rewrite (rsum_ext _ (fun k => rget (mtrans (mcolscale B a)) r k * rget (mcolscale B a) k q)
       (fun k => vg a r * vg a q * (rget (mtrans B) r k * rget B k q))).
    + rewrite rsum_scal. ring.
    + intros k Hk. rewrite !mget_mtrans, !mget_mcolscale by mlia. ring.
  - intros k Hk Hne. rewrite mget_mdiagm by mlia. destruct (Nat.eqb_spec r k); [congruence|]. ring.
Qed.

(** ** Solving with the SVD *)
Lemma vget_map_inv (s : list R) i : vg (map (fun x => / x) s) i = / vg s i \/ (length s <= i)%nat.
Proof.
  destruct (Nat.lt_ge_cases i (length s)); [left|right; assumption]. now apply vg_map.
Qed.
Lemma finite_svd_ok (U : rmat) (s : list R) (Vh : rmat) : finite_svd (U, s, Vh) = true ->
  forall i, (i < length s)%nat -> vg s i <> 0.
Proof.
  unfold finite_svd. intros H i Hi. rewrite forallb_forall in H. apply ntruthy_R. apply H. now apply nth_In.
Qed.
Lemma solve_mat_spec (M b Z : rmat) n d : mwf M -> mwf b -> mr M = n -> mc M = n -> mc b = n ->
  mtrans M = M -> has_svd M n d -> solve_mat d b = Ok Z ->
  shaped Z (mr b) n /\ mmul Z M = b.
Proof.
  intros WM Wb Hr Hc Hb Hs Hd. destruct d as [[U s] Vh]. unfold solve_mat.
  destruct (finite_svd (U, s, Vh)) eqn:Hf; [|discriminate]. intros E. injection E as <-.
  pose proof (finite_svd_ok U s Vh Hf) as Hnz.
  pose proof (svd_Vh_rows M U Vh s n Hd) as OV. pose proof (svd_eq M U Vh s n WM Hd) as EM.
  pose proof (svd_UUt M U Vh s n Hd Hr) as UU.
  destruct Hd as (W1 & S1 & S2 & L & W2 & S3 & S4 & _). rn.
  split; [split; [auto with mwf|mshape; split; congruence]|].
  assert (EM' : M = mmul (mmul (mtrans Vh) (mdiagm (N:=RNum) s)) (mtrans U)).
  { rewrite <- Hs at 1. rewrite EM at 1. rewrite mtrans_mmul by mlia. rewrite mtrans_mmul by mlia.
    rewrite mtrans_mdiagm. now rewrite mmul_assoc by mlia. }
  assert (ED : mmul (mcoldiv (N:=RNum) U s) (mdiagm (N:=RNum) s) = U).
  { rewrite <- mcolscale_mdiag by mlia. apply mat_ext; auto with mwf. intros i j Hi Hj. mshape.
    rewrite mget_mcolscale, mget_mcoldiv by mlia. rn. field. apply Hnz. rn. lia. }
  rewrite EM' at 1. rewrite mmul_assoc by mlia.
  rewrite <- (mmul_assoc Vh) by mlia. rewrite <- (mmul_assoc Vh) by mlia. rewrite OV.
  rewrite (mmul_eye_l (mdiagm (N:=RNum) s)) by (auto with mwf; mlia).
  rewrite mmul_assoc by mlia. rewrite <- (mmul_assoc (mcoldiv (N:=RNum) U s)) by mlia. rewrite ED, UU.
  apply mmul_eye_r; [assumption|congruence].
Qed.
Definition rowm (v : list R) : rmat := Mat (N:=RNum) 1 (length v) [v].
Lemma rowm_wf v : mwf (rowm v). Proof. split; cbn; [reflexivity|repeat constructor]. Qed.
Lemma rowm_get v j : rget (rowm v) 0 j = vg v j. Proof. reflexivity. Qed.
Lemma vmat_rowm (v : list R) (M : rmat) : length v = mr M -> rowm (vmat (N:=RNum) v M) = mmul (rowm v) M.
Proof.
  intros H. apply mat_ext; [apply rowm_wf|auto with mwf|reflexivity| |].
  - cbn [rowm mc]. unfold vmat. now rewrite length_vbuild.
  - intros i j Hi Hj. cbn [rowm mr mc] in Hi, Hj. unfold vmat in Hj. rewrite length_vbuild in Hj.
    assert (i = 0)%nat as -> by lia. rewrite mget_mmul by (cbn; lia). cbn [rowm mc].
    unfold vmat. unfold mget at 1. cbn [rowm me nth]. change (vg (vbuild (N:=RNum) (mc M) (fun j0 : nat => nsum (N:=RNum) (mr M) (fun k : nat => vg v k * rget M k j0))) j = rsum (length v) (fun k => rget (rowm v) 0 k * rget M k j)).
    rewrite vget_vbuild by assumption. rewrite nsum_rsum, H. reflexivity.
Qed.
Lemma solve_row_mat (b z : list R) n d (M : rmat) : has_svd M n d -> mr M = n -> mc M = n -> length b = n ->
  solve_row d b = Ok z -> solve_mat d (rowm b) = Ok (rowm z) /\ length z = n.
Proof.
  intros Hd Hr Hc Hb. destruct d as [[U s] Vh]. unfold solve_row, solve_mat.
  destruct (finite_svd (U, s, Vh)); [|discriminate]. intros E. injection E as <-.
  destruct Hd as (W1 & S1 & S2 & L & W2 & S3 & S4 & _). rn.
  split; [|unfold vmat at 1; rewrite length_vbuild; congruence].
  rewrite vmat_rowm by (unfold vmat; rewrite length_vbuild; mshape; congruence).
  rewrite vmat_rowm by (mshape; congruence). reflexivity.
Qed.

(** ** Minimising a quadratic *)
Lemma quad_min (M b Z0 Z : rmat) : mwf M -> mr M = mc M -> mtrans M = M ->
  mr Z0 = mr b -> mc Z0 = mr M -> mc b = mc M -> mr Z = mr b -> mc Z = mr M ->
  mmul Z0 M = b -> 0 <= mip (mmul (msub Z Z0) M) (msub Z Z0) ->
  1 / 2 * mip (mmul Z0 M) Z0 - mip Z0 b <= 1 / 2 * mip (mmul Z M) Z - mip Z b.
Proof.
  intros WM HM HS H1 H2 H3 H4 H5 E Hp.
  rewrite mmul_msub_l in Hp by mlia. rewrite mip_msub_l in Hp by mlia. rewrite !mip_msub_r in Hp by mlia.
  assert (S : mip (mmul Z M) Z0 = mip (mmul Z0 M) Z).
  { rewrite mip_mmul_l by mlia. rewrite HS. rewrite (mip_sym Z) by mlia. reflexivity. }
  rewrite S in Hp. rewrite E in *. rewrite (mip_sym b Z), (mip_sym b Z0) in * by mlia. lra.
Qed.

(** ridge *)
Lemma ridge_shape (G : rmat) fp n l2 : mr (ridge (N:=RNum) G fp n l2) = mr G /\ mc (ridge (N:=RNum) G fp n l2) = mc G /\ mwf (ridge (N:=RNum) G fp n l2).
Proof. unfold ridge. mshape. repeat split; auto with mwf; apply mwf_madd. Qed.
Lemma ridge_sym (G : rmat) fp n l2 : mr G = mc G -> mtrans G = G -> mtrans (ridge (N:=RNum) G fp n l2) = ridge (N:=RNum) G fp n l2.
Proof.
  intros H HS. unfold ridge. rewrite mtrans_madd by mlia. rewrite HS, mtrans_mscale, mtrans_meye. reflexivity.
Qed.
Lemma mip_ridge (G Z Y : rmat) fp n l2 : mwf Z -> mr G = mc G -> mc Z = mr G -> mr Y = mr Z -> mc Y = mc Z ->
  mip (mmul Z (ridge (N:=RNum) G fp n l2)) Y = mip (mmul Z G) Y + (fp * INR n + l2) * mip Z Y.
Proof.
  intros WZ H1 H2 H3 H4. unfold ridge. rewrite mmul_madd_r by mlia. rewrite mip_madd_l by mlia. f_equal.
  rewrite mmul_mscale_r by mlia. rewrite mip_mscale_l. rewrite mmul_eye_r by (auto; mlia). f_equal.
  rn. rewrite <- INR_IZR_INZ. field.
Qed.

(** gram matrices *)
Lemma gram_sym (D : rmat) : mwf D -> mtrans (mmul (mtrans D) D) = mmul (mtrans D) D.
Proof. intros W. rewrite mtrans_mmul by mlia. now rewrite mtrans_involutive. Qed.
Lemma gram_psd (D Y : rmat) : mwf Y -> mc Y = mc D -> mip (mmul Y (mmul (mtrans D) D)) Y = nsq (mmul D (mtrans Y)).
Proof.
  intros WY H. symmetry. unfold nsq. rewrite (mip_mmul_r D) by mlia. rewrite <- (mmul_assoc (mtrans D)) by mlia.
  rewrite <- (mip_mtrans (mtrans Y)) by mlia. rewrite mtrans_involutive by assumption.
  rewrite mtrans_mmul by mlia. rewrite mtrans_involutive by assumption. rewrite (mip_sym Y) by mlia.
  f_equal. f_equal. rewrite mtrans_mmul by mlia.
  apply mat_ext; auto with mwf. intros i j Hi Hj. mshape. rewrite !mget_mmul by mlia. mshape.
  apply rsum_ext. intros k Hk. rewrite !mget_mtrans by mlia. reflexivity.
Qed.

(** sums of matrices *)
Lemma sum_mats_acc (l : list rmat) (acc Z : rmat) : (forall T, In T l -> mr T = mr acc /\ mc T = mc acc) ->
  mr Z = mr acc -> mc Z = mc acc ->
  mr (fold_left (madd (N:=RNum)) l acc) = mr acc /\ mc (fold_left (madd (N:=RNum)) l acc) = mc acc /\
  mip Z (fold_left (madd (N:=RNum)) l acc) = mip Z acc + fold_right Rplus 0 (map (mip Z) l).
Proof.
  revert acc. induction l as [|T l IH]; intros acc H H1 H2; cbn [fold_left map fold_right].
  - repeat split; lra.
  - destruct (H T (or_introl eq_refl)) as (E1 & E2).
    destruct (IH (madd acc T)) as (A1 & A2 & A3).
    + intros T' HT'. mshape. apply H. now right.
    + mlia.
    + mlia.
    + mshape. repeat split; auto. rewrite A3. rewrite mip_madd_r by mlia. lra.
Qed.
Lemma mip_zeros (Z : rmat) r c : mr Z = r -> mc Z = c -> mip Z (mzeros (N:=RNum) r c) = 0.
Proof.
  intros <- <-. unfold mip. apply rsum_zero; intros i Hi. apply rsum_zero; intros j Hj. rewrite mget_mzeros by mlia. ring.
Qed.
Lemma fold_right_rsum {A} (f : A -> R) (l : list A) d :
  fold_right Rplus 0 (map f l) = rsum (length l) (fun i => f (nth i l d)).
Proof.
  induction l as [|x l IH]; [reflexivity|]. cbn [map fold_right length]. rewrite rsum_head, IH. reflexivity.
Qed.
Lemma sum_mats_spec (l : list rmat) r c (Z : rmat) : (forall T, In T l -> mr T = r /\ mc T = c) ->
  mr Z = r -> mc Z = c ->
  shaped (sum_mats (N:=RNum) r c l) r c /\
  mip Z (sum_mats (N:=RNum) r c l) = rsum (length l) (fun q => mip Z (nth q l no_mat)).
Proof.
  intros H H1 H2. unfold sum_mats. destruct (sum_mats_acc l (mzeros r c) Z) as (A1 & A2 & A3); try assumption.
  split.
  - split; [|now mshape]. destruct l as [|T l]; cbn [fold_left]; [auto with mwf|].
    generalize (madd (mzeros r c) T) as acc, (mwf_madd (mzeros r c) T).
    clear. induction l as [|T l IH]; intros acc Wacc; cbn [fold_left]; [assumption|]. apply IH. auto with mwf.
  - rewrite A3, mip_zeros by assumption. rewrite (fold_right_rsum _ _ no_mat). lra.
Qed.
Lemma msum_list_spec (l : list rmat) r c (S : rmat) : l <> [] -> (forall T, In T l -> shaped T r c) ->
  msum_list l = Some S ->
  shaped S r c /\ (forall Z, mr Z = r -> mc Z = c -> mip Z S = rsum (length l) (fun q => mip Z (nth q l no_mat))) /\
  (forall i j, (i < r)%nat -> (j < c)%nat -> rget S i j = rsum (length l) (fun q => rget (nth q l no_mat) i j)).
Proof.
  intros Hne H E. destruct l as [|T l]; [congruence|]. cbn [msum_list] in E. injection E as <-.
  destruct (H T (or_introl eq_refl)) as (WT & ST & CT).
  assert (HS : forall acc, shaped acc r c -> (forall T, In T l -> shaped T r c) ->
     shaped (fold_left (madd (N:=RNum)) l acc) r c /\
     forall i j, (i < r)%nat -> (j < c)%nat -> rget (fold_left (madd (N:=RNum)) l acc) i j = rget acc i j + rsum (length l) (fun q => rget (nth q l no_mat) i j)).
  { clear. induction l as [|T l IH]; intros acc (W & S1 & S2) H; cbn [fold_left length].
    - split; [now split|]. intros. rewrite rsum_0. lra.
    - destruct (H T (or_introl eq_refl)) as (WT & ST & CT).
      destruct (IH (madd acc T)) as (A1 & A2).
      + split; [auto with mwf|]. mshape. auto.
      + intros; apply H; now right.
      + split; [assumption|]. intros i j Hi Hj. rewrite A2 by assumption. rewrite rsum_head. cbn [nth].
        rewrite mget_madd by mlia. rn. ring. }
  destruct (HS T) as (A1 & A2). { now split. } { intros; apply H; now right. }
  split; [assumption|]. split.
  - intros Z H1 H2. destruct (sum_mats_acc l T Z) as (_ & _ & A3).
    + intros T' HT'. destruct (H T' (or_intror HT')) as (_ & ? & ?). split; congruence.
    + congruence.
    + congruence.
    + rewrite A3. cbn [length]. rewrite rsum_head. rewrite (fold_right_rsum _ _ no_mat). reflexivity.
  - intros i j Hi Hj. rewrite A2 by assumption. cbn [length]. rewrite rsum_head. reflexivity.
Qed.
