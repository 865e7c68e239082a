(** C08: the generalized L2 update. *)
From Coq Require Import Reals Lra Lia List Arith Bool ZArith.
From Verif Require Import Num Numpy Unimodal RFacts MatFacts Spec SpecFacts ModelSpec SvdFacts Penalties ProxProofs.
Import ListNotations.
Local Open Scope R_scope.

Definition bil (n : nat) (M : ent) (x y : nat -> R) : R := rsum n (fun i => rsum n (fun k => x i * M i k * y k)).
Definition mvec (n : nat) (M : ent) (x : nat -> R) (i : nat) : R := rsum n (fun k => M i k * x k).
Lemma bil_mvec n M x y : bil n M x y = rsum n (fun i => x i * mvec n M y i).
Proof. unfold bil, mvec. apply rsum_ext; intros. rewrite <- rsum_scal. apply rsum_ext; intros; ring. Qed.
Lemma bil_sym n M x y : symmetric n M -> bil n M x y = bil n M y x.
Proof.
  intros H. unfold bil. rewrite rsum_swap. apply rsum_ext; intros i Hi. apply rsum_ext; intros k Hk.
  rewrite (H k i) by assumption. ring.
Qed.
Lemma bil_add n M x d : symmetric n M ->
  bil n M (fun i => x i + d i) (fun i => x i + d i) = bil n M x x + 2 * bil n M d x + bil n M d d.
Proof.
  intros H. replace (2 * bil n M d x) with (bil n M d x + bil n M x d) by (rewrite (bil_sym n M x d) by assumption; ring).
  unfold bil. rewrite <- !rsum_add. apply rsum_ext; intros i Hi. rewrite <- !rsum_add. apply rsum_ext; intros. ring.
Qed.
Lemma psd_bil n M x : psd n M -> 0 <= bil n M x x.
Proof.
  intros H. specialize (H x). rewrite Sum_rsum in H. unfold bil.
  rewrite (rsum_ext n _ (fun i => Sum n (fun k => x i * M i k * x k))); [exact H|]. intros; symmetry; apply Sum_rsum.
Qed.
(** stationarity suffices *)
Lemma genl2_vprox n M rho v x : symmetric n M -> psd n M ->
  (forall i, (i < n)%nat -> mvec n M x i = rho / 2 * (v i - x i)) ->
  vprox n (fun z => bil n M z z) (fun _ => True) rho v x.
Proof.
  intros HS HP Hx. apply vprox_ip; [exact I|]. intros z _.
  set (d := fun i => z i - x i).
  assert (E : bil n M z z = bil n M x x + 2 * bil n M d x + bil n M d d).
  { rewrite <- bil_add by assumption. unfold bil. apply rsum_ext; intros. apply rsum_ext; intros. unfold d. ring. }
  rewrite E, (bil_mvec n M d x). pose proof (psd_bil n M d HP).
  assert (E2 : rsum n (fun i => d i * mvec n M x i) = - (rho / 2) * rsum n (fun i => (z i - x i) * (x i - v i))).
  { rewrite <- rsum_scal. apply rsum_ext; intros i Hi. rewrite Hx by assumption. unfold d. ring. }
  rewrite E2. lra.
Qed.

(** Left singular vectors of a symmetric PSD matrix are eigenvectors. *)
Section Eig.
Variables (M U Vh : rmat) (s : list R) (n : nat).
Hypothesis WM : mwf M.
Hypothesis HM : mr M = n.
Hypothesis HM2 : mc M = n.
Hypothesis H : has_svd M n (U, s, Vh).
Hypothesis HS : symmetric n (rget M).
Hypothesis HP : psd n (rget M).

Lemma M_trans : mtrans M = M.
Proof.
  apply mat_ext; auto with mwf; try mlia. intros i j Hi Hj. mshape.
  rewrite mget_mtrans by mlia. apply HS; mlia.
Qed.
Lemma MM_U : mmul (mmul M M) U = mmul U (mmul (mdiagm (N:=RNum) s) (mdiagm (N:=RNum) s)).
Proof.
  pose proof (svd_Vh_rows M U Vh s n H) as OV. pose proof (svd_eq M U Vh s n WM H) as E.
  pose proof (svd_U M U Vh s n H) as OU.
  destruct H as (W1 & S1 & S2 & L & W2 & S3 & S4 & _). rn.
  assert (E2 : mmul M M = mmul (mmul U (mmul (mdiagm (N:=RNum) s) (mdiagm (N:=RNum) s))) (mtrans U)).
  { replace (mmul M M) with (mmul M (mtrans M)) by now rewrite M_trans.
    rewrite E. rewrite (mtrans_mmul _ Vh) by mlia. rewrite mtrans_mmul by mlia. rewrite mtrans_mdiagm.
    rewrite !mmul_assoc by mlia. f_equal. f_equal. rewrite <- (mmul_assoc Vh) by mlia. rewrite OV.
    apply mmul_eye_l; [auto with mwf|mlia]. }
  rewrite E2. rewrite !mmul_assoc by mlia. rewrite OU. f_equal. f_equal. apply mmul_eye_r; [auto with mwf|mlia].
Qed.
Lemma MM_U_entry i j : (i < n)%nat -> (j < n)%nat ->
  mvec n (rget M) (fun k => mvec n (rget M) (fun l => rget U l j) k) i = rget U i j * (at_ s j * at_ s j).
Proof.
  intros Hi Hj. pose proof (f_equal (fun A => rget A i j) MM_U) as E. cbv beta in E.
  destruct H as (W1 & S1 & S2 & L & W2 & S3 & S4 & _). rn.
  rewrite mmul_assoc in E by mlia. rewrite mget_mmul in E by mlia.
  unfold mvec. rewrite HM2 in E.
  rewrite (rsum_ext n (fun k => rget M i k * rsum n (fun l => rget M k l * rget U l j)) (fun k => rget M i k * rget (mmul M U) k j)).
  2:{ intros k Hk. rewrite mget_mmul by mlia. rewrite HM2. reflexivity. }
  rewrite E. rewrite <- mmul_assoc by mlia. rewrite <- !mcolscale_mdiag by mlia.
  rewrite !mget_mcolscale by mlia. unfold at_, vget. rn. ring.
Qed.
Lemma s_nonneg j : (j < n)%nat -> 0 <= at_ s j.
Proof. intros Hj. destruct H as (W1 & S1 & S2 & L & W2 & S3 & S4 & O1 & O2 & P & Q). now apply P. Qed.

Lemma eigen i j : (i < n)%nat -> (j < n)%nat -> mvec n (rget M) (fun l => rget U l j) i = at_ s j * rget U i j.
Proof.
  intros Hi Hj. set (u := fun l => rget U l j). set (sj := at_ s j).
  pose proof (s_nonneg j Hj) as Hs. fold sj in Hs.
  assert (HMM : forall i, (i < n)%nat -> mvec n (rget M) (mvec n (rget M) u) i = u i * (sj * sj)).
  { intros i' Hi'. exact (MM_U_entry i' j Hi' Hj). }
  destruct (Req_dec sj 0) as [E|E].
  - (* |Mu|^2 = <u, M M u> = 0 *)
    assert (Z : rsum n (fun i => mvec n (rget M) u i * mvec n (rget M) u i) = 0).
    { rewrite <- (bil_mvec n (rget M) (mvec n (rget M) u) u). rewrite bil_sym by assumption. rewrite bil_mvec.
      apply rsum_zero. intros i' Hi'. rewrite HMM by assumption. rewrite E. ring. }
    pose proof (rsum_nonneg_zero _ _ (fun i' _ => Rle_0_sqr (mvec n (rget M) u i')) Z i Hi) as Z'.
    cbv beta in Z'. apply Rsqr_0_uniq in Z'. rewrite Z', E. ring.
  - set (v := fun i => mvec n (rget M) u i - sj * u i).
    assert (Hv : forall i, (i < n)%nat -> mvec n (rget M) v i = - sj * v i).
    { intros i' Hi'. unfold v at 1. unfold mvec at 1.
      rewrite (rsum_ext n _ (fun k => rget M i' k * mvec n (rget M) u k - sj * (rget M i' k * u k))) by (intros; ring).
      rewrite rsum_sub, rsum_scal. fold (mvec n (rget M) (mvec n (rget M) u) i'). fold (mvec n (rget M) u i').
      rewrite HMM by assumption. unfold v. ring. }
    pose proof (psd_bil n (rget M) v HP) as P. rewrite bil_mvec in P.
    rewrite (rsum_ext n _ (fun i => - sj * (v i * v i))) in P by (intros; rewrite Hv by assumption; ring).
    rewrite rsum_scal in P.
    assert (N : 0 <= rsum n (fun i => v i * v i)) by (apply rsum_nonneg; intros; apply Rle_0_sqr).
    assert (Z : rsum n (fun i => v i * v i) = 0) by nra.
    pose proof (rsum_nonneg_zero _ _ (fun i' _ => Rle_0_sqr (v i')) Z i Hi) as Z'.
    cbv beta in Z'. apply Rsqr_0_uniq in Z'. unfold v in Z'. fold (u i). lra.
Qed.

Variable E : ext (N:=RNum).
Lemma genl2_update (V : rmat) rho : mwf V -> mr V = n -> 0 < rho ->
  exists X, factor_matrix_update E (GeneralizedL2 (N:=RNum) M U s) V rho = Ok X /\ mwf X /\ mr X = mr V /\ mc X = mc V /\
    is_prox (mr V) (mc V) (quad (mr V) (mc V) (rget M)) anywhere rho (rget V) (rget X).
Proof.
  intros WV HV Hr.
  pose proof (svd_UUt M U Vh s n H HM) as UU. pose proof eigen as Eig. pose proof s_nonneg as Sn.
  destruct H as (W1 & S1 & S2 & L & W2 & S3 & S4 & _). rn.
  set (d := map (fun x => 1 / x) (map (fun x => x + 1 / 2 * rho) s)).
  set (X := mmul (N:=RNum) (mcolscale (N:=RNum) U d) (mmul (N:=RNum) (mtrans U) (mscale (N:=RNum) (1 / 2 * rho) V))).
  exists X. split; [unfold factor_matrix_update; rewrite (ntruthy_pos rho) by assumption; reflexivity|]. unfold X at 1 2 3. split; [auto with mwf|]. split; [mlia|]. split; [mlia|].
  set (W := mmul (N:=RNum) (mtrans U) (mscale (N:=RNum) (1 / 2 * rho) V)) in *.
  assert (UW : mmul U W = mscale (N:=RNum) (1 / 2 * rho) V).
  { unfold W. rewrite <- mmul_assoc by mlia. rewrite UU. apply mmul_eye_l; [auto with mwf|mlia]. }
  assert (Dv : forall k, (k < n)%nat -> (at_ s k + rho / 2) * vg d k = 1).
  { intros k Hk. unfold d. rewrite vg_map by (rewrite map_length; lia). rewrite vg_map by lia.
    change (vg s k) with (at_ s k). pose proof (Sn k Hk). field. lra. }
  eapply is_prox_ext; [| |apply (lift_cols _ _ (fun z => bil n (rget M) z z) (fun _ => True)
     (fun Z => rsum (mc V) (fun j => bil n (rget M) (fun i => Z i j) (fun i => Z i j))))].
  - intros Z. unfold quad, bil. rewrite HV. apply rsum_Sum_ext; intros j Hj.
    apply rsum_Sum_ext; intros i Hi. now apply rsum_Sum_ext.
  - unfold anywhere. tauto.
  - reflexivity.
  - intros j Hj. rewrite HV. apply genl2_vprox; auto. intros i Hi.
    assert (EX : forall l, (l < n)%nat -> rget X l j = rsum n (fun k => rget U l k * vg d k * rget W k j)).
    { intros l Hl. unfold X. rewrite mget_mmul by (unfold W; mlia). mshape. rewrite S2. apply rsum_ext.
      intros k Hk. rewrite mget_mcolscale by mlia. reflexivity. }
    unfold mvec. rewrite (rsum_ext n _ (fun l => rsum n (fun k => rget M i l * rget U l k * (vg d k * rget W k j)))).
    2:{ intros l Hl. rewrite EX by assumption. rewrite <- rsum_scal. apply rsum_ext; intros; ring. }
    rewrite rsum_swap.
    rewrite (rsum_ext n _ (fun k => at_ s k * rget U i k * (vg d k * rget W k j))).
    2:{ intros k Hk. rewrite rsum_scal_r. pose proof (Eig i k Hi Hk) as Ek. unfold mvec in Ek. rewrite Ek. reflexivity. }
    rewrite EX by assumption.
    pose proof (f_equal (fun A => rget A i j) UW) as EW. cbv beta in EW.
    rewrite mget_mmul, mget_mscale in EW by (unfold W; mlia). rewrite S2 in EW.
    enough (rsum n (fun k => at_ s k * rget U i k * (vg d k * rget W k j)) + rho / 2 * rsum n (fun k => rget U i k * vg d k * rget W k j)
            = 1 / 2 * rho * rget V i j) by lra.
    rewrite <- EW. rewrite <- rsum_scal, <- rsum_add. apply rsum_ext. intros k Hk.
    transitivity (rget U i k * rget W k j * ((at_ s k + rho / 2) * vg d k)); [ring|]. rewrite Dv by assumption. ring.
Qed.
End Eig.
