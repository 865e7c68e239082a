(** Proximal operators: elementwise and columnwise lifting, C06, C07, C09, C11. *)
From Coq Require Import Reals Lra Lia List Arith Bool ZArith.
From Verif Require Import Num Numpy Unimodal RFacts MatFacts Spec SpecFacts Penalties UnimodalMain.
Import ListNotations.
Local Open Scope R_scope.

(** ** Vectors as functions *)
Definition vsd (n : nat) (x y : nat -> R) : R := rsum n (fun i => (x i - y i) ^ 2).
Definition vprox (n : nat) (g : (nat -> R) -> R) (D : (nat -> R) -> Prop) (rho : R) (v x : nat -> R) : Prop :=
  D x /\ forall z, D z -> g x + rho / 2 * vsd n x v + rho / 2 * vsd n x z <= g z + rho / 2 * vsd n z v.

Lemma dist2_rsum r c X Y : dist2 r c X Y = rsum r (fun i => rsum c (fun j => (X i j - Y i j) ^ 2)).
Proof. unfold dist2. rewrite Sum_rsum. apply rsum_ext; intros; apply Sum_rsum. Qed.
Lemma dist2_cols r c X Y : dist2 r c X Y = rsum c (fun j => vsd r (fun i => X i j) (fun i => Y i j)).
Proof. rewrite dist2_rsum. unfold vsd. now rewrite rsum_swap. Qed.
Lemma dist2_nonneg r c X Y : 0 <= dist2 r c X Y.
Proof. rewrite dist2_rsum. apply rsum_nonneg; intros; apply rsum_nonneg; intros; apply pow2_ge_0. Qed.
Lemma dist2_zero r c X Y : dist2 r c X Y = 0 -> same r c X Y.
Proof.
  rewrite dist2_rsum. intros H i j Hi Hj.
  pose proof (rsum_nonneg_zero _ _ (fun i _ => rsum_nonneg _ _ (fun j _ => pow2_ge_0 (X i j - Y i j))) H i Hi) as H1.
  cbv beta in H1. pose proof (rsum_nonneg_zero _ _ (fun j _ => pow2_ge_0 (X i j - Y i j)) H1 j Hj) as H2.
  cbv beta in H2. assert (X i j - Y i j = 0); [|lra].
  destruct (Req_dec (X i j - Y i j) 0) as [E|E]; [assumption|]. exfalso.
  apply (pow_nonzero _ 2) in E. contradiction.
Qed.
Lemma dist2_same r c X Y : same r c X Y -> dist2 r c X Y = 0.
Proof.
  intros H. rewrite dist2_rsum. apply rsum_zero; intros i Hi. apply rsum_zero; intros j Hj.
  rewrite (H i j Hi Hj). ring.
Qed.
Lemma dist2_ext r c X X' Y Y' : same r c X X' -> same r c Y Y' -> dist2 r c X Y = dist2 r c X' Y'.
Proof.
  intros H1 H2. rewrite !dist2_rsum. apply rsum_ext; intros i Hi. apply rsum_ext; intros j Hj.
  now rewrite (H1 i j Hi Hj), (H2 i j Hi Hj).
Qed.
Lemma dist2_sym r c X Y : dist2 r c X Y = dist2 r c Y X.
Proof. rewrite !dist2_rsum. apply rsum_ext; intros i Hi. apply rsum_ext; intros j Hj. ring. Qed.

(** the proximal point is unique *)
Lemma is_prox_unique r c f dom rho V X Y :
  0 < rho -> is_prox r c f dom rho V X -> is_prox r c f dom rho V Y -> same r c X Y.
Proof.
  intros Hr (DX & HX) (DY & HY). apply dist2_zero.
  pose proof (HX Y DY). pose proof (HY X DX). rewrite (dist2_sym r c Y X) in H0.
  pose proof (dist2_nonneg r c X Y). nra.
Qed.

(** from columns to matrices *)
Lemma lift_cols r c (g : (nat -> R) -> R) (D : (nat -> R) -> Prop) f rho (V X : ent) :
  (forall Z, f Z = rsum c (fun j => g (fun i => Z i j))) ->
  (forall j, (j < c)%nat -> vprox r g D rho (fun i => V i j) (fun i => X i j)) ->
  is_prox r c f (fun Z => forall j, (j < c)%nat -> D (fun i => Z i j)) rho V X.
Proof.
  intros Hf H. split; [intros j Hj; now apply H|]. intros Z HZ.
  rewrite !dist2_cols, !Hf, <- !rsum_scal, <- !rsum_add. apply rsum_le. intros j Hj.
  destruct (H j Hj) as (_ & H'). exact (H' _ (HZ j Hj)).
Qed.
(** the three-point identity *)
Lemma three_point n x z v :
  vsd n z v - vsd n x v - vsd n x z = 2 * rsum n (fun i => (z i - x i) * (x i - v i)).
Proof. unfold vsd. rewrite <- !rsum_sub, <- rsum_scal. apply rsum_ext; intros; ring. Qed.
Lemma vprox_ip n g (D : (nat -> R) -> Prop) rho v x :
  D x -> (forall z, D z -> g x <= g z + rho * rsum n (fun i => (z i - x i) * (x i - v i))) ->
  vprox n g D rho v x.
Proof.
  intros Dx H. split; [assumption|]. intros z Dz. pose proof (H z Dz).
  pose proof (three_point n x z v). nra.
Qed.
(** elementwise penalties *)
Lemma vprox_entry n (g : R -> R) (D : R -> Prop) rho v x :
  (forall i, (i < n)%nat -> D (x i) /\ forall z, D z -> g (x i) <= g z + rho * ((z - x i) * (x i - v i))) ->
  vprox n (fun z => rsum n (fun i => g (z i))) (fun z => forall i, (i < n)%nat -> D (z i)) rho v x.
Proof.
  intros H. apply vprox_ip; [intros i Hi; now apply H|]. intros z Dz.
  rewrite <- rsum_scal, <- rsum_add. apply rsum_le. intros i Hi. now apply H, Dz.
Qed.
Lemma is_prox_entry r c (g : R -> R) (D : R -> Prop) rho (V X : ent) :
  (forall i j, (i < r)%nat -> (j < c)%nat ->
     D (X i j) /\ forall z, D z -> g (X i j) <= g z + rho * ((z - X i j) * (X i j - V i j))) ->
  is_prox r c (fun Z => Sum r (fun i => Sum c (fun j => g (Z i j)))) (entries r c D) rho V X.
Proof.
  intros H.
  destruct (lift_cols r c (fun z => rsum r (fun i => g (z i))) (fun z => forall i, (i < r)%nat -> D (z i))
             (fun Z => Sum r (fun i => Sum c (fun j => g (Z i j)))) rho V X) as (H1 & H2).
  - intros Z. rewrite Sum_rsum, (rsum_ext r _ (fun i => rsum c (fun j => g (Z i j)))) by (intros; apply Sum_rsum).
    apply rsum_swap.
  - intros j Hj. apply vprox_entry. intros i Hi. now apply H.
  - split; [intros i j Hi Hj; now apply H1|]. intros Z HZ. apply H2. intros j Hj i Hi. now apply HZ.
Qed.
Lemma is_proj_prox r c dom V X : is_prox r c (fun _ => 0) dom 2 V X <-> is_proj r c dom V X.
Proof.
  unfold is_prox, is_proj. split; intros (H1 & H2); split; auto; intros Z HZ; specialize (H2 Z HZ); lra.
Qed.
Lemma is_proj_entry r c (D : R -> Prop) (V X : ent) :
  (forall i j, (i < r)%nat -> (j < c)%nat ->
     D (X i j) /\ forall z, D z -> 0 <= (z - X i j) * (X i j - V i j)) ->
  is_proj r c (entries r c D) V X.
Proof.
  intros H. apply is_proj_prox.
  destruct (is_prox_entry r c (fun _ => 0) D 2 V X) as (H1 & H2).
  - intros i j Hi Hj. destruct (H i j Hi Hj) as (A & B). split; [assumption|]. intros z Hz. specialize (B z Hz). lra.
  - split; [assumption|]. intros Z HZ. specialize (H2 Z HZ). cbv beta in H2.
    assert (E : Sum r (fun _ => Sum c (fun _ => 0)) = 0).
    { rewrite Sum_rsum. apply rsum_zero; intros. rewrite Sum_rsum. now apply rsum_zero. }
    rewrite E in H2. exact H2.
Qed.

(** ** clip, relu, soft *)
Lemma relu_R (x : R) : relu (N:=RNum) x = Rmax x 0.
Proof. unfold relu, clip1. rewrite nmax_R. reflexivity. Qed.
Lemma clip1_R lo hi (x : R) : clip1 (N:=RNum) lo hi x =
  let y := match lo with Some l => Rmax x l | None => x end in match hi with Some h => Rmin y h | None => y end.
Proof. unfold clip1. destruct lo, hi; rewrite ?nmax_R, ?nmin_R; reflexivity. Qed.
Lemma soft_R (t x : R) : 0 <= t ->
  soft (N:=RNum) t x = (if Rle_dec x (- t) then x + t else if Rle_dec t x then x - t else 0).
Proof.
  intros Ht. unfold soft, nsign. rewrite relu_R, nabs_R. rn.
  destruct (nltb_spec x 0); [|destruct (nltb_spec 0 x)]; unfold Rmax, Rabs;
    repeat destruct Rle_dec; destruct Rcase_abs; try lra.
Qed.

Lemma Rdiv_nonneg a b : 0 <= a -> 0 < b -> 0 <= a / b.
Proof. intros. unfold Rdiv. apply Rmult_le_pos; [assumption|]. left. now apply Rinv_0_lt_compat. Qed.

Lemma clip1_proj lo hi (x : R) : bounds_ok lo hi ->
  within lo hi (clip1 (N:=RNum) lo hi x) /\
  (forall z, within lo hi z -> 0 <= (z - clip1 (N:=RNum) lo hi x) * (clip1 (N:=RNum) lo hi x - x)).
Proof.
  intros Hb. rewrite clip1_R. unfold bounds_ok in Hb. unfold within. cbv zeta.
  destruct lo as [l|], hi as [h|].
  - specialize (Hb l h eq_refl eq_refl). unfold Rmax, Rmin.
    split; [split; intros a Ha; injection Ha as <-; repeat destruct Rle_dec; lra|].
    intros z (H1 & H2). specialize (H1 l eq_refl). specialize (H2 h eq_refl).
    repeat destruct Rle_dec; nra.
  - unfold Rmax. split; [split; intros a Ha; [injection Ha as <-|discriminate]; destruct Rle_dec; lra|].
    intros z (H1 & _). specialize (H1 l eq_refl). destruct Rle_dec; nra.
  - unfold Rmin. split; [split; intros a Ha; [discriminate|injection Ha as <-]; destruct Rle_dec; lra|].
    intros z (_ & H1). specialize (H1 h eq_refl). destruct Rle_dec; nra.
  - split; [split; intros; discriminate|]. intros; nra.
Qed.
Lemma relu_proj (x : R) :
  0 <= relu (N:=RNum) x /\
  (forall z, 0 <= z -> 0 <= (z - relu (N:=RNum) x) * (relu (N:=RNum) x - x)).
Proof. rewrite relu_R. unfold Rmax. split; [|intros z Hz]; destruct Rle_dec; nra. Qed.
Lemma soft_prox (reg rho v : R) : 0 <= reg -> 0 < rho ->
  forall z, reg * Rabs (soft (N:=RNum) (reg / rho) v) <=
            reg * Rabs z + rho * ((z - soft (N:=RNum) (reg / rho) v) * (soft (N:=RNum) (reg / rho) v - v)).
Proof.
  intros Hg Hr z. assert (Ht : 0 <= reg / rho) by (apply Rdiv_nonneg; lra).
  assert (E : reg = rho * (reg / rho)) by (field; lra).
  set (t := reg / rho) in *. rewrite E. clearbody t.
  rewrite soft_R by assumption. rewrite !Rmult_assoc, <- Rmult_plus_distr_l.
  apply Rmult_le_compat_l; [lra|].
  repeat destruct Rle_dec; unfold Rabs; repeat destruct Rcase_abs; nra.
Qed.
Lemma soft_nn_prox (reg rho v : R) : 0 <= reg -> 0 < rho ->
  0 <= relu (N:=RNum) (v - reg / rho) /\
  forall z, 0 <= z -> reg * Rabs (relu (N:=RNum) (v - reg / rho)) <=
            reg * Rabs z + rho * ((z - relu (N:=RNum) (v - reg / rho)) * (relu (N:=RNum) (v - reg / rho) - v)).
Proof.
  intros Hg Hr. rewrite relu_R. split; [apply Rmax_r|]. intros z Hz.
  assert (Ht : 0 <= reg / rho) by (apply Rdiv_nonneg; lra).
  assert (E : reg = rho * (reg / rho)) by (field; lra).
  set (t := reg / rho) in *. rewrite E. clearbody t.
  rewrite !Rmult_assoc, <- Rmult_plus_distr_l. apply Rmult_le_compat_l; [lra|].
  rewrite (Rabs_right z) by lra. rewrite Rabs_right by (apply Rle_ge, Rmax_r).
  unfold Rmax. destruct Rle_dec; nra.
Qed.

(** ** C06 *)
Section C06.
Variable E : ext (N:=RNum).
Lemma nonneg_update (V : rmat) rho : mwf V ->
  exists X, factor_matrix_update E NonNegativity V rho = Ok X /\ mwf X /\ mr X = mr V /\ mc X = mc V /\
    is_proj (mr V) (mc V) (entries (mr V) (mc V) (fun x => 0 <= x)) (rget V) (rget X).
Proof.
  intros W. eexists. split; [reflexivity|]. split; [auto with mwf|]. do 2 (split; [reflexivity|]).
  apply is_proj_entry. intros i j Hi Hj. rewrite mget_mmap by assumption. apply relu_proj.
Qed.
Lemma box_update (V : rmat) rho lo hi : mwf V -> bounds_ok lo hi -> (lo <> None \/ hi <> None) ->
  exists X, factor_matrix_update E (Box (N:=RNum) lo hi) V rho = Ok X /\ mwf X /\ mr X = mr V /\ mc X = mc V /\
    is_proj (mr V) (mc V) (entries (mr V) (mc V) (within lo hi)) (rget V) (rget X).
Proof.
  intros W Hb Hn. exists (mmap (clip1 (N:=RNum) lo hi) V). split.
  - cbn [factor_matrix_update]. destruct lo, hi; try reflexivity. destruct Hn; congruence.
  - split; [auto with mwf|]. do 2 (split; [reflexivity|]).
    apply is_proj_entry. intros i j Hi Hj. rewrite mget_mmap by assumption. now apply clip1_proj.
Qed.

Lemma abs_sum_scal r c reg Z : reg * abs_sum r c Z = Sum r (fun i => Sum c (fun j => reg * Rabs (Z i j))).
Proof.
  unfold abs_sum. rewrite !Sum_rsum, <- rsum_scal. apply rsum_ext; intros. rewrite !Sum_rsum. now rewrite <- rsum_scal.
Qed.
Lemma is_prox_ext r c f g (dom dom' : ent -> Prop) rho V X :
  (forall Z, f Z = g Z) -> (forall Z, dom Z <-> dom' Z) ->
  is_prox r c f dom rho V X -> is_prox r c g dom' rho V X.
Proof.
  intros Hf Hd (H1 & H2). split; [now apply Hd|]. intros Z HZ. rewrite <- !Hf. apply H2. now apply Hd.
Qed.
Lemma l1_update (V : rmat) rho reg nn : mwf V -> 0 <= reg -> 0 < rho ->
  exists X, factor_matrix_update E (L1Penalty (N:=RNum) reg nn) V rho = Ok X /\ mwf X /\ mr X = mr V /\ mc X = mc V /\
    is_prox (mr V) (mc V) (fun Z => reg * abs_sum (mr V) (mc V) Z)
      (if nn then entries (mr V) (mc V) (fun x => 0 <= x) else anywhere) rho (rget V) (rget X).
Proof.
  intros W Hg Hr. unfold factor_matrix_update. rewrite (ntruthy_pos rho) by assumption. cbn [negb].
  destruct nn; (eexists; split; [reflexivity|]; split; [auto with mwf|]; do 2 (split; [reflexivity|])).
  - eapply is_prox_ext; [| |apply (is_prox_entry _ _ (fun x => reg * Rabs x) (fun x => 0 <= x))].
    + intros Z. symmetry. apply abs_sum_scal.
    + intros Z. reflexivity.
    + intros i j Hi Hj. rewrite mget_mmap by assumption. now apply soft_nn_prox.
  - eapply is_prox_ext; [| |apply (is_prox_entry _ _ (fun x => reg * Rabs x) (fun x => True))].
    + intros Z. symmetry. apply abs_sum_scal.
    + intros Z. unfold anywhere, entries. tauto.
    + intros i j Hi Hj. rewrite mget_mmap by assumption. split; [exact I|]. intros z _. now apply soft_prox.
Qed.

(** ** C09 *)
Lemma ball_vprox n (b : R) (nn : bool) (v cv x : nat -> R) :
  0 < b ->
  (forall i, (i < n)%nat -> cv i = if nn then Rmax (v i) 0 else v i) ->
  (forall i, (i < n)%nat -> x i = cv i * b / Rmax (sqrt (rsum n (fun i => cv i ^ 2))) b) ->
  vprox n (fun _ => 0) (fun z => rsum n (fun i => z i ^ 2) <= b ^ 2 /\ (nn = true -> forall i, (i < n)%nat -> 0 <= z i)) 2 v x.
Proof.
  intros Hb Hc Hx. set (S2 := rsum n (fun i => cv i ^ 2)) in *. set (N := sqrt S2) in *.
  assert (HS : 0 <= S2) by (apply rsum_nonneg; intros; apply pow2_ge_0).
  assert (HN : N * N = S2) by (now apply sqrt_sqrt).
  assert (HN0 : 0 <= N) by apply sqrt_pos.
  assert (HM : 0 < Rmax N b) by (apply Rlt_le_trans with b; [assumption|apply Rmax_r]).
  set (s := b / Rmax N b) in *.
  assert (Hs : 0 < s) by (now apply Rdiv_lt_0_compat).
  assert (Hxs : forall i, (i < n)%nat -> x i = s * cv i).
  { intros i Hi. rewrite Hx by assumption. unfold s. field. lra. }
  assert (Hx2 : rsum n (fun i => x i ^ 2) = s * s * S2).
  { unfold S2. rewrite <- rsum_scal. apply rsum_ext; intros i Hi. rewrite Hxs by assumption. ring. }
  assert (HsM : s * Rmax N b = b) by (unfold s; field; lra).
  assert (HmN : N <= Rmax N b) by apply Rmax_l.
  assert (Hs1 : s <= 1).
  { pose proof (Rmax_r N b). nra. }
  assert (HsN : s * N <= b) by nra.
  apply vprox_ip.
  - split.
    + rewrite Hx2, <- HN. assert (0 <= s * N) by nra. nra.
    + intros -> i Hi. rewrite Hxs by assumption. apply Rmult_le_pos; [lra|]. rewrite Hc by assumption. apply Rmax_r.
  - intros z (Hz & Hzn).
    assert (H1 : 0 <= rsum n (fun i => (z i - x i) * (cv i - v i))).
    { apply rsum_nonneg. intros i Hi. rewrite Hxs, Hc by assumption. destruct nn; [|lra].
      specialize (Hzn eq_refl i Hi). unfold Rmax. destruct Rle_dec; nra. }
    assert (H2 : rsum n (fun i => (z i - x i) * (x i - cv i)) = (1 - s) * (s * S2 - rsum n (fun i => z i * cv i))).
    { unfold S2. rewrite <- rsum_scal, <- rsum_sub, <- rsum_scal. apply rsum_ext. intros i Hi. rewrite Hxs by assumption. ring. }
    assert (H3 : rsum n (fun i => (z i - x i) * (x i - v i)) =
                 rsum n (fun i => (z i - x i) * (x i - cv i)) + rsum n (fun i => (z i - x i) * (cv i - v i))).
    { rewrite <- rsum_add. apply rsum_ext; intros; ring. }
    rewrite H3, H2. clear H3 H2.
    destruct (Rle_dec N b) as [L|L].
    + assert (s = 1). { unfold s. rewrite Rmax_right by assumption. field; lra. } nra.
    + assert (EM : Rmax N b = N) by (apply Rmax_left; lra). rewrite EM in *.
      assert (Hsq : 0 <= rsum n (fun i => (z i * N - b * cv i) ^ 2)) by (apply rsum_nonneg; intros; apply pow2_ge_0).
      assert (Hex : rsum n (fun i => (z i * N - b * cv i) ^ 2) =
               N * N * rsum n (fun i => z i ^ 2) - 2 * b * N * rsum n (fun i => z i * cv i) + b * b * S2).
      { unfold S2. rewrite <- !rsum_scal, <- rsum_sub, <- rsum_add. apply rsum_ext; intros; ring. }
      rewrite Hex in Hsq. rewrite <- HN in *.
      assert (rsum n (fun i => z i * cv i) <= b * N).
      { set (q := rsum n (fun i => z i * cv i)) in *. set (zz := rsum n (fun i => z i ^ 2)) in *.
        assert (2 * b * N * q <= 2 * b * N * (b * N)) by nra.
        apply Rmult_le_reg_l with (2 * b * N); nra. }
      assert (s * (N * N) = b * N) by nra. nra.
Qed.
Lemma at_col_norms (M : rmat) j : (j < mc M)%nat ->
  vg (col_norms (N:=RNum) M) j = sqrt (rsum (mr M) (fun i => rget M i j ^ 2)).
Proof.
  intros Hj. unfold col_norms. rewrite vget_vbuild by assumption. rn. f_equal. rewrite nsum_rsum.
  apply rsum_ext; intros; rn; ring.
Qed.
Lemma l2ball_update (V : rmat) rho b nn : mwf V -> 0 < b ->
  exists X, factor_matrix_update E (L2Ball (N:=RNum) b nn) V rho = Ok X /\ mwf X /\ mr X = mr V /\ mc X = mc V /\
    is_proj (mr V) (mc V)
      (fun Z => cols_in_ball (mr V) (mc V) b Z /\ (nn = true -> entries (mr V) (mc V) (fun x => 0 <= x) Z)) (rget V) (rget X).
Proof.
  intros W Hb. set (F := if nn then mmap (relu (N:=RNum)) V else V).
  assert (WF : mwf F) by (unfold F; destruct nn; auto with mwf).
  assert (SF : mr F = mr V /\ mc F = mc V) by (unfold F; destruct nn; split; reflexivity).
  destruct SF as (SF1 & SF2).
  eexists. split; [reflexivity|]. fold F. split; [auto with mwf|]. mshape. do 2 (split; [assumption|]).
  apply is_proj_prox.
  eapply is_prox_ext; [| |apply (lift_cols _ _ (fun _ => 0) (fun z => rsum (mr V) (fun i => z i ^ 2) <= b ^ 2 /\
     (nn = true -> forall i, (i < mr V)%nat -> 0 <= z i)) (fun _ => 0))].
  - reflexivity.
  - intros Z. unfold cols_in_ball, entries. split.
    + intros H. split; [intros j Hj; rewrite Sum_rsum; now apply H|]. intros En i j Hi Hj. now apply H.
    + intros (H1 & H2) j Hj. split; [rewrite <- Sum_rsum; now apply H1|]. intros En i Hi. now apply H2.
  - intros Z. symmetry. now apply rsum_zero.
  - intros j Hj. apply ball_vprox with (cv := fun i => rget F i j); [assumption| |].
    + intros i Hi. unfold F. destruct nn; [|reflexivity]. rewrite mget_mmap by assumption. apply relu_R.
    + intros i Hi. rewrite mget_mcoldiv by mlia. rewrite mget_mscale by mlia.
      rewrite vg_map by (unfold col_norms; rewrite length_vbuild; mlia).
      rewrite clip1_R. cbv zeta. rewrite at_col_norms by mlia. rewrite SF1. f_equal. apply Rmult_comm.
Qed.
End C06.
