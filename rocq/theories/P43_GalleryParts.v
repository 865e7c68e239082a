(** Properties C86, C87: scripts of the example gallery, preparing data and rearranging components. *)
From Coq Require Import Reals Lra Lia List Arith Bool ZArith Permutation Sorted.
From Verif Require Import Num Numpy RFacts Spec SpecFacts MatFacts ModelSpec Penalties PenaltySpec ProxProofs CoupledMatrices CmfSpec CmfProofs
  Decomp DecompSpec DecompFacts AdmmProofs RandomSpec RandomGen P13_Random TurnSpec TurnFacts Gallery GallerySpec.
Import ListNotations.
Local Open Scope R_scope.
Local Notation shaped := PenaltySpec.shaped.
Local Notation stack_rows := CmfProofs.stack_rows.

Lemma vget_vmul (u v : list (@num RNum)) r : length u = length v -> (r < length u)%nat -> vget (N:=RNum) (vmul (N:=RNum) u v) r = (vget (N:=RNum) u r * vget (N:=RNum) v r)%R.
Proof.
  unfold vget, vmul. revert v r. induction u as [|x u IH]; intros [|y v] r L Hr; cbn in *; try discriminate; [lia|]. destruct r as [|r]; [reflexivity|]. apply IH; lia.
Qed.
Lemma length_vmul (u v : list (@num RNum)) : length (vmul (N:=RNum) u v) = Nat.min (length u) (length v).
Proof. unfold vmul. revert v. induction u as [|x u IH]; intros [|y v]; cbn; [reflexivity..|]. now rewrite IH. Qed.
Lemma length_col_norms (M : matR) : length (col_norms (N:=RNum) M) = mc M.
Proof. unfold col_norms. apply length_vbuild. Qed.
Lemma nrm_nonneg (M : matR) r : 0 <= nrm M r. Proof. apply sqrt_pos. Qed.
Lemma nrm_col (M : matR) r : (r < mc M)%nat -> vget (N:=RNum) (col_norms (N:=RNum) M) r = nrm M r.
Proof. intros H. exact (at_col_norms M r H). Qed.

(** What a component contributes, computed from its columns *)
Lemma component_size_sq (c : rcmf) r : component_size c r ^ 2 =
  weight c r ^ 2 * rsum (length (cBs c)) (fun i => mget (cA c) i r ^ 2 * rsum (mr (nthB c i)) (fun j => mget (nthB c i) j r ^ 2)) * rsum (mr (cC c)) (fun k => mget (cC c) k r ^ 2).
Proof.
  unfold component_size. set (s := Sum _ _).
  assert (E : s = weight c r ^ 2 * rsum (length (cBs c)) (fun i => mget (cA c) i r ^ 2 * rsum (mr (nthB c i)) (fun j => mget (nthB c i) j r ^ 2)) * rsum (mr (cC c)) (fun k => mget (cC c) k r ^ 2)).
  { unfold s. rewrite Sum_rsum. set (q := rsum (mr (cC c)) _). rewrite Rmult_comm, <- Rmult_assoc, <- rsum_scal. apply rsum_ext. intros i _. rewrite Sum_rsum.
    rewrite <- Rmult_assoc, <- rsum_scal. apply rsum_ext. intros j _. rewrite Sum_rsum. unfold q. rewrite (rsum_ext _ _ (fun k => (weight c r ^ 2 * mget (cA c) i r ^ 2 * mget (nthB c i) j r ^ 2) * mget (cC c) k r ^ 2)) by (intros k _; unfold component_entry; ring).
    rewrite rsum_scal. ring. }
  rewrite <- E. assert (0 <= s). { unfold s. rewrite Sum_rsum. apply rsum_nonneg. intros. rewrite Sum_rsum. apply rsum_nonneg. intros. rewrite Sum_rsum. apply rsum_nonneg. intros. apply pow2_ge_0. }
  cbn. rewrite Rmult_1_r. now apply sqrt_sqrt.
Qed.
Lemma component_size_nonneg c r : 0 <= component_size c r. Proof. apply sqrt_pos. Qed.
(** If the columns r of all B_i have the same norm b: weight times the three norms *)
Lemma component_size_val (c : rcmf) r (b : R) : valid_cmf c -> (r < mc (cA c))%nat -> 0 <= weight c r -> 0 <= b ->
  (forall i, (i < length (cBs c))%nat -> rsum (mr (nthB c i)) (fun j => mget (nthB c i) j r ^ 2) = b ^ 2) ->
  component_size c r = weight c r * nrm (cA c) r * b * nrm (cC c) r.
Proof.
  intros (WA & WC & CC & LB & HB & HW) Hr Pw Pb Eb.
  assert (E : component_size c r ^ 2 = (weight c r * nrm (cA c) r * b * nrm (cC c) r) ^ 2).
  { rewrite component_size_sq. rewrite (rsum_ext _ _ (fun i => b ^ 2 * mget (cA c) i r ^ 2)) by (intros i Hi; rewrite Eb by exact Hi; ring). rewrite rsum_scal.
    pose proof (nrm_sq (cA c) r) as QA. pose proof (nrm_sq (cC c) r) as QC. rewrite LB in QA. rewrite <- QA, <- QC. ring. }
  pose proof (component_size_nonneg c r). pose proof (nrm_nonneg (cA c) r). pose proof (nrm_nonneg (cC c) r).
  assert (0 <= weight c r * nrm (cA c) r * b * nrm (cC c) r) by (repeat apply Rmult_le_pos; assumption).
  apply Rle_antisym.
  - apply Rsqr_incr_0_var; [unfold Rsqr; lra|assumption].
  - apply Rsqr_incr_0_var; [unfold Rsqr; lra|assumption].
Qed.

(** ** plot_semiconductor_etch_analysis.py *)
Lemma etch_val (argsort : list R -> list nat) (t : pf2t (N:=RNum)) : valid_pf2 t ->
  nonzero_columns (mr (pfA t)) (mc (pfA t)) (mget (pfA t)) -> nonzero_columns (mr (pfC t)) (mc (pfA t)) (mget (pfC t)) ->
  exists c v, etch_components (N:=RNum) argsort t = Ok (c, argsort v) /\ length v = mc (pfA t) /\
    (forall r, (r < mc (pfA t))%nat -> vget (N:=RNum) v r = vget (N:=RNum) (pfw t) r * nrm (pfA t) r * nrm (pfB t) r * nrm (pfC t) r) /\
    cw c = Some (pfw t) /\ length (cBs c) = length (pfP t) /\
    shaped (cA c) (mr (pfA t)) (mc (pfA t)) /\ shaped (cC c) (mr (pfC t)) (mc (pfA t)) /\
    unit_columns (mr (pfA t)) (mc (pfA t)) (mget (cA c)) /\ unit_columns (mr (pfC t)) (mc (pfA t)) (mget (cC c)) /\
    (forall i r, (i < mr (pfA t))%nat -> (r < mc (pfA t))%nat -> mget (cA c) i r * nrm (pfA t) r = mget (pfA t) i r) /\
    (forall k r, (k < mr (pfC t))%nat -> (r < mc (pfA t))%nat -> mget (cC c) k r * nrm (pfC t) r = mget (pfC t) k r) /\
    forall i, (i < length (pfP t))%nat -> shaped (nthB c i) (mr (nth i (pfP t) no_mat)) (mc (pfA t)) /\
      forall j r, (j < mr (nth i (pfP t) no_mat))%nat -> (r < mc (pfA t))%nat ->
        mget (nthB c i) j r = rsum (mc (pfA t)) (fun q => mget (nth i (pfP t) no_mat) j q * mget (pfB t) q r) * nrm (pfA t) r * nrm (pfC t) r.
Proof.
  intros (WA & WB & WC & CC & RB & CB & LW & LP & HP) NA NC.
  destruct (normalise_ok (pfA t) _ _ (conj WA (conj eq_refl eq_refl)) NA) as (A' & EA & SA & UA & VA).
  destruct (normalise_ok (pfC t) _ _ (conj WC (conj eq_refl CC)) NC) as (C' & EC & SC & UC & VC).
  unfold etch_components. rewrite EA. cbn [bind]. rewrite EC. cbn [bind]. rewrite map_map. eexists _, _. split; [reflexivity|].
  split; [rewrite !length_vmul, !length_col_norms, LW, CB, CC; lia|].
  split.
  { intros r Hr. rewrite !vget_vmul; rewrite ?length_vmul, ?length_col_norms, ?LW, ?CB, ?CC; try lia. rewrite !nrm_col by lia. reflexivity. }
  cbn [cw cA cBs cC]. split; [reflexivity|]. split; [now rewrite map_length|]. split; [exact SA|]. split; [exact SC|]. split; [exact UA|]. split; [exact UC|].
  split; [exact VA|]. split; [exact VC|].
  intros i Hi. unfold nthB. cbn [cBs]. rewrite (nth_indep _ no_mat (mcolscale (mcolscale (mmul (nth i (pfP t) no_mat) (pfB t)) (col_norms (pfA t))) (col_norms (pfC t)))) by (rewrite map_length; exact Hi).
  match goal with |- context [map ?f (pfP t)] => set (F := f) end.
  assert (EN : nth i (map F (pfP t)) (F (nth i (pfP t) no_mat)) = F (nth i (pfP t) no_mat)) by (rewrite map_nth; f_equal; apply nth_indep; exact Hi).
  unfold F in EN at 2. rewrite EN. unfold F. destruct (HP i Hi) as (WP & CP).
  split; [split; [apply mwf_mcolscale|split; [reflexivity|exact CB]]|].
  intros j r Hj Hr. rewrite !mget_mcolscale by (cbn; rewrite ?CB; assumption). rewrite mget_mmul by (rewrite ?CB; assumption). rewrite CP.
  change (at_ (col_norms (pfA t)) r) with (vget (N:=RNum) (col_norms (N:=RNum) (pfA t)) r). change (at_ (col_norms (pfC t)) r) with (vget (N:=RNum) (col_norms (N:=RNum) (pfC t)) r).
  rewrite !nrm_col by lia. rn. reflexivity.
Qed.
(** Normalising the PARAFAC2 components changes their scale, not the data they represent. *)
Theorem C86_normalised (argsort : list R -> list nat) (t : pf2t (N:=RNum)) : valid_pf2 t ->
  nonzero_columns (mr (pfA t)) (mc (pfA t)) (mget (pfA t)) -> nonzero_columns (mr (pfC t)) (mc (pfA t)) (mget (pfC t)) ->
  exists c order, etch_components (N:=RNum) argsort t = Ok (c, order) /\ valid_cmf c /\ mc (cA c) = mc (pfA t) /\ length (cBs c) = length (pfP t) /\
    unit_columns (mr (cA c)) (mc (cA c)) (mget (cA c)) /\ unit_columns (mr (cC c)) (mc (cC c)) (mget (cC c)) /\
    forall i j k, (i < length (pfP t))%nat -> (j < mr (nth i (pfP t) no_mat))%nat -> (k < mr (pfC t))%nat ->
      cmf_entry c i j k = pf2_entry (mc (pfA t)) (fun r => vget (N:=RNum) (pfw t) r) (mget (pfA t)) (mget (pfB t)) (mget (pfC t)) (mget (nth i (pfP t) no_mat)) i j k.
Proof.
  intros VT NA NC. destruct (etch_val argsort t VT NA NC) as (c & v & E & _ & _ & CW & LB & SA & SC & UA & UC & VA & VC & HB).
  destruct VT as (_ & _ & _ & _ & _ & _ & LW & LP & _).
  exists c, (argsort v). split; [exact E|]. pose proof SA as (WA & RA & CA). pose proof SC as (WC & RC & CC).
  split.
  { split; [exact WA|]. split; [exact WC|]. split; [congruence|]. split; [rewrite LB, RA; now symmetry|]. split; [|intros w Ew; rewrite CW in Ew; injection Ew as <-; exact (eq_trans LW (eq_sym CA))].
    intros i Hi. rewrite LB in Hi. destruct (HB i Hi) as ((W1 & _ & C1) & _). unfold nthB in W1, C1. split; [exact W1|]. rewrite CA. exact C1. }
  split; [exact CA|]. split; [exact LB|]. split; [now rewrite RA, CA|]. split; [now rewrite RC, CC|].
  intros i j k Hi Hj Hk. unfold cmf_entry, pf2_entry. rewrite CA, !Sum_rsum. apply rsum_ext. intros r Hr. rewrite Sum_rsum. unfold weight. rewrite CW.
  rewrite (proj2 (HB i Hi)) by assumption. rewrite <- VA by (rewrite <- ?LP; assumption). rewrite <- VC by assumption. change (at_ (pfw t) r) with (vget (N:=RNum) (pfw t) r). ring.
Qed.
Print Assumptions C86_normalised.

Lemma nth_argsort (v : list R) order a : sorts v order -> (a < length v)%nat -> (nth a order 0 < length v)%nat.
Proof.
  intros (P & _) Ha. pose proof (Permutation_length P) as L. rewrite seq_length in L.
  assert (IN : In (nth a order 0%nat) (seq 0 (length v))) by (apply (Permutation_in _ P), nth_In; lia). apply in_seq in IN. lia.
Qed.
(** The order of the components: the text says that the first explains most; it explains least.  [orthonormal columns] is
    what makes the norms of B the norms of the B_i. *)
Theorem C87_smallest_first_refuted (argsort : list R -> list nat) (t : pf2t (N:=RNum)) c order : (forall v, sorts v (argsort v)) -> valid_pf2 t ->
  nonzero_columns (mr (pfA t)) (mc (pfA t)) (mget (pfA t)) -> nonzero_columns (mr (pfC t)) (mc (pfA t)) (mget (pfC t)) ->
  (forall i, (i < length (pfP t))%nat -> ortho_cols (mr (nth i (pfP t) no_mat)) (mc (pfA t)) (mget (nth i (pfP t) no_mat))) ->
  (forall r, (r < mc (pfA t))%nat -> 0 <= vget (N:=RNum) (pfw t) r) ->
  etch_components (N:=RNum) argsort t = Ok (c, order) ->
  Permutation order (seq 0 (mc (cA c))) /\
  forall a b, (a <= b < mc (cA c))%nat -> component_size c (nth a order 0%nat) <= component_size c (nth b order 0%nat).
Proof.
  intros HS VT NA NC HO PW E. destruct (C86_normalised argsort t VT NA NC) as (c1 & o1 & E1 & VCM & _).
  destruct (etch_val argsort t VT NA NC) as (c' & v & E' & LV & HV & CW & LB & SA & SC & UA & UC & VA & VC & HB).
  rewrite E in E1. assert (c1 = c) as -> by congruence. rewrite E in E'. assert (Q : c' = c /\ order = argsort v) by (split; congruence). destruct Q as (-> & ->). clear E E' E1 o1.
  pose proof SA as (WA & RA & CA). pose proof SC as (WC & RC & CC). destruct VT as (_ & WB & _ & CCt & RB & CB & LW & LP & HP).
  assert (SZ : forall r, (r < mc (pfA t))%nat -> component_size c r = nth r v 0).
  { intros r Hr. change (nth r v 0) with (vget (N:=RNum) v r). rewrite HV by exact Hr.
    assert (W0 : weight c r = vget (N:=RNum) (pfw t) r) by (unfold weight; rewrite CW; reflexivity).
    rewrite (component_size_val c r (nrm (pfB t) r * nrm (pfA t) r * nrm (pfC t) r) VCM).
    - rewrite W0. assert (nrm (cA c) r = 1) as ->. { unfold nrm. pose proof (UA r Hr) as Q. rewrite Sum_rsum in Q. rewrite RA. rn. rewrite Q. apply sqrt_1. }
      assert (nrm (cC c) r = 1) as ->. { unfold nrm. pose proof (UC r Hr) as Q. rewrite Sum_rsum in Q. rewrite RC. rn. rewrite Q. apply sqrt_1. }
      rn. ring.
    - now rewrite CA.
    - rewrite W0. now apply PW.
    - repeat apply Rmult_le_pos; apply nrm_nonneg.
    - intros i Hi. rewrite LB in Hi. destruct (HB i Hi) as ((_ & R1 & _) & VB). rewrite R1. destruct (HP i Hi) as (_ & CP).
      rewrite (rsum_ext _ _ (fun j => (nrm (pfA t) r * nrm (pfC t) r) ^ 2 * rsum (mc (pfA t)) (fun q => mget (nth i (pfP t) no_mat) j q * mget (pfB t) q r) ^ 2)) by (intros j Hj; rewrite VB by assumption; ring).
      rewrite rsum_scal. 
      assert (QB : rsum (mr (nth i (pfP t) no_mat)) (fun j => rsum (mc (pfA t)) (fun q => mget (nth i (pfP t) no_mat) j q * mget (pfB t) q r) ^ 2) = nrm (pfB t) r * nrm (pfB t) r).
      { assert (FR : frame (nth i (pfP t) no_mat) (mc (pfA t))) by (split; [apply (HP i Hi)|split; [exact CP|now apply HO]]).
        pose proof (tm_col_norms (mc (pfA t)) _ FR (mc (pfA t)) (pfB t) (mmul (nth i (pfP t) no_mat) (pfB t)) (conj (conj WB (conj RB CB)) eq_refl)) as Q.
        pose proof (nrm_col (mmul (N:=RNum) (nth i (pfP t) no_mat) (pfB t)) r ltac:(cbn; lia)) as Q2. rewrite Q in Q2. rewrite nrm_col in Q2 by lia. rewrite Q2, nrm_sq. cbn [mr mmul mbuild].
        apply rsum_ext. intros j Hj. rewrite mget_mmul by (rewrite ?CB; assumption). rewrite CP. reflexivity. }
      rewrite QB. ring. }
  rewrite CA. split; [rewrite <- LV; apply HS|]. intros a b Hab. assert (Ha : (nth a (argsort v) 0 < length v)%nat) by (apply nth_argsort; [apply HS|lia]).
  assert (Hb : (nth b (argsort v) 0 < length v)%nat) by (apply nth_argsort; [apply HS|lia]). rewrite !SZ by lia. apply HS. lia.
Qed.
Print Assumptions C87_smallest_first_refuted.

(** The regularised model, line 209: ordered by the norms of B_0 alone, again from small to large.  With A and C normalised
    and without weights the norms of B_0 are what the components contribute. *)
Theorem C87_tv_smallest_first_refuted (argsort : list R -> list nat) (c : rcmf) : (forall v, sorts v (argsort v)) -> valid_cmf c -> (0 < length (cBs c))%nat ->
  equal_column_norms c -> unit_columns (mr (cA c)) (mc (cA c)) (mget (cA c)) -> unit_columns (mr (cC c)) (mc (cC c)) (mget (cC c)) -> cw c = None ->
  let order := etch_tv_order (N:=RNum) argsort c in
  Permutation order (seq 0 (mc (cA c))) /\
  forall a b, (a <= b < mc (cA c))%nat -> component_size c (nth a order 0%nat) <= component_size c (nth b order 0%nat).
Proof.
  intros HS VC H0 HE UA UC CW order. pose proof VC as (_ & _ & CC & LB & HB & _). destruct (HB 0%nat H0) as (_ & C0).
  assert (LV : @length R (col_norms (N:=RNum) (nthB c 0)) = mc (cA c)) by (etransitivity; [exact (length_col_norms (nthB c 0))|exact C0]).
  assert (SZ : forall r, (r < mc (cA c))%nat -> component_size c r = nth r (col_norms (N:=RNum) (nthB c 0)) 0).
  { intros r Hr. change (nth r (col_norms (N:=RNum) (nthB c 0)) 0) with (vget (N:=RNum) (col_norms (N:=RNum) (nthB c 0)) r). rewrite nrm_col by lia.
    assert (W0 : weight c r = 1) by (unfold weight; now rewrite CW).
    rewrite (component_size_val c r (nrm (nthB c 0) r) VC Hr).
    - rewrite W0. assert (nrm (cA c) r = 1) as ->. { unfold nrm. pose proof (UA r Hr) as Q. rewrite Sum_rsum in Q. rn. rewrite Q. apply sqrt_1. }
      assert (nrm (cC c) r = 1) as ->. { unfold nrm. pose proof (UC r ltac:(lia)) as Q. rewrite Sum_rsum in Q. rn. rewrite Q. apply sqrt_1. }
      rn. ring.
    - lra.
    - apply nrm_nonneg.
    - intros i Hi. specialize (HE i r Hi Hr). rewrite !Sum_rsum in HE. etransitivity; [exact HE|]. etransitivity; [symmetry; exact (nrm_sq (nthB c 0) r)|ring]. }
  pose proof (HS (col_norms (N:=RNum) (nthB c 0))) as HO. change (argsort (col_norms (N:=RNum) (nthB c 0))) with order in HO. rewrite <- LV.
  split; [apply HO|]. intros a b Hab. pose proof (nth_argsort _ _ a HO ltac:(lia)). pose proof (nth_argsort _ _ b HO ltac:(lia)). rewrite !SZ by lia. apply HO. lia.
Qed.
Print Assumptions C87_tv_smallest_first_refuted.

(** ** plot_bikesharing.py *)
Lemma bike_sizes (c : rcmf) : valid_cmf c -> (0 < length (cBs c))%nat -> length (component_sizes (N:=RNum) c) = mc (cA c) /\
  forall r, (r < mc (cA c))%nat -> vget (N:=RNum) (component_sizes (N:=RNum) c) r = nrm (cA c) r * nrm (nthB c 0) r * nrm (cC c) r.
Proof.
  intros (_ & _ & CC & _ & HB & _) H0. destruct (HB 0%nat H0) as (_ & C0). unfold component_sizes. fold (nthB c 0).
  change (nth 0 (cBs c) {| mr := 0; mc := 0; me := [] |}) with (nthB c 0).
  split; [rewrite !length_vmul, !length_col_norms; lia|]. intros r Hr. rewrite !vget_vmul; rewrite ?length_vmul, ?length_col_norms; try lia. rewrite !nrm_col by lia. reflexivity.
Qed.
(** The components are ordered from large to small by what they contribute. *)
Theorem C87_largest_first_partial (argsort : list R -> list nat) (c : rcmf) : (forall v, sorts v (argsort v)) -> valid_cmf c -> (0 < length (cBs c))%nat ->
  equal_column_norms c -> (forall r, (r < mc (cA c))%nat -> 0 <= weight c r) ->
  let order := bike_order (N:=RNum) argsort c in
  Permutation order (seq 0 (mc (cA c))) /\
  forall a b, (a <= b < mc (cA c))%nat -> component_size c (nth b order 0%nat) <= component_size c (nth a order 0%nat).
Proof.
  intros HS VC H0 HE PW order. pose proof VC as (_ & _ & CC & LB & HB & HW). destruct (HB 0%nat H0) as (_ & C0). destruct (bike_sizes c VC H0) as (LS & VS).
  assert (EV : exists v, order = argsort v /\ length v = mc (cA c) /\ forall r, (r < mc (cA c))%nat -> nth r v 0 = - (weight c r * vget (N:=RNum) (component_sizes (N:=RNum) c) r)).
  { unfold order, bike_order, weight. destruct (cw c) as [w|] eqn:EW.
    - specialize (HW w eq_refl). eexists. split; [reflexivity|]. assert (L : length (map (@nopp RNum) w) = length (component_sizes (N:=RNum) c)) by (rewrite map_length, LS; exact HW).
      split; [rewrite length_vmul, <- L, map_length, Nat.min_id; exact HW|]. intros r Hr. change (nth r ?l 0) with (vget (N:=RNum) l r).
      rewrite vget_vmul; [|exact L|rewrite map_length; rewrite HW; exact Hr]. unfold vget at 1. rewrite (nth_indep _ _ (@nopp RNum 0)) by (rewrite map_length, HW; exact Hr). rewrite map_nth. unfold at_. rn. ring.
    - eexists. split; [reflexivity|]. split; [now rewrite map_length|]. intros r Hr. set (f := fun x : @num RNum => @nmul RNum (@nopp RNum n1) x).
      rewrite (nth_indep _ 0 (f 0)) by (rewrite map_length, LS; exact Hr). rewrite (map_nth f). unfold f, vget. rn. ring. }
  destruct EV as (v & -> & LV & VV).
  assert (SZ : forall r, (r < mc (cA c))%nat -> component_size c r = - nth r v 0).
  { intros r Hr. rewrite VV, VS by exact Hr. rewrite (component_size_val c r (nrm (nthB c 0) r) VC Hr); [rn; ring|now apply PW|apply nrm_nonneg|].
    intros i Hi. specialize (HE i r Hi Hr). rewrite !Sum_rsum in HE. etransitivity; [exact HE|]. etransitivity; [symmetry; exact (nrm_sq (nthB c 0) r)|ring]. }
  pose proof (HS v) as HO. rewrite <- LV. split; [apply HO|]. intros a b Hab. pose proof (nth_argsort _ _ a HO ltac:(lia)). pose proof (nth_argsort _ _ b HO ltac:(lia)). rewrite !SZ by lia.
  apply Ropp_le_contravar. apply HO. lia.
Qed.
Print Assumptions C87_largest_first_partial.

Lemma rsum_reorder n order (f : nat -> R) : Permutation order (seq 0 n) -> rsum n (fun a => f (nth a order 0%nat)) = rsum n f.
Proof.
  intros P. pose proof (Permutation_length P) as L. rewrite seq_length in L. pose proof (ReorderFacts.lsum_perm (map f order) (map f (seq 0 n)) (Permutation_map f P)) as Q.
  rewrite (lsum_len _ n) in Q by (rewrite map_length; exact L). rewrite (lsum_len _ n) in Q by (rewrite map_length, seq_length; reflexivity).
  transitivity (rsum n (fun i => vg (map f order) i)); [|rewrite Q]; apply rsum_ext; intros a Ha.
  - unfold vg, vget. rewrite (nth_indep _ _ (f 0%nat)) by (rewrite map_length, L; exact Ha). now rewrite map_nth.
  - unfold vg, vget. rewrite (nth_indep _ _ (f 0%nat)) by (rewrite map_length, seq_length; exact Ha). rewrite map_nth, seq_nth by exact Ha. reflexivity.
Qed.
(** Clipping removes negative entries only: factors without negative entries are taken over, in the new order, and the
    components still represent the same data. *)
Theorem C86_clipped (argsort : list R -> list nat) (c : rcmf) A' Bs' C' : (forall v, sorts v (argsort v)) -> valid_cmf c -> (0 < length (cBs c))%nat ->
  bike_components (N:=RNum) argsort c = (A', Bs', C') ->
  let order := bike_order (N:=RNum) argsort c in
  length Bs' = length (cBs c) /\
  (forall i r, (i < length (cBs c))%nat -> (r < mc (cA c))%nat -> mget A' i r = Rmax 0 (mget (cA c) i (nth r order 0%nat))) /\
  (forall i j r, (i < length (cBs c))%nat -> (j < mr (nthB c i))%nat -> (r < mc (cA c))%nat -> mget (nth i Bs' no_mat) j r = Rmax 0 (mget (nthB c i) j (nth r order 0%nat))) /\
  (forall k r, (k < mr (cC c))%nat -> (r < mc (cA c))%nat -> mget C' k r = Rmax 0 (mget (cC c) k (nth r order 0%nat))) /\
  ((forall i r, 0 <= mget (cA c) i r) -> (forall i j r, 0 <= mget (nthB c i) j r) -> (forall k r, 0 <= mget (cC c) k r) ->
   forall i j k, (i < length (cBs c))%nat -> (j < mr (nthB c i))%nat -> (k < mr (cC c))%nat ->
     Sum (mc (cA c)) (fun r => mget (nth i Bs' no_mat) j r * (mget A' i r * weight c (nth r order 0%nat)) * mget C' k r) = cmf_entry c i j k).
Proof.
  intros HS VC H0 E order. unfold bike_components in E. fold order in E. assert (EQ : A' = clip_cols (N:=RNum) order (cA c) /\ Bs' = map (clip_cols (N:=RNum) order) (cBs c) /\ C' = clip_cols (N:=RNum) order (cC c)) by (repeat split; congruence).
  destruct EQ as (-> & -> & ->). pose proof VC as (_ & _ & CC & LB & HB & HW). destruct (bike_sizes c VC H0) as (LS & VS).
  assert (PO : Permutation order (seq 0 (mc (cA c)))).
  { unfold order, bike_order. destruct (cw c) as [w|] eqn:EW.
    - pose proof (proj1 (HS (vmul (N:=RNum) (map (@nopp RNum) w) (component_sizes (N:=RNum) c)))) as Q. rewrite length_vmul, map_length, LS in Q. pose proof (HW w eq_refl) as HW'. cbn in HW', Q. rewrite HW', Nat.min_id in Q. exact Q.
    - match goal with |- Permutation (argsort ?l) _ => pose proof (proj1 (HS l)) as Q end. rewrite map_length, LS in Q. exact Q. }
  assert (LO : length order = mc (cA c)) by (rewrite (Permutation_length PO); apply seq_length).
  assert (CL : forall (M : matR) i r, (i < mr M)%nat -> (r < mc (cA c))%nat -> mget (clip_cols (N:=RNum) order M) i r = Rmax 0 (mget M i (nth r order 0%nat))).
  { intros M i r Hi Hr. unfold clip_cols, take_cols. rewrite mget_mmap by (cbn; rewrite ?LO; assumption). rewrite mget_mbuild by (rewrite ?LO; assumption). apply nmax_R. }
  assert (NB : forall i, (i < length (cBs c))%nat -> nth i (map (clip_cols (N:=RNum) order) (cBs c)) no_mat = clip_cols (N:=RNum) order (nthB c i)).
  { intros i Hi. rewrite (nth_indep _ no_mat (clip_cols (N:=RNum) order no_mat)) by (rewrite map_length; exact Hi). now rewrite map_nth. }
  split; [apply map_length|]. split; [intros i r Hi Hr; apply CL; [rewrite LB|]; assumption|]. split; [intros i j r Hi Hj Hr; rewrite NB by exact Hi; now apply CL|]. split; [intros k r Hk Hr; now apply CL|].
  intros PA PB PC i j k Hi Hj Hk. unfold cmf_entry. rewrite !Sum_rsum. etransitivity; [|exact (rsum_reorder _ order (fun r => mget (nthB c i) j r * (mget (cA c) i r * weight c r) * mget (cC c) k r) PO)].
  apply rsum_ext. intros r Hr. rewrite NB by exact Hi. rewrite !CL by (rewrite ?LB; assumption). rewrite !Rmax_right by auto. reflexivity.
Qed.
Print Assumptions C86_clipped.

(** ** get_stacked_CP_tensor *)
(** The CP tensor holds the represented matrices: matrix i is in slice i, below the rows of the earlier matrices. *)
Theorem C86_stacked (c : rcmf) : valid_cmf c -> (0 < length (cBs c))%nat ->
  exists B, get_stacked_CP_tensor (N:=RNum) c = Ok (cw c, (cA c, B, cC c)) /\ shaped B (rows_before c (length (cBs c))) (mc (cA c)) /\
    forall i j k, (i < length (cBs c))%nat -> (j < mr (nthB c i))%nat -> (k < mr (cC c))%nat ->
      cp_entry (mc (cA c)) (weight c) (mget (cA c)) (mget B) (mget (cC c)) i (rows_before c i + j) k = cmf_entry c i j k.
Proof.
  intros (_ & _ & CC & LB & HB & _) H0. unfold get_stacked_CP_tensor, concatenate. destruct (cBs c) as [|B1 Bs] eqn:EB; [cbn in H0; lia|]. rewrite <- EB in *. cbn [bind].
  assert (NE : cBs c <> []) by (rewrite EB; discriminate).
  assert (HF : forall M, In M (cBs c) -> mwf M /\ mc M = mc (cA c)) by (intros M HM; apply In_nth with (d := no_mat) in HM as (i & Hi & <-); apply (HB i Hi)).
  assert (SR : forall i, (i <= length (cBs c))%nat -> stack_rows (cBs c) i = rows_before c i).
  { induction i as [|i IH]; intros Hi; [reflexivity|]. cbn [rows_before]. rewrite <- IH by lia. unfold stack_rows, nthB. clear - Hi. revert i Hi. induction (cBs c) as [|M l IHl]; intros i Hi; [cbn in Hi; lia|].
    destruct i as [|i]; [cbn; lia|]. cbn [firstn fold_right nth]. cbn [length] in Hi. specialize (IHl i ltac:(lia)). cbn [firstn fold_right] in IHl. rewrite IHl. lia. }
  exists (mconcat (cBs c)). split; [reflexivity|]. split.
  - split; [exact (mconcat_wf _ _ HF)|]. split.
    + rewrite <- SR by lia. unfold stack_rows. rewrite firstn_all. rewrite EB. reflexivity.
    + rewrite EB. cbn. rewrite EB in HF. apply (HF B1). now left.
  - intros i j k Hi Hj Hk. unfold cp_entry, cmf_entry. rewrite !Sum_rsum. apply rsum_ext. intros r Hr. rewrite <- SR by lia. rewrite (mconcat_get _ (mc (cA c))) by assumption. unfold nthB. ring.
Qed.
Print Assumptions C86_stacked.

(** ** Centring and scaling, plot_semiconductor_etch_analysis.py *)
Lemma sum_stack (l : list rmat) K k (f : R -> R) : (forall M, In M l -> mwf M /\ mc M = K) -> rsum (mr (mconcat (N:=RNum) l)) (fun i => f (rget (mconcat (N:=RNum) l) i k)) = over_rows l k f.
Proof.
  intros HF. unfold over_rows. rewrite (Sum_rsum (length l)).
  assert (E : rsum (fold_right (fun A n => (mr A + n)%nat) 0%nat l) (fun i => f (nth k (nth i (flat_map (me (N:=RNum)) l) []) 0)) =
     rsum (length l) (fun i => rsum (mr (nth i l no_mat)) (fun j => f (rget (nth i l no_mat) j k)))).
  { revert HF. clear. induction l as [|M l IH]; intros HF; [reflexivity|]. cbn [fold_right flat_map length]. rewrite rsum_split. change (S (length l)) with (1 + length l)%nat. rewrite rsum_split.
    destruct (HF M (or_introl eq_refl)) as ((LM & _) & _). f_equal.
    - transitivity (rsum (mr M) (fun j => f (rget M j k))); [|change (rsum (mr M) (fun j => f (rget M j k)) = 0 + rsum (mr M) (fun j => f (rget M j k))); ring]. apply rsum_ext. intros j Hj. rewrite app_nth1 by (rewrite LM; exact Hj). reflexivity.
    - etransitivity; [|exact (IH (fun X HX => HF X (or_intror HX)))]. apply rsum_ext. intros j Hj. rewrite app_nth2 by (rewrite LM; lia). rewrite LM. replace (mr M + j - mr M)%nat with j by lia. reflexivity. }
  transitivity (rsum (length l) (fun i => rsum (mr (nth i l no_mat)) (fun j => f (rget (nth i l no_mat) j k)))); [|apply rsum_ext; intros i _; symmetry; apply Sum_rsum].
  rewrite <- E. destruct l as [|M l]; reflexivity.
Qed.
Lemma pow2_pos x : x <> 0 -> 0 < x ^ 2.
Proof. intros H. cbn. rewrite Rmult_1_r. destruct (Rtotal_order x 0) as [L|[L|L]]; [|congruence|]; nra. Qed.
Theorem C86_standardised (Xs : list matR) (K : nat) : Xs <> [] -> (forall X, In X Xs -> mwf X /\ mc X = K) ->
  let rows := rsum (length Xs) (fun i => INR (mr (nth i Xs no_mat))) in
  (* no column has the same number in all rows of all matrices *)
  (forall k, (k < K)%nat -> forall x, exists i j, (i < length Xs)%nat /\ (j < mr (nth i Xs no_mat))%nat /\ mget (nth i Xs no_mat) j k <> x) ->
  exists Zs (mean std : nat -> R), standardise (N:=RNum) Xs = Ok Zs /\ length Zs = length Xs /\
    (* every column is shifted and divided, in the same way in all matrices *)
    (forall i, (i < length Xs)%nat -> shaped (nth i Zs no_mat) (mr (nth i Xs no_mat)) K /\
       forall j k, (j < mr (nth i Xs no_mat))%nat -> (k < K)%nat -> 0 < std k /\ mget (nth i Zs no_mat) j k = (mget (nth i Xs no_mat) j k - mean k) / std k) /\
    (* its mean is zero and its variance one *)
    forall k, (k < K)%nat -> over_rows Zs k (fun x => x) / rows = 0 /\ over_rows Zs k (fun x => x ^ 2) / rows = 1.
Proof.
  intros NE HF rows NC. set (S0 := mconcat (N:=RNum) Xs). set (n := mr S0).
  assert (CS : mc S0 = K) by (unfold S0; destruct Xs as [|X Xs']; [congruence|]; cbn; apply HF; now left).
  assert (RW : rows = INR n).
  { unfold rows, n, S0. rewrite <- (rsum_ext _ (fun i => Sum (mr (nth i Xs no_mat)) (fun j => 1))).
    2:{ intros i _. rewrite Sum_rsum. clear. induction (mr (nth i Xs no_mat)) as [|m IH]; [reflexivity|]. rewrite S_INR, <- IH. apply rsum_S. }
    rewrite <- Sum_rsum. change (over_rows Xs 0 (fun _ => 1) = INR (mr (mconcat (N:=RNum) Xs))). rewrite <- (sum_stack Xs K 0%nat (fun _ => 1) HF).
    clear. induction (mr (mconcat (N:=RNum) Xs)) as [|m IH]; [reflexivity|]. rewrite S_INR, <- IH. apply rsum_S. }
  set (mean := fun k => vget (N:=RNum) (col_means (N:=RNum) S0) k). set (std := fun k => vget (N:=RNum) (col_stds (N:=RNum) S0) k).
  assert (HM : forall k, (k < K)%nat -> mean k = rsum n (fun i => rget S0 i k) / INR n).
  { intros k Hk. unfold mean, col_means. rewrite vget_vbuild by (rewrite CS; exact Hk). rn. rewrite nsum_rsum. fold n. f_equal. unfold nlit. cbn. rewrite <- INR_IZR_INZ. field. }
  assert (HV : forall k, (k < K)%nat -> std k = sqrt (rsum n (fun i => (rget S0 i k - mean k) ^ 2) / INR n)).
  { intros k Hk. unfold std, col_stds. rewrite vget_vbuild by (rewrite CS; exact Hk). rn. f_equal. rewrite nsum_rsum. fold n. f_equal; [apply rsum_ext; intros; unfold mean; rn; ring|]. unfold nlit. cbn. rewrite <- INR_IZR_INZ. field. }
  assert (HN : forall k, (k < K)%nat -> 0 < INR n).
  { intros k Hk. destruct (NC k Hk 0) as (i & j & Hi & Hj & _). apply lt_0_INR. unfold n, S0. destruct (mr (mconcat (N:=RNum) Xs)) eqn:E0; [|lia]. exfalso.
    assert (Q : (mr (nth i Xs no_mat) <= fold_right (fun A m => (mr A + m)%nat) 0%nat Xs)%nat).
    { clear - Hi. revert i Hi. induction Xs as [|X Xs IH]; intros i Hi; cbn in *; [lia|]. destruct i; [lia|]. specialize (IH i ltac:(lia)). lia. }
    destruct Xs; [congruence|]. cbn [mconcat mr] in E0. lia. }
  assert (HP : forall k, (k < K)%nat -> 0 < std k).
  { intros k Hk. rewrite HV by exact Hk. apply sqrt_lt_R0. apply Rdiv_lt_0_compat; [|now apply (HN k)]. pose proof (sum_stack Xs K k (fun x => (x - mean k) ^ 2) HF) as QS. change (rsum n (fun i => (rget S0 i k - mean k) ^ 2) = over_rows Xs k (fun x => (x - mean k) ^ 2)) in QS. rewrite QS. clear QS. unfold over_rows. rewrite (Sum_rsum (length Xs)).
    destruct (NC k Hk (mean k)) as (i & j & Hi & Hj & D). apply rsum_pos; [intros; rewrite Sum_rsum; apply rsum_nonneg; intros; apply pow2_ge_0|]. exists i. split; [exact Hi|].
    rewrite Sum_rsum. apply rsum_pos; [intros; apply pow2_ge_0|]. exists j. split; [exact Hj|]. apply pow2_pos. intros Z. apply D. rn. lra. }
  set (g := fun M : matR => mcoldiv (N:=RNum) (mbuild (N:=RNum) (mr M) (mc M) (fun i j => @nsub RNum (mget M i j) (vget (col_means (N:=RNum) S0) j))) (col_stds (N:=RNum) S0)).
  assert (GE : forall M, In M Xs -> shaped (g M) (mr M) K /\ forall j k, (j < mr M)%nat -> (k < K)%nat -> mget (g M) j k = (mget M j k - mean k) / std k).
  { intros M IN. destruct (HF M IN) as (W & CM). split; [split; [apply mwf_mcoldiv|split; [reflexivity|exact CM]]|]. intros j k Hj Hk. unfold g, mcoldiv. rewrite mget_mbuild by (cbn; rewrite ?CM; assumption).
    rewrite mget_mbuild by (rewrite ?CM; assumption). reflexivity. }
  exists (map g Xs), mean, std. split.
  { assert (TR : forallb (ntruthy (N:=RNum)) (col_stds (N:=RNum) S0) = true).
    { apply forallb_forall. intros x Hx. apply In_nth with (d := 0) in Hx as (k & Hk & <-). unfold col_stds in Hk. rewrite length_vbuild, CS in Hk. apply ntruthy_pos. exact (HP k Hk). }
    assert (EC : concatenate (N:=RNum) Xs = Ok S0) by (unfold concatenate, S0; destruct Xs; [congruence|reflexivity]).
    unfold standardise. rewrite EC. cbn [bind]. apply mapM_ok. intros M IN. unfold div_columns. rewrite TR, orb_true_r. reflexivity. }
  assert (NZ : forall i, (i < length Xs)%nat -> nth i (map g Xs) no_mat = g (nth i Xs no_mat)).
  { intros i Hi. rewrite (nth_indep _ no_mat (g no_mat)) by (rewrite map_length; exact Hi). now rewrite map_nth. }
  split; [apply map_length|]. split.
  { intros i Hi. rewrite NZ by exact Hi. destruct (GE _ (nth_In _ no_mat Hi)) as (S1 & S2). split; [exact S1|]. intros j k Hj Hk. split; [now apply HP|now apply S2]. }
  intros k Hk. rewrite RW. pose proof (HN k Hk) as Pn. pose proof (HP k Hk) as Ps.
  assert (OV : forall f, over_rows (map g Xs) k f = rsum n (fun i => f ((rget S0 i k - mean k) / std k))).
  { intros f. pose proof (sum_stack Xs K k (fun x => f ((x - mean k) / std k)) HF) as QS. change (rsum n (fun i => f ((rget S0 i k - mean k) / std k)) = over_rows Xs k (fun x => f ((x - mean k) / std k))) in QS. rewrite QS. clear QS.
    unfold over_rows. rewrite map_length. apply rsum_ext. intros i Hi. rewrite NZ by exact Hi.
    destruct (GE _ (nth_In _ no_mat Hi)) as ((_ & R1 & _) & S2). rewrite R1, !Sum_rsum. apply rsum_ext. intros j Hj. now rewrite S2. }
  rewrite !OV. split.
  - rewrite (rsum_ext _ _ (fun i => / std k * rget S0 i k + - mean k / std k)) by (intros; field; lra). rewrite rsum_add, rsum_scal. 
    assert (rsum n (fun _ => - mean k / std k) = INR n * (- mean k / std k)) as ->. { clear. induction n as [|m IH]; [rewrite rsum_0; cbn [INR]; ring|]. rewrite S_INR, rsum_S, IH. ring. }
    rewrite HM by exact Hk. field. split; lra.
  - rewrite (rsum_ext _ _ (fun i => / (std k * std k) * (rget S0 i k - mean k) ^ 2)) by (intros; field; lra). rewrite rsum_scal.
    assert (Q : std k * std k = rsum n (fun i => (rget S0 i k - mean k) ^ 2) / INR n).
    { rewrite HV by exact Hk. apply sqrt_sqrt. apply Rmult_le_pos; [apply rsum_nonneg; intros; apply pow2_ge_0|]. left. now apply Rinv_0_lt_compat. }
    assert (Q2 : rsum n (fun i => (rget S0 i k - mean k) ^ 2) = std k * std k * INR n) by (rewrite Q; field; lra). rewrite Q2. field. split; lra.
Qed.
Print Assumptions C86_standardised.

(** ** The hypotheses can be met *)
(** A routine that sorts *)
Fixpoint insert_pos (v : list R) (i : nat) (l : list nat) : list nat :=
  match l with [] => [i] | a :: l' => if Rle_dec (nth i v 0) (nth a v 0) then i :: l else a :: insert_pos v i l' end.
Definition insertion (v : list R) : list nat := fold_right (insert_pos v) [] (seq 0 (length v)).
Lemma insert_perm v i l : Permutation (insert_pos v i l) (i :: l).
Proof. induction l as [|a l IH]; cbn [insert_pos]; [reflexivity|]. destruct (Rle_dec _ _); [reflexivity|]. rewrite IH. apply perm_swap. Qed.
Lemma insert_sorted v i l : Sorted.StronglySorted (fun a b => nth a v 0 <= nth b v 0) l -> Sorted.StronglySorted (fun a b => nth a v 0 <= nth b v 0) (insert_pos v i l).
Proof.
  induction 1 as [|a l S IH F]; cbn [insert_pos]; [repeat constructor|]. destruct (Rle_dec (nth i v 0) (nth a v 0)) as [L|L].
  - constructor; [now constructor|]. constructor; [exact L|]. eapply Forall_impl; [|exact F]. cbn. intros; lra.
  - constructor; [exact IH|]. apply Forall_forall. intros x Hx. apply (Permutation_in _ (insert_perm v i l)) in Hx as [<-|Hx]; [lra|]. rewrite Forall_forall in F. now apply F.
Qed.
Lemma insertion_sorts v : sorts v (insertion v).
Proof.
  unfold insertion. assert (P : forall l, Permutation (fold_right (insert_pos v) [] l) l) by (induction l as [|i l IH]; cbn [fold_right]; [reflexivity|]; rewrite insert_perm; now constructor).
  assert (S : forall l, Sorted.StronglySorted (fun a b => nth a v 0 <= nth b v 0) (fold_right (insert_pos v) [] l)) by (induction l as [|i l IH]; cbn [fold_right]; [constructor|now apply insert_sorted]).
  split; [apply P|]. intros a b Hab. specialize (S (seq 0 (length v))). pose proof (Permutation_length (P (seq 0 (length v)))) as L. rewrite seq_length in L. set (l := fold_right _ _ _) in *. clearbody l.
  assert (Hb : (b < length l)%nat) by lia. assert (Ha : (a <= b)%nat) by lia. clear - S Ha Hb. revert a b Ha Hb. induction S as [|x l S IH F]; intros a b Ha Hb; [cbn in Hb; lia|].
  destruct b as [|b]; [assert (a = 0%nat) as -> by lia; cbn; lra|]. destruct a as [|a]; [|cbn [nth]; apply IH; cbn in Hb; lia]. cbn [nth]. rewrite Forall_forall in F. apply F. apply nth_In. cbn in Hb. lia.
Qed.
Lemma two_orders l : Permutation l [0; 1]%nat -> l = [0; 1]%nat \/ l = [1; 0]%nat.
Proof.
  intros P. pose proof (Permutation_length P) as L. destruct l as [|a [|b [|? ?]]]; try discriminate L. apply Permutation_length_2 in P as [(-> & ->)|(-> & ->)]; [left|right]; reflexivity.
Qed.

Local Notation M := (Mat (N:=RNum)).
(** A PARAFAC2 tensor with a large and a small component; the small one comes first. *)
Definition ex_pf2 : pf2t (N:=RNum) := Pf2t (N:=RNum) [1; 1] (M 1 2 [[1; 1]]) (M 2 2 [[3; 0]; [0; 1]]) (M 2 2 [[1; 0]; [0; 1]]) [M 2 2 [[1; 0]; [0; 1]]].

Lemma ex_pf2_valid : valid_pf2 ex_pf2.
Proof.
  unfold valid_pf2, ex_pf2. cbn [pfw pfA pfB pfC pfP mr mc length]. assert (W : forall a b c d : R, mwf (M 2 2 [[a; b]; [c; d]])) by (intros; split; [reflexivity|repeat constructor]).
  repeat split; try reflexivity; try (repeat constructor); try apply W; destruct i as [|i]; cbn in *; try lia; try reflexivity; try apply W.
Qed.
Lemma nz2 : nonzero_columns 2 2 (mget (M 2 2 [[1; 0]; [0; 1]])).
Proof. intros j Hj. exists j. split; [exact Hj|]. destruct j as [|[|j]]; [| |lia]; cbn; apply R1_neq_R0. Qed.
Example C87_smallest_first_refuted_nonvacuous : exists c order, etch_components (N:=RNum) insertion ex_pf2 = Ok (c, order) /\ nth 0 order 0%nat = 1%nat /\
  component_size c (nth 0 order 0%nat) = 1 /\ component_size c (nth 1 order 0%nat) = 3.
Proof.
  assert (NA : nonzero_columns 1 2 (mget (pfA ex_pf2))) by (intros j Hj; exists 0%nat; split; [lia|]; destruct j as [|[|j]]; [| |lia]; cbn; apply R1_neq_R0).
  pose proof (etch_val insertion ex_pf2 ex_pf2_valid NA nz2) as (c & v & E & LV & HV & CW & LB & SA & SC & UA & UC & VA & VC & HB). exists c, (insertion v). split; [exact E|].
  cbn in LV.
  assert (E1 : forall (A : matR) r x, mr A = 1%nat -> 0 <= x -> mget A 0 r ^ 2 = x * x -> nrm A r = x) by (intros A r x Er Px Q; unfold nrm; rewrite Er, rsum_S, rsum_0, Rplus_0_l, Q; now apply sqrt_square).
  assert (E2 : forall (A : matR) r x, mr A = 2%nat -> 0 <= x -> mget A 0 r ^ 2 + mget A 1 r ^ 2 = x * x -> nrm A r = x) by (intros A r x Er Px Q; unfold nrm; rewrite Er, !rsum_S, rsum_0, Rplus_0_l, Q; now apply sqrt_square).
  assert (N1 : forall r, (r < 2)%nat -> nrm (pfA ex_pf2) r = 1) by (intros r Hr; apply E1; [reflexivity|lra|]; destruct r as [|[|r]]; [| |lia]; unfold mget; cbn; lra).
  assert (N2 : forall r, (r < 2)%nat -> nrm (pfC ex_pf2) r = 1) by (intros r Hr; apply E2; [reflexivity|lra|]; destruct r as [|[|r]]; [| |lia]; unfold mget; cbn; lra).
  assert (N3 : nrm (pfB ex_pf2) 0 = 3) by (apply E2; [reflexivity|lra|]; unfold mget; cbn; lra).
  assert (N4 : nrm (pfB ex_pf2) 1 = 1) by (apply E2; [reflexivity|lra|]; unfold mget; cbn; lra).
  assert (V0 : nth 0 v 0 = 3) by (etransitivity; [exact (HV 0%nat ltac:(cbn; lia))|]; rewrite N1, N2, N3 by lia; unfold vget; cbn; lra).
  assert (V1 : nth 1 v 0 = 1) by (etransitivity; [exact (HV 1%nat ltac:(cbn; lia))|]; rewrite N1, N2, N4 by lia; unfold vget; cbn; lra).
  destruct (insertion_sorts v) as (P & S). assert (LV' : length v = 2%nat) by exact LV. rewrite LV' in P, S. cbn [seq] in P.
  assert (EO : insertion v = [1; 0]%nat) by (destruct (two_orders _ P) as [Q|Q]; [|exact Q]; specialize (S 0%nat 1%nat ltac:(lia)); rewrite Q in S; cbn [nth] in S; rewrite V0, V1 in S; lra).
  rewrite EO. split; [reflexivity|]. cbn [nth].
  assert (A1 : forall r, (r < 2)%nat -> mget (cA c) 0 r = 1) by (intros r Hr; pose proof (VA 0%nat r ltac:(cbn; lia) Hr) as Q; rewrite N1 in Q by exact Hr; rewrite Rmult_1_r in Q; rewrite Q; destruct r as [|[|r]]; [reflexivity..|lia]).
  assert (C1 : forall k r, (k < 2)%nat -> (r < 2)%nat -> mget (cC c) k r = mget (pfC ex_pf2) k r) by (intros k r Hk Hr; pose proof (VC k r Hk Hr) as Q; rewrite N2 in Q by exact Hr; now rewrite Rmult_1_r in Q).
  destruct (HB 0%nat ltac:(cbn; lia)) as ((_ & RB & _) & HB0). cbn in RB.
  assert (SQ : forall r x, (r < 2)%nat -> 0 <= x -> component_size c r ^ 2 = x * x -> component_size c r = x).
  { intros r x Hr Px Q. pose proof (component_size_nonneg c r). nra. }
  assert (R3 : mr (cC c) = 2%nat) by apply SC.
  split; apply SQ; try lia; try lra; rewrite component_size_sq; unfold weight; rewrite CW, LB, R3; cbn [length pfP ex_pf2]; rewrite !rsum_S, !rsum_0, RB, !rsum_S, !rsum_0, !A1 by lia; rewrite !HB0 by (cbn; lia);
    rewrite N1, N2 by lia; rewrite !C1 by lia; cbn [mc pfA ex_pf2]; rewrite !rsum_S, !rsum_0; unfold mget, at_, vget; cbn; lra.
Qed.

(** A fit of two matrices with a small and a large component; the bike sharing script puts the large one first. *)
Definition ex_bike : rcmf := Cmf (N:=RNum) None (M 2 2 [[1; 1]; [0; 0]]) [M 2 2 [[1; 0]; [0; 3]]; M 2 2 [[0; 3]; [1; 0]]] (M 1 2 [[1; 1]]).
Lemma ex_bike_valid : valid_cmf ex_bike.
Proof.
  assert (W : forall a b c d : R, mwf (M 2 2 [[a; b]; [c; d]])) by (intros; split; [reflexivity|repeat constructor]).
  split; [apply W|]. split; [split; [reflexivity|repeat constructor]|]. split; [reflexivity|]. split; [reflexivity|]. split; [|intros w E; discriminate E].
  intros i Hi. destruct i as [|[|i]]; [split; [apply W|reflexivity]..|cbn in Hi; lia].
Qed.
Example C87_largest_first_partial_nonvacuous : valid_cmf ex_bike /\ equal_column_norms ex_bike /\ (forall r, (r < 2)%nat -> 0 <= weight ex_bike r) /\
  (forall i r, 0 <= mget (cA ex_bike) i r) /\ (forall i j r, 0 <= mget (nthB ex_bike i) j r) /\ (forall k r, 0 <= mget (cC ex_bike) k r) /\
  bike_order (N:=RNum) insertion ex_bike = [1; 0]%nat /\ component_size ex_bike 1 = 3 /\ component_size ex_bike 0 = 1.
Proof.
  assert (VB := ex_bike_valid). split; [exact VB|].
  assert (HE : equal_column_norms ex_bike).
  { intros i r Hi Hr. cbn in Hi, Hr. destruct i as [|[|i]]; [reflexivity| |lia]. cbn [nthB mr nth cBs ex_bike]. rewrite !Sum_rsum. unfold nthB. cbn [cBs ex_bike nth mr]. rewrite !rsum_S, !rsum_0. destruct r as [|[|r]]; [| |lia]; unfold mget; cbn; lra. }
  split; [exact HE|]. split; [intros r Hr; cbn; lra|].
  assert (NN : forall A : matR, Forall (Forall (fun x => 0 <= x)) (me A) -> forall i r, 0 <= mget A i r).
  { intros A F i r. unfold mget. destruct (nth_in_or_default i (me A) []) as [Hi| ->]; [|destruct r; cbn; lra]. rewrite Forall_forall in F. specialize (F _ Hi). rewrite Forall_forall in F.
    destruct (nth_in_or_default r (nth i (me A) []) 0) as [Hr|E]; [exact (F _ Hr)|]. unfold vget. rn. rewrite E. lra. }
  split; [apply NN; cbn; repeat constructor; lra|]. split; [|split; [apply NN; cbn; repeat constructor; lra|]].
  { intros i. apply NN. unfold nthB. destruct i as [|[|i]]; [cbn; repeat constructor; lra..|]. destruct i; cbn; constructor. }
  assert (SQ : forall r x, 0 <= x -> component_size ex_bike r ^ 2 = x * x -> component_size ex_bike r = x) by (intros r x Px Q; pose proof (component_size_nonneg ex_bike r); nra).
  assert (S1 : component_size ex_bike 1 = 3) by (apply SQ; [lra|]; rewrite component_size_sq; unfold nthB; cbn [length cBs ex_bike cC mr]; rewrite !rsum_S, !rsum_0; cbn [nth mr]; rewrite !rsum_S, !rsum_0; unfold mget, weight; cbn; lra).
  assert (S0 : component_size ex_bike 0 = 1) by (apply SQ; [lra|]; rewrite component_size_sq; unfold nthB; cbn [length cBs ex_bike cC mr]; rewrite !rsum_S, !rsum_0; cbn [nth mr]; rewrite !rsum_S, !rsum_0; unfold mget, weight; cbn; lra).
  destruct (C87_largest_first_partial insertion ex_bike insertion_sorts VB ltac:(cbn; lia) HE ltac:(intros; cbn; lra)) as (P & Q). split; [|now split].
  destruct (two_orders _ P) as [E|E]; [|exact E]. specialize (Q 0%nat 1%nat ltac:(cbn; lia)). rewrite E in Q. cbn [nth] in Q. rewrite S0, S1 in Q. lra.
Qed.
(** Data whose columns can be standardised *)
Example C86_standardised_nonvacuous : let Xs := [M 2 2 [[1; 0]; [2; 5]]; M 1 2 [[7; 7]]] in Xs <> [] /\ (forall X, In X Xs -> mwf X /\ mc X = 2%nat) /\
  forall k, (k < 2)%nat -> forall x, exists i j, (i < length Xs)%nat /\ (j < mr (nth i Xs no_mat))%nat /\ mget (nth i Xs no_mat) j k <> x.
Proof.
  cbv zeta. split; [discriminate|]. split; [intros X [<-|[<-|[]]]; (split; [split; [reflexivity|repeat constructor]|reflexivity])|].
  intros k Hk x. destruct k as [|[|k]]; [| |lia].
  - destruct (Req_dec x 1) as [->|D]; [exists 1%nat, 0%nat|exists 0%nat, 0%nat]; (split; [cbn; lia|split; [cbn; lia|unfold mget; cbn; lra]]).
  - destruct (Req_dec x 0) as [->|D]; [exists 1%nat, 0%nat|exists 0%nat, 0%nat]; (split; [cbn; lia|split; [cbn; lia|unfold mget; cbn; lra]]).
Qed.
