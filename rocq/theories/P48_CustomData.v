(** Properties of the scripts of the example gallery: C92 (simulated data of plot_custom_penalty.py). *)
From Coq Require Import Reals Lra Lia List Arith Bool ZArith.
From Verif Require Import Num Numpy RFacts Spec SpecFacts MatFacts ModelSpec Penalties PenaltySpec ProxProofs CoupledMatrices CmfSpec CmfProofs
  Decomp DecompSpec DecompFacts AdmmProofs InitVars InitSpec InitProofs P03_CoupledMatrices DataSim DataSpec P14_Simulated OrderProofs Gallery P42_GalleryData
  GalleryCustom GalleryCustomSpec.
Import ListNotations.
Local Open Scope R_scope.
Local Notation shaped := PenaltySpec.shaped.

(** ** Vectors without a dip *)
Lemma argmax (v : nat -> R) : forall n, (0 < n)%nat -> exists m, (m < n)%nat /\ forall j, (j < n)%nat -> v j <= v m.
Proof.
  induction n as [|n IH]; [lia|]. intros _. destruct n as [|n].
  - exists 0%nat. split; [lia|]. intros j Hj. replace j with 0%nat by lia. lra.
  - destruct IH as (m & Hm & H); [lia|]. destruct (Rle_dec (v m) (v (S n))) as [L|L].
    + exists (S n). split; [lia|]. intros j Hj. destruct (Nat.eq_dec j (S n)) as [->|]; [lra|]. specialize (H j ltac:(lia)). lra.
    + exists m. split; [lia|]. intros j Hj. destruct (Nat.eq_dec j (S n)) as [->|]; [lra|]. apply H. lia.
Qed.
Lemma at_column J (X : ent) r i : (i < J)%nat -> at_ (column J X r) i = X i r.
Proof. intros Hi. unfold at_, column. rewrite (nth_indep _ 0 (X 0%nat r)) by (rewrite map_length, seq_length; exact Hi). rewrite (map_nth (fun i => X i r)), seq_nth by exact Hi. reflexivity. Qed.
Lemma column_length J (X : ent) r : length (column J X r) = J. Proof. unfold column. now rewrite map_length, seq_length. Qed.
Definition no_dip (J : nat) (v : nat -> R) : Prop := forall i j k, (i <= j)%nat -> (j <= k)%nat -> (k < J)%nat -> Rmin (v i) (v k) <= v j.
Lemma no_dip_unimodal J (X : ent) r : (0 < J)%nat -> no_dip J (fun j => X j r) -> unimodal (column J X r).
Proof.
  intros HJ H. destruct (argmax (fun j => X j r) J HJ) as (m & Hm & M). exists m. rewrite column_length. split; [exact Hm|]. split.
  - intros i j Hij Hj. rewrite !at_column by lia. pose proof (H i j m Hij Hj Hm) as Q. cbv beta in Q. specialize (M i ltac:(lia)). rewrite Rmin_left in Q by exact M. exact Q.
  - intros i j Hi Hij Hj. rewrite !at_column by lia. pose proof (H m i j Hi Hij Hj) as Q. cbv beta in Q. specialize (M j Hj). rewrite Rmin_right in Q by exact M. exact Q.
Qed.
Lemma dip_not_unimodal J (X : ent) r i j k : (i <= j)%nat -> (j <= k)%nat -> (k < J)%nat -> X j r < X i r -> X j r < X k r -> ~ unimodal (column J X r).
Proof.
  intros Hij Hjk Hk L1 L2 (t & Ht & U1 & U2). rewrite column_length in *. destruct (Nat.le_gt_cases j t) as [L|L].
  - specialize (U1 i j Hij L). rewrite !at_column in U1 by lia. lra.
  - specialize (U2 j k ltac:(lia) Hjk Hk). rewrite !at_column in U2 by lia. lra.
Qed.

(** ** The density *)
Lemma density_pos t mu s : 0 < s -> 0 < normal_density t mu s.
Proof.
  intros Hs. unfold normal_density. apply Rdiv_lt_0_compat; [apply exp_pos|]. apply Rmult_lt_0_compat; [exact Hs|]. apply sqrt_lt_R0. pose proof PI_RGT_0. lra.
Qed.
Lemma density_lt t u mu s : 0 < s -> Rabs (t - mu) < Rabs (u - mu) -> normal_density u mu s < normal_density t mu s.
Proof.
  intros Hs H. unfold normal_density. assert (D : 0 < / (s * sqrt (2 * PI))) by (apply Rinv_0_lt_compat, Rmult_lt_0_compat; [exact Hs|apply sqrt_lt_R0; pose proof PI_RGT_0; lra]).
  apply (Rmult_lt_compat_r (/ (s * sqrt (2 * PI)))); [exact D|]. apply exp_increasing.
  assert (Q : (t - mu) ^ 2 < (u - mu) ^ 2) by (rewrite <- (pow2_abs (t - mu)), <- (pow2_abs (u - mu)); pose proof (Rabs_pos (t - mu)) as P0; revert H P0; generalize (Rabs (t - mu)), (Rabs (u - mu)); intros a b H P0; nra).
  assert (S2 : 0 < / (s ^ 2)) by (apply Rinv_0_lt_compat; nra).
  replace (((u - mu) / s) ^ 2) with ((u - mu) ^ 2 * / s ^ 2) by (field; lra). replace (((t - mu) / s) ^ 2) with ((t - mu) ^ 2 * / s ^ 2) by (field; lra). pose proof (Rmult_lt_compat_r _ _ _ S2 Q). lra.
Qed.
Lemma density_le t u mu s : 0 < s -> Rabs (t - mu) <= Rabs (u - mu) -> normal_density u mu s <= normal_density t mu s.
Proof.
  intros Hs [H|H]; [left; now apply density_lt|]. right. unfold normal_density. do 3 f_equal.
  assert (Q : (t - mu) ^ 2 = (u - mu) ^ 2) by (rewrite <- (pow2_abs (t - mu)), <- (pow2_abs (u - mu)), H; reflexivity).
  replace (((u - mu) / s) ^ 2) with ((u - mu) ^ 2 * / s ^ 2) by (field; lra). replace (((t - mu) / s) ^ 2) with ((t - mu) ^ 2 * / s ^ 2) by (field; lra). now rewrite Q.
Qed.
Lemma density_no_dip (T : nat -> R) J mu s : 0 < s -> (forall i j, (i <= j)%nat -> (j < J)%nat -> T i <= T j) -> no_dip J (fun j => normal_density (T j) mu s).
Proof.
  intros Hs HT i j k Hij Hjk Hk. pose proof (HT i j Hij ltac:(lia)). pose proof (HT j k Hjk Hk). destruct (Rle_dec (T j) mu) as [L|L].
  - apply Rle_trans with (normal_density (T i) mu s); [apply Rmin_l|]. apply density_le; [exact Hs|]. rewrite !Rabs_left1 by lra. lra.
  - apply Rle_trans with (normal_density (T k) mu s); [apply Rmin_r|]. apply density_le; [exact Hs|]. rewrite !Rabs_pos_eq by lra. lra.
Qed.
Lemma grid_le J i j : (i <= j)%nat -> (j < J)%nat -> grid J i <= grid J j.
Proof.
  intros Hij Hj. unfold grid. destruct (Nat.eq_dec J 1) as [->|NJ]; [replace j with i by lia; lra|].
  assert (0 < INR (J - 1)) by (apply lt_0_INR; lia). assert (0 < 20 / INR (J - 1)) by (apply Rdiv_lt_0_compat; lra). apply le_INR in Hij. nra.
Qed.
Lemma grid_0 J : grid J 0 = -10. Proof. unfold grid. cbn. ring. Qed.
Lemma grid_last J : (2 <= J)%nat -> grid J (J - 1) = 10.
Proof. intros H. unfold grid. field. apply not_0_INR. lia. Qed.
Lemma grid_before J : (3 <= J)%nat -> 0 <= grid J (J - 2) < 10.
Proof.
  intros H. unfold grid. assert (P : 0 < INR (J - 1)) by (apply lt_0_INR; lia). replace (INR (J - 2)) with (INR (J - 1) - 1) by (rewrite <- (S_INR (J - 2)) || (replace (J - 1)%nat with (S (J - 2)) by lia; rewrite S_INR; ring)).
  assert (2 <= INR (J - 1)) by (apply (le_INR 2); lia).
  replace (-10 + (INR (J - 1) - 1) * (20 / INR (J - 1))) with (10 - 20 / INR (J - 1)) by (field; lra).
  assert (0 < 20 / INR (J - 1)) by (apply Rdiv_lt_0_compat; lra). assert (20 / INR (J - 1) <= 10) by (apply Rmult_le_reg_r with (INR (J - 1)); [exact P|]; unfold Rdiv; rewrite Rmult_assoc, Rinv_l by lra; lra). lra.
Qed.
Lemma linspace_grid J j : (0 < J)%nat -> (j < J)%nat -> linspace_point (N:=RNum) J j = grid J j.
Proof.
  intros HJ Hj. unfold linspace_point, grid. destruct (Nat.eqb_spec J 1) as [->|NJ].
  - replace j with 0%nat by lia. rn. change (INR 0) with 0. rewrite Rmult_0_l. lra.
  - rn. rewrite <- !INR_IZR_INZ. field. apply not_0_INR. lia.
Qed.

(** ** The columns *)
Lemma bumps_ok (J : nat) (rnd : rand (N:=RNum)) : forall m k pos, exists cols,
  mapS (fun _ => bump_column (N:=RNum) normal_density J rnd) (seq k m) pos = Ok (cols, (pos + 2 * m)%nat) /\ length cols = m /\
  forall r, (r < m)%nat -> nth r cols [] = vbuild (N:=RNum) J (fun j => normal_density (linspace_point (N:=RNum) J j) (-10 + 10 * rnd Uniform (pos + 2 * r + 1)%nat) (1 / 2 + rnd Uniform (pos + 2 * r)%nat)).
Proof.
  induction m as [|m IH]; intros k pos; cbn [seq mapS].
  - exists []. rewrite Nat.mul_0_r, Nat.add_0_r. split; [reflexivity|]. split; [reflexivity|]. intros r Hr. lia.
  - unfold bump_column at 1, draw_between. cbn [bind]. destruct (IH (S k) (S (S pos))) as (cols & E & L & H). rewrite E. cbn [bind]. eexists (_ :: cols). split; [replace (pos + 2 * S m)%nat with (S (S pos) + 2 * m)%nat by lia; reflexivity|]. split; [cbn [length]; f_equal; exact L|].
    intros [|r] Hr; cbn [nth].
    + apply map_ext. intros j. rn. f_equal; [|replace (pos + 2 * 0)%nat with pos by lia; lra]. replace (pos + 2 * 0 + 1)%nat with (S pos) by lia. lra.
    + rewrite H by lia. replace (pos + 2 * S r)%nat with (S (S pos) + 2 * r)%nat by lia. reflexivity.
Qed.
(** What B_0 is: in column r the density with drawn mean and deviation, in the last column drawn numbers. *)
Definition blueprint (J rank : nat) (rnd : rand (N:=RNum)) (p : nat) (B0 : matR) : Prop := shaped B0 J rank /\
  (forall r, (S r < rank)%nat -> forall j, (j < J)%nat -> mget B0 j r = normal_density (grid J j) (-10 + 10 * rnd Uniform (p + 2 * r + 1)%nat) (1 / 2 + rnd Uniform (p + 2 * r)%nat)) /\
  (forall r, S r = rank -> forall j, (j < J)%nat -> mget B0 j r = rnd Uniform (p + 2 * r + j)%nat).
Lemma B0_ok (J m : nat) (rnd : rand (N:=RNum)) pos : (0 < J)%nat -> exists B0, custom_B0 (N:=RNum) normal_density J (S m) rnd pos = Ok (B0, (pos + 2 * m + J)%nat) /\ blueprint J (S m) rnd pos B0.
Proof.
  intros HJ. unfold custom_B0. destruct (bumps_ok J rnd m 0 pos) as (cols & E & L & H). rewrite E. cbn [bind]. eexists. split; [reflexivity|].
  assert (LL : forall x : list R, length (cols ++ [x]) = S m) by (intros x; rewrite app_length, L; cbn; lia).
  split; [split; [apply mwf_of_cols|]; split; [reflexivity|apply LL]|]. split.
  - intros r Hr j Hj. rewrite mget_of_cols; [|exact Hj|rewrite LL; lia]. rewrite app_nth1 by lia. rewrite H by lia. etransitivity; [apply vget_vbuild; exact Hj|]. cbv beta. now rewrite linspace_grid.
  - intros r Hr j Hj. injection Hr as ->. rewrite mget_of_cols; [|exact Hj|rewrite LL; lia]. rewrite app_nth2, L, Nat.sub_diag by lia. cbn [nth]. etransitivity; [apply vget_vbuild; exact Hj|]. reflexivity.
Qed.

(** ** The script *)
Lemma custom_ok (nI J K m : nat) (rnd : rand (N:=RNum)) (eta : R) (pos : nat) : (0 < J)%nat -> let rank := S m in exists c U B0 H W p1 p2 p3 p4,
  drawn rnd RandomUniform nI rank pos U p1 /\ blueprint J rank rnd p1 B0 /\ drawn rnd RandomUniform K rank p2 H p3 /\ drawn_list rnd RandomUniform (repeat J nI) K p3 W p4 /\
  valid_cmf c /\ cw c = None /\ shaped (cA c) nI rank /\ shaped (cC c) K rank /\ length (cBs c) = nI /\
  (forall i, (i < nI)%nat -> shaped (nthB c i) J rank /\ forall j r, (j < J)%nat -> (r < rank)%nat -> mget (nthB c i) j r = mget B0 (back J i j) r) /\
  (forall i r, (i < nI)%nat -> (r < rank)%nat -> mget (cA c) i r = mget U i r + 1 / 10) /\
  (forall k r, (k < K)%nat -> (r < rank)%nat -> mget (cC c) k r = mget H k r) /\
  let noise i := mget (nth i W no_mat) in
  ((forall i, (i < nI)%nat -> fnorm J K (noise i) <> 0) ->
   exists Xs, custom_data (N:=RNum) normal_density nI J K rank eta rnd pos = Ok (c, Xs, p4) /\ length Xs = nI /\
     forall i, (i < nI)%nat -> shaped (nth i Xs no_mat) J K /\ same J K (mget (nth i Xs no_mat)) (noisy_one J K eta (cmf_entry c i) (noise i))) /\
  (forall i, (i < nI)%nat -> fnorm J K (noise i) = 0 -> forall o, custom_data (N:=RNum) normal_density nI J K rank eta rnd pos <> Ok o).
Proof.
  intros HJ rank.
  destruct (draw_drawn rnd RandomUniform nI (Z.of_nat rank) pos ltac:(discriminate) ltac:(lia)) as (U & p1 & E1 & D1). cbn [name_dist] in E1. rewrite Nat2Z.id in D1.
  destruct (B0_ok J m rnd p1 HJ) as (B0 & E2 & D2). fold rank in E2, D2. set (p2 := (p1 + 2 * m + J)%nat) in *.
  destruct (draw_drawn rnd RandomUniform K (Z.of_nat rank) p2 ltac:(discriminate) ltac:(lia)) as (H & p3 & E3 & D3). cbn [name_dist] in E3. rewrite Nat2Z.id in D3.
  set (A := mmap (N:=RNum) (fun x => @nadd RNum x (nlit 1 10)) U). set (Bs := map (roll_rows B0) (seq 0 nI)). set (c := Cmf (N:=RNum) None A Bs H).
  pose proof D1 as ((WU & RU & CU) & _). pose proof D2 as (SB0 & _). pose proof D3 as (SC & _).
  assert (LB : length Bs = nI) by (unfold Bs; rewrite map_length, seq_length; reflexivity).
  assert (NB : forall i, (i < nI)%nat -> nthB c i = roll_rows B0 i).
  { intros i Hi. unfold nthB, c. cbn [cBs]. unfold Bs. rewrite (nth_indep _ no_mat (roll_rows B0 0)) by (rewrite map_length, seq_length; exact Hi). rewrite map_nth, seq_nth by exact Hi. reflexivity. }
  assert (SBi : forall i, (i < nI)%nat -> shaped (nthB c i) J rank).
  { intros i Hi. rewrite NB by exact Hi. destruct SB0 as (_ & R0 & C0). split; [apply mwf_mbuild|]. split; [exact R0|exact C0]. }
  assert (SA : shaped A nI rank) by (split; [apply mwf_mmap|split; [exact RU|exact CU]]).
  assert (VC : valid_cmf c).
  { destruct SA as (WA & RA & CA), SC as (WC & RC & CC). split; [exact WA|]. split; [exact WC|]. split; [cbn [cA cC c]; congruence|]. split; [cbn [cA cBs c]; congruence|]. split.
    - cbn [cBs c]. intros i Hi. rewrite LB in Hi. destruct (SBi i Hi) as (W & _ & Cc). split; [exact W|]. cbn [cA c]. now rewrite Cc.
    - intros w E. discriminate E. }
  destruct (C19_to_matrices c true VC) as (Ms & EM & LM & KM). cbn [cBs c] in LM, KM. rewrite LB in LM, KM.
  assert (SM : forall i, (i < nI)%nat -> shaped (nth i Ms no_mat) J K).
  { intros i Hi. destruct (KM i Hi) as ((Q & _) & _). rewrite (proj1 (proj2 (SBi i Hi))) in Q. cbn [cC c] in Q. rewrite (proj1 (proj2 SC)) in Q. exact Q. }
  assert (VM : forall i j k, (i < nI)%nat -> (j < J)%nat -> (k < K)%nat -> mget (nth i Ms no_mat) j k = cmf_entry c i j k).
  { intros i j k Hi Hj Hk. destruct (KM i Hi) as ((_ & Q) & _). apply Q; [now rewrite (proj1 (proj2 (SBi i Hi)))|cbn [cC c]; now rewrite (proj1 (proj2 SC))]. }
  assert (EN : exists W p4, mapS (fun M : matR => draw_mat rnd Uniform (mr M) (Z.of_nat (mc M))) Ms p3 = Ok (W, p4) /\ drawn_list rnd RandomUniform (repeat J nI) K p3 W p4).
  { destruct (draw_list_drawn rnd RandomUniform (Z.of_nat K) ltac:(discriminate) ltac:(lia) Ms p3) as (W & p4 & E & D). rewrite Nat2Z.id in D. exists W, p4.
    rewrite (map_repeat_mr Ms nI J LM (fun i Hi => proj1 (proj2 (SM i Hi)))) in D. split; [|exact D]. rewrite <- E. apply mapS_ext. intros M HM p. cbn [name_dist].
    apply In_nth with (d := no_mat) in HM as (i & Hi & <-). rewrite LM in Hi. rewrite (proj2 (proj2 (SM i Hi))). reflexivity. }
  destruct EN as (W & p4 & EW & DW). destruct (drawn_list_len _ _ _ _ _ _ _ DW) as (LW & SW). rewrite repeat_length in LW, SW.
  assert (SW' : forall i, (i < nI)%nat -> shaped (nth i W no_mat) J K) by (intros i Hi; pose proof (SW i Hi) as Q; rewrite nth_repeat_in in Q by exact Hi; exact Q).
  exists c, U, B0, H, W, p1, p2, p3, p4. split; [exact D1|]. split; [exact D2|]. split; [exact D3|]. split; [exact DW|]. split; [exact VC|]. split; [reflexivity|]. split; [exact SA|]. split; [exact SC|].
  split; [exact LB|]. split; [|split; [|split; [|cbv zeta]]].
  - intros i Hi. split; [now apply SBi|]. intros j r Hj Hr. rewrite NB by exact Hi. now rewrite (roll_entry _ J rank) by assumption.
  - intros i r Hi Hr. cbn [cA c]. unfold A. rewrite mget_mmap by (rewrite ?RU, ?CU; assumption). reflexivity.
  - reflexivity.
  - assert (UF : custom_data (N:=RNum) normal_density nI J K rank eta rnd pos = let* Xs := mapM (fun MW => add_noise (N:=RNum) eta (fst MW) (snd MW)) (combine Ms W) in Ok (c, Xs, p4)).
    { unfold custom_data. rewrite E1. cbn [bind]. rewrite E2. cbn [bind]. fold A. fold Bs. rewrite E3. cbn [bind]. fold c. rewrite revalidate_ok by exact VC. cbn [bind]. rewrite EM. cbn [bind]. rewrite EW. reflexivity. }
    assert (LC : length (combine Ms W) = nI) by (rewrite combine_length, LM, LW; apply Nat.min_id).
    assert (NC : forall i, (i < nI)%nat -> nth i (combine Ms W) (no_mat, no_mat) = (nth i Ms no_mat, nth i W no_mat)) by (intros i Hi; apply combine_nth; congruence).
    split.
    + intros NZ. destruct (Parafac2Proofs.mapM_nth [] [] eq_refl (fun MW => add_noise (N:=RNum) eta (fst MW) (snd MW)) (no_mat, no_mat) no_mat (combine Ms W)
        (fun i Y => shaped Y J K /\ same J K (mget Y) (noisy_one J K eta (cmf_entry c i) (mget (nth i W no_mat))))) as (Xs & EX & LX & KX).
      { intros i Hi. rewrite LC in Hi. rewrite NC by exact Hi. cbn [fst snd]. apply (add_noise_val _ _ J K eta (cmf_entry c i) (SM i Hi) (SW' i Hi) (fun j k => VM i j k Hi)). now apply NZ. }
      rewrite LC in LX, KX. exists Xs. split; [rewrite UF, EX; reflexivity|]. split; [exact LX|exact KX].
    + intros i Hi Z o E. rewrite UF in E. destruct (mapM _ (combine Ms W)) as [Xs|] eqn:EX; [|discriminate].
      pose proof (OrderProofs.mapM_nth _ _ _ EX i (no_mat, no_mat) no_mat ltac:(lia)) as Q. cbv beta in Q. rewrite NC in Q by exact Hi. cbn [fst snd] in Q.
      rewrite (proj2 (add_noise_val _ _ J K eta (cmf_entry c i) (SM i Hi) (SW' i Hi) (fun j k => VM i j k Hi)) Z) in Q. discriminate.
Qed.

Lemma back_0 J j : (j < J)%nat -> back J 0 j = j.
Proof. intros Hj. pose proof (back_forward J 0 j Hj) as Q. rewrite Nat.add_0_r, Nat.mod_small in Q by exact Hj. exact Q. Qed.
Lemma back_low J i j : (i < J)%nat -> (j < i)%nat -> back J i j = (j + J - i)%nat.
Proof. intros Hi Hj. unfold back. rewrite (Nat.mod_small i) by exact Hi. apply Nat.mod_small. lia. Qed.
Lemma back_high J i j : (i <= j)%nat -> (j < J)%nat -> back J i j = (j - i)%nat.
Proof. intros Hi Hj. unfold back. rewrite (Nat.mod_small i) by lia. replace (j + J - i)%nat with (j - i + 1 * J)%nat by lia. rewrite Nat.mod_add by lia. apply Nat.mod_small. lia. Qed.

(** Property C92: the simulated data of plot_custom_penalty.py, [nI], [J], [K] and [rank] being I, J, K and rank there.
    The text says that the data follow the PARAFAC2 constraint, that all components are non-negative, and that in the
    B_i all components but the last are unimodal.  The last is proved for B_0 and B_1 only; see C92_wrapped_refuted. *)
Theorem C92_custom_data_partial (nI J K rank : nat) (rnd : rand (N:=RNum)) (eta : R) (pos : nat) c Xs pos' : (0 < J)%nat -> (forall p, 0 <= rnd Uniform p < 1) ->
  custom_data (N:=RNum) normal_density nI J K rank eta rnd pos = Ok (c, Xs, pos') ->
  (* a decomposition without weights *)
  valid_cmf c /\ cw c = None /\ shaped (cA c) nI rank /\ shaped (cC c) K rank /\ length (cBs c) = nI /\ (forall i, (i < nI)%nat -> shaped (nthB c i) J rank) /\
  (* non-negative components; A is bounded away from zero *)
  (forall i r, (i < nI)%nat -> (r < rank)%nat -> 1 / 10 <= mget (cA c) i r < 11 / 10) /\
  (forall i j r, (i < nI)%nat -> (j < J)%nat -> (r < rank)%nat -> 0 <= mget (nthB c i) j r) /\
  (forall k r, (k < K)%nat -> (r < rank)%nat -> 0 <= mget (cC c) k r < 1) /\
  (* B_i is B_0 with its rows moved down i places, cyclically; so the B_i have the same cross products *)
  (forall i j r, (i < nI)%nat -> (j < J)%nat -> (r < rank)%nat -> mget (nthB c i) ((j + i) mod J) r = mget (nthB c 0) j r) /\
  (forall i, (i < nI)%nat -> forall a b, (a < rank)%nat -> (b < rank)%nat -> cross J (mget (nthB c i)) a b = cross J (mget (nthB c 0)) a b) /\
  (* all components but the last are normal densities in B_0, with means in [-10, 0) and deviations in [1/2, 3/2);
     they are unimodal in B_0 and B_1 *)
  (forall r, (0 < nI)%nat -> (S r < rank)%nat -> exists mu sigma, -10 <= mu < 0 /\ 1 / 2 <= sigma < 3 / 2 /\ forall j, (j < J)%nat -> mget (nthB c 0) j r = normal_density (grid J j) mu sigma) /\
  (forall i r, (i < 2)%nat -> (i < nI)%nat -> (S r < rank)%nat -> unimodal (component_vector J (mget (nthB c i)) r)) /\
  (* one noisy matrix for each of the represented ones; the relative noise level is the one asked for in every matrix *)
  length Xs = nI /\
  forall i, (i < nI)%nat -> shaped (nth i Xs no_mat) J K /\ fdist J K (mget (nth i Xs no_mat)) (cmf_entry c i) = Rabs eta * fnorm J K (cmf_entry c i).
Proof.
  intros HJ HU E. destruct rank as [|m]; [exfalso; revert E; unfold custom_data; destruct (draw_mat _ _ _ _ _) as [[? ?]|]; discriminate|].
  destruct (custom_ok nI J K m rnd eta pos HJ) as (c' & U & B0 & H & W & p1 & p2 & p3 & p4 & D1 & D2 & D3 & D4 & VC & CW & SA & SC & LB & HB & VA & VCC & OKs & BAD).
  set (rank := S m) in *. cbv zeta in OKs, BAD.
  assert (NZ : forall i, (i < nI)%nat -> fnorm J K (mget (nth i W no_mat)) <> 0) by (intros i Hi Z; exact (BAD i Hi Z _ E)).
  destruct (OKs NZ) as (Xs' & E' & LX & KX). rewrite E in E'. assert (Q : c = c' /\ Xs = Xs' /\ pos' = p4) by (injection E'; auto). destruct Q as (<- & <- & ->). clear E' OKs BAD E.
  assert (RO : forall i j r, (i < nI)%nat -> (j < J)%nat -> (r < rank)%nat -> mget (nthB c i) j r = mget B0 (back J i j) r) by (intros i j r Hi; now apply (HB i Hi)).
  assert (R0 : forall j r, (0 < nI)%nat -> (j < J)%nat -> (r < rank)%nat -> mget (nthB c 0) j r = mget B0 j r) by (intros j r Hn Hj Hr; rewrite RO by assumption; now rewrite back_0).
  destruct D2 as (SB & V1 & V2).
  assert (PB : forall j r, (j < J)%nat -> (r < rank)%nat -> 0 <= mget B0 j r).
  { intros j r Hj Hr. destruct (Nat.eq_dec (S r) rank) as [Er|Er].
    - rewrite V2 by assumption. apply HU.
    - rewrite V1 by (try assumption; lia). left. apply density_pos. pose proof (HU (p1 + 2 * r)%nat). lra. }
  assert (ND : forall r, (S r < rank)%nat -> no_dip J (fun j => mget B0 j r) /\ mget B0 (J - 1) r <= mget B0 0 r).
  { intros r Hr. pose proof (HU (p1 + 2 * r)%nat) as U1. pose proof (HU (p1 + 2 * r + 1)%nat) as U2. split.
    - intros i j k Hij Hjk Hk. rewrite !V1 by (try assumption; lia). revert i j k Hij Hjk Hk. apply density_no_dip; [lra|apply grid_le].
    - rewrite !V1 by (try assumption; lia). apply density_le; [lra|]. rewrite grid_0. destruct (Nat.eq_dec J 1) as [->|NJ]; [rewrite grid_0; lra|].
      rewrite grid_last by lia. rewrite (Rabs_left1 (-10 - _)) by lra. rewrite Rabs_pos_eq by lra. lra. }
  split; [exact VC|]. split; [exact CW|]. split; [exact SA|]. split; [exact SC|]. split; [exact LB|]. split; [intros i Hi; apply (HB i Hi)|].
  split; [|split; [|split; [|split; [|split; [|split; [|split; [|split; [exact LX|]]]]]]]].
  - intros i r Hi Hr. rewrite VA by assumption. destruct D1 as (_ & _ & V). rewrite V by assumption. cbn [name_dist]. pose proof (HU (pos + (i * rank + r))%nat). lra.
  - intros i j r Hi Hj Hr. rewrite RO by assumption. apply PB; [now apply back_lt|exact Hr].
  - intros k r Hk Hr. rewrite VCC by assumption. destruct D3 as (_ & _ & V). rewrite V by assumption. apply HU.
  - intros i j r Hi Hj Hr. rewrite RO; [|exact Hi|apply Nat.mod_upper_bound; lia|exact Hr]. rewrite back_forward by exact Hj. symmetry. apply R0; [lia|exact Hj|exact Hr].
  - intros i Hi a b Ha Hb. unfold cross. rewrite !Sum_rsum. set (f := fun j => mget B0 j a * mget B0 j b).
    transitivity (rsum J f); [|apply rsum_ext; intros j Hj; unfold f; rewrite !R0 by (try lia; assumption); reflexivity].
    rewrite <- (rsum_shift J (J - i mod J) f) by lia. apply rsum_ext. intros j Hj. rewrite !RO by assumption. rewrite !back_shift by lia. reflexivity.
  - intros r Hn Hr. exists (-10 + 10 * rnd Uniform (p1 + 2 * r + 1)%nat), (1 / 2 + rnd Uniform (p1 + 2 * r)%nat).
    pose proof (HU (p1 + 2 * r)%nat) as U1. pose proof (HU (p1 + 2 * r + 1)%nat) as U2. split; [lra|]. split; [lra|]. intros j Hj. rewrite R0 by (try assumption; lia). now apply V1.
  - intros i r H2 Hi Hr. destruct (ND r Hr) as (ND1 & ND2). apply no_dip_unimodal; [exact HJ|]. destruct i as [|[|i]]; [| |lia].
    + intros a b d Hab Hbd Hd. rewrite !R0 by (try assumption; lia). now apply ND1.
    + intros a b d Hab Hbd Hd. rewrite !RO by (try assumption; lia). destruct (Nat.eq_dec J 1) as [->|NJ].
      { assert (Q : forall j, (j < 1)%nat -> back 1 1 j = 0%nat) by (intros j Hj; pose proof (back_lt 1 1 j ltac:(lia)); lia). rewrite !Q by lia. apply Rmin_l. }
      destruct b as [|b]; [replace a with 0%nat by lia; apply Rmin_l|]. rewrite (back_high J 1 (S b)), (back_high J 1 d) by lia. destruct a as [|a].
      * rewrite (back_low J 1 0) by lia. pose proof (ND1 0%nat (S b - 1)%nat (d - 1)%nat ltac:(lia) ltac:(lia) ltac:(lia)) as Q. cbv beta in Q. apply Rle_trans with (2 := Q).
        change (0 + J - 1)%nat with (J - 1)%nat. apply Rle_min_compat_r. exact ND2.
      * rewrite (back_high J 1 (S a)) by lia. apply (ND1 (S a - 1)%nat (S b - 1)%nat (d - 1)%nat); lia.
  - intros i Hi. destruct (KX i Hi) as (S1 & S2). split; [exact S1|].
    rewrite <- (noisy_one_level J K eta (cmf_entry c i) (mget (nth i W no_mat)) (NZ i Hi)). unfold fdist. f_equal. rewrite !dist2_rsum. apply rsum_ext. intros j Hj. apply rsum_ext. intros k Hk. now rewrite S2.
Qed.
Print Assumptions C92_custom_data_partial.

(** Moving rows cyclically brings the end of the density to the front: from B_2 on none of the components that the text
    calls unimodal is. *)
Theorem C92_wrapped_refuted (nI J K rank : nat) (rnd : rand (N:=RNum)) (eta : R) (pos : nat) c Xs pos' : (3 <= J)%nat -> (forall p, 0 <= rnd Uniform p < 1) ->
  custom_data (N:=RNum) normal_density nI J K rank eta rnd pos = Ok (c, Xs, pos') ->
  forall i r, (2 <= i)%nat -> (i < nI)%nat -> (i < J)%nat -> (S r < rank)%nat -> ~ unimodal (component_vector J (mget (nthB c i)) r).
Proof.
  intros HJ HU E i r H2 Hi HiJ Hr. pose proof (C92_custom_data_partial nI J K rank rnd eta pos c Xs pos' ltac:(lia) HU E) as (_ & _ & _ & _ & _ & _ & _ & _ & _ & RO & _ & V & _).
  destruct (V r ltac:(lia) Hr) as (mu & s & Hmu & Hs & V').
  assert (R' : forall j, (j < J)%nat -> mget (nthB c i) ((j + i) mod J) r = normal_density (grid J j) mu s) by (intros j Hj; rewrite RO by (try assumption; lia); now apply V').
  pose proof (R' (J - 2)%nat ltac:(lia)) as Q2. pose proof (R' (J - 1)%nat ltac:(lia)) as Q1. pose proof (R' 0%nat ltac:(lia)) as Q0.
  replace (J - 2 + i)%nat with (i - 2 + 1 * J)%nat in Q2 by lia. replace (J - 1 + i)%nat with (i - 1 + 1 * J)%nat in Q1 by lia. cbn [Nat.add] in Q0.
  rewrite Nat.mod_add, Nat.mod_small in Q2 by lia. rewrite Nat.mod_add, Nat.mod_small in Q1 by lia. rewrite Nat.mod_small in Q0 by lia.
  pose proof (grid_before J HJ) as GB. rewrite grid_last in Q1 by lia. rewrite grid_0 in Q0.
  apply (dip_not_unimodal J _ r (i - 2) (i - 1) i); try lia.
  - rewrite Q1, Q2. apply density_lt; [lra|]. rewrite !Rabs_pos_eq by lra. lra.
  - rewrite Q1, Q0. apply density_lt; [lra|]. rewrite (Rabs_left1 (-10 - mu)), Rabs_pos_eq by lra. lra.
Qed.
Print Assumptions C92_wrapped_refuted.

(** It succeeds for all numbers that a generator gives other than zero. *)
Theorem C92_succeeds (nI J K rank : nat) (rnd : rand (N:=RNum)) (eta : R) (pos : nat) : (0 < J)%nat -> (0 < K)%nat -> (0 < rank)%nat -> (forall p, 0 < rnd Uniform p) ->
  exists o, custom_data (N:=RNum) normal_density nI J K rank eta rnd pos = Ok o.
Proof.
  intros HJ HK HR HP. destruct rank as [|m]; [lia|]. destruct (custom_ok nI J K m rnd eta pos HJ) as (c & U & B0 & H & W & p1 & p2 & p3 & p4 & _ & _ & _ & D4 & _ & _ & _ & _ & _ & _ & _ & _ & OKs & _). cbv zeta in OKs.
  destruct OKs as (Xs & E & _); [|now exists (c, Xs, p4)].
  intros i Hi Z. apply fnorm_zero with (j := 0%nat) (k := 0%nat) in Z; [|assumption|assumption].
  assert (P : forall sizes q l q', drawn_list rnd RandomUniform sizes K q l q' -> forall i, (i < length sizes)%nat -> (0 < nth i sizes 0)%nat -> 0 < mget (nth i l no_mat) 0 0).
  { clear - HP HK. induction sizes as [|s sizes IH]; intros q l q' D i Hi Hs; [cbn in Hi; lia|].
    destruct l as [|M l]; [destruct D|]. destruct D as (q1 & D1 & D2). destruct i as [|i]; [|cbn [nth length] in *; apply (IH _ _ _ D2); [lia|exact Hs]].
    cbn [nth] in *. destruct D1 as (_ & _ & V). rewrite V by assumption. apply HP. }
  specialize (P _ _ _ _ D4 i). rewrite repeat_length, nth_repeat_in in P by exact Hi. specialize (P Hi HJ). lra.
Qed.
Print Assumptions C92_succeeds.

(** The sizes of the script: the call returns, and its third matrix has a component that is not unimodal. *)
Example C92_nonvacuous : let rnd : rand (N:=RNum) := fun _ _ => 1 / 2 in (forall p, 0 <= rnd Uniform p < 1) /\
  exists c Xs pos', custom_data (N:=RNum) normal_density 10 40 15 3 (1 / 5) rnd 0 = Ok (c, Xs, pos') /\
    unimodal (component_vector 40 (mget (nthB c 1)) 0) /\ ~ unimodal (component_vector 40 (mget (nthB c 2)) 0).
Proof.
  cbv zeta. set (rnd := (fun _ _ => 1 / 2) : rand (N:=RNum)). assert (P : forall p, 0 <= rnd Uniform p < 1) by (intros p; unfold rnd; lra). split; [exact P|].
  destruct (C92_succeeds 10 40 15 3 rnd (1 / 5) 0 ltac:(lia) ltac:(lia) ltac:(lia)) as (((c & Xs) & pos') & E); [intros p; unfold rnd; lra|]. exists c, Xs, pos'. split; [exact E|]. split.
  - pose proof (C92_custom_data_partial 10 40 15 3 rnd (1 / 5) 0 c Xs pos' ltac:(lia) P E) as (_ & _ & _ & _ & _ & _ & _ & _ & _ & _ & _ & _ & Q & _). apply Q; lia.
  - apply (C92_wrapped_refuted 10 40 15 3 rnd (1 / 5) 0 c Xs pos' ltac:(lia) P E); lia.
Qed.
