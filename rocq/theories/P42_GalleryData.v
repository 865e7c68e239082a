(** Properties of the scripts of the example gallery: C85 (simulated data). *)
From Coq Require Import Reals Lra Lia List Arith Bool ZArith.
From Verif Require Import Num Numpy RFacts Spec SpecFacts MatFacts ModelSpec Penalties PenaltySpec ProxProofs CoupledMatrices CmfSpec CmfProofs
  Decomp DecompSpec DecompFacts AdmmProofs InitVars InitSpec InitProofs P03_CoupledMatrices DataSim DataSpec P14_Simulated OrderProofs Gallery.
Import ListNotations.
Local Open Scope R_scope.
Local Notation shaped := PenaltySpec.shaped.

Lemma clip_Rmax (x : R) : (if nltb (N:=RNum) x n0 then n0 else x) = Rmax 0 x.
Proof. unfold nltb. rn. destruct (Rleb_spec 0 x) as [P|P]; cbn [negb]; [now rewrite Rmax_right|rewrite Rmax_left; [reflexivity|lra]]. Qed.
Lemma mnorm_fnorm (M : matR) J K (X : ent) : shaped M J K -> (forall j k, (j < J)%nat -> (k < K)%nat -> mget M j k = X j k) -> mnorm (N:=RNum) M = fnorm J K X.
Proof.
  intros (_ & E1 & E2) HX. unfold mnorm, fnorm. rn. f_equal. rewrite msumsq_nsq, <- (sumsq_nsq _ J K E1 E2), !sumsq_rsum. apply rsum_ext. intros j Hj. apply rsum_ext. intros k Hk. now rewrite HX.
Qed.
Lemma sumsq_nonneg J K X : 0 <= sumsq J K X.
Proof. rewrite sumsq_rsum. apply rsum_nonneg. intros. apply rsum_nonneg. intros. apply pow2_ge_0. Qed.
Lemma fnorm_zero J K X : fnorm J K X = 0 <-> forall j k, (j < J)%nat -> (k < K)%nat -> X j k = 0.
Proof.
  unfold fnorm. split.
  - intros H j k Hj Hk. apply sqrt_eq_0 in H; [|apply sumsq_nonneg]. rewrite sumsq_rsum in H.
    pose proof (rsum_nonneg_zero J _ (fun j _ => rsum_nonneg K _ (fun k _ => pow2_ge_0 (X j k))) H j Hj) as Q2.
    pose proof (rsum_nonneg_zero K _ (fun k _ => pow2_ge_0 (X j k)) Q2 k Hk) as Q3. cbv beta in Q3. cbn in Q3. rewrite Rmult_1_r in Q3. now apply Rmult_integral in Q3 as [|].
  - intros H. rewrite sumsq_rsum, rsum_zero; [apply sqrt_0|]. intros j Hj. apply rsum_zero. intros k Hk. rewrite H by assumption. ring.
Qed.
(** Noise of one matrix by itself. *)
Definition noisy_one (J K : nat) (eta : R) (M W : ent) : ent := fun j k => M j k + eta * (fnorm J K M / fnorm J K W) * W j k.
Lemma noisy_one_level J K eta M W : fnorm J K W <> 0 -> fdist J K (noisy_one J K eta M W) M = Rabs eta * fnorm J K M.
Proof.
  intros NZ. set (a := fnorm J K M). set (b := fnorm J K W) in *.
  assert (E : dist2 J K (noisy_one J K eta M W) M = (eta * (a / b)) ^ 2 * sumsq J K W).
  { rewrite dist2_rsum, sumsq_rsum, <- rsum_scal. apply rsum_ext. intros j Hj. rewrite <- rsum_scal. apply rsum_ext. intros k Hk. unfold noisy_one. fold a. fold b. ring. }
  unfold fdist. rewrite E. assert (sumsq J K W = b * b) as -> by (unfold b, fnorm; now rewrite sqrt_sqrt by apply sumsq_nonneg).
  replace ((eta * (a / b)) ^ 2 * (b * b)) with (Rsqr (eta * a)) by (unfold Rsqr; field; exact NZ). rewrite sqrt_Rsqr_abs, Rabs_mult. f_equal. apply Rabs_pos_eq. apply sqrt_pos.
Qed.
Lemma add_noise_val (M W : matR) (J K : nat) (eta : R) (X : ent) : shaped M J K -> shaped W J K -> (forall j k, (j < J)%nat -> (k < K)%nat -> mget M j k = X j k) ->
  (fnorm J K (mget W) <> 0 -> exists Y, add_noise (N:=RNum) eta M W = Ok Y /\ shaped Y J K /\ same J K (mget Y) (noisy_one J K eta X (mget W))) /\
  (fnorm J K (mget W) = 0 -> add_noise (N:=RNum) eta M W = Err NonFinite).
Proof.
  intros SM SW HX. unfold add_noise. pose proof (mnorm_fnorm W J K (mget W) SW (fun _ _ _ _ => eq_refl)) as NW. pose proof (mnorm_fnorm M J K X SM HX) as NM. rewrite NW, NM. split.
  - intros NZ. rewrite (proj2 (ntruthy_R _) NZ). eexists. split; [reflexivity|]. destruct SM as (WM & RM & CM), SW as (WW & RW & CW). split; [split; [apply mwf_madd|split; assumption]|].
    intros j k Hj Hk. rewrite mget_madd by (rewrite ?RM, ?CM; assumption). rewrite mget_mmap by (rewrite ?RW, ?CW; assumption). unfold noisy_one. rewrite HX by assumption. rn. field. exact NZ.
  - intros Z. rewrite (proj2 (ntruthy_R_false _) Z). reflexivity.
Qed.

Lemma gallery_ok (tc : bool) (nI J K rank : nat) rnd (eta : R) (pos : nat) : (0 < J)%nat -> exists c U G H W p1 p2 p3 p4,
  drawn rnd RandomUniform nI rank pos U p1 /\ drawn rnd RandomStandardNormal J rank p1 G p2 /\ drawn rnd RandomStandardNormal K rank p2 H p3 /\ drawn_list rnd RandomUniform (repeat J nI) K p3 W p4 /\
  valid_cmf c /\ cw c = None /\ shaped (cA c) nI rank /\ shaped (cC c) K rank /\ length (cBs c) = nI /\
  (forall i, (i < nI)%nat -> shaped (nthB c i) J rank /\ forall j r, (j < J)%nat -> (r < rank)%nat -> mget (nthB c i) j r = Rmax 0 (mget G (back J i j) r)) /\
  (forall i r, (i < nI)%nat -> (r < rank)%nat -> mget (cA c) i r = mget U i r + 1 / 10) /\
  (forall k r, (k < K)%nat -> (r < rank)%nat -> mget (cC c) k r = if tc then Rmax 0 (mget H k r) else mget H k r) /\
  let noise i := mget (nth i W no_mat) in
  ((forall i, (i < nI)%nat -> fnorm J K (noise i) <> 0) ->
   exists Xs, gallery_data tc nI J K rank eta rnd pos = Ok (c, Xs, p4) /\ length Xs = nI /\
     forall i, (i < nI)%nat -> shaped (nth i Xs no_mat) J K /\ same J K (mget (nth i Xs no_mat)) (noisy_one J K eta (cmf_entry c i) (noise i))) /\
  (forall i, (i < nI)%nat -> fnorm J K (noise i) = 0 -> forall o, gallery_data tc nI J K rank eta rnd pos <> Ok o).
Proof.
  intros HJ.
  destruct (draw_drawn rnd RandomUniform nI (Z.of_nat rank) pos ltac:(discriminate) ltac:(lia)) as (U & p1 & E1 & D1). cbn [name_dist] in E1. rewrite Nat2Z.id in D1.
  destruct (draw_drawn rnd RandomStandardNormal J (Z.of_nat rank) p1 ltac:(discriminate) ltac:(lia)) as (G & p2 & E2 & D2). cbn [name_dist] in E2. rewrite Nat2Z.id in D2.
  destruct (draw_drawn rnd RandomStandardNormal K (Z.of_nat rank) p2 ltac:(discriminate) ltac:(lia)) as (H & p3 & E3 & D3). cbn [name_dist] in E3. rewrite Nat2Z.id in D3.
  set (clip := fun x : @num RNum => if nltb (N:=RNum) x n0 then n0 else x).
  set (A := mmap (N:=RNum) (fun x => @nadd RNum x (nlit 1 10)) U). set (B0 := mmap (N:=RNum) clip G). set (Bs := map (roll_rows B0) (seq 0 nI)).
  set (C := if tc then mmap (N:=RNum) clip H else H). set (c := Cmf (N:=RNum) None A Bs C).
  pose proof D1 as ((WU & RU & CU) & _). pose proof D2 as ((WG & RG & CG) & _). pose proof D3 as ((WH & RH & CH) & _).
  assert (SB0 : shaped B0 J rank) by (split; [apply mwf_mmap|split; [exact RG|exact CG]]).
  assert (LB : length Bs = nI) by (unfold Bs; rewrite map_length, seq_length; reflexivity).
  assert (NB : forall i, (i < nI)%nat -> nthB c i = roll_rows B0 i).
  { intros i Hi. unfold nthB, c. cbn [cBs]. unfold Bs. rewrite (nth_indep _ no_mat (roll_rows B0 0)) by (rewrite map_length, seq_length; exact Hi). rewrite map_nth, seq_nth by exact Hi. reflexivity. }
  assert (SBi : forall i, (i < nI)%nat -> shaped (nthB c i) J rank).
  { intros i Hi. rewrite NB by exact Hi. destruct SB0 as (_ & R0 & C0). split; [apply mwf_mbuild|]. split; [exact R0|exact C0]. }
  assert (SA : shaped A nI rank) by (split; [apply mwf_mmap|split; [exact RU|exact CU]]).
  assert (SC : shaped C K rank) by (unfold C; destruct tc; [split; [apply mwf_mmap|split; [exact RH|exact CH]]|apply D3]).
  assert (VC : valid_cmf c).
  { destruct SA as (WA & RA & CA), SC as (WC & RC & CC). split; [exact WA|]. split; [exact WC|]. split; [cbn [cA cC c]; congruence|]. split; [cbn [cA cBs c]; congruence|]. split.
    - cbn [cBs c]. intros i Hi. rewrite LB in Hi. destruct (SBi i Hi) as (W & _ & Cc). split; [exact W|]. cbn [cA c]. now rewrite Cc.
    - intros w E. discriminate E. }
  destruct (C19_to_matrices c true VC) as (Ms & EM & LM & KM). cbn [cBs c] in LM, KM. rewrite LB in LM, KM.
  assert (SM : forall i, (i < nI)%nat -> shaped (nth i Ms no_mat) J K).
  { intros i Hi. destruct (KM i Hi) as ((Q & _) & _). rewrite (proj1 (proj2 (SBi i Hi))) in Q. cbn [cC c] in Q. rewrite (proj1 (proj2 SC)) in Q. exact Q. }
  assert (VM : forall i j k, (i < nI)%nat -> (j < J)%nat -> (k < K)%nat -> mget (nth i Ms no_mat) j k = cmf_entry c i j k).
  { intros i j k Hi Hj Hk. destruct (KM i Hi) as ((_ & Q) & _). apply Q; [now rewrite (proj1 (proj2 (SBi i Hi)))|cbn [cC c]; now rewrite (proj1 (proj2 SC))]. }
  assert (EN : exists W p4, mapS (fun M : matR => draw_mat rnd Uniform (mr M) (Z.of_nat (mc M))) Ms p3 = Ok (W, p4) /\ drawn_list rnd RandomUniform (repeat J nI) K p3 W p4).
  { destruct (draw_list_drawn rnd RandomUniform (Z.of_nat K) ltac:(discriminate) ltac:(lia) Ms p3) as (W & p4 & E & D). rewrite Nat2Z.id in D. exists W, p4.
    rewrite (map_repeat_mr Ms nI J LM (fun i Hi => proj1 (proj2 (SM i Hi)))) in D. split; [|exact D]. rewrite <- E. apply mapS_ext. intros M HM p. cbn [name_dist].
    apply In_nth with (d := no_mat) in HM as (i & Hi & <-). rewrite LM in Hi. rewrite (proj2 (proj2 (SM i Hi))). reflexivity. }
  destruct EN as (W & p4 & EW & DW). destruct (drawn_list_len _ _ _ _ _ _ _ DW) as (LW & SW). rewrite repeat_length in LW, SW.
  assert (SW' : forall i, (i < nI)%nat -> shaped (nth i W no_mat) J K) by (intros i Hi; pose proof (SW i Hi) as Q; rewrite nth_repeat_in in Q by exact Hi; exact Q).
  exists c, U, G, H, W, p1, p2, p3, p4. split; [exact D1|]. split; [exact D2|]. split; [exact D3|]. split; [exact DW|]. split; [exact VC|]. split; [reflexivity|]. split; [exact SA|]. split; [exact SC|].
  split; [exact LB|]. split; [|split; [|split; [|cbv zeta]]].
  - intros i Hi. split; [now apply SBi|]. intros j r Hj Hr. rewrite NB by exact Hi. rewrite (roll_entry _ J rank) by assumption. unfold B0.
    rewrite mget_mmap; [apply clip_Rmax|rewrite RG; now apply back_lt|rewrite CG; exact Hr].
  - intros i r Hi Hr. cbn [cA c]. unfold A. rewrite mget_mmap by (rewrite ?RU, ?CU; assumption). reflexivity.
  - intros k r Hk Hr. cbn [cC c]. unfold C. destruct tc; [|reflexivity]. rewrite mget_mmap by (rewrite ?RH, ?CH; assumption). apply clip_Rmax.
  - assert (UF : gallery_data tc nI J K rank eta rnd pos = let* Xs := mapM (fun MW => add_noise (N:=RNum) eta (fst MW) (snd MW)) (combine Ms W) in Ok (c, Xs, p4)).
    { unfold gallery_data, truncated_normal. rewrite E1. cbn [bind]. rewrite E2. cbn [bind]. fold A. fold B0. fold Bs. rewrite E3. cbn [bind].
      assert (EC : (if tc then Ok (mmap (N:=RNum) (fun x => if nltb (N:=RNum) x n0 then n0 else x) H, p3) else Ok (H, p3)) = Ok (C, p3)) by (unfold C; destruct tc; reflexivity).
      rewrite EC. cbn [bind]. unfold clip in B0. fold B0. fold Bs. fold c. rewrite revalidate_ok by exact VC. cbn [bind]. rewrite EM. cbn [bind]. rewrite EW. reflexivity. }
    assert (LC : length (combine Ms W) = nI) by (rewrite combine_length, LM, LW; apply Nat.min_id).
    assert (NC : forall i, (i < nI)%nat -> nth i (combine Ms W) (no_mat, no_mat) = (nth i Ms no_mat, nth i W no_mat)) by (intros i Hi; apply combine_nth; congruence).
    split.
    + intros NZ. destruct (Parafac2Proofs.mapM_nth [] [] eq_refl (fun MW => add_noise (N:=RNum) eta (fst MW) (snd MW)) (no_mat, no_mat) no_mat (combine Ms W)
        (fun i Y => shaped Y J K /\ same J K (mget Y) (noisy_one J K eta (cmf_entry c i) (mget (nth i W no_mat))))) as (Xs & EX & LX & KX).
      { intros i Hi. rewrite LC in Hi. rewrite NC by exact Hi. cbn [fst snd]. apply (add_noise_val _ _ J K eta (cmf_entry c i) (SM i Hi) (SW' i Hi) (fun j k => VM i j k Hi)). now apply NZ. }
      rewrite LC in LX, KX. exists Xs. split; [rewrite UF, EX; reflexivity|]. split; [exact LX|exact KX].
    + intros i Hi Z o E. rewrite UF in E. destruct (mapM _ (combine Ms W)) as [Xs|] eqn:EX; [|discriminate].
      pose proof (OrderProofs.mapM_nth _ _ _ EX i (no_mat, no_mat) no_mat ltac:(lia)) as Q. cbv beta in Q. rewrite NC in Q by exact Hi. cbn [fst snd] in Q.
      rewrite (proj2 (add_noise_val _ _ J K eta (cmf_entry c i) (SM i Hi) (SW' i Hi) (fun j k => VM i j k Hi)) Z) in Q. discriminate.
Qed.

(** Property C85: the simulated data of the gallery scripts. [gallery_data] is the part of plot_simulated_nonnegative.py
    ([truncate_C = true]) and plot_examining_different_number_of_components.py ([truncate_C = false]) that makes the
    noisy matrices; [rnd] is the generator, [pos] its position. *)
Theorem C85_gallery_data (truncate_C : bool) (nI J K rank : nat) rnd (eta : R) (pos : nat) c Xs pos' : (0 < J)%nat ->
  gallery_data (N:=RNum) truncate_C nI J K rank eta rnd pos = Ok (c, Xs, pos') ->
  (* a decomposition without weights *)
  valid_cmf c /\ cw c = None /\ shaped (cA c) nI rank /\ shaped (cC c) K rank /\ length (cBs c) = nI /\ (forall i, (i < nI)%nat -> shaped (nthB c i) J rank) /\
  (* A is bounded away from zero, B_0 is non-negative, and so is C if it is truncated *)
  ((forall p, 0 <= rnd Uniform p <= 1) -> forall i r, (i < nI)%nat -> (r < rank)%nat -> 1 / 10 <= mget (cA c) i r <= 11 / 10) /\
  (forall i j r, (i < nI)%nat -> (j < J)%nat -> (r < rank)%nat -> 0 <= mget (nthB c i) j r) /\
  (truncate_C = true -> forall k r, (k < K)%nat -> (r < rank)%nat -> 0 <= mget (cC c) k r) /\
  (* B_i is B_0 with its rows moved down i places, cyclically; so the B_i have the same cross products *)
  (forall i j r, (i < nI)%nat -> (j < J)%nat -> (r < rank)%nat -> mget (nthB c i) ((j + i) mod J) r = mget (nthB c 0) j r) /\
  (forall i, (i < nI)%nat -> forall a b, (a < rank)%nat -> (b < rank)%nat -> cross J (mget (nthB c i)) a b = cross J (mget (nthB c 0)) a b) /\
  (* one noisy matrix for each of the represented ones; the noise is a multiple of uniform numbers, and the relative
     noise level is the one asked for in every matrix by itself *)
  length Xs = nI /\
  exists W p3, drawn_list rnd RandomUniform (repeat J nI) K p3 W pos' /\
    forall i, (i < nI)%nat -> shaped (nth i Xs no_mat) J K /\
      fnorm J K (mget (nth i W no_mat)) <> 0 /\
      (forall j k, (j < J)%nat -> (k < K)%nat -> mget (nth i Xs no_mat) j k =
         cmf_entry c i j k + eta * (fnorm J K (cmf_entry c i) / fnorm J K (mget (nth i W no_mat))) * mget (nth i W no_mat) j k) /\
      fdist J K (mget (nth i Xs no_mat)) (cmf_entry c i) = Rabs eta * fnorm J K (cmf_entry c i).
Proof.
  intros HJ E. destruct (gallery_ok truncate_C nI J K rank rnd eta pos HJ) as (c' & U & G & H & W & p1 & p2 & p3 & p4 & D1 & D2 & D3 & D4 & VC & CW & SA & SC & LB & HB & VA & VCC & OKs & BAD).
  cbv zeta in OKs, BAD.
  assert (NZ : forall i, (i < nI)%nat -> fnorm J K (mget (nth i W no_mat)) <> 0) by (intros i Hi Z; exact (BAD i Hi Z _ E)).
  destruct (OKs NZ) as (Xs' & E' & LX & KX). rewrite E in E'. assert (Q : c = c' /\ Xs = Xs' /\ pos' = p4) by (injection E'; auto). destruct Q as (<- & <- & ->). clear E' OKs BAD E.
  assert (RO : forall i j r, (i < nI)%nat -> (j < J)%nat -> (r < rank)%nat -> mget (nthB c i) j r = Rmax 0 (mget G (back J i j) r)) by (intros i j r Hi; now apply (HB i Hi)).
  assert (B0 : forall j r, (0 < nI)%nat -> (j < J)%nat -> (r < rank)%nat -> mget (nthB c 0) j r = Rmax 0 (mget G j r)).
  { intros j r Hn Hj Hr. rewrite RO by assumption. do 2 f_equal. pose proof (back_forward J 0 j Hj) as Q. rewrite Nat.add_0_r, Nat.mod_small in Q by exact Hj. exact Q. }
  split; [exact VC|]. split; [exact CW|]. split; [exact SA|]. split; [exact SC|]. split; [exact LB|]. split; [intros i Hi; apply (HB i Hi)|].
  split; [|split; [|split; [|split; [|split; [|split; [exact LX|]]]]]].
  - intros P i r Hi Hr. rewrite VA by assumption. destruct D1 as (_ & _ & V). rewrite V by assumption. cbn [name_dist]. pose proof (P (pos + (i * rank + r))%nat). lra.
  - intros i j r Hi Hj Hr. rewrite RO by assumption. apply Rmax_l.
  - intros -> k r Hk Hr. rewrite VCC by assumption. apply Rmax_l.
  - intros i j r Hi Hj Hr. rewrite RO; [|exact Hi|apply Nat.mod_upper_bound; lia|exact Hr]. rewrite back_forward by exact Hj. symmetry. apply B0; [lia|exact Hj|exact Hr].
  - intros i Hi a b Ha Hb. unfold cross. rewrite !Sum_rsum. set (f := fun j => Rmax 0 (mget G j a) * Rmax 0 (mget G j b)).
    transitivity (rsum J f); [|apply rsum_ext; intros j Hj; unfold f; rewrite !B0 by (try lia; assumption); reflexivity].
    rewrite <- (rsum_shift J (J - i mod J) f) by lia. apply rsum_ext. intros j Hj. rewrite !RO by assumption. rewrite !back_shift by lia. reflexivity.
  - exists W, p3. split; [exact D4|]. intros i Hi. destruct (KX i Hi) as (S1 & S2). split; [exact S1|]. split; [now apply NZ|]. split; [exact S2|].
    rewrite <- (noisy_one_level J K eta (cmf_entry c i) (mget (nth i W no_mat)) (NZ i Hi)). unfold fdist. f_equal. rewrite !dist2_rsum. apply rsum_ext. intros j Hj. apply rsum_ext. intros k Hk. now rewrite S2.
Qed.
Print Assumptions C85_gallery_data.

(** It succeeds exactly if no noise matrix is zero; with numbers that are positive and matrices that are not empty it does. *)
Theorem C85_succeeds (truncate_C : bool) (nI J K rank : nat) rnd (eta : R) (pos : nat) : (0 < J)%nat -> (0 < K)%nat -> (forall p, 0 < rnd Uniform p) ->
  exists o, gallery_data (N:=RNum) truncate_C nI J K rank eta rnd pos = Ok o.
Proof.
  intros HJ HK HP. destruct (gallery_ok truncate_C nI J K rank rnd eta pos HJ) as (c & U & G & H & W & p1 & p2 & p3 & p4 & _ & _ & _ & D4 & _ & _ & _ & _ & _ & _ & _ & _ & OKs & _). cbv zeta in OKs.
  destruct OKs as (Xs & E & _); [|now exists (c, Xs, p4)].
  intros i Hi Z. apply fnorm_zero with (j := 0%nat) (k := 0%nat) in Z; [|assumption|assumption].
  assert (P : forall sizes q l q', drawn_list rnd RandomUniform sizes K q l q' -> forall i, (i < length sizes)%nat -> (0 < nth i sizes 0)%nat -> 0 < mget (nth i l no_mat) 0 0).
  { clear - HP HK. induction sizes as [|s sizes IH]; intros q l q' D i Hi Hs; [cbn in Hi; lia|].
    destruct l as [|M l]; [destruct D|]. destruct D as (q1 & D1 & D2). destruct i as [|i]; [|cbn [nth length] in *; apply (IH _ _ _ D2); [lia|exact Hs]].
    cbn [nth] in *. destruct D1 as (_ & _ & V). rewrite V by assumption. apply HP. }
  specialize (P _ _ _ _ D4 i). rewrite repeat_length, nth_repeat_in in P by exact Hi. specialize (P Hi HJ). lra.
Qed.
Print Assumptions C85_succeeds.

(** Three 4 x 2 matrices of rank 2 with half the noise of the data: the call returns, and the second B_i is not the first. *)
Example C85_nonvacuous : let rnd : rand (N:=RNum) := fun d p => match d with Uniform => 1 / 2 | StdNormal => INR p - 8 end in
  (forall p, 0 <= rnd Uniform p <= 1) /\ (forall p, 0 < rnd Uniform p) /\
  exists c Xs pos', gallery_data (N:=RNum) true 3 4 2 2 (1 / 2) rnd 0 = Ok (c, Xs, pos') /\ mget (nthB c 1) 0 0 <> mget (nthB c 0) 0 0 /\ fnorm 4 2 (cmf_entry c 0) <> 0.
Proof.
  cbv zeta. set (rnd := (fun d p => match d with Uniform => 1 / 2 | StdNormal => INR p - 8 end) : rand (N:=RNum)).
  assert (P1 : forall p, 0 < rnd Uniform p) by (intros p; cbn; lra). split; [intros p; cbn; lra|]. split; [exact P1|].
  destruct (gallery_ok true 3 4 2 2 rnd (1 / 2) 0 ltac:(lia)) as (c & U & G & H & W & p1 & p2 & p3 & p4 & D1 & D2 & D3 & D4 & VC & CW & SA & SC & LB & HB & VA & VCC & OKs & BAD).
  destruct (C85_succeeds true 3 4 2 2 rnd (1 / 2) 0 ltac:(lia) ltac:(lia) P1) as (o & E). cbv zeta in OKs, BAD.
  destruct OKs as (Xs & EX & _); [intros i Hi Z; exact (BAD i Hi Z o E)|]. exists c, Xs, p4. split; [exact EX|].
  destruct D1 as (_ & Q1 & V1), D2 as (_ & Q2 & V2), D3 as (_ & Q3 & V3). cbn in Q1, Q2, Q3. cbn [name_dist] in V1, V2, V3.
  assert (B00 : mget (nthB c 0) 0 0 = 0) by (rewrite (proj2 (HB 0%nat ltac:(lia))) by lia; change (back 4 0 0) with 0%nat; rewrite V2 by lia; subst p1; cbn; apply Rmax_left; lra).
  split.
  - rewrite B00, (proj2 (HB 1%nat ltac:(lia))) by lia. change (back 4 1 0) with 3%nat. rewrite V2 by lia. subst p1. cbn. rewrite Rmax_right by lra. lra.
  - intros Z. apply fnorm_zero with (j := 3%nat) (k := 0%nat) in Z; [|lia|lia]. revert Z. unfold cmf_entry, weight. rewrite CW, (proj2 (proj2 SA)). unfold Sum. cbn.
    rewrite !VA, !(proj2 (HB 0%nat ltac:(lia))), !VCC by lia. change (back 4 0 3) with 3%nat. rewrite !V1, !V2, !V3 by lia. subst p1 p2. cbn. rewrite !Rmax_right by lra. lra.
Qed.
