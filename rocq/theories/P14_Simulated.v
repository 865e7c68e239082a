(** Properties of the simulated data: C44, C54. *)
From Coq Require Import Reals Lra Lia List Arith Bool ZArith.
From Verif Require Import Num Numpy RFacts Spec SpecFacts MatFacts ModelSpec Penalties PenaltySpec ProxProofs CoupledMatrices CmfSpec CmfProofs
  Decomp DecompSpec DecompFacts AdmmProofs InitVars InitSpec InitProofs P03_CoupledMatrices DataSim DataSpec.
Import ListNotations.
Local Open Scope R_scope.

(** ** Cyclic shifts *)
Definition back (J i j : nat) : nat := ((j + J - i mod J) mod J)%nat.
Lemma rsum_shift J s (f : nat -> R) : (s <= J)%nat -> rsum J (fun j => f ((j + s) mod J)%nat) = rsum J f.
Proof.
  intros Hs. destruct J as [|J']; [reflexivity|]. set (J := S J') in *.
  assert (E : forall g, rsum J g = rsum (J - s) g + rsum s (fun i => g (J - s + i)%nat)) by (intros g; rewrite <- rsum_split; f_equal; lia).
  assert (E2 : rsum J f = rsum s f + rsum (J - s) (fun i => f (s + i)%nat)) by (rewrite <- rsum_split; f_equal; lia).
  rewrite E, E2, Rplus_comm. f_equal.
  - apply rsum_ext. intros i Hi. f_equal. replace (J - s + i + s)%nat with (i + 1 * J)%nat by lia. rewrite Nat.mod_add by lia. apply Nat.mod_small. lia.
  - apply rsum_ext. intros i Hi. f_equal. rewrite Nat.mod_small by lia. lia.
Qed.
Lemma back_shift J i j : (0 < J)%nat -> back J i j = ((j + (J - i mod J)) mod J)%nat.
Proof. intros HJ. unfold back. pose proof (Nat.mod_upper_bound i J ltac:(lia)). f_equal. lia. Qed.
Lemma back_lt J i j : (0 < J)%nat -> (back J i j < J)%nat.
Proof. intros HJ. apply Nat.mod_upper_bound. lia. Qed.
Lemma back_forward J i j : (j < J)%nat -> back J i ((j + i) mod J) = j.
Proof.
  intros Hj. assert (J <> 0)%nat by lia. unfold back. pose proof (Nat.mod_upper_bound i J ltac:(lia)).
  replace ((j + i) mod J + J - i mod J)%nat with ((j + i) mod J + (J - i mod J))%nat by lia.
  rewrite Nat.add_mod_idemp_l by assumption.
  replace (j + i + (J - i mod J))%nat with (j + (1 + i / J) * J)%nat.
  - rewrite Nat.mod_add by assumption. now apply Nat.mod_small.
  - pose proof (Nat.div_mod i J ltac:(lia)). lia.
Qed.
Lemma roll_entry (B : matR) J rank i j r : shaped B J rank -> (j < J)%nat -> (r < rank)%nat -> mget (roll_rows B i) j r = mget B (back J i j) r.
Proof. intros (_ & ER & EC) Hj Hr. unfold roll_rows. rewrite mget_mbuild by (rewrite ?ER, ?EC; assumption). now rewrite ER. Qed.

(** ** The general simulation *)
Lemma mapS_ext {A B} (f g : A -> nat -> res (B * nat)) : forall l pos, (forall x, In x l -> forall p, f x p = g x p) -> mapS f l pos = mapS g l pos.
Proof.
  induction l as [|x l IH]; intros pos H; [reflexivity|]. cbn [mapS]. rewrite (H x (or_introl eq_refl)). destruct (g x pos) as [[y p]|]; [|reflexivity]. cbn [bind].
  rewrite IH; [reflexivity|]. intros z Hz. apply H. now right.
Qed.
Lemma stack_norm_lnorm (l : list matR) n J K (X : nat -> ent) : length l = n -> (forall i, (i < n)%nat -> shaped (nth i l no_mat) J K) ->
  (forall i j k, (i < n)%nat -> (j < J)%nat -> (k < K)%nat -> mget (nth i l no_mat) j k = X i j k) -> stack_norm l = lnorm n (fun _ => J) K X.
Proof.
  intros HL HS HX. unfold stack_norm, lnorm. rn. f_equal. transitivity (rsum n (fun i => msumsq (N:=RNum) (nth i l no_mat))); [exact (lsum_map (msumsq (N:=RNum)) l n no_mat HL)|]. apply rsum_Sum_ext. intros i Hi.
  destruct (HS i Hi) as (W & E1 & E2). rewrite msumsq_nsq, <- (sumsq_nsq _ J K E1 E2), !sumsq_rsum. apply rsum_ext. intros j Hj. apply rsum_ext. intros k Hk.
  now rewrite (HX i j k Hi Hj Hk).
Qed.
Lemma drawn_list_len rnd s c : forall rows pos l p, drawn_list rnd s rows c pos l p -> length l = length rows /\
  forall i, (i < length rows)%nat -> shaped (nth i l no_mat) (nth i rows 0%nat) c.
Proof.
  induction rows as [|r rows IH]; intros pos [|M l] p H; cbn in H; try contradiction; [split; [reflexivity|intros i Hi; cbn in Hi; lia]|].
  destruct H as (q & (D & _) & H). destruct (IH _ _ _ H) as (L & K). split; [cbn; now rewrite L|]. intros [|i] Hi; [exact D|]. apply K. cbn in Hi. lia.
Qed.
Lemma map_repeat_mr (l : list matR) n J : length l = n -> (forall i, (i < n)%nat -> mr (nth i l no_mat) = J) -> map mr l = repeat J n.
Proof.
  revert n. induction l as [|M l IH]; intros [|n] HL H; cbn in HL; try lia; [reflexivity|]. cbn. f_equal; [apply (H 0%nat); lia|]. apply IH; [lia|].
  intros i Hi. apply (H (S i)). lia.
Qed.
Lemma nth_repeat_in {A} (a d : A) n i : (i < n)%nat -> nth i (repeat a n) d = a.
Proof. revert i. induction n as [|n IH]; intros [|i] Hi; cbn; try lia; [reflexivity|]. apply IH. lia. Qed.
Lemma lnorm_zero n J K X : lnorm n (fun _ => J) K X = 0 <-> forall i j k, (i < n)%nat -> (j < J)%nat -> (k < K)%nat -> X i j k = 0.
Proof.
  assert (NN : forall i, 0 <= sumsq J K (X i)).
  { intros i. rewrite sumsq_rsum. apply rsum_nonneg. intros. apply rsum_nonneg. intros. apply pow2_ge_0. }
  unfold lnorm. rewrite Sum_rsum. split.
  - intros H i j k Hi Hj Hk. apply sqrt_eq_0 in H; [|apply rsum_nonneg; intros; apply NN].
    pose proof (rsum_nonneg_zero _ _ (fun i _ => NN i) H i Hi) as Q. cbv beta in Q. rewrite sumsq_rsum in Q.
    pose proof (rsum_nonneg_zero J _ (fun j _ => rsum_nonneg K _ (fun k _ => pow2_ge_0 (X i j k))) Q j Hj) as Q2.
    pose proof (rsum_nonneg_zero K _ (fun k _ => pow2_ge_0 (X i j k)) Q2 k Hk) as Q3. cbv beta in Q3. cbn in Q3. rewrite Rmult_1_r in Q3. now apply Rmult_integral in Q3 as [|].
  - intros H. rewrite rsum_zero; [apply sqrt_0|]. intros i Hi. rewrite sumsq_rsum. apply rsum_zero. intros j Hj. apply rsum_zero. intros k Hk. rewrite H by assumption. ring.
Qed.
Lemma simulate_ok (nI rank K J : nat) (B0 : matR) rnd (eta : R) (pos : nat) : shaped B0 J rank -> (0 < J)%nat -> exists c G U W p1 p2 p3,
  drawn rnd RandomUniform nI rank pos U p1 /\ drawn rnd RandomStandardNormal K rank p1 G p2 /\ drawn_list rnd RandomStandardNormal (repeat J nI) K p2 W p3 /\
  valid_cmf c /\ cw c = None /\ shaped (cA c) nI rank /\ shaped (cC c) K rank /\ length (cBs c) = nI /\
  (forall i, (i < nI)%nat -> nthB c i = roll_rows B0 i) /\
  (forall i r, (i < nI)%nat -> (r < rank)%nat -> mget (cA c) i r = mget U i r + 1 / 10) /\
  (forall k r, (k < K)%nat -> (r < rank)%nat -> mget (cC c) k r = Rmax 0 (mget G k r)) /\
  let noise := fun i => mget (nth i W no_mat) in
  ((exists i j k, (i < nI)%nat /\ (j < J)%nat /\ (k < K)%nat /\ noise i j k <> 0) ->
   exists Xs, simulate nI rank K B0 rnd eta pos = Ok (Xs, c, p3) /\ length Xs = nI /\
     forall i, (i < nI)%nat -> shaped (nth i Xs no_mat) J K /\ same J K (mget (nth i Xs no_mat)) (noisy nI J K eta (cmf_entry c) noise i)) /\
  ((forall i j k, (i < nI)%nat -> (j < J)%nat -> (k < K)%nat -> noise i j k = 0) -> simulate nI rank K B0 rnd eta pos = Err NonFinite).
Proof.
  intros SB0 HJ.
  destruct (draw_drawn rnd RandomUniform nI (Z.of_nat rank) pos ltac:(discriminate) ltac:(lia)) as (U & p1 & E1 & D1). cbn [name_dist] in E1. rewrite Nat2Z.id in D1.
  destruct (draw_drawn rnd RandomStandardNormal K (Z.of_nat rank) p1 ltac:(discriminate) ltac:(lia)) as (G & p2 & E2 & D2). cbn [name_dist] in E2. rewrite Nat2Z.id in D2.
  set (A := mmap (N:=RNum) (fun x => (x + nlit (Num:=RNum) 1 10)%n) U). set (Bs := map (roll_rows B0) (seq 0 nI)).
  set (C := mmap (N:=RNum) (fun x => if (x <? n0)%n then n0 else x) G). set (c := Cmf (N:=RNum) None A Bs C).
  pose proof D1 as ((WU & RU & CU) & _). pose proof D2 as ((WG & RG & CG) & _).
  assert (LB : length Bs = nI) by (unfold Bs; rewrite map_length, seq_length; reflexivity).
  assert (NB : forall i, (i < nI)%nat -> nthB c i = roll_rows B0 i).
  { intros i Hi. unfold nthB, c. cbn [cBs]. unfold Bs. rewrite (nth_indep _ no_mat (roll_rows B0 0)) by (rewrite map_length, seq_length; exact Hi). rewrite map_nth, seq_nth by exact Hi. reflexivity. }
  assert (SBi : forall i, (i < nI)%nat -> shaped (nthB c i) J rank).
  { intros i Hi. rewrite NB by exact Hi. destruct SB0 as (_ & R0 & C0). split; [apply mwf_mbuild|]. split; [exact R0|exact C0]. }
  assert (SA : shaped A nI rank) by (split; [apply mwf_mmap|split; [exact RU|exact CU]]).
  assert (SC : shaped C K rank) by (split; [apply mwf_mmap|split; [exact RG|exact CG]]).
  assert (VC : valid_cmf c).
  { destruct SA as (WA & RA & CA), SC as (WC & RC & CC). split; [exact WA|]. split; [exact WC|]. split; [cbn [cA cC c]; congruence|]. split; [cbn [cA cBs c]; congruence|]. split.
    - cbn [cBs c]. intros i Hi. rewrite LB in Hi. destruct (SBi i Hi) as (W & _ & Cc). split; [exact W|]. cbn [cA c]. now rewrite Cc.
    - intros w E. discriminate E. }
  destruct (C19_to_matrices c true VC) as (Ms & EM & LM & KM). cbn [cBs c] in LM, KM. rewrite LB in LM, KM.
  assert (SM : forall i, (i < nI)%nat -> shaped (nth i Ms no_mat) J K).
  { intros i Hi. destruct (KM i Hi) as ((Q & _) & _). rewrite (proj1 (proj2 (SBi i Hi))) in Q. cbn [cC c] in Q. rewrite (proj1 (proj2 SC)) in Q. exact Q. }
  assert (VM : forall i j k, (i < nI)%nat -> (j < J)%nat -> (k < K)%nat -> mget (nth i Ms no_mat) j k = cmf_entry c i j k).
  { intros i j k Hi Hj Hk. destruct (KM i Hi) as ((_ & Q) & _). apply Q; [now rewrite (proj1 (proj2 (SBi i Hi)))|cbn [cC c]; now rewrite (proj1 (proj2 SC))]. }
  assert (EN : exists W p3, mapS (fun M : matR => draw_mat rnd StdNormal (mr M) (Z.of_nat (mc M))) Ms p2 = Ok (W, p3) /\ drawn_list rnd RandomStandardNormal (repeat J nI) K p2 W p3).
  { destruct (draw_list_drawn rnd RandomStandardNormal (Z.of_nat K) ltac:(discriminate) ltac:(lia) Ms p2) as (W & p3 & E & D). rewrite Nat2Z.id in D. exists W, p3.
    rewrite (map_repeat_mr Ms nI J LM (fun i Hi => proj1 (proj2 (SM i Hi)))) in D. split; [|exact D]. rewrite <- E. apply mapS_ext. intros M HM p. cbn [name_dist].
    apply In_nth with (d := no_mat) in HM as (i & Hi & <-). rewrite LM in Hi. rewrite (proj2 (proj2 (SM i Hi))). reflexivity. }
  destruct EN as (W & p3 & EW & DW). destruct (drawn_list_len _ _ _ _ _ _ _ DW) as (LW & SW). rewrite repeat_length in LW, SW.
  assert (SW' : forall i, (i < nI)%nat -> shaped (nth i W no_mat) J K) by (intros i Hi; pose proof (SW i Hi) as Q; rewrite nth_repeat_in in Q by exact Hi; exact Q).
  exists c, G, U, W, p1, p2, p3. split; [exact D1|]. split; [exact D2|]. split; [exact DW|]. split; [exact VC|]. split; [reflexivity|]. split; [exact SA|]. split; [exact SC|].
  split; [exact LB|]. split; [exact NB|]. split; [|split; [|cbv zeta]].
  - intros i r Hi Hr. cbn [cA c]. unfold A. rewrite mget_mmap by (rewrite ?RU, ?CU; assumption). reflexivity.
  - intros k r Hk Hr. cbn [cC c]. unfold C. rewrite mget_mmap by (rewrite ?RG, ?CG; assumption). unfold nltb. rn. destruct (Rleb_spec 0 (mget G k r)) as [P|P]; cbn [negb].
    + now rewrite Rmax_right.
    + rewrite Rmax_left; [reflexivity|lra].
  - set (nz := fun i => rget (nth i W no_mat)).
    assert (NW : stack_norm W = lnorm nI (fun _ => J) K nz) by (apply stack_norm_lnorm; [exact LW|exact SW'|reflexivity]).
    assert (NM : stack_norm Ms = lnorm nI (fun _ => J) K (cmf_entry c)) by (apply stack_norm_lnorm; [exact LM|exact SM|exact VM]).
    assert (UF : simulate nI rank K B0 rnd eta pos = if negb (ntruthy (N:=RNum) (stack_norm W)) then Err NonFinite else
      Ok (map2 (fun M V => madd M (mscale (eta * (stack_norm Ms / stack_norm W)) V)) Ms W, c, p3)).
    { unfold simulate. rewrite E1. cbn [bind]. rewrite E2. cbn [bind]. fold A. fold Bs. fold C. fold c. rewrite revalidate_ok by exact VC. cbn [bind]. rewrite EM. cbn [bind]. rewrite EW. reflexivity. }
    split.
    + intros (i0 & j0 & k0 & Hi0 & Hj0 & Hk0 & NZ). rewrite UF.
      assert (T : ntruthy (N:=RNum) (stack_norm W) = true).
      { apply ntruthy_R. rewrite NW. intros Z. apply NZ. exact (proj1 (lnorm_zero _ _ _ _) Z i0 j0 k0 Hi0 Hj0 Hk0). }
      rewrite T. cbn [negb]. eexists. split; [reflexivity|]. split; [rewrite length_map2, LM, LW; apply Nat.min_id|].
      intros i Hi. rewrite (nth_map2 _ Ms W i no_mat no_mat no_mat) by (rewrite ?LM, ?LW; exact Hi). destruct (SM i Hi) as (WM & RM & CM). destruct (SW' i Hi) as (WW & RW & CW).
      split; [split; [apply mwf_madd|split; [exact RM|exact CM]]|]. intros j k Hj Hk. rewrite mget_madd by (rewrite ?RM, ?CM; assumption).
      rewrite mget_mscale by (rewrite ?RW, ?CW; assumption). unfold noisy. rewrite (VM i j k Hi Hj Hk), NM, NW. reflexivity.
    + intros Z. rewrite UF. assert (T : ntruthy (N:=RNum) (stack_norm W) = false) by (apply ntruthy_R_false; rewrite NW; now apply lnorm_zero). rewrite T. reflexivity.
Qed.

(** ** C44 *)
(** The noise has exactly the requested size relative to the clean data. *)
Lemma noisy_level n J K eta M W : lnorm n (fun _ => J) K W <> 0 ->
  ldist n (fun _ => J) K (noisy n J K eta M W) M = Rabs eta * lnorm n (fun _ => J) K M.
Proof.
  intros NZ. set (a := lnorm n (fun _ => J) K M) in *. set (b := lnorm n (fun _ => J) K W) in *.
  assert (NN : forall X : nat -> ent, 0 <= Sum n (fun i => sumsq J K (X i))).
  { intros X. rewrite Sum_rsum. apply rsum_nonneg. intros. rewrite sumsq_rsum. apply rsum_nonneg. intros. apply rsum_nonneg. intros. apply pow2_ge_0. }
  assert (E : Sum n (fun i => dist2 J K (noisy n J K eta M W i) (M i)) = (eta * (a / b)) ^ 2 * Sum n (fun i => sumsq J K (W i))).
  { rewrite !Sum_rsum, <- rsum_scal. apply rsum_ext. intros i Hi. rewrite dist2_rsum, sumsq_rsum, <- rsum_scal. apply rsum_ext. intros j Hj. rewrite <- rsum_scal. apply rsum_ext. intros k Hk.
    unfold noisy. fold a. fold b. ring. }
  unfold ldist. rewrite E. assert (Sum n (fun i => sumsq J K (W i)) = b * b) as -> by (unfold b, lnorm; now rewrite sqrt_sqrt by apply NN).
  replace ((eta * (a / b)) ^ 2 * (b * b)) with (Rsqr (eta * a)) by (unfold Rsqr; field; exact NZ). rewrite sqrt_Rsqr_abs, Rabs_mult. f_equal. apply Rabs_pos_eq. apply sqrt_pos.
Qed.
Lemma time_point_R j : time_point (N:=RNum) j = -10 + 20 * INR j / 49.
Proof. unfold time_point. rn. rewrite minus_IZR, mult_IZR, <- INR_IZR_INZ. lra. Qed.
Lemma blueprint_shaped pdf : shaped (B_blueprint (N:=RNum) pdf) 50 3.
Proof. split; [apply mwf_mbuild|split; reflexivity]. Qed.
Lemma blueprint_entry pdf j r : (j < 50)%nat -> (r < 3)%nat -> mget (B_blueprint (N:=RNum) pdf) j r = pdf (-10 + 20 * INR j / 49) (mean_of r).
Proof.
  intros Hj Hr. unfold B_blueprint, of_cols. cbn [length]. rewrite mget_mbuild by assumption.
  assert (E : forall z, IZR z / 1 = IZR z) by (intros; lra).
  destruct r as [|[|[|r]]]; [| | |lia]; cbn [nth mean_of]; rewrite vget_vbuild by exact Hj; rewrite time_point_R; rn; rewrite E; reflexivity.
Qed.
Theorem C44_simulated_data (pdf : R -> R -> R) rnd (eta : R) (pos : nat) (Xs : list matR) (c : rcmf) (pos' : nat) :
  get_simple_simulated_data (N:=RNum) pdf rnd eta pos = Ok (Xs, c, pos') ->
  (* the factorization *)
  valid_cmf c /\ cw c = None /\ shaped (cA c) 15 3 /\ shaped (cC c) 20 3 /\ length (cBs c) = 15%nat /\
  (forall i, (i < 15)%nat -> shaped (nthB c i) 50 3) /\
  ((forall n, 0 <= rnd Uniform n <= 1) -> entries 15 3 (fun x => 1 / 10 <= x <= 11 / 10) (mget (cA c))) /\
  entries 20 3 (fun x => 0 <= x) (mget (cC c)) /\
  (* shifting densities with a common cross product *)
  (forall j r, (j < 50)%nat -> (r < 3)%nat -> mget (nthB c 0) j r = pdf (-10 + 20 * INR j / 49) (mean_of r)) /\
  (forall i j r, (i < 15)%nat -> (j < 50)%nat -> (r < 3)%nat -> mget (nthB c i) ((j + i) mod 50) r = mget (nthB c 0) j r) /\
  (forall i, (i < 15)%nat -> same 3 3 (cross 50 (mget (nthB c i))) (cross 50 (mget (nthB c 0)))) /\
  ((forall t m, 0 <= pdf t m) -> forall i, (i < 15)%nat -> entries 50 3 (fun x => 0 <= x) (mget (nthB c i))) /\
  (* the noisy matrices *)
  length Xs = 15%nat /\ (forall i, (i < 15)%nat -> shaped (nth i Xs no_mat) 50 20) /\
  (exists W p, drawn_list rnd RandomStandardNormal (repeat 50%nat 15) 20 p W pos' /\
     forall i, (i < 15)%nat -> same 50 20 (mget (nth i Xs no_mat)) (noisy 15 50 20 eta (cmf_entry c) (fun i => mget (nth i W no_mat)) i)) /\
  ldist 15 (fun _ => 50%nat) 20 (fun i => mget (nth i Xs no_mat)) (cmf_entry c) = Rabs eta * lnorm 15 (fun _ => 50%nat) 20 (cmf_entry c).
Proof.
  intros H. unfold get_simple_simulated_data in H.
  destruct (simulate_ok 15 3 20 50 (B_blueprint (N:=RNum) pdf) rnd eta pos (blueprint_shaped pdf) ltac:(lia)) as (c' & G & U & W & p1 & p2 & p3 & D1 & D2 & D3 & VC & CW & SA & SC & LB & NB & VA & VCC & OKs & BAD).
  destruct (drawn_list_len _ _ _ _ _ _ _ D3) as (LW & SW). rewrite repeat_length in LW, SW.
  assert (DEC : (forall i j k, (i < 15)%nat -> (j < 50)%nat -> (k < 20)%nat -> rget (nth i W no_mat) j k = 0) \/
     lnorm 15 (fun _ => 50%nat) 20 (fun i => rget (nth i W no_mat)) <> 0).
  { destruct (Req_dec (lnorm 15 (fun _ => 50%nat) 20 (fun i => rget (nth i W no_mat))) 0) as [Z|Z]; [left|now right]. exact (proj1 (lnorm_zero _ _ _ _) Z). }
  destruct DEC as [Z|Z]; [rewrite (BAD Z) in H; discriminate H|].
  assert (EX : exists i j k, (i < 15)%nat /\ (j < 50)%nat /\ (k < 20)%nat /\ rget (nth i W no_mat) j k <> 0).
  { apply Classical_Prop.NNPP. intros N. apply Z. apply lnorm_zero. intros i j k Hi Hj Hk. apply Classical_Prop.NNPP. intros N2. apply N. eauto 10. }
  destruct (OKs EX) as (Xs' & E & LX & KX). rewrite E in H.
  assert (H2 : Xs' = Xs /\ c' = c /\ p3 = pos') by (injection H; auto). destruct H2 as (-> & -> & ->). clear H E OKs BAD.
  assert (RO : forall i j r, (i < 15)%nat -> (j < 50)%nat -> (r < 3)%nat -> mget (nthB c i) j r = rget (B_blueprint (N:=RNum) pdf) (back 50 i j) r).
  { intros i j r Hi Hj Hr. rewrite NB by exact Hi. apply roll_entry with (rank := 3%nat); [apply blueprint_shaped|exact Hj|exact Hr]. }
  assert (B0 : forall j r, (j < 50)%nat -> (r < 3)%nat -> mget (nthB c 0) j r = rget (B_blueprint (N:=RNum) pdf) j r).
  { intros j r Hj Hr. rewrite RO by (try lia; assumption). f_equal. pose proof (back_forward 50 0 j Hj) as Q. rewrite Nat.add_0_r, Nat.mod_small in Q by exact Hj. exact Q. }
  split; [exact VC|]. split; [exact CW|]. split; [exact SA|]. split; [exact SC|]. split; [exact LB|].
  split; [intros i Hi; rewrite NB by exact Hi; split; [apply mwf_mbuild|split; reflexivity]|].
  split; [|split; [|split; [|split; [|split; [|split; [|split; [exact LX|split; [|split]]]]]]]].
  - intros P i r Hi Hr. rewrite VA by assumption. destruct D1 as (_ & _ & V). rewrite V by assumption. cbn [name_dist]. pose proof (P (pos + (i * 3 + r))%nat). lra.
  - intros k r Hk Hr. rewrite VCC by assumption. apply Rmax_l.
  - intros j r Hj Hr. rewrite B0 by assumption. now apply blueprint_entry.
  - intros i j r Hi Hj Hr. rewrite RO; [|exact Hi|apply Nat.mod_upper_bound; discriminate|exact Hr]. rewrite back_forward by exact Hj. symmetry. now apply B0.
  - intros i Hi a b Ha Hb. unfold cross. rewrite !Sum_rsum. set (f := fun j => rget (B_blueprint (N:=RNum) pdf) j a * rget (B_blueprint (N:=RNum) pdf) j b).
    transitivity (rsum 50 f); [|apply rsum_ext; intros j Hj; unfold f; rewrite !B0 by assumption; reflexivity].
    rewrite <- (rsum_shift 50 (50 - i mod 50) f) by lia. apply rsum_ext. intros j Hj. rewrite !RO by assumption. rewrite !back_shift by lia. reflexivity.
  - intros P i Hi j r Hj Hr. rewrite RO by assumption. rewrite blueprint_entry; [apply P|apply back_lt; lia|exact Hr].
  - intros i Hi. apply (KX i Hi).
  - exists W, p2. split; [exact D3|]. intros i Hi. apply (KX i Hi).
  - rewrite <- (noisy_level 15 50 20 eta (cmf_entry c) (fun i => rget (nth i W no_mat)) Z). unfold ldist. f_equal. rewrite !Sum_rsum. apply rsum_ext. intros i Hi.
    rewrite !dist2_rsum. apply rsum_ext. intros j Hj. apply rsum_ext. intros k Hk. destruct (KX i Hi) as (_ & Q). rewrite (Q j k Hj Hk). reflexivity.
Qed.
Print Assumptions C44_simulated_data.

(** The call succeeds unless every one of the 15000 noise numbers is zero. *)
Theorem C44_succeeds (pdf : R -> R -> R) rnd (eta : R) (pos : nat) :
  (exists n, (n < 15 * 1000)%nat /\ rnd StdNormal (pos + 105 + n)%nat <> 0) -> exists out, get_simple_simulated_data (N:=RNum) pdf rnd eta pos = Ok out.
Proof.
  intros (n & Hn & NZ). unfold get_simple_simulated_data.
  destruct (simulate_ok 15 3 20 50 (B_blueprint (N:=RNum) pdf) rnd eta pos (blueprint_shaped pdf) ltac:(lia)) as (c' & G & U & W & p1 & p2 & p3 & D1 & D2 & D3 & _ & _ & _ & _ & _ & _ & _ & _ & OKs & _).
  destruct D1 as (_ & P1 & _). destruct D2 as (_ & P2 & _).
  assert (EP : p2 = (pos + 105)%nat) by lia. clear P1 P2.
  assert (G0 : forall m p l q, drawn_list rnd RandomStandardNormal (repeat 50%nat m) 20 p l q -> forall i j k, (i < m)%nat -> (j < 50)%nat -> (k < 20)%nat ->
    mget (nth i l no_mat) j k = rnd StdNormal (p + (i * 1000 + j * 20 + k))%nat).
  { induction m as [|m IH]; intros p l q D i j k Hi Hj Hk; [lia|]. destruct l as [|M l]; cbn [repeat drawn_list] in D; [contradiction|].
    destruct D as (q1 & (_ & E1 & V) & D). destruct i as [|i].
    - cbn [nth]. rewrite V by assumption. cbn [name_dist]. f_equal.
    - cbn [nth]. rewrite (IH _ _ _ D) by (try assumption; lia). f_equal. rewrite E1. lia. }
  destruct OKs as (Xs & E & _).
  - exists (n / 1000)%nat, (n mod 1000 / 20)%nat, (n mod 20)%nat.
    assert (n / 1000 < 15)%nat by (apply Nat.div_lt_upper_bound; lia).
    assert (n mod 1000 / 20 < 50)%nat by (apply Nat.div_lt_upper_bound; [lia|]; pose proof (Nat.mod_upper_bound n 1000); lia).
    assert (n mod 20 < 20)%nat by (apply Nat.mod_upper_bound; lia).
    split; [assumption|]. split; [assumption|]. split; [assumption|]. rewrite (G0 _ _ _ _ D3) by assumption.
    replace (p2 + _)%nat with (pos + 105 + n)%nat; [exact NZ|]. rewrite EP.
    assert (n mod 20 = (n mod 1000) mod 20)%nat as ->.
    { pose proof (Nat.div_mod n 1000 ltac:(lia)) as Q. rewrite Q at 1. replace (1000 * (n / 1000) + n mod 1000)%nat with (n mod 1000 + (50 * (n / 1000)) * 20)%nat by lia. apply Nat.mod_add. lia. }
    pose proof (Nat.div_mod n 1000 ltac:(lia)). pose proof (Nat.div_mod (n mod 1000) 20 ltac:(lia)). lia.
  - rewrite E. eauto.
Qed.
Print Assumptions C44_succeeds.

(** The documentation also calls the shifted component vectors unimodal.  This is false of the code: the
    cyclic shift moves the decreasing upper tail in front of the increasing part.  From the third matrix
    on no component vector is unimodal; those of the first matrix are. *)
Lemma gauss_lt t t' m : (t - m) ^ 2 < (t' - m) ^ 2 -> gauss t' m < gauss t m.
Proof.
  intros H. unfold gauss. apply Rmult_lt_compat_r; [apply Rinv_0_lt_compat, sqrt_lt_R0; pose proof PI_RGT_0; lra|]. apply exp_increasing. lra.
Qed.
Lemma gauss_le t t' m : (t - m) ^ 2 <= (t' - m) ^ 2 -> gauss t' m <= gauss t m.
Proof.
  intros [H|H]; [left; now apply gauss_lt|]. unfold gauss. rewrite H. apply Rle_refl.
Qed.
Lemma sq_le_neg x y : x <= y <= 0 -> y ^ 2 <= x ^ 2.
Proof. intros. nra. Qed.
Lemma sq_le_pos x y : 0 <= x <= y -> x ^ 2 <= y ^ 2.
Proof. intros. nra. Qed.
Lemma gauss_pos t m : 0 < gauss t m.
Proof. unfold gauss. apply Rdiv_lt_0_compat; [apply exp_pos|]. apply sqrt_lt_R0. pose proof PI_RGT_0. lra. Qed.
Lemma mean_cases r : (r < 3)%nat -> mean_of r = -5 \/ mean_of r = 0 \/ mean_of r = 2.
Proof. intros H. destruct r as [|[|[|r]]]; cbn; [tauto|tauto|tauto|lia]. Qed.
Lemma length_column J (M : ent) r : length (column J M r) = J.
Proof. unfold column. now rewrite map_length, seq_length. Qed.
Lemma at_column J (M : ent) r j : (j < J)%nat -> at_ (column J M r) j = M j r.
Proof. intros H. unfold column, at_. rewrite (nth_indep _ 0 (M 0%nat r)) by (rewrite map_length, seq_length; exact H). now rewrite (map_nth (fun j => M j r)), seq_nth. Qed.

Theorem C54_unimodal_refuted rnd (eta : R) (pos : nat) (Xs : list matR) (c : rcmf) (pos' : nat) :
  get_simple_simulated_data (N:=RNum) gauss rnd eta pos = Ok (Xs, c, pos') ->
  (forall r, (r < 3)%nat -> unimodal (column 50 (mget (nthB c 0)) r)) /\
  (forall i r, (2 <= i < 15)%nat -> (r < 3)%nat -> ~ unimodal (column 50 (mget (nthB c i)) r)).
Proof.
  intros H. destruct (C44_simulated_data _ _ _ _ _ _ _ H) as (_ & _ & _ & _ & _ & _ & _ & _ & B0 & BS & _). split.
  - intros r Hr. set (m := mean_of r).
    assert (T : exists t, (t < 50)%nat /\ (forall j, (j <= t)%nat -> -10 + 20 * INR j / 49 <= m) /\ (forall j, (t < j)%nat -> m <= -10 + 20 * INR j / 49)).
    { assert (G : forall t : nat, (t < 50)%nat -> -10 + 20 * INR t / 49 <= m -> m <= -10 + 20 * INR (S t) / 49 ->
        exists t, (t < 50)%nat /\ (forall j, (j <= t)%nat -> -10 + 20 * INR j / 49 <= m) /\ (forall j, (t < j)%nat -> m <= -10 + 20 * INR j / 49)).
      { intros t Ht L U. exists t. split; [exact Ht|]. split; intros j Hj; apply le_INR in Hj; lra. }
      unfold m in *. destruct r as [|[|[|r]]]; [| | |lia]; cbn [mean_of nth] in *.
      - apply (G 12%nat); [lia| |]; rewrite !INR_IZR_INZ; cbn; lra.
      - apply (G 24%nat); [lia| |]; rewrite !INR_IZR_INZ; cbn; lra.
      - apply (G 29%nat); [lia| |]; rewrite !INR_IZR_INZ; cbn; lra. }
    destruct T as (t & Ht & LO & HI).
    (* the peak is at t or t + 1 *)
    assert (UP : forall i j, (i <= j)%nat -> (j <= t)%nat -> bump i r <= bump j r).
    { intros i j Hij Hj. apply gauss_le. fold m. pose proof (LO j Hj). pose proof (LO i ltac:(lia)). apply le_INR in Hij. apply sq_le_neg; lra. }
    assert (DN : forall i j, (t < i)%nat -> (i <= j)%nat -> bump j r <= bump i r).
    { intros i j Hi Hij. apply gauss_le. fold m. pose proof (HI i Hi). pose proof (HI j ltac:(lia)). apply le_INR in Hij. apply sq_le_pos; lra. }
    assert (TS : (S t < 50)%nat).
    { destruct (Nat.eq_dec t 49) as [->|]; [|lia]. exfalso. pose proof (LO 49%nat ltac:(lia)) as Q. rewrite INR_IZR_INZ in Q. cbn [Z.of_nat Pos.of_succ_nat Pos.succ] in Q. destruct (mean_cases r Hr) as [E|[E|E]]; fold m in E; lra. }
    assert (V : forall j, (j < 50)%nat -> at_ (column 50 (mget (nthB c 0)) r) j = bump j r) by (intros j Hj; rewrite at_column by exact Hj; now apply B0).
    destruct (Rle_dec (bump t r) (bump (S t) r)) as [Q|Q].
    + exists (S t). rewrite length_column. split; [exact TS|]. split.
      * intros i j Hij Hj. rewrite !V by lia. destruct (Nat.eq_dec j (S t)) as [->|]; [|apply UP; lia]. destruct (Nat.eq_dec i (S t)) as [->|]; [apply Rle_refl|].
        apply Rle_trans with (bump t r); [apply UP; lia|exact Q].
      * intros i j Hi Hij Hj. rewrite !V by lia. apply DN; lia.
    + exists t. rewrite length_column. split; [exact Ht|]. split.
      * intros i j Hij Hj. rewrite !V by lia. apply UP; lia.
      * intros i j Hi Hij Hj. rewrite !V by lia. destruct (Nat.eq_dec i t) as [->|]; [|apply DN; lia]. destruct (Nat.eq_dec j t) as [->|]; [apply Rle_refl|].
        apply Rle_trans with (bump (S t) r); [apply DN; lia|lra].
  - intros i r Hi Hr (t & Ht & UP & DN). rewrite length_column in *.
    assert (V : forall j j0, (j < 50)%nat -> (j0 < 50)%nat -> (j0 + i = j \/ j0 + i = j + 50)%nat -> at_ (column 50 (mget (nthB c i)) r) j = bump j0 r).
    { intros j j0 Hj Hj0 E. rewrite at_column by exact Hj. replace j with ((j0 + i) mod 50)%nat.
      - rewrite BS by (try assumption; lia). now apply B0.
      - destruct E as [E|E]; rewrite E; [now apply Nat.mod_small|]. replace (j + 50)%nat with (j + 1 * 50)%nat by lia. rewrite Nat.mod_add by lia. now apply Nat.mod_small. }
    assert (V1 : at_ (column 50 (mget (nthB c i)) r) (i - 2) = bump 48 r) by (apply V; lia).
    assert (V2 : at_ (column 50 (mget (nthB c i)) r) (i - 1) = bump 49 r) by (apply V; lia).
    assert (V3 : at_ (column 50 (mget (nthB c i)) r) (i + 25) = bump 25 r) by (apply V; lia).
    assert (Q1 : bump 49 r < bump 48 r).
    { apply gauss_lt. rewrite !INR_IZR_INZ. cbn [Z.of_nat Pos.of_succ_nat Pos.succ]. destruct (mean_cases r Hr) as [E|[E|E]]; rewrite E; lra. }
    assert (Q2 : bump 49 r < bump 25 r).
    { apply gauss_lt. rewrite !INR_IZR_INZ. cbn [Z.of_nat Pos.of_succ_nat Pos.succ]. destruct (mean_cases r Hr) as [E|[E|E]]; rewrite E; lra. }
    destruct (Nat.le_gt_cases (i - 1) t) as [C|C].
    + pose proof (UP (i - 2) (i - 1) ltac:(lia) C)%nat. lra.
    + pose proof (DN (i - 1) (i + 25) ltac:(lia) ltac:(lia) ltac:(lia))%nat. lra.
Qed.
Print Assumptions C54_unimodal_refuted.

(** ** A concrete call meeting the hypotheses *)
Example ex_simulated : exists Xs c pos',
  get_simple_simulated_data (N:=RNum) gauss (fun d n => match d with Uniform => 1 / 2 | StdNormal => 1 - 2 * INR (n mod 2) end) (2 / 10) 7 = Ok (Xs, c, pos') /\
  (forall n, 0 <= (fun d (n : nat) => match d with Uniform => 1 / 2 | StdNormal => 1 - 2 * INR (n mod 2) end) Uniform n <= 1) /\ forall t m, 0 <= gauss t m.
Proof.
  destruct (C44_succeeds gauss (fun d n => match d with Uniform => 1 / 2 | StdNormal => 1 - 2 * INR (n mod 2) end) (2 / 10) 7) as (((Xs & c) & p) & E).
  - exists 0%nat. split; [lia|]. replace ((7 + 105 + 0) mod 2)%nat with 0%nat by reflexivity. cbn. lra.
  - exists Xs, c, p. split; [exact E|]. split; [intros; lra|]. intros. left. apply gauss_pos.
Qed.
