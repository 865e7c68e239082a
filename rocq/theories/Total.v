(** The factor updates are always defined when the systems are positive definite. *)
From Coq Require Import Reals Lra Lia List Arith Bool Classical_Prop.
From Verif Require Import Num Numpy Unimodal RFacts Spec SpecFacts MatFacts SvdFacts ModelSpec Penalties PenaltySpec
  ProxProofs TVProofs GenL2Proofs SimplexProofs Parafac2Proofs Parafac2Main PenaltyMain CoupledMatrices CmfSpec CmfProofs
  Decomp DecompSpec DecompFacts AdmmProofs AdmmB AdmmA AdmmRegs AdmmLoop AdmmOne AoState AoLoop AoRun AdmmOpt.
Import ListNotations.
Local Open Scope R_scope.

Lemma pd_finite (M : rmat) n d mu : mwf M -> mr M = n -> mc M = n -> has_svd M n d -> 0 < mu ->
  (forall Y, shaped Y 1 n -> mu * nsq Y <= mip (mmul Y M) Y) -> finite_svd d = true.
Proof.
  intros WM Hr Hc Hd Hmu HP. destruct d as [[U s] Vh]. unfold finite_svd. apply forallb_forall. intros x Hx.
  destruct (In_nth s x 0 Hx) as (i & Hi & Ei). destruct (ntruthy (N:=RNum) x) eqn:T; [reflexivity|exfalso].
  apply ntruthy_R_false in T. destruct Hd as (W1 & S1 & S2 & L & W2 & S3 & S4 & (O1 & O2 & O3 & O4)). rn.
  rewrite L in Hi. rewrite Hr, Hc in *.
  set (y := vbuild (N:=RNum) n (fun k => rget U k i)). assert (Ly : length y = n) by apply length_vbuild.
  assert (Gy : forall k, (k < n)%nat -> vg y k = rget U k i).
  { intros k Hk. unfold y. now rewrite vget_vbuild by assumption. }
  specialize (HP (rowm y) (rowm_shaped y n Ly)).
  assert (N1 : nsq (rowm y) = 1).
  { unfold nsq. rewrite (mip_rowm _ _ n) by assumption. specialize (O1 i i Hi Hi). rewrite Sum_rsum in O1.
    unfold kron in O1. rewrite Nat.eqb_refl in O1. rewrite <- O1. apply rsum_ext. intros k Hk. now rewrite Gy. }
  assert (Z : forall j, (j < n)%nat -> rget (mmul (rowm y) M) 0 j = 0).
  { intros j Hj. rewrite mget_mmul by (cbn [mr mc rowm]; rn; lia). replace (mc (rowm y)) with n by (symmetry; exact Ly).
    rewrite (rsum_ext _ _ (fun k => rsum n (fun a => rget U k i * rget U k a * (vg s a * rget Vh a j)))).
    2:{ intros k Hk. rewrite rowm_get, Gy, O4, Sum_rsum by assumption. rewrite <- rsum_scal. apply rsum_ext. intros a Ha.
        unfold at_; change (nth a s 0) with (vg s a); ring. }
    rewrite rsum_swap. apply rsum_zero.
    intros a Ha. rewrite (rsum_ext _ _ (fun k => (vg s a * rget Vh a j) * (rget U k i * rget U k a))) by (intros; ring).
    rewrite rsum_scal. specialize (O1 i a Hi Ha). rewrite Sum_rsum in O1. rewrite O1. unfold kron.
    destruct (Nat.eqb_spec i a) as [<-|_]; [|ring]. replace (vg s i) with 0; [ring|]. rewrite <- T, <- Ei. reflexivity. }
  assert (Z2 : mip (mmul (rowm y) M) (rowm y) = 0).
  { unfold mip. mshape. cbn [mr rowm]. rewrite rsum_S, rsum_0, Hc. rewrite rsum_zero; [ring|].
    intros j Hj. rewrite Z by assumption. ring. }
  rewrite N1, Z2 in HP. lra.
Qed.
Lemma ridge_finite (G : rmat) n d rho k l2 : mwf G -> mr G = n -> mc G = n ->
  (forall Y, shaped Y 1 n -> 0 <= mip (mmul Y G) Y) -> 0 < rho * INR k + l2 ->
  has_svd (ridge (N:=RNum) G rho k l2) n d -> finite_svd d = true.
Proof.
  intros W H1 H2 HP Hmu Hd. destruct (ridge_shape G rho k l2) as (M1 & M2 & M3).
  apply (pd_finite _ n d (rho * INR k + l2) M3 ltac:(congruence) ltac:(congruence) Hd Hmu).
  intros Y HY. pose proof (HP Y HY). destruct HY as (WY & Y1 & Y2). rewrite mip_ridge by (auto; congruence). unfold nsq. lra.
Qed.
Lemma well_posed_mu {A} l2 rho (regs : list A) : 0 <= l2 -> 0 <= rho -> well_posed l2 rho regs -> 0 < rho * INR (length regs) + l2.
Proof.
  intros H1 H2 [H|(H & HN)]; pose proof (pos_INR (length regs)).
  - pose proof (Rmult_le_pos _ _ H2 H0). lra.
  - destruct regs; [congruence|]. cbn [length]. rewrite S_INR. pose proof (pos_INR (length regs)).
    assert (0 <= rho * INR (length regs)) by (apply Rmult_le_pos; assumption). lra.
Qed.

(** auxiliary updates *)
Lemma fmu_total (E : ext (N:=RNum)) (p : penalty (N:=RNum)) (V : rmat) rho :
  mwf V -> (0 < mr V)%nat -> (0 < mc V)%nat -> valid_penalty p (mr V) -> ~ is_parafac2 p -> usable p rho ->
  exists X, factor_matrix_update E p V rho = Ok X.
Proof.
  intros W Hr Hc Hv NP (NS & HU).
  assert (HT : rho_free p \/ negb (ntruthy (N:=RNum) rho) = false).
  { destruct HU as [HU|HU]; [now left|right]. apply negb_false_iff. apply ntruthy_R. lra. }
  destruct p as [|lo hi|reg nn|M U s|reg l1|b nn| |nn|n ub uc]; try congruence; cbn [rho_free] in HT;
    try (destruct HT as [[]|HT]; cbn [factor_matrix_update]; rewrite HT).
  - eexists; reflexivity.
  - destruct Hv as (Hb & Hn). destruct (box_update E V rho lo hi W Hb Hn) as (X' & H1 & _). eauto.
  - destruct nn; eexists; reflexivity.
  - eexists; reflexivity.
  - cbv zeta. destruct (ntruthy (N:=RNum) l1); eexists; reflexivity.
  - eexists; reflexivity.
  - destruct (unimodality_update E V rho nn W Hr Hc) as (X' & H1 & _). eauto.
  - exfalso; apply NP; exact I.
Qed.
Lemma row_total (p : penalty (N:=RNum)) (v : list R) rho r : valid_penalty p r -> rowwise p -> usable p rho ->
  exists w, row_update (N:=RNum) p v rho = Ok w.
Proof.
  intros Hv RP (_ & HU). destruct p as [|lo hi|reg nn|M U s|reg l1|b nn| |nn|n ub uc]; try contradiction; cbn [row_update].
  - eexists; reflexivity.
  - destruct Hv as (_ & Hn). destruct lo, hi; cbn [clip_ok]; try (eexists; reflexivity). destruct Hn; congruence.
  - destruct HU as [[]|HU]. rewrite (proj2 (negb_false_iff _)) by (apply ntruthy_R; lra). destruct nn; eexists; reflexivity.
Qed.
Lemma mapM_total {A B} (f : A -> res B) (l : list A) : (forall x, In x l -> exists y, f x = Ok y) -> exists r, mapM f l = Ok r.
Proof.
  induction l as [|x l IH]; intros H; cbn [mapM]; [eexists; reflexivity|].
  destruct (H x (or_introl eq_refl)) as (y & ->). cbn [bind]. destruct IH as (r & ->); [intros; apply H; now right|].
  cbn [bind]. eexists; reflexivity.
Qed.
Lemma mreg_sub (regs : list mregR) r c : Forall (mreg_valid r c) regs -> exists l, shifted_mats regs = Ok l.
Proof.
  intros H. apply mapM_total. intros g Hg. rewrite Forall_forall in H. destruct (H g Hg) as (NP & _).
  rewrite not_pf2_sub by assumption. eexists; reflexivity.
Qed.
Lemma C_reg_total E fp (C : rmat) (g : mregR) r c : (0 < r)%nat -> (0 < c)%nat -> shaped C r c -> mreg_valid r c g ->
  usable (g_pen g) fp -> exists g', C_reg_step E fp C g = Ok g'.
Proof.
  intros Hr Hc (WC & C1 & C2) (NP & Hv & HA & HD) HU. unfold C_reg_step.
  destruct (fmu_total E (g_pen g) (madd C (g_dual g)) fp) as (X & ->); auto with mwf.
  { mshape. rn; lia. } { mshape. rn; lia. } { mshape. now rewrite C1. }
  cbn [bind]. rewrite not_pf2_sub by assumption. cbn [bind]. eexists; reflexivity.
Qed.
Lemma A_reg_total E (constant : bool) (fps : list R) (A : rmat) (g : mregR) r c : (0 < r)%nat -> (0 < c)%nat -> length fps = r ->
  shaped A r c -> mreg_valid r c g -> (forall i, (i < r)%nat -> usable (g_pen g) (vg fps i)) -> (constant = false -> rowwise (g_pen g)) ->
  exists g', A_reg_step E constant fps A g = Ok g'.
Proof.
  intros Hr Hc L (WC & C1 & C2) (NP & Hv & HA & HD) HU HR. unfold A_reg_step. cbv zeta.
  assert (K : exists X, (if constant then factor_matrix_update E (g_pen g) (madd A (g_dual g)) (vg fps 0)
              else rows_update (N:=RNum) (g_pen g) (madd A (g_dual g)) fps) = Ok X).
  { destruct constant.
    - apply fmu_total; auto with mwf. { mshape. rn; lia. } { mshape. rn; lia. } { mshape. now rewrite C1. }
    - unfold rows_update. match goal with |- context[mapM ?f ?l] => destruct (mapM_total f l) as (w & Hw); [|rewrite Hw] end.
      + intros i Hi. apply in_seq in Hi. apply (row_total _ _ _ r Hv (HR eq_refl)). apply HU. rn; lia.
      + cbn [bind]. eexists; reflexivity. }
  destruct K as (X & HX). match goal with |- context[if constant then ?a else ?b] => replace (if constant then a else b) with (Ok X) by (symmetry; exact HX) end.
  cbn [bind]. rewrite not_pf2_sub by assumption. cbn [bind]. eexists; reflexivity.
Qed.
Lemma inner_total {S} (step : S -> res S) (conv : S -> S -> res bool) (I : S -> Prop) n : forall s, I s ->
  (forall s, I s -> exists s', step s = Ok s' /\ I s' /\ exists b, conv s s' = Ok b) -> exists s', inner_loop step conv n s = Ok s'.
Proof.
  induction n as [|n IH]; intros s Hs H; cbn [inner_loop]; [eexists; reflexivity|].
  destruct (H s Hs) as (s' & -> & Hs' & b & Hb). cbn [bind]. rewrite Hb. cbn [bind]. destruct b; [eexists; reflexivity|].
  now apply IH.
Qed.

Lemma solve_shape (M : rmat) n d (b Z : rmat) : mc M = n -> has_svd M n d -> solve_mat d b = Ok Z -> shaped Z (mr b) n.
Proof.
  intros Hc Hd H. destruct d as [[U s] Vh]. unfold solve_mat in H. destruct (finite_svd _); [|discriminate]. injection H as <-.
  destruct Hd as (W1 & S1 & S2 & L & W2 & S3 & S4 & _). split; [auto with mwf|]. mshape. split; [reflexivity|congruence].
Qed.
Lemma solve_row_len (M : rmat) n d (b z : list R) : mc M = n -> has_svd M n d -> solve_row d b = Ok z -> length z = n.
Proof.
  intros Hc Hd H. destruct d as [[U s] Vh]. unfold solve_row in H. destruct (finite_svd _); [|discriminate]. injection H as <-.
  destruct Hd as (W1 & S1 & S2 & L & W2 & S3 & S4 & _). unfold vmat. rewrite length_vbuild. congruence.
Qed.
Lemma sum_mats_rows (l : list rmat) r c : mr (sum_mats (N:=RNum) r c l) = r.
Proof.
  unfold sum_mats. assert (K : forall acc : rmat, mr (fold_left (madd (N:=RNum)) l acc) = mr acc).
  { induction l as [|x l IH]; intros acc; cbn [fold_left]; [reflexivity|]. rewrite IH. reflexivity. }
  rewrite K. reflexivity.
Qed.

(** mode 1 *)
Lemma msum_some (l : list rmat) : l <> [] -> exists S, msum_list l = Some S.
Proof. destruct l; [congruence|]. intros _. eexists; reflexivity. Qed.
Lemma pf2_total E k (fms : list rmat) (rhos : list R) ub uc :
  (forall i, (i < length fms)%nat -> mwf (nth i fms no_mat) /\ mc (nth i fms no_mat) = k /\ (k <= mr (nth i fms no_mat))%nat) ->
  svd_correct E k -> length rhos = length fms -> fms <> [] -> (forall i, (i < length fms)%nat -> 0 < vg rhos i) ->
  forall n (b : list rmat) (D : rmat), shaped D k k -> basis_shape k fms b ->
  exists r, pf2_loop E ub uc fms rhos n b D = Ok r.
Proof.
  intros Hf Hsvd Hl HN HR. induction n as [|n IH]; intros b D HD Hb; cbn [pf2_loop]; [eexists; reflexivity|].
  assert (K1 : exists b', (if ub then pf2_basis E fms D else Ok b) = Ok b').
  { destruct ub; [|eexists; reflexivity]. apply mapM_total. apply (in_nth _ _ no_mat). intros i Hi.
    destruct (Hf i Hi) as (W & C & Hk). destruct HD as (WD & D1 & D2). rewrite D1.
    specialize (Hsvd (mmul (nth i fms no_mat) (mtrans D)) ltac:(auto with mwf) ltac:(mshape; congruence) ltac:(mshape; assumption)).
    destruct (x_svd E _ k) as [[U s] Vh]. destruct Hsvd as (W1 & S1 & S2 & _ & W2 & S3 & _). unfold matmul. rewrite S2, S3, Nat.eqb_refl.
    eexists; reflexivity. }
  destruct K1 as (b' & Hb1). rewrite Hb1. cbn [bind].
  assert (Hb' : basis_shape k fms b').
  { destruct ub; [|injection Hb1 as <-; assumption].
    destruct (pf2_loop_shape E k fms rhos true false Hf Hsvd Hl 1 b b' D D HD Hb) as (_ & X & _); [|exact X].
    cbn [pf2_loop]. rewrite Hb1. reflexivity. }
  assert (K2 : exists D', (if uc then pf2_coord (N:=RNum) fms b' rhos else Ok D) = Ok D').
  { destruct uc; [|eexists; reflexivity]. unfold pf2_coord. destruct (msum_some (pf2_terms (N:=RNum) fms b' rhos)) as (S & ->).
    - destruct Hb' as (Lb & _). unfold pf2_terms. intros X. apply (f_equal (@length _)) in X. rewrite length_map2, combine_length in X.
      rn. destruct fms; [congruence|]. cbn [length] in *. lia.
    - assert (T : ntruthy (N:=RNum) (lsum (N:=RNum) rhos) = true).
      { apply ntruthy_R. rewrite (lsum_len rhos (length fms)) by assumption. apply Rgt_not_eq.
        destruct fms as [|f fs]; [congruence|]. cbn [length] in *. rewrite rsum_S.
        pose proof (HR (length fs) ltac:(lia)).
        assert (0 <= rsum (length fs) (fun i => vg rhos i)) by (apply rsum_nonneg; intros i Hi; specialize (HR i ltac:(lia)); lra). lra. }
      rewrite T. eexists; reflexivity. }
  destruct K2 as (D' & HD1). rewrite HD1. cbn [bind].
  destruct (negb uc || negb ub) eqn:UU; [eexists; reflexivity|].
  apply IH; [|assumption]. destruct (pf2_loop_shape E k fms rhos ub uc Hf Hsvd Hl 1 b b' D D' HD Hb) as (X & _); [|exact X].
  cbn [pf2_loop]. rewrite Hb1. cbn [bind]. rewrite HD1. cbn [bind]. rewrite UU. reflexivity.
Qed.
Lemma matrices_total E (p : penalty (N:=RNum)) n : forall (fms : list rmat) (rhos : list R),
  (forall i, (i < length fms)%nat -> (i < length rhos)%nat -> exists X, factor_matrix_update E p (nth i fms no_mat) (vg rhos i) = Ok X) ->
  exists r, matrices_update_list E p fms rhos n = Ok r.
Proof.
  induction n as [|n IH]; intros fms rhos H; destruct fms as [|f fms]; destruct rhos as [|x rhos]; cbn [matrices_update_list]; try (eexists; reflexivity).
  destruct (H 0%nat) as (X & HX); [cbn; lia|cbn; lia|]. cbn [nth vget] in HX.
  replace (vg (x :: rhos) 0) with x in HX by reflexivity. rewrite HX. cbn [bind].
  destruct (IH fms rhos) as (r & ->); [|cbn [bind]; eexists; reflexivity].
  intros i H1 H2. apply (H (S i)); cbn [length]; rn; lia.
Qed.
Lemma breg_sub n J c (p : penalty (N:=RNum)) (a : auxes (N:=RNum)) (d d' : list rmat) : breg_valid n J c (BReg p a d) ->
  exists l, subtract_from_auxes p a d' = Ok l.
Proof.
  intros (_ & H). cbn [b_pen b_aux] in H. destruct p; destruct a; try contradiction; eexists; reflexivity.
Qed.
Lemma B_reg_total E (fps : list R) (Bs : list rmat) (g : bregR) n J c :
  (0 < n)%nat -> (0 < c)%nat -> (forall i, (i < n)%nat -> (0 < J i)%nat) -> length fps = n -> svd_correct E c ->
  list_shaped n J c Bs -> breg_valid n J c g -> (forall i, (i < n)%nat -> usable (b_pen g) (vg fps i)) ->
  exists g', B_reg_step E fps Bs g = Ok g'.
Proof.
  intros Hn Hc HJ Lf Hsvd HB Hg HU. unfold B_reg_step. cbv zeta.
  destruct (breg_valid_shape _ _ _ _ Hg) as (Ha & Hd).
  destruct (nth_map2_madd n J c Bs (b_dual g) HB Hd) as (LV & HV).
  set (V := map2 (madd (N:=RNum)) Bs (b_dual g)) in *.
  assert (K : exists a', factor_matrices_update E (b_pen g) V fps (b_aux g) = Ok a').
  { destruct g as [p a d]. cbn [b_pen b_aux b_dual] in *. destruct Hg as (_ & Hg). cbn [b_pen b_aux] in Hg.
    assert (KL : ~ is_parafac2 p -> (forall i, (i < n)%nat -> valid_penalty p (J i)) -> forall m, exists r, matrices_update_list E p V fps m = Ok r).
    { intros NP Hv m. apply matrices_total. rewrite LV. intros i Hi _. destruct (HV i Hi) as (-> & (W & S1 & S2)).
      apply fmu_total; [assumption|rewrite S1; now apply HJ|now rewrite S2|rewrite S1; now apply Hv|assumption|now apply HU]. }
    destruct p as [|lo hi|reg nn|M U s|reg l1|b nn| |nn|m ub uc]; destruct a as [l|P D]; try contradiction;
      try (destruct Hg as (_ & Hv); cbn [factor_matrices_update];
           destruct (KL (fun x => x) Hv (length l)) as (r & ->); cbn [bind]; eexists; reflexivity).
    destruct Hg as (HP & HD & HJc). cbn [factor_matrices_update].
    destruct (pf2_total E c V fps ub uc) with (n := m) (b := P) (D := D) as ([b' D'] & ->); auto.
    - intros i Hi. rewrite LV in Hi. destruct (HV i Hi) as (-> & (W & S1 & S2)). split; [assumption|]. split; [assumption|].
      rewrite S1. now apply HJc.
    - rn; lia.
    - intros X. rewrite X in LV. cbn in LV. lia.
    - intros i Hi. rewrite LV in Hi. destruct (HU i Hi) as (_ & [[]|X]). exact X.
    - destruct HP as (LP & HP). split; [rn; lia|]. intros i Hi. rewrite LV in Hi. destruct (HV i Hi) as (-> & (W & S1 & S2)).
      rewrite S1. now apply HP.
    - cbn [bind]. eexists; reflexivity. }
  destruct K as (a' & F). rewrite F. cbn [bind].
  assert (V' : exists l, subtract_from_auxes (b_pen g) a' (b_dual g) = Ok l).
  { destruct g as [p a d]. cbn [b_pen b_aux b_dual] in *. destruct Hg as (_ & Hg). cbn [b_pen b_aux] in Hg.
    destruct p as [|lo hi|reg nn|M U s|reg l1|b nn| |nn|m ub uc]; destruct a as [l|P D]; try contradiction; cbn [factor_matrices_update] in F;
      match type of F with bind ?x _ = _ => destruct x as [r|] end; try discriminate; try destruct r as [b' D']; cbn [bind] in F; injection F as <-; eexists; reflexivity. }
  destruct V' as (sh & ->). cbn [bind]. eexists; reflexivity.
Qed.

Section Modes.
Variables (E : ext (N:=RNum)) (Xs : list rmat) (c : rcmf) (l2 scale : R) (constant : bool).
Hypothesis HF : data_fits Xs c.
Hypothesis HN : nonempty c.
Hypothesis Hl2 : 0 <= l2.
Hypothesis Hsc : 0 <= scale.
Hypothesis Hsvd : svd_correct E (mc (cA c)).
Notation n := (mc (cA c)).

(** *** C *)
Lemma C_total (regs : list mregR) k tol : Forall (mreg_valid (mr (cC c)) n) regs ->
  Forall (fun g => usable (g_pen g) (rho_C scale c)) regs -> well_posed l2 (rho_C scale c) regs ->
  exists r, admm_update_C E Xs c regs l2 k tol scale = Ok r.
Proof.
  intros Hv HU HW. unfold admm_update_C.
  assert (NE : (0 < length Xs)%nat) by (destruct HF as (_ & L & _); destruct HN as (N1 & _); lia).
  destruct (nth_terms (fun _ D => mmul (mtrans D) D) Xs c no_mat HF) as (L1 & _).
  destruct (nth_terms (fun X D => mmul (mtrans X) D) Xs c no_mat HF) as (L2 & _).
  destruct (msum_some (C_lhs_terms Xs (cBs c) (cA c))) as (lhs & El).
  { unfold C_lhs_terms. intros X. rewrite X in L1. cbn in L1. lia. }
  destruct (msum_some (C_rhs_terms Xs (cBs c) (cA c))) as (rhs & Er).
  { unfold C_rhs_terms. intros X. rewrite X in L2. cbn in L2. lia. }
  rewrite El, Er. cbv zeta. set (fp := feas_penalty (N:=RNum) scale lhs).
  destruct (C_lhs_spec _ _ _ HF El) as ((W1 & S1 & S2) & HT & Hl & Ht).
  assert (Hfp : fp = rho_C scale c).
  { unfold fp. rewrite feas_penalty_scale, Ht. unfold rho_C. rewrite Rmult_1_r. apply Rmult_comm. }
  assert (Hd : has_svd (ridge (N:=RNum) lhs fp (length regs) l2) n (lhs_svd E (ridge (N:=RNum) lhs fp (length regs) l2))).
  { destruct (ridge_shape lhs fp (length regs) l2) as (M1 & M2 & M3). unfold lhs_svd. rewrite M1, S1. apply Hsvd; auto; try congruence.
    rewrite M1, S1. apply le_n. }
  assert (Fin : finite_svd (lhs_svd E (ridge (N:=RNum) lhs fp (length regs) l2)) = true).
  { apply (ridge_finite lhs n _ fp (length regs) l2); auto.
    - intros Y (WY & Y1 & Y2). rewrite Hl by assumption. apply rsum_nonneg. intros i Hi.
      destruct (DA_shape Xs c i HF Hi) as (D1 & D2 & D3 & _). rewrite gram_psd by (auto; congruence). apply nsq_nonneg.
    - rewrite Hfp. apply well_posed_mu; auto. now apply rho_C_nonneg. }
  pose (Inv := fun s : rmat * list mregR => shaped (fst s) (mr (cC c)) n /\ Forall (mreg_valid (mr (cC c)) n) (snd s) /\
     length (snd s) = length regs /\ Forall (fun g => usable (g_pen g) fp) (snd s)).
  destruct (inner_total (C_step E (lhs_svd E (ridge (N:=RNum) lhs fp (length regs) l2)) fp rhs) (conv_mat tol) Inv k (cC c, regs)) as ([C' r'] & ->).
  - split; [|split; [exact Hv|split; [reflexivity|]]].
    + destruct HF as ((_ & V2 & V3 & _) & _). split; [assumption|]. now split.
    + cbn [snd]. rewrite Hfp. exact HU.
  - intros [C1 r1] (I1 & I2 & I3 & I4). cbn [fst snd] in *.
    assert (T : exists s', C_step E (lhs_svd E (ridge (N:=RNum) lhs fp (length regs) l2)) fp rhs (C1, r1) = Ok s').
    { unfold C_step. destruct (mreg_sub _ _ _ I2) as (sh & Hsh). rewrite Hsh. cbn [bind].
      destruct (solve_mat _ _) as [Z|] eqn:HZ.
      2:{ exfalso. unfold solve_mat in HZ. destruct (lhs_svd _ _) as [[U s] Vh]. rewrite Fin in HZ. discriminate. }
      cbn [bind].
      assert (HZs : shaped Z (mr (cC c)) n).
      { destruct (C_rhs_spec _ _ _ HF Er) as ((Wr & R1 & R2) & _). destruct (ridge_shape lhs fp (length regs) l2) as (M1 & M2 & M3).
        pose proof (solve_shape _ n _ _ _ ltac:(now rewrite M2) Hd HZ) as HS.
        revert HS. mshape. rewrite sum_mats_rows, R1. auto. }
      destruct (mapM_total (C_reg_step E fp Z) r1) as (rg & ->).
      { intros g Hg. rewrite Forall_forall in I2, I4. destruct HN as (N1 & N2 & N3 & N4).
        apply (C_reg_total E fp Z g (mr (cC c)) n); auto. }
      cbn [bind]. eexists; reflexivity. }
    destruct T as ([C2 r2] & HS). exists (C2, r2). split; [assumption|].
    pose proof HS as HS'. rewrite <- I3 in HS.
    destruct (C_step_ok E Xs c l2 scale HF HN Hl2 Hsc Hsvd lhs rhs r1 r2 C1 C2 El Er I2 HS) as (K1 & K2 & K3 & K4).
    assert (K5 : Forall2 (mstep (mr (cC c)) n (rget C2)) r1 r2) by (eapply F2_impl; [|exact K4]; cbv beta; tauto).
    destruct (mstep_valid _ _ _ _ _ K5) as (V2 & LV).
    split.
    + split; [assumption|]. split; [assumption|]. split; [cbn [snd]; congruence|]. cbn [snd].
      eapply Forall2_right with (R := fun g g' => usable (g_pen g) fp /\ g_pen g' = g_pen g).
      * eapply Forall2_Forall; [exact I4|exact K5|]. intros g g' X (Y & _). now split.
      * intros g g' (X & Y). now rewrite Y.
    + destruct (conv_mat_spec tol C1 C2 r1 r2 _ _ K2 V2) as (b & E1 & _). exists b. exact E1.
  - cbn [bind]. eexists; reflexivity.
Qed.

(** *** A *)
Lemma feas_total (lhses : list rmat) : lhses <> [] -> exists fps, feas_penalties (N:=RNum) scale constant lhses = Ok fps.
Proof.
  intros H. unfold feas_penalties. destruct constant; [|eexists; reflexivity]. destruct lhses; [congruence|]. cbn [map]. eexists; reflexivity.
Qed.
Lemma A_total (regs : list mregR) k tol rho : rhos_used constant (length Xs) (rho_A scale c) rho ->
  Forall (mreg_valid (mr (cA c)) n) regs ->
  (forall i, (i < length Xs)%nat -> Forall (fun g => usable (g_pen g) (rho i)) regs /\ well_posed l2 (rho i) regs) ->
  (constant = false -> Forall (fun g => rowwise (g_pen g)) regs) ->
  exists r, admm_update_A E Xs c regs l2 k tol scale constant = Ok r.
Proof.
  intros Hrho Hv HU HR. unfold admm_update_A. cbv zeta.
  assert (NE : (0 < length Xs)%nat) by (destruct HF as (_ & L & _); destruct HN as (N1 & _); lia).
  pose proof (LX Xs c HF) as LB. pose proof (RX Xs c HF) as LA.
  set (cross := A_cross (N:=RNum) (cBs c) (cC c) Xs). set (rhses := A_rhses (N:=RNum) (cBs c) (cC c) Xs).
  assert (Lc : length cross = length Xs) by (unfold cross, A_cross; rewrite length_map2; rn; lia).
  destruct (feas_total cross) as (fps & Hf); [intros X; rewrite X in Lc; cbn in Lc; lia|]. rewrite Hf. cbn [bind].
  destruct (feas_penalties_spec _ _ _ _ Hf) as (Lf & Hrho'). rewrite Lc in Lf, Hrho'.
  assert (Hrho2 : rhos_used constant (length Xs) (rho_A scale c) (fun i => vg fps i)).
  { revert Hrho'. apply rhos_used_ext. intros i Hi. now apply A_fps_eq. }
  assert (ER : forall i, (i < length Xs)%nat -> vg fps i = rho i).
  { intros i Hi. exact (rhos_used_unique _ _ _ _ _ Hrho2 Hrho i Hi). }
  assert (PSD : forall i, (i < length Xs)%nat -> let G := cross_product (N:=RNum) (cC c) (nthB c i) in
     mwf G /\ mr G = n /\ mc G = n /\ forall Y, shaped Y 1 n -> 0 <= mip (mmul Y G) Y).
  { intros i Hi G. destruct HF as ((V1 & V2 & V3 & V4 & V5 & V6) & L & HX). destruct (V5 i ltac:(lia)) as (WB & CB).
    unfold G, cross_product. split; [auto with mwf|]. mshape. split; [congruence|]. split; [congruence|].
    intros Y HY. destruct (shaped_rowm _ _ HY) as (v & Lv & ->). apply cross_psd; auto; congruence. }
  assert (EC : forall i, (i < length Xs)%nat -> nth i (lhs_svds E cross fps (length regs) l2) (Mat 0 0 [], [], Mat 0 0 []) =
                 lhs_svd E (ridge (N:=RNum) (cross_product (N:=RNum) (cC c) (nthB c i)) (vg fps i) (length regs) l2)).
  { intros i Hi. unfold lhs_svds. rewrite (nth_map2 _ _ _ _ no_mat 0) by (rn; lia). f_equal. f_equal.
    unfold cross, A_cross. rewrite (nth_map2 _ _ _ _ no_mat no_mat) by (rn; lia). reflexivity. }
  assert (Hd : forall i, (i < length Xs)%nat -> let M := ridge (N:=RNum) (cross_product (N:=RNum) (cC c) (nthB c i)) (vg fps i) (length regs) l2 in
     mc M = n /\ has_svd M n (lhs_svd E M) /\ finite_svd (lhs_svd E M) = true).
  { intros i Hi M. destruct (PSD i Hi) as (W & G1 & G2 & GP).
    destruct (ridge_shape (cross_product (N:=RNum) (cC c) (nthB c i)) (vg fps i) (length regs) l2) as (M1 & M2 & M3). fold M in M1, M2, M3.
    assert (HS : has_svd M n (lhs_svd E M)).
    { unfold lhs_svd. rewrite M1, G1. apply Hsvd; auto; try congruence. rewrite M1, G1. apply le_n. }
    split; [congruence|]. split; [assumption|]. apply (ridge_finite _ n _ _ _ _ W G1 G2 GP) with (2 := HS).
    apply well_posed_mu; [assumption| |rewrite ER by assumption; apply (HU i Hi)].
    apply (rhos_used_nonneg _ _ _ (fun i => vg fps i) i Hrho2 Hi). intros; now apply rho_A_nonneg. }
  pose (Inv := fun s : rmat * list mregR => shaped (fst s) (mr (cA c)) n /\ Forall (mreg_valid (mr (cA c)) n) (snd s) /\
     map g_pen (snd s) = map g_pen regs).
  destruct (inner_total (A_step E constant (lhs_svds E cross fps (length regs) l2) fps rhses) (conv_mat tol) Inv k (cA c, regs)) as ([A' r'] & ->).
  - split; [|split; [exact Hv|reflexivity]]. destruct HF as ((V1 & _) & _). split; [assumption|]. now split.
  - intros [A1 r1] (I1 & I2 & I3). cbn [fst snd] in *.
    assert (I4 : length r1 = length regs) by (apply (f_equal (@length _)) in I3; now rewrite !map_length in I3).
    assert (PR : forall g, In g r1 -> exists g0, In g0 regs /\ g_pen g0 = g_pen g).
    { intros g Hg. assert (X : In (g_pen g) (map g_pen regs)) by (rewrite <- I3; now apply in_map).
      apply in_map_iff in X. destruct X as (g0 & X1 & X2). now exists g0. }
    assert (T : exists s', A_step E constant (lhs_svds E cross fps (length regs) l2) fps rhses (A1, r1) = Ok s').
    { unfold A_step. destruct (mreg_sub _ _ _ I2) as (sh & Hsh). rewrite Hsh. cbn [bind]. destruct I1 as (WA1 & A11 & A12).
      match goal with |- context[mapM ?f ?l] => destruct (mapM_total f l) as (rows & HZ) end.
      { intros i Hi. apply in_seq in Hi. rewrite EC by (rn; lia). destruct (Hd i) as (_ & _ & X); [rn; lia|].
        unfold solve_row. destruct (lhs_svd _ _) as [[U s] Vh]. rewrite X. eexists; reflexivity. }
      rewrite HZ. cbn [bind].
      apply (mapM_inv _ _ _ 0%nat (@nil R)) in HZ. rewrite seq_length in HZ. destruct HZ as (Lr & HZ).
      assert (HZs : shaped (Mat (N:=RNum) (mr A1) (mc A1) rows) (mr (cA c)) n).
      { split; [|split; cbn; assumption]. split; [exact Lr|]. apply Forall_forall. apply (in_nth _ _ (@nil R)). cbn [me mc]. intros i Hi.
        rn. rewrite Lr in Hi. specialize (HZ i Hi). rewrite seq_nth in HZ by assumption. cbn [Nat.add] in HZ. rewrite EC in HZ by (rn; lia).
        destruct (Hd i) as (X1 & X2 & _); [rn; lia|]. rewrite (solve_row_len _ n _ _ _ X1 X2 HZ). now symmetry. }
      destruct (mapM_total (A_reg_step E constant fps (Mat (N:=RNum) (mr A1) (mc A1) rows)) r1) as (rg & ->).
      { intros g Hg. destruct (PR g Hg) as (g0 & G1 & G2). rewrite Forall_forall in I2. destruct HN as (N1 & N2 & N3 & N4).
        apply (A_reg_total E constant fps _ g (mr (cA c)) n); auto.
        - rn; lia.
        - rn; lia.
        - intros i Hi. rewrite ER by (rn; lia). destruct (HU i ltac:(rn; lia)) as (X & _). rewrite Forall_forall in X. rewrite <- G2. now apply X.
        - intros X. specialize (HR X). rewrite Forall_forall in HR. rewrite <- G2. now apply HR. }
      cbn [bind]. eexists; reflexivity. }
    destruct T as ([A2 r2] & HS). exists (A2, r2). split; [assumption|].
    pose proof HS as HS'. rewrite <- I4 in HS.
    destruct (A_step_ok E Xs c l2 scale constant HF HN Hl2 Hsc Hsvd fps r1 r2 A1 A2 I1 I2 Hf HS) as (_ & _ & K2 & _ & K4).
    assert (K5 : Forall2 (mstep (mr (cA c)) n (rget A2)) r1 r2) by (eapply F2_impl; [|exact K4]; cbv beta; tauto).
    destruct (mstep_valid _ _ _ _ _ K5) as (V2 & LV).
    split.
    + split; [assumption|]. split; [assumption|]. cbn [snd]. rewrite <- I3. apply (F2_map _ _ _ _ _ K5). intros x y (X & _). exact X.
    + destruct (conv_mat_spec tol A1 A2 r1 r2 _ _ K2 V2) as (b & E1 & _). exists b. exact E1.
  - cbn [bind]. eexists; reflexivity.
Qed.

(** *** B *)
Lemma B_total (regs : list bregR) k tol rho : rhos_used constant (length Xs) (rho_B scale c) rho ->
  Forall (breg_valid (length Xs) (rowsB c) n) regs ->
  (forall i, (i < length Xs)%nat -> Forall (fun g => usable (b_pen g) (rho i)) regs /\ well_posed l2 (rho i) regs) ->
  exists r, admm_update_B E Xs c regs l2 k tol scale constant = Ok r.
Proof.
  intros Hrho Hv HU. unfold admm_update_B. cbv zeta.
  assert (NE : (0 < length Xs)%nat) by (destruct HF as (_ & L & _); destruct HN as (N1 & _); lia).
  pose proof (LX Xs c HF) as LB. pose proof (RX Xs c HF) as LA. destruct (HF_len Xs c HF) as (_ & LM).
  set (lhses := map2 (fun _ a => B_lhs (N:=RNum) (cC c) a) Xs (me (cA c))).
  set (rhses := map2 (fun X a => B_rhs (N:=RNum) X (cC c) a) Xs (me (cA c))).
  assert (Lc : length lhses = length Xs) by (unfold lhses; rewrite length_map2; rn; lia).
  destruct (feas_total lhses) as (fps & Hf); [intros X; rewrite X in Lc; cbn in Lc; lia|]. rewrite Hf. cbn [bind].
  destruct (feas_penalties_spec _ _ _ _ Hf) as (Lf & Hrho'). rewrite Lc in Lf, Hrho'.
  assert (Hrho2 : rhos_used constant (length Xs) (rho_B scale c) (fun i => vg fps i)).
  { revert Hrho'. apply rhos_used_ext. intros i Hi. now apply B_fps_eq. }
  assert (ER : forall i, (i < length Xs)%nat -> vg fps i = rho i).
  { intros i Hi. exact (rhos_used_unique _ _ _ _ _ Hrho2 Hrho i Hi). }
  assert (EC : forall i, (i < length Xs)%nat -> nth i (lhs_svds E lhses fps (length regs) l2) (Mat 0 0 [], [], Mat 0 0 []) =
                 lhs_svd E (ridge (N:=RNum) (mmul (mtrans (GC c i)) (GC c i)) (vg fps i) (length regs) l2)).
  { intros i Hi. unfold lhs_svds. rewrite (nth_map2 _ _ _ _ no_mat 0) by (rn; lia). f_equal. f_equal.
    unfold lhses. rewrite (nth_map2 _ _ _ _ no_mat []) by (rn; lia). apply B_lhs_gram. }
  assert (Hd : forall i, (i < length Xs)%nat -> let M := ridge (N:=RNum) (mmul (mtrans (GC c i)) (GC c i)) (vg fps i) (length regs) l2 in
     mc M = n /\ has_svd M n (lhs_svd E M) /\ finite_svd (lhs_svd E M) = true).
  { intros i Hi M. destruct (GC_shape Xs c HF i Hi) as (G1 & G2 & G3).
    destruct (ridge_shape (mmul (mtrans (GC c i)) (GC c i)) (vg fps i) (length regs) l2) as (M1 & M2 & M3). fold M in M1, M2, M3.
    revert M1 M2. mshape. intros M1 M2.
    assert (HS : has_svd M n (lhs_svd E M)).
    { unfold lhs_svd. rewrite M1, G3. apply Hsvd; auto; try congruence. rewrite M1, G3. apply le_n. }
    split; [congruence|]. split; [assumption|].
    apply (ridge_finite (mmul (mtrans (GC c i)) (GC c i)) n _ (vg fps i) (length regs) l2); auto with mwf.
    - intros Y (WY & Y1 & Y2). rewrite gram_psd by (auto; congruence). apply nsq_nonneg.
    - apply well_posed_mu; [assumption| |rewrite ER by assumption; apply (HU i Hi)].
      apply (rhos_used_nonneg _ _ _ (fun i => vg fps i) i Hrho2 Hi). intros; now apply rho_B_nonneg. }
  pose (Inv := fun s : list rmat * list bregR => list_shaped (length Xs) (rowsB c) n (fst s) /\
     Forall (breg_valid (length Xs) (rowsB c) n) (snd s) /\ map b_pen (snd s) = map b_pen regs).
  destruct (inner_total (B_step E (lhs_svds E lhses fps (length regs) l2) fps rhses) (conv_list tol) Inv k (cBs c, regs)) as ([B' r'] & ->).
  - split; [|split; [exact Hv|reflexivity]]. cbn [fst]. destruct HF as ((_ & _ & _ & _ & V5 & _) & L & _).
    split; [now symmetry|]. intros i Hi. destruct (V5 i ltac:(lia)) as (X & Y). split; [exact X|]. split; [reflexivity|exact Y].
  - intros [B1 r1] (I1 & I2 & I3). cbn [fst snd] in *.
    assert (I4 : length r1 = length regs) by (apply (f_equal (@length _)) in I3; now rewrite !map_length in I3).
    assert (PR : forall g, In g r1 -> exists g0, In g0 regs /\ b_pen g0 = b_pen g).
    { intros g Hg. assert (X : In (b_pen g) (map b_pen regs)) by (rewrite <- I3; now apply in_map).
      apply in_map_iff in X. destruct X as (g0 & X1 & X2). now exists g0. }
    pose proof I1 as (L1 & S1).
    assert (T : exists s', B_step E (lhs_svds E lhses fps (length regs) l2) fps rhses (B1, r1) = Ok s').
    { unfold B_step. destruct (mapM_total (fun g => subtract_from_auxes (b_pen g) (b_aux g) (b_dual g)) r1) as (sh & Hsh).
      { intros g Hg. rewrite Forall_forall in I2. destruct g as [p a d]. apply (breg_sub _ _ _ p a d d (I2 _ Hg)). }
      unfold shifted_lists. rewrite Hsh. cbn [bind].
      match goal with |- context[mapM ?f ?l] => destruct (mapM_total f l) as (rows & HZ) end.
      { intros i Hi. apply in_seq in Hi. rewrite EC by (rn; lia). destruct (Hd i) as (_ & _ & X); [rn; lia|].
        unfold solve_mat. destruct (lhs_svd _ _) as [[U s] Vh]. rewrite X. eexists; reflexivity. }
      rewrite HZ. cbn [bind].
      apply (mapM_inv _ _ _ 0%nat no_mat) in HZ. rewrite seq_length in HZ. destruct HZ as (Lr & HZ).
      assert (HZs : list_shaped (length Xs) (rowsB c) n rows).
      { split; [rn; lia|]. intros i Hi. specialize (HZ i ltac:(rn; lia)). rewrite seq_nth in HZ by (rn; lia). cbn [Nat.add] in HZ.
        rewrite EC in HZ by (rn; lia). destruct (Hd i Hi) as (X1 & X2 & _).
        pose proof (solve_shape _ n _ _ _ X1 X2 HZ) as HS. revert HS. mshape. rewrite sum_mats_rows.
        unfold rhses. rewrite (nth_map2 _ _ _ _ no_mat []) by (rn; lia). unfold B_rhs. mshape.
        destruct (HF_shapes Xs c HF i Hi) as (WX & X3 & _). unfold nthX in X3. rn. rewrite X3. auto. }
      destruct (mapM_total (B_reg_step E fps rows) r1) as (rg & ->).
      { intros g Hg. destruct (PR g Hg) as (g0 & G1 & G2). rewrite Forall_forall in I2. destruct HN as (N1 & N2 & N3 & N4).
        apply (B_reg_total E fps rows g (length Xs) (rowsB c) n); auto.
        - intros i Hi. apply N4. lia.
        - intros i Hi. rewrite ER by assumption. destruct (HU i Hi) as (X & _). rewrite Forall_forall in X. rewrite <- G2. now apply X. }
      cbn [bind]. eexists; reflexivity. }
    destruct T as ([B2 r2] & HS). exists (B2, r2). split; [assumption|].
    pose proof HS as HS'. rewrite <- I4 in HS.
    destruct (B_step_ok E Xs c l2 scale constant HF HN Hl2 Hsc Hsvd fps r1 r2 B1 B2 L1 I2 Hf HS) as (_ & _ & K2 & _ & K4).
    assert (K5 : Forall2 (bstep (length Xs) (rowsB c) n (entB B2)) r1 r2) by (eapply F2_impl; [|exact K4]; cbv beta; unfold rowsB; tauto).
    destruct (bstep_valid _ _ _ _ _ _ K5) as (V2 & LV).
    split.
    + split; [exact K2|]. split; [assumption|]. cbn [snd]. rewrite <- I3. apply (F2_map _ _ _ _ _ K5). intros x y (X & _). exact X.
    + destruct (conv_list_spec tol (length Xs) (rowsB c) n B1 B2 r1 r2 I1 K2 V2) as (b & E1 & _). exists b. exact E1.
  - cbn [bind]. eexists; reflexivity.
Qed.
End Modes.
