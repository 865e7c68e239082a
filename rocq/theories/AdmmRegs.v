(** Auxiliary and dual updates: shapes, dual recursion, exact constraints. *)
From Coq Require Import Reals Lra Lia List Arith Bool Classical_Prop.
From Verif Require Import Num Numpy Unimodal RFacts Spec SpecFacts MatFacts SvdFacts ModelSpec Penalties PenaltySpec
  ProxProofs TVProofs GenL2Proofs SimplexProofs Parafac2Proofs PenaltyMain CoupledMatrices CmfSpec CmfProofs
  Decomp DecompSpec DecompFacts AdmmProofs AdmmB AdmmA.
Import ListNotations.
Local Open Scope R_scope.

(** ** One matrix *)
Lemma fmu_ok (E : ext (N:=RNum)) (p : penalty (N:=RNum)) (V X : rmat) rho :
  mwf V -> (0 < mr V)%nat -> (0 < mc V)%nat -> valid_penalty p (mr V) ->
  factor_matrix_update E p V rho = Ok X ->
  shaped X (mr V) (mc V) /\ exact_domain p (mr V) (mc V) (rget X).
Proof.
  intros W Hr Hc Hv H. destruct p as [|lo hi|reg nn|M U s|reg l1|b nn| |nn|n ub uc].
  - destruct (nonneg_update E V rho W) as (X' & H1 & H2 & H3 & H4 & H5). rewrite H1 in H. injection H as ->.
    split; [now split|apply H5].
  - cbn in Hv. destruct Hv as (Hb & Hn). destruct (box_update E V rho lo hi W Hb Hn) as (X' & H1 & H2 & H3 & H4 & H5).
    rewrite H1 in H. injection H as ->. split; [now split|apply H5].
  - cbn [factor_matrix_update] in H. destruct (negb _); [discriminate|]. destruct nn; injection H as <-.
    + split; [split; [auto with mwf|now split]|]. intros _ i j Hi Hj. rewrite mget_mmap by assumption.
      unfold relu, clip1. rewrite nmax_R. apply Rmax_r || apply Rmax_l.
    + split; [split; [auto with mwf|now split]|]. intros ?; discriminate.
  - cbn [factor_matrix_update] in H. destruct (negb _); [discriminate|]. injection H as <-.
    cbn in Hv. destruct Hv as (_ & S1 & S2 & _ & _ & Vh & (_ & U1 & _)). split; [|exact I].
    split; [auto with mwf|]. mshape. split; congruence.
  - cbn [factor_matrix_update] in H. destruct (negb _); [discriminate|]. split; [|exact I].
    assert (Hs : shaped (of_cols (N:=RNum) (mr V) (map (fun j => x_tv E (mcol V j) (reg * 2 / rho)) (seq 0 (mc V)))) (mr V) (mc V)).
    { split; [auto with mwf|]. mshape. rewrite map_length, seq_length. now split. }
    destruct (ntruthy (N:=RNum) l1); injection H as <-.
    + split; [auto with mwf|]. mshape. rewrite map_length, seq_length. now split.
    + split; [auto with mwf|]. mshape. rewrite map_length, seq_length. now split.
  - cbn in Hv. destruct (l2ball_update E V rho b nn W Hv) as (X' & H1 & H2 & H3 & H4 & H5).
    rewrite H1 in H. injection H as ->. split; [now split|apply H5].
  - destruct (C10_simplex E V rho W Hr) as [(X' & P & H1 & H2 & _ & H4 & _)|(H1 & _)]; rewrite H1 in H; [|discriminate].
    injection H as ->. split; [exact H2|exact H4].
  - destruct (unimodality_update E V rho nn W Hr Hc) as (X' & H1 & H2 & H3 & H4 & H5). rewrite H1 in H. injection H as ->.
    split; [now split|apply H5].
  - discriminate.
Qed.

Lemma not_pf2_sub (p : penalty (N:=RNum)) (a d : rmat) : ~ is_parafac2 p -> subtract_from_aux p a d = Ok (msub a d).
Proof. destruct p; cbn; try reflexivity. intros H. now destruct H. Qed.

(** A row update is the matrix update of a one-row matrix. *)
Lemma row_update_mat E (p : penalty (N:=RNum)) (v w : list R) rho : row_update (N:=RNum) p v rho = Ok w ->
  row_penalty p /\ factor_matrix_update E p (rowm v) rho = Ok (rowm w) /\ length w = length v.
Proof.
  intros H. assert (RP : row_penalty p) by (destruct p; try exact I; discriminate).
  assert (L : length w = length v).
  { destruct p as [|lo hi|reg nn|M U s|reg l1|b nn| |nn|n ub uc]; cbn [row_update] in H; try discriminate.
    - injection H as <-. apply map_length.
    - destruct (clip_ok _ _); [|discriminate]. injection H as <-. apply map_length.
    - destruct (negb _); [discriminate|]. destruct nn; injection H as <-; apply map_length. }
  split; [assumption|]. split; [|assumption].
  rewrite <- rowwise_agrees; [|apply (rowm_shaped v (length v)); reflexivity|cbn; rn; lia|assumption].
  unfold rowwise_update, rowm. cbn [me mapM]. rewrite H. cbn. now rewrite L.
Qed.

Lemma rows_update_ok E (p : penalty (N:=RNum)) (V X : rmat) (fps : list R) :
  mwf V -> (0 < mr V)%nat -> (0 < mc V)%nat -> valid_penalty p (mr V) -> length fps = mr V ->
  rows_update (N:=RNum) p V fps = Ok X ->
  row_penalty p /\ shaped X (mr V) (mc V) /\ exact_domain p (mr V) (mc V) (rget X) /\
  forall i, (i < mr V)%nat -> factor_matrix_update E p (rowm (mrow V i)) (vg fps i) = Ok (rowm (mrow X i)).
Proof.
  intros W Hr Hc Hv L H. unfold rows_update in H. destruct (mapM _ _) as [rows|e] eqn:M; [|discriminate]. cbn in H. injection H as <-.
  apply (mapM_inv _ _ _ 0%nat (@nil R)) in M. rewrite seq_length in M. rn. rewrite L in M. destruct M as (LR & HR).
  assert (HR' : forall i, (i < mr V)%nat -> row_update (N:=RNum) p (mrow V i) (vg fps i) = Ok (nth i rows [])).
  { intros i Hi. specialize (HR i Hi). now rewrite seq_nth in HR by assumption. }
  assert (RP : row_penalty p) by (apply (row_update_mat E _ _ _ _ (HR' 0%nat Hr))).
  assert (LW : forall i, (i < mr V)%nat -> length (nth i rows []) = mc V).
  { intros i Hi. destruct (row_update_mat E _ _ _ _ (HR' i Hi)) as (_ & _ & ->). now apply length_mrow. }
  assert (WX : mwf (Mat (N:=RNum) (mr V) (mc V) rows)).
  { split; [exact LR|]. apply Forall_nth. intros i d Hi. cbn in *. rewrite (nth_indep _ _ []) by assumption. apply LW. rn; lia. }
  assert (HX : forall i, (i < mr V)%nat -> mrow (N:=RNum) (Mat (mr V) (mc V) rows) i = nth i rows []) by reflexivity.
  split; [assumption|]. split; [split; [assumption|now split]|]. split.
  - assert (ED : forall i, (i < mr V)%nat -> exact_domain p 1 (mc V) (rget (rowm (nth i rows [])))).
    { intros i Hi. destruct (row_update_mat E _ _ _ _ (HR' i Hi)) as (_ & F & _).
      assert (W1 : mwf (rowm (mrow V i))) by (apply (rowm_shaped _ (mc V)); now apply length_mrow).
      destruct (fmu_ok E p (rowm (mrow V i)) (rowm (nth i rows [])) (vg fps i)) as (_ & D); try assumption.
      - cbn; rn; lia.
      - cbn. rewrite length_mrow by assumption. assumption.
      - destruct p; try exact Hv; destruct RP.
      - cbn [mr mc rowm] in D. rewrite length_mrow in D by assumption. exact D. }
    destruct p; try destruct RP.
    + intros i j Hi Hj. apply (ED i Hi 0%nat j); [lia|assumption].
    + intros i j Hi Hj. apply (ED i Hi 0%nat j); [lia|assumption].
    + intros Hn i j Hi Hj. apply (ED i Hi Hn 0%nat j); [lia|assumption].
  - intros i Hi. apply row_update_mat. now apply HR'.
Qed.

(** ** One penalty of modes 0 and 2 *)
Lemma dual_step (r c : nat) (p : penalty (N:=RNum)) (M aux d : rmat) (g' : mregR) :
  ~ is_parafac2 p -> valid_penalty p r -> shaped M r c -> shaped aux r c -> shaped d r c ->
  (let* sh := subtract_from_aux p aux d in Ok (MReg p aux (msub M sh))) = Ok g' ->
  g_pen g' = p /\ g_aux g' = aux /\ mreg_valid r c g' /\
  same r c (rget (g_dual g')) (fun i j => rget M i j - rget aux i j + rget d i j).
Proof.
  intros NP Hv (WM & M1 & M2) (WA & A1 & A2) (WD & D1 & D2) H. rewrite not_pf2_sub in H by assumption. cbn [bind] in H.
  injection H as <-. cbn [g_pen g_aux g_dual]. split; [reflexivity|]. split; [reflexivity|]. split.
  - unfold mreg_valid. cbn [g_pen g_aux g_dual]. split; [assumption|]. split; [assumption|].
    split; [split; [assumption|now split]|]. split; [auto with mwf|]. mshape. now split.
  - intros i j Hi Hj. rewrite !mget_msub by (rn; congruence). rn. lra.
Qed.
Lemma C_reg_ok E fp (C : rmat) (g g' : mregR) r c : (0 < r)%nat -> (0 < c)%nat -> shaped C r c -> mreg_valid r c g ->
  C_reg_step E fp C g = Ok g' ->
  g_pen g' = g_pen g /\ mreg_valid r c g' /\ exact_domain (g_pen g') r c (rget (g_aux g')) /\
  dual_updated r c (rget C) g g' /\
  factor_matrix_update E (g_pen g) (madd C (g_dual g)) fp = Ok (g_aux g').
Proof.
  intros Hr Hc HC (NP & Hv & HA & HD) H. unfold C_reg_step in H.
  destruct (factor_matrix_update E (g_pen g) (madd C (g_dual g)) fp) as [aux|] eqn:F; [|discriminate]. cbn [bind] in H.
  destruct HC as (WC & C1 & C2). destruct HD as (WD & D1 & D2).
  destruct (fmu_ok E (g_pen g) (madd C (g_dual g)) aux fp) as (HX & HE); auto with mwf.
  { mshape. rn; lia. } { mshape. rn; lia. } { mshape. now rewrite C1. }
  revert HX HE. mshape. rewrite C1, C2. intros HX HE.
  destruct (dual_step r c (g_pen g) C aux (g_dual g) g' NP Hv) as (P1 & P2 & P3 & P4); auto.
  { split; [assumption|now split]. } { split; [assumption|now split]. }
  rewrite P1. split; [reflexivity|]. split; [assumption|]. rewrite P2. split; [assumption|]. split; [|reflexivity].
  unfold dual_updated. rewrite P2. exact P4.
Qed.
Lemma A_reg_ok E constant (fps : list R) (A : rmat) (g g' : mregR) r c : (0 < r)%nat -> (0 < c)%nat -> length fps = r ->
  shaped A r c -> mreg_valid r c g ->
  A_reg_step E constant fps A g = Ok g' ->
  g_pen g' = g_pen g /\ mreg_valid r c g' /\ exact_domain (g_pen g') r c (rget (g_aux g')) /\
  dual_updated r c (rget A) g g' /\
  (constant = true -> factor_matrix_update E (g_pen g) (madd A (g_dual g)) (vg fps 0) = Ok (g_aux g')) /\
  (constant = false -> row_penalty (g_pen g) /\ forall i, (i < r)%nat ->
     factor_matrix_update E (g_pen g) (rowm (mrow (madd A (g_dual g)) i)) (vg fps i) = Ok (rowm (mrow (g_aux g') i))).
Proof.
  intros Hr Hc L HC (NP & Hv & HA & HD) H. unfold A_reg_step in H. cbv zeta in H.
  destruct (if constant then _ else _) as [aux|] eqn:F; [|discriminate]. cbn [bind] in H.
  destruct HC as (WC & C1 & C2). destruct HD as (WD & D1 & D2).
  assert (K : shaped aux r c /\ exact_domain (g_pen g) r c (rget aux) /\
     (constant = true -> factor_matrix_update E (g_pen g) (madd A (g_dual g)) (vg fps 0) = Ok aux) /\
     (constant = false -> row_penalty (g_pen g) /\ forall i, (i < r)%nat ->
       factor_matrix_update E (g_pen g) (rowm (mrow (madd A (g_dual g)) i)) (vg fps i) = Ok (rowm (mrow aux i)))).
  { destruct constant.
    - destruct (fmu_ok E (g_pen g) (madd A (g_dual g)) aux (vg fps 0)) as (HX & HE); auto with mwf.
      { mshape. rn; lia. } { mshape. rn; lia. } { mshape. now rewrite C1. }
      revert HX HE. mshape. rewrite C1, C2. intros HX HE. split; [assumption|]. split; [assumption|]. split; [auto|discriminate].
    - destruct (rows_update_ok E (g_pen g) (madd A (g_dual g)) aux fps) as (RP & HX & HE & HR); auto with mwf.
      { mshape. rn; lia. } { mshape. rn; lia. } { mshape. now rewrite C1. } { mshape. rn; congruence. }
      revert HX HE HR. mshape. rewrite C1, C2. intros HX HE HR. split; [assumption|]. split; [assumption|]. split; [discriminate|]. auto. }
  destruct K as (HX & HE & K1 & K2).
  destruct (dual_step r c (g_pen g) A aux (g_dual g) g' NP Hv) as (P1 & P2 & P3 & P4); auto.
  { split; [assumption|now split]. } { split; [assumption|now split]. }
  rewrite P1. split; [reflexivity|]. split; [assumption|]. rewrite P2. split; [assumption|]. split; [|split; assumption].
  unfold dual_updated. rewrite P2. exact P4.
Qed.

(** ** Lists of matrices *)
Lemma matrices_update_nth E (p : penalty (N:=RNum)) (fms : list rmat) : forall (rhos : list R) n (r : list rmat),
  length rhos = length fms -> n = length fms ->
  matrices_update_list E p fms rhos n = Ok r ->
  length r = length fms /\
  forall i, (i < length fms)%nat -> factor_matrix_update E p (nth i fms no_mat) (vg rhos i) = Ok (nth i r no_mat).
Proof.
  induction fms as [|fm fms IH]; intros rhos n r L1 L2 H.
  - cbn in L2. subst n. cbn in H. injection H as <-. split; [reflexivity|]. cbn; intros; lia.
  - destruct rhos as [|rho rhos]; [discriminate|]. subst n. cbn [matrices_update_list length] in H.
    destruct (factor_matrix_update E p fm rho) as [x|] eqn:F; [|discriminate]. cbn [bind] in H.
    destruct (matrices_update_list E p fms rhos (length fms)) as [xs|] eqn:F2; [|discriminate]. cbn [bind] in H. injection H as <-.
    destruct (IH rhos (length fms) xs) as (L & K); auto.
    split; [cbn; lia|]. intros [|i] Hi; cbn [nth]; [exact F|]. apply K. cbn in Hi; lia.
Qed.

(** ** PARAFAC2: shapes whenever the update succeeds *)
Definition basis_shape (k : nat) (fms basis : list rmat) : Prop :=
  length basis = length fms /\
  forall i, (i < length fms)%nat -> shaped (nth i basis no_mat) (mr (nth i fms no_mat)) k.
Lemma basis_ok_shape k fms basis : basis_ok k fms basis -> basis_shape k fms basis.
Proof. intros (L & H). split; [assumption|]. intros i Hi. destruct (H i Hi) as (A & B & C & _). split; [assumption|now split]. Qed.
Lemma pf2_coord_shape k (fms basis : list rmat) (rhos : list R) D :
  (forall i, (i < length fms)%nat -> mwf (nth i fms no_mat) /\ mc (nth i fms no_mat) = k) ->
  length rhos = length fms -> basis_shape k fms basis ->
  pf2_coord (N:=RNum) fms basis rhos = Ok D -> shaped D k k.
Proof.
  intros Hf Hl (Lb & Hb). unfold pf2_coord. destruct (msum_list _) as [m|] eqn:E; [|discriminate].
  destruct (ntruthy _); [|discriminate]. intros H. injection H as <-.
  pose proof (msum_list_some _ _ E) as Hne.
  destruct (msum_list_spec _ k k m Hne) as ((W1 & S1 & S2) & _); auto.
  - apply (in_nth _ _ no_mat). rewrite length_pf2_terms by assumption. intros i Hi.
    pose proof (nth_pf2_terms fms basis rhos i Lb Hl Hi) as NT. unfold dm in NT. fold no_mat in NT. rewrite NT.
    destruct (Hb i Hi) as (B1 & B2 & B3). destruct (Hf i Hi) as (F1 & F2). split; [auto with mwf|]. mshape. now split.
  - split; [auto with mwf|]. mshape. now split.
Qed.
Lemma pf2_loop_shape E k (fms : list rmat) (rhos : list R) ub uc :
  (forall i, (i < length fms)%nat -> mwf (nth i fms no_mat) /\ mc (nth i fms no_mat) = k /\ (k <= mr (nth i fms no_mat))%nat) ->
  svd_correct E k -> length rhos = length fms -> forall n (b b' : list rmat) (D D' : rmat),
  shaped D k k -> basis_shape k fms b ->
  pf2_loop E ub uc fms rhos n b D = Ok (b', D') ->
  shaped D' k k /\ basis_shape k fms b' /\ ((n <> 0%nat /\ ub = true) \/ basis_ok k fms b -> basis_ok k fms b').
Proof.
  intros Hf Hsvd Hl. induction n as [|n IH]; intros b b' D D' HD Hb H; cbn [pf2_loop] in H.
  - injection H as <- <-. split; [assumption|]. split; [assumption|]. intros [(X & _)|X]; [congruence|assumption].
  - destruct (if ub then _ else _) as [b1|] eqn:E1; [|discriminate]. cbn [bind] in H.
    assert (B1 : basis_shape k fms b1 /\ (ub = true \/ basis_ok k fms b -> basis_ok k fms b1)).
    { destruct ub.
      - destruct (basis_step E k fms rhos Hf Hsvd Hl D HD) as (b2 & Eb & Ob & _). rewrite Eb in E1. injection E1 as <-.
        split; [now apply basis_ok_shape|]. now intros _.
      - injection E1 as <-. split; [assumption|]. intros [X|X]; [discriminate|assumption]. }
    destruct B1 as (B1 & O1).
    destruct (if uc then _ else _) as [D1|] eqn:E2; [|discriminate]. cbn [bind] in H.
    assert (D1S : shaped D1 k k).
    { destruct uc; [|now injection E2 as <-]. apply (pf2_coord_shape k fms b1 rhos); auto.
      intros i Hi. destruct (Hf i Hi) as (F1 & F2 & _). now split. }
    destruct (negb uc || negb ub).
    + injection H as <- <-. split; [assumption|]. split; [assumption|]. intros [(_ & X)|X]; apply O1; [now left|now right].
    + destruct (IH b1 b' D1 D' D1S B1 H) as (K1 & K2 & K3). split; [assumption|]. split; [assumption|].
      intros X. apply K3. right. apply O1. destruct X as [(_ & X)|X]; [now left|now right].
Qed.

(** ** One penalty of mode 1 *)
Lemma subtract_entries n J c (p : penalty (N:=RNum)) (a : auxes (N:=RNum)) (d sh : list rmat) :
  baux_shaped n J c a -> list_shaped n J c d -> subtract_from_auxes p a d = Ok sh ->
  list_shaped n J c sh /\ forall i, (i < n)%nat ->
    same (J i) c (rget (nth i sh no_mat)) (fun j r => baux (BReg p a d) i j r - rget (nth i d no_mat) j r).
Proof.
  intros Ha (Ld & Hd) H. unfold baux. cbn [b_aux]. destruct a as [la|P D]; cbn [baux_shaped] in Ha.
  - destruct Ha as (La & Ha).
    assert (E : sh = map2 (msub (N:=RNum)) la d).
    { unfold subtract_from_auxes in H. destruct p; try discriminate; now injection H. }
    split.
    + split; [rewrite E, length_map2; rn; lia|]. intros i Hi. specialize (Ha i Hi). destruct Ha as (Wa & A1 & A2).
      rewrite E. rewrite (nth_map2 _ _ _ _ no_mat no_mat) by (rn; lia). split; [auto with mwf|mshape; now split].
    + intros i Hi. specialize (Ha i Hi). destruct Ha as (Wa & A1 & A2). rewrite E.
      rewrite (nth_map2 _ _ _ _ no_mat no_mat) by (rn; lia). intros j r Hj Hr. now rewrite mget_msub by (rn; congruence).
  - destruct Ha as ((La & Ha) & WD & CD).
    assert (E : sh = map2 (fun P d => msub (N:=RNum) (mmul P D) d) P d).
    { unfold subtract_from_auxes in H. destruct p; try discriminate; now injection H. }
    split.
    + split; [rewrite E, length_map2; rn; lia|]. intros i Hi. specialize (Ha i Hi). destruct Ha as (Wa & A1 & A2).
      rewrite E. rewrite (nth_map2 _ _ _ _ no_mat no_mat) by (rn; lia). split; [auto with mwf|mshape; now split].
    + intros i Hi. specialize (Ha i Hi). destruct Ha as (Wa & A1 & A2). rewrite E.
      rewrite (nth_map2 _ _ _ _ no_mat no_mat) by (rn; lia). intros j r Hj Hr.
      rewrite mget_msub by (mshape; rn; congruence). f_equal.
      rewrite mget_mmul by (rn; congruence). rewrite A2. symmetry. apply Sum_rsum.
Qed.
Lemma breg_valid_shape n J c (g : bregR) : breg_valid n J c g -> baux_shaped n J c (b_aux g) /\ list_shaped n J c (b_dual g).
Proof.
  intros (Hd & H). split; [|assumption]. destruct g as [p a d]. cbn [b_aux b_pen] in *.
  destruct p; destruct a as [l|P D]; try contradiction; cbn [baux_shaped].
  all: try (exact (proj1 H)).
  destruct H as (H1 & (W & D1 & D2) & _). split; [|split; assumption]. now rewrite D1.
Qed.
Lemma b_ortho_exact n J c (g : bregR) : breg_valid n J c g -> is_parafac2 (b_pen g) -> b_ortho n J c g ->
  exists Phi, forall i, (i < n)%nat -> same c c (cross (J i) (baux g i)) Phi.
Proof.
  intros (Hd & H) HP HO. destruct g as [p a d]. unfold b_ortho, baux in *. cbn [b_aux b_pen] in *.
  destruct p; try contradiction. destruct a as [l|P D]; [contradiction|].
  destruct H as ((LP & HP') & (W & D1 & D2) & _). exists (cross c (rget D)). intros i Hi a b Ha Hb.
  specialize (HP' i Hi). destruct HP' as (WP & P1 & P2). specialize (HO i Hi).
  assert (O : orthocols (nth i P no_mat)) by (apply ortho_cols_mat; rewrite P1, P2; exact HO).
  assert (PD : mmul (mtrans (mmul (nth i P no_mat) D)) (mmul (nth i P no_mat) D) = mmul (mtrans D) D).
  { rewrite mtrans_mmul by (rn; congruence). rewrite mmul_assoc by mlia. rewrite <- (mmul_assoc (mtrans (nth i P no_mat))) by mlia.
    unfold orthocols in O. rewrite O. rewrite mmul_eye_l by (auto; mlia). reflexivity. }
  assert (T : rget (mmul (mtrans (mmul (nth i P no_mat) D)) (mmul (nth i P no_mat) D)) a b = rget (mmul (mtrans D) D) a b) by now rewrite PD.
  rewrite !mget_mmul in T by mlia. revert T. mshape. rewrite P1, D1. intros T.
  unfold cross. etransitivity; [|etransitivity; [exact T|]].
  - apply Sum_rsum_ext. intros j Hj. rewrite mget_mtrans by mlia. rewrite !mget_mmul by (rn; congruence).
    rewrite P2. reflexivity.
  - symmetry. apply Sum_rsum_ext. intros j Hj. rewrite mget_mtrans by mlia. reflexivity.
Qed.
Lemma nth_map2_madd n J c (Bs ds : list rmat) : list_shaped n J c Bs -> list_shaped n J c ds ->
  length (map2 (madd (N:=RNum)) Bs ds) = n /\
  forall i, (i < n)%nat -> nth i (map2 (madd (N:=RNum)) Bs ds) no_mat = madd (nth i Bs no_mat) (nth i ds no_mat) /\
    shaped (madd (nth i Bs no_mat) (nth i ds no_mat)) (J i) c.
Proof.
  intros (L1 & H1) (L2 & H2). split; [rewrite length_map2; rn; lia|]. intros i Hi.
  rewrite (nth_map2 _ _ _ _ no_mat no_mat) by (rn; lia). split; [reflexivity|]. destruct (H1 i Hi) as (W & A & B).
  split; [auto with mwf|mshape; now split].
Qed.
Lemma B_reg_ok E (fps : list R) (Bs : list rmat) (g g' : bregR) n J c :
  (0 < c)%nat -> (forall i, (i < n)%nat -> (0 < J i)%nat) -> length fps = n -> svd_correct E c ->
  list_shaped n J c Bs -> breg_valid n J c g ->
  B_reg_step E fps Bs g = Ok g' ->
  b_pen g' = b_pen g /\ breg_valid n J c g' /\ (updates_basis (b_pen g) \/ b_ortho n J c g -> b_ortho n J c g') /\
  (~ is_parafac2 (b_pen g) -> b_exact n J c g') /\
  b_dual_updated n J c (entB Bs) g g' /\
  factor_matrices_update E (b_pen g) (map2 madd Bs (b_dual g)) fps (b_aux g) = Ok (b_aux g').
Proof.
  intros Hc HJ Lf Hsvd HB Hg H. unfold B_reg_step in H. cbv zeta in H.
  destruct (factor_matrices_update E (b_pen g) _ fps (b_aux g)) as [a'|] eqn:F; [|discriminate]. cbn [bind] in H.
  destruct (subtract_from_auxes (b_pen g) a' (b_dual g)) as [sh|] eqn:S; [|discriminate]. cbn [bind] in H. injection H as <-.
  destruct (breg_valid_shape _ _ _ _ Hg) as (Ha & Hd).
  destruct (nth_map2_madd n J c Bs (b_dual g) HB Hd) as (LV & HV).
  set (V := map2 (madd (N:=RNum)) Bs (b_dual g)) in *.
  (* shape, constraint and basis of the new auxiliary *)
  assert (K : breg_valid n J c (BReg (b_pen g) a' (b_dual g)) /\
     (updates_basis (b_pen g) \/ b_ortho n J c g -> b_ortho n J c (BReg (b_pen g) a' (b_dual g))) /\
     (~ is_parafac2 (b_pen g) -> b_exact n J c (BReg (b_pen g) a' (b_dual g)))).
  { destruct g as [p a d]. cbn [b_pen b_aux b_dual] in *. destruct Hg as (_ & Hg). cbn [b_pen b_aux] in Hg.
    destruct (classic (is_parafac2 p)) as [PP|NP].
    - destruct p as [|lo hi|reg nn|M U s|reg l1|b nn| |nn|m ub uc]; try contradiction.
      destruct a as [l|P D]; [contradiction|]. destruct Hg as (HP & HD & HJc). cbn [factor_matrices_update] in F.
      destruct (pf2_loop E ub uc V fps m P D) as [(b', D')|] eqn:PL; [|discriminate]. cbn [bind] in F. injection F as <-.
      destruct (pf2_loop_shape E c V fps ub uc) with (n := m) (b := P) (b' := b') (D := D) (D' := D') as (K1 & K2 & K3); auto.
      { intros i Hi. rewrite LV in Hi. destruct (HV i Hi) as (-> & (W & S1 & S2)). split; [assumption|]. split; [assumption|].
        rewrite S1. now apply HJc. }
      { rn; lia. }
      { destruct HP as (LP & HP). split; [rn; lia|]. intros i Hi. rewrite LV in Hi. destruct (HV i Hi) as (-> & (W & S1 & S2)).
        rewrite S1. now apply HP. }
      assert (LP' : list_shaped n J c b').
      { destruct K2 as (LP' & HP'). split; [rn; lia|]. intros i Hi. destruct (HV i Hi) as (E1 & (W & S1 & S2)).
        specialize (HP' i ltac:(rn; lia)). rewrite E1, S1 in HP'. exact HP'. }
      split; [|split].
      + split; [assumption|]. cbn. split; [assumption|]. split; assumption.
      + intros HO. cbn in HO |- *. 
        assert (BO : basis_ok c V b').
        { apply K3. destruct HO as [HO|HO]; [left; exact HO|right]. destruct HP as (LP & HP). split; [rn; lia|]. intros i Hi.
          rewrite LV in Hi. destruct (HV i Hi) as (E1 & (W & S1 & S2)). destruct (HP i Hi) as (WP & P1 & P2).
          fold no_mat. unfold dm. fold no_mat. rewrite E1, S1. split; [assumption|]. split; [assumption|]. split; [assumption|].
          apply ortho_cols_mat. rewrite P1, P2. now apply HO. }
        intros i Hi. destruct BO as (_ & BO). specialize (BO i ltac:(rn; lia)). destruct BO as (B1 & B2 & B3 & B4).
        apply ortho_cols_mat in B4. unfold dm in *. fold no_mat in *. destruct (HV i Hi) as (E1 & (W & S1 & S2)). rewrite E1, S1 in B2.
        rewrite B2, B3 in B4. exact B4.
      + intros X. exfalso. apply X. exact I.
    - assert (AL : exists l l', a = AList l /\ a' = AList l' /\ length l = n /\
               matrices_update_list E p V fps (length l) = Ok l' /\ forall i, (i < n)%nat -> valid_penalty p (J i)).
      { destruct p as [|lo hi|reg nn|M U s|reg l1|b nn| |nn|m ub uc]; try (destruct NP; exact I); destruct a as [l|P D]; try contradiction;
        (exists l; cbn [factor_matrices_update] in F; destruct (matrices_update_list E _ V fps (length l)) as [l'|]; [|discriminate];
         cbn [bind] in F; injection F as <-; exists l'; destruct Hg as ((Ll & _) & Hv); repeat (split; [now try assumption|]); assumption). }
      destruct AL as (l & l' & -> & -> & Ll & ML & Hv).
      destruct (matrices_update_nth E p V fps (length l) l') as (Ll' & Hl'); [rn; lia|rn; lia|assumption|].
      assert (KK : forall i, (i < n)%nat -> shaped (nth i l' no_mat) (J i) c /\ exact_domain p (J i) c (rget (nth i l' no_mat))).
      { intros i Hi. specialize (Hl' i ltac:(rn; lia)). destruct (HV i Hi) as (E1 & (W & S1 & S2)). rewrite E1 in Hl'.
        apply fmu_ok in Hl'; [|assumption|rewrite S1; now apply HJ|now rewrite S2|rewrite S1; now apply Hv].
        now rewrite S1, S2 in Hl'. }
      split; [|split].
      + split; [assumption|]. cbn [b_pen b_aux].
        assert (LS : list_shaped n J c l') by (split; [rn; lia|intros i Hi; now apply KK]).
        destruct p; try (split; assumption). exfalso; apply NP; exact I.
      + intros _. unfold b_ortho. cbn [b_pen b_aux]. destruct p; try exact I. 
      + intros _. unfold b_exact, baux. cbn [b_pen b_aux]. 
        destruct p; try (intros i Hi; now apply KK). exfalso; apply NP; exact I. }
  destruct K as (K1 & K2 & K3).
  destruct (breg_valid_shape _ _ _ _ K1) as (Ha' & _). cbn [b_aux b_pen b_dual] in *.
  destruct (subtract_entries n J c (b_pen g) a' (b_dual g) sh Ha' Hd S) as ((Ls & Hsh) & Es).
  assert (HB' := HB). destruct HB as (LB & HB).
  assert (LD : list_shaped n J c (map2 (msub (N:=RNum)) Bs sh)).
  { split; [rewrite length_map2; rn; lia|]. intros i Hi. rewrite (nth_map2 _ _ _ _ no_mat no_mat) by (rn; lia).
    destruct (HB i Hi) as (W & A & B). split; [auto with mwf|mshape; now split]. }
  split; [reflexivity|]. split; [|split; [|split; [|split]]].
  - split; [exact LD|exact (proj2 K1)].
  - exact K2.
  - exact K3.
  - intros i Hi j r Hj Hr. cbn [b_dual]. rewrite (nth_map2 _ _ _ _ no_mat no_mat) by (rn; lia).
    destruct (HB i Hi) as (W & A & B). rewrite mget_msub by (rn; congruence). rewrite (Es i Hi j r Hj Hr).
    unfold entB, baux. cbn [b_aux]. rn. lra.
  - reflexivity.
Qed.
