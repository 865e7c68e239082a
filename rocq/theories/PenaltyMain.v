(** C14-C16 and the penalties seen uniformly. *)
From Coq Require Import Reals Lra Lia List Arith Bool ZArith.
From Verif Require Import Num Numpy Unimodal RFacts MatFacts Spec SpecFacts ModelSpec SvdFacts Penalties PenaltySpec
  ProxProofs TVProofs GenL2Proofs SimplexProofs Parafac2Proofs UnimodalMain.
Import ListNotations.
Local Open Scope R_scope.

(** ** projections leave members alone *)
Lemma is_proj_fixed r c dom V X : is_proj r c dom V X -> dom V -> same r c X V.
Proof.
  intros (_ & H) HV. specialize (H V HV). rewrite (dist2_same r c V V) in H by (intros i j _ _; reflexivity).
  pose proof (dist2_nonneg r c X V). apply dist2_zero. lra.
Qed.
Lemma is_nearest_fixed r c dom V X : is_nearest r c dom V X -> dom V -> same r c X V.
Proof.
  intros (_ & H) HV. specialize (H V HV). rewrite (dist2_same r c V V) in H by (intros i j _ _; reflexivity).
  pose proof (dist2_nonneg r c X V). apply dist2_zero. lra.
Qed.
Lemma is_proj_nearest r c dom V X : is_proj r c dom V X -> is_nearest r c dom V X.
Proof.
  intros (H1 & H2). split; [assumption|]. intros Z HZ. specialize (H2 Z HZ). pose proof (dist2_nonneg r c X Z). lra.
Qed.
Lemma same_mat (X V : rmat) : mwf X -> mwf V -> mr X = mr V -> mc X = mc V -> same (mr V) (mc V) (rget X) (rget V) -> X = V.
Proof. intros W1 W2 S1 S2 H. apply mat_ext; auto. intros i j Hi Hj. apply H; lia. Qed.

(** ** Unimodality *)
Lemma all_some_map (l : list R) : all_some (N:=RNum) (map Some l) = Some l.
Proof. induction l as [|x l IH]; [reflexivity|]. cbn. rewrite IH. reflexivity. Qed.
Lemma concat_map_Some (l : list (list R)) : concat (map (map Some) l) = map Some (concat l).
Proof. induction l as [|x l IH]; [reflexivity|]. cbn. now rewrite IH, map_app. Qed.
Lemma map_opt_get (l : list (list R)) : map (map (opt_get (N:=RNum))) (map (map Some) l) = l.
Proof.
  rewrite map_map. erewrite map_ext; [apply map_id|]. intros v. rewrite map_map. apply map_id.
Qed.
Lemma column_length r X j : length (column r X j) = r.
Proof. unfold column. now rewrite map_length, seq_length. Qed.
Lemma at_column r X j i : (i < r)%nat -> at_ (column r X j) i = X i j.
Proof. intros. unfold column. now apply (at_map_seq (fun i => X i j)). Qed.
Lemma list_column r X j (v : list R) : length v = r -> (forall i, (i < r)%nat -> X i j = at_ v i) -> column r X j = v.
Proof.
  intros L H. apply (list_eq_nth _ _ 0); [now rewrite column_length|]. rewrite column_length. intros i Hi.
  change (at_ (column r X j) i = at_ v i). rewrite at_column by assumption. now apply H.
Qed.
Lemma dist2_sqdist r c X Y : dist2 r c X Y = rsum c (fun j => sqdist (column r X j) (column r Y j)).
Proof.
  rewrite dist2_cols. apply rsum_ext. intros j Hj. rewrite sqdist_rsum, column_length. unfold vsd.
  apply rsum_ext. intros i Hi. now rewrite !at_column.
Qed.
Lemma sqdist_sym u v : length u = length v -> sqdist u v = sqdist v u.
Proof. intros L. rewrite !sqdist_rsum, L. apply rsum_ext; intros; ring. Qed.
Lemma column_mcol (V : rmat) j : mwf V -> column (mr V) (rget V) j = mcol V j.
Proof. intros W. apply list_column; [now apply length_mcol|]. intros i Hi. symmetry. now apply vg_mcol. Qed.

Lemma unimodality_update E (V : rmat) rho nn : mwf V -> (0 < mr V)%nat -> (0 < mc V)%nat ->
  exists X, factor_matrix_update E (Unimodality (N:=RNum) nn) V rho = Ok X /\ mwf X /\ mr X = mr V /\ mc X = mc V /\
    is_nearest (mr V) (mc V) (fun Z => cols_unimodal (mr V) (mc V) Z /\ (nn = true -> entries (mr V) (mc V) (fun x => 0 <= x) Z))
      (rget V) (rget X).
Proof.
  intros W Hr Hc. destruct (unimodal_cols_spec V nn W Hr Hc) as (cols & E1 & L & H).
  exists (of_cols (N:=RNum) (mr V) cols).
  split.
  { unfold factor_matrix_update. rewrite E1. cbn [bind].
    pose proof (all_some_map (concat cols)) as EA. pose proof (concat_map_Some cols) as EC. rn. rewrite EC, EA.
    pose proof (map_opt_get cols) as EO. rn. rewrite EO. reflexivity. }
  split; [auto with mwf|]. split; [reflexivity|]. split; [exact L|].
  assert (GC : forall j, (j < mc V)%nat -> column (mr V) (rget (of_cols (N:=RNum) (mr V) cols)) j = nth j cols []).
  { intros j Hj. destruct (H j Hj) as (H1 & _). apply list_column; [exact H1|]. intros i Hi.
    rewrite mget_of_cols; [reflexivity|assumption|]. rn. lia. }
  split.
  - split.
    + intros j Hj. rewrite GC by assumption. apply (H j Hj).
    + intros En i j Hi Hj. destruct (H j Hj) as (H1 & _ & H3 & _). specialize (H3 En).
      rewrite <- (at_column (mr V) (rget (of_cols (N:=RNum) (mr V) cols)) j i) by assumption. rewrite GC by assumption.
      apply (proj1 (nonneg_at _) H3). rn. rewrite H1. exact Hi.
  - intros Z (HZ & HZn). rewrite !dist2_sqdist. apply rsum_le. intros j Hj. rewrite GC by assumption.
    destruct (H j Hj) as (H1 & _ & _ & H4). specialize (H4 (column (mr V) Z j)).
    rewrite column_mcol by assumption. rn.
    rewrite (sqdist_sym (nth j cols [])) by (rewrite length_mcol by assumption; exact H1).
    rewrite (sqdist_sym (column _ _ _)) by (rewrite length_mcol by assumption; apply column_length).
    apply H4; [apply column_length|now apply HZ|].
    intros En. apply nonneg_at. rewrite column_length. intros i Hi. rewrite at_column by assumption. now apply HZn.
Qed.

(** ** C14 *)
Definition row_penalty (p : penalty (N:=RNum)) : Prop :=
  match p with NonNegativity | Box _ _ | L1Penalty _ _ => True | _ => False end.

Lemma rowwise_map (f : R -> R) (p : penalty (N:=RNum)) (fm : rmat) rho : mwf fm ->
  (forall row, row_update (N:=RNum) p row rho = Ok (map f row)) ->
  rowwise_update (N:=RNum) p fm rho = Ok (mmap f fm).
Proof.
  intros (W1 & W2) H. unfold rowwise_update.
  assert (E : forall l, mapM (fun row => row_update (N:=RNum) p row rho) l = Ok (map (map f) l)).
  { induction l as [|x l IH]; [reflexivity|]. cbn [mapM]. rewrite H. cbn [bind]. rewrite IH. reflexivity. }
  rewrite E. cbn [bind]. f_equal. apply mat_ext.
  - split; cbn [me mr mc]; [now rewrite map_length|]. rewrite Forall_forall in *. intros x Hx. apply in_map_iff in Hx.
    destruct Hx as (y & <- & Hy). rewrite map_length. now apply W2.
  - auto with mwf.
  - reflexivity.
  - reflexivity.
  - cbn [mr mc]. intros i j Hi Hj. rewrite mget_mmap by assumption. unfold mget at 1. cbn [me].
    rewrite (nth_map_lt (map f) _ i [] []) by (rn; lia).
    unfold mget. apply (nth_map_lt f).
    rewrite Forall_forall in W2. rewrite W2; [assumption|]. apply nth_In. rn; lia.
Qed.
Lemma rowwise_agrees E (p : penalty (N:=RNum)) (fm : rmat) rho : mwf fm -> (0 < mr fm)%nat -> row_penalty p ->
  rowwise_update (N:=RNum) p fm rho = factor_matrix_update E p fm rho.
Proof.
  intros W Hr Hp. destruct p as [|lo hi|reg nn| | | | | |]; try contradiction.
  - apply (rowwise_map (relu (N:=RNum))); [assumption|reflexivity].
  - unfold factor_matrix_update. destruct (clip_ok (N:=RNum) lo hi) eqn:C.
    + apply rowwise_map; [assumption|]. intros row. cbn. now rewrite C.
    + unfold rowwise_update. destruct W as (W1 & _). destruct (me fm) as [|row rows]; [cbn in W1; lia|].
      cbn [mapM]. cbn [row_update]. rewrite C. reflexivity.
  - unfold factor_matrix_update. destruct (negb (ntruthy (N:=RNum) rho)) eqn:C.
    + unfold rowwise_update. destruct W as (W1 & _). destruct (me fm) as [|row rows]; [cbn in W1; lia|].
      cbn [mapM]. cbn [row_update]. rewrite C. reflexivity.
    + destruct nn; apply rowwise_map; try assumption; intros row; cbn [row_update]; rewrite C; reflexivity.
Qed.
(** each row of the matrix update is the row update of that row *)
Lemma rowwise_rows (p : penalty (N:=RNum)) (fm X : rmat) rho : mwf fm ->
  rowwise_update (N:=RNum) p fm rho = Ok X ->
  forall i, (i < mr fm)%nat -> row_update (N:=RNum) p (mrow fm i) rho = Ok (mrow X i).
Proof.
  intros (W & _) H i Hi. unfold rowwise_update in H.
  destruct (mapM (fun row => row_update (N:=RNum) p row rho) (me fm)) as [rows|] eqn:EM; [|discriminate].
  injection H as <-. unfold mrow. cbn [me]. rewrite <- W in Hi. clear W.
  revert i Hi rows EM. generalize (me fm) as l. induction l as [|x l IH]; intros i Hi rows EM; [cbn in Hi; lia|].
  cbn [mapM] in EM. destruct (row_update (N:=RNum) p x rho) as [y|] eqn:Ey; [|discriminate]. cbn [bind] in EM.
  destruct (mapM (fun row => row_update (N:=RNum) p row rho) l) as [ys|] eqn:Eys; [|discriminate]. injection EM as <-.
  destruct i as [|i]; [exact Ey|]. exact (IH i (proj2 (Nat.succ_lt_mono _ _) Hi) ys eq_refl).
Qed.

(** ** C15 *)
Lemma subtract_consistent (p : penalty (N:=RNum)) (a : auxes (N:=RNum)) (duals l : list rmat) :
  auxes_as_matrices (N:=RNum) p a = Ok l ->
  subtract_from_auxes (N:=RNum) p a duals = Ok (map2 (msub (N:=RNum)) l duals).
Proof.
  destruct p, a; cbn; intros H; try discriminate; injection H as <-; try reflexivity.
  f_equal. revert duals. induction basis as [|P b IH]; intros [|d ds]; try reflexivity. cbn. now rewrite IH.
Qed.

(** ** C16 *)
Lemma mabs_sum_abs (x : rmat) : mabs_sum (N:=RNum) x = abs_sum (mr x) (mc x) (rget x).
Proof.
  unfold mabs_sum, msum, abs_sum. mshape. rewrite nsum_rsum. apply rsum_Sum_ext. intros i Hi.
  rewrite nsum_rsum. apply rsum_Sum_ext. intros j Hj. rewrite mget_mmap by assumption. apply nabs_R.
Qed.
Lemma mtv_tv (x : rmat) : mtv (N:=RNum) x = total_variation (mr x) (mc x) (rget x).
Proof.
  unfold mtv, total_variation. rewrite nsum_rsum.
  rewrite (rsum_ext _ _ (fun i => rsum (mc x) (fun j => Rabs (rget x (S i) j - rget x i j)))).
  - rewrite rsum_swap. apply rsum_Sum_ext. intros j Hj. apply rsum_Sum_ext. reflexivity.
  - intros i Hi. rewrite nsum_rsum. apply rsum_ext. intros j Hj. apply nabs_R.
Qed.
Lemma mtrace_quad (M x : rmat) : mr M = mr x -> mc M = mr x ->
  mtrace (N:=RNum) (mmul (mmul (mtrans x) M) x) = quad (mr x) (mc x) (rget M) (rget x).
Proof.
  intros S1 S2. unfold mtrace, quad. mshape. rewrite nsum_rsum. apply rsum_Sum_ext. intros j Hj.
  rewrite mget_mmul by mlia. mshape. rewrite S2.
  rewrite (rsum_ext (mr x) _ (fun k => rsum (mr x) (fun i => rget x i j * rget M i k * rget x k j))).
  - rewrite rsum_swap. apply rsum_Sum_ext. intros i Hi. apply rsum_Sum_ext. reflexivity.
  - intros k Hk. rewrite mget_mmul by mlia. mshape. rewrite <- rsum_scal_r. apply rsum_ext. intros i Hi.
    rewrite mget_mtrans by mlia. reflexivity.
Qed.

Lemma penalty_value (p : penalty (N:=RNum)) (x : rmat) : valid_penalty p (mr x) ->
  (forall n a b, p <> Parafac2 (N:=RNum) n a b) ->
  penalty_mat (N:=RNum) p x = Ok (doc_penalty p (mr x) (mc x) (rget x)).
Proof.
  intros V NP. destruct p; cbn [penalty_mat doc_penalty]; try reflexivity.
  - rewrite mabs_sum_abs. rn. f_equal. ring.
  - cbn in V. destruct V as (_ & S1 & S2 & _). now rewrite mtrace_quad.
  - destruct (ntruthy (N:=RNum) l1_strength) eqn:T.
    + now rewrite mtv_tv, mabs_sum_abs.
    + apply ntruthy_R_false in T. rn. rewrite T, mtv_tv. f_equal. ring.
  - now destruct (NP n_iter update_basis update_coord).
Qed.
Lemma abs_sum_nonneg r c X : 0 <= abs_sum r c X.
Proof.
  unfold abs_sum. rewrite Sum_rsum. apply rsum_nonneg. intros. rewrite Sum_rsum. apply rsum_nonneg. intros; apply Rabs_pos.
Qed.
Lemma tv_nonneg r c X : 0 <= total_variation r c X.
Proof.
  unfold total_variation. rewrite Sum_rsum. apply rsum_nonneg. intros. rewrite Sum_rsum. apply rsum_nonneg. intros; apply Rabs_pos.
Qed.
Lemma doc_penalty_nonneg (p : penalty (N:=RNum)) r c X : valid_penalty p r -> 0 <= doc_penalty p r c X.
Proof.
  destruct p; cbn [valid_penalty doc_penalty]; intros V; try lra.
  - apply Rmult_le_pos; [assumption|apply abs_sum_nonneg].
  - destruct V as (_ & _ & _ & _ & P & _). unfold quad. rewrite Sum_rsum. apply rsum_nonneg. intros j Hj. apply (P (fun i => X i j)).
  - destruct V as (V1 & V2). pose proof (abs_sum_nonneg r c X). pose proof (tv_nonneg r c X).
    pose proof (Rmult_le_pos _ _ (Rlt_le _ _ V1) H0). pose proof (Rmult_le_pos _ _ V2 H). lra.
Qed.
Lemma penalty_list_value (p : penalty (N:=RNum)) (xs : list rmat) :
  (forall x, In x xs -> valid_penalty p (mr x)) ->
  penalty_list (N:=RNum) p xs =
  Ok (Sum (length xs) (fun i => doc_penalty p (mr (mnth xs i)) (mc (mnth xs i)) (rget (mnth xs i)))).
Proof.
  intros V.
  assert (EM : (forall n a b, p <> Parafac2 (N:=RNum) n a b) ->
     mapM (penalty_mat (N:=RNum) p) xs = Ok (map (fun x => doc_penalty p (mr x) (mc x) (rget x)) xs)).
  { intros NP. clear - V NP. induction xs as [|x xs IH]; [reflexivity|]. cbn [mapM].
    rewrite penalty_value by (auto; apply V; now left). cbn [bind]. rewrite IH by (intros; apply V; now right). reflexivity. }
  assert (ES : lsum (N:=RNum) (map (fun x => doc_penalty p (mr x) (mc x) (rget x)) xs) =
     Sum (length xs) (fun i => doc_penalty p (mr (mnth xs i)) (mc (mnth xs i)) (rget (mnth xs i)))).
  { pose proof (lsum_rsum (map (fun x => doc_penalty p (mr x) (mc x) (rget x)) xs)) as EL. rn. rewrite EL.
    rewrite map_length. apply rsum_Sum_ext. intros i Hi. rewrite (nth_map_lt _ _ i 0 dm) by assumption. reflexivity. }
  assert (Z : forall n, Sum n (fun _ => 0) = 0) by (intros; rewrite Sum_rsum; now apply rsum_zero).
  destruct p; cbn [penalty_list];
    try (cbn [doc_penalty]; rewrite Z; reflexivity);
    try (rewrite EM by (intros; discriminate); cbn [bind]; now rewrite ES).
  (* L1 *)
  f_equal. rewrite <- ES. clear. cbn [doc_penalty].
  induction xs as [|x xs IH]; cbn [map]; [rn; unfold lsum; cbn; ring|].
  rewrite !lsum_cons. rn. rewrite <- IH, mabs_sum_abs. ring.
Qed.

(** ** Every convex penalty: the update is the proximal operator *)
Definition convex_penalty (p : penalty (N:=RNum)) : Prop :=
  match p with UnitSimplex | Unimodality _ | Parafac2 _ _ _ => False | _ => True end.
Lemma is_proj_is_prox r c dom rho V X : 0 < rho -> is_proj r c dom V X -> is_prox r c (fun _ => 0) dom rho V X.
Proof.
  intros Hr (H1 & H2). split; [assumption|]. intros Z HZ. specialize (H2 Z HZ). nra.
Qed.
Lemma convex_update E (p : penalty (N:=RNum)) (V : rmat) rho : mwf V -> 0 < rho ->
  convex_penalty p -> valid_penalty p (mr V) ->
  (forall reg l1, p = TotalVariation (N:=RNum) reg l1 -> forall j, (j < mc V)%nat ->
     tv_minimiser (mcol V j) (reg * 2 / rho) (x_tv E (mcol V j) (reg * 2 / rho))) ->
  exists X, factor_matrix_update E p V rho = Ok X /\ mwf X /\ mr X = mr V /\ mc X = mc V /\
    is_prox (mr V) (mc V) (doc_penalty p (mr V) (mc V)) (doc_domain p (mr V) (mc V)) rho (rget V) (rget X).
Proof.
  intros W Hr Hc Hv Htv. destruct p as [|lo hi|reg nn|M U s|reg l1|b nn| | |]; try contradiction.
  - destruct (nonneg_update E V rho W) as (X & H1 & H2 & H3 & H4 & H5). exists X. do 4 (split; [assumption|]).
    now apply is_proj_is_prox.
  - destruct Hv. destruct (box_update E V rho lo hi W) as (X & H1 & H2 & H3 & H4 & H5); auto. exists X. do 4 (split; [assumption|]).
    now apply is_proj_is_prox.
  - destruct (l1_update E V rho reg nn W) as (X & H1 & H2 & H3 & H4 & H5); auto. exists X. do 4 (split; [assumption|]).
    eapply is_prox_ext; [| |exact H5]; [reflexivity|]. intros Z. cbn. destruct nn; unfold anywhere; split; auto; discriminate.
  - destruct Hv as (W1 & S1 & S2 & HS & HP & Vh & HD).
    destruct (genl2_update M U Vh s (mr V) W1 S1 S2 HD HS HP E V rho W eq_refl Hr) as (X & H1 & H2 & H3 & H4 & H5).
    exists X. do 4 (split; [assumption|]). exact H5.
  - destruct Hv. destruct (tv_update E V rho reg l1 W) as (X & H1 & H2 & H3 & H4 & H5); auto.
    { intros j Hj. now apply (Htv reg l1). }
    exists X. do 4 (split; [assumption|]). exact H5.
  - destruct (l2ball_update E V rho b nn W Hv) as (X & H1 & H2 & H3 & H4 & H5). exists X. do 4 (split; [assumption|]).
    now apply is_proj_is_prox.
Qed.

(** ** Forms used by P02_Penalties.v *)
Lemma C06_nonneg E (V : rmat) rho : mwf V ->
  exists X, factor_matrix_update E NonNegativity V rho = Ok X /\ (mwf X /\ mr X = mr V /\ mc X = mc V) /\
    is_proj (mr V) (mc V) (entries (mr V) (mc V) (fun x => 0 <= x)) (rget V) (rget X) /\
    (entries (mr V) (mc V) (fun x => 0 <= x) (rget V) -> X = V).
Proof.
  intros W. destruct (nonneg_update E V rho W) as (X & H1 & H2 & H3 & H4 & H5). exists X. split; [assumption|].
  split; [auto|]. split; [assumption|]. intros HV. apply same_mat; auto. eapply is_proj_fixed; eauto.
Qed.
Lemma C06_box E (V : rmat) rho lo hi : mwf V -> bounds_ok lo hi -> (lo <> None \/ hi <> None) ->
  exists X, factor_matrix_update E (Box (N:=RNum) lo hi) V rho = Ok X /\ (mwf X /\ mr X = mr V /\ mc X = mc V) /\
    is_proj (mr V) (mc V) (entries (mr V) (mc V) (within lo hi)) (rget V) (rget X) /\
    (entries (mr V) (mc V) (within lo hi) (rget V) -> X = V).
Proof.
  intros W Hb Hn. destruct (box_update E V rho lo hi W Hb Hn) as (X & H1 & H2 & H3 & H4 & H5). exists X. split; [assumption|].
  split; [auto|]. split; [assumption|]. intros HV. apply same_mat; auto. eapply is_proj_fixed; eauto.
Qed.
Lemma C07_l1 E (V : rmat) rho reg nn : mwf V -> 0 <= reg -> 0 < rho ->
  exists X, factor_matrix_update E (L1Penalty (N:=RNum) reg nn) V rho = Ok X /\ (mwf X /\ mr X = mr V /\ mc X = mc V) /\
    is_prox (mr V) (mc V) (fun Z => reg * abs_sum (mr V) (mc V) Z)
      (if nn then entries (mr V) (mc V) (fun x => 0 <= x) else anywhere) rho (rget V) (rget X) /\
    penalty_mat (L1Penalty (N:=RNum) reg nn) X = Ok (reg * abs_sum (mr X) (mc X) (rget X)).
Proof.
  intros W Hg Hr. destruct (l1_update E V rho reg nn W Hg Hr) as (X & H1 & H2 & H3 & H4 & H5). exists X. split; [assumption|].
  split; [auto|]. split; [assumption|]. now rewrite penalty_value by (auto; discriminate).
Qed.
Lemma C08_genl2 E (M U Vh : rmat) (s : list R) n (V : rmat) rho :
  mwf M -> mr M = n -> mc M = n -> symmetric n (rget M) -> psd n (rget M) -> has_svd M n (U, s, Vh) ->
  mwf V -> mr V = n -> 0 < rho ->
  exists X, factor_matrix_update E (GeneralizedL2 (N:=RNum) M U s) V rho = Ok X /\ (mwf X /\ mr X = mr V /\ mc X = mc V) /\
    is_prox (mr V) (mc V) (quad (mr V) (mc V) (rget M)) anywhere rho (rget V) (rget X).
Proof.
  intros W S1 S2 HS HP HD WV SV Hr.
  destruct (genl2_update M U Vh s n W S1 S2 HD HS HP E V rho WV SV Hr) as (X & H1 & H2 & H3 & H4 & H5).
  exists X. split; [assumption|]. split; [auto|assumption].
Qed.
Lemma C09_l2ball E (V : rmat) rho b nn : mwf V -> 0 < b ->
  exists X, factor_matrix_update E (L2Ball (N:=RNum) b nn) V rho = Ok X /\ (mwf X /\ mr X = mr V /\ mc X = mc V) /\
    let feasible := fun Z => cols_in_ball (mr V) (mc V) b Z /\
                             (nn = true -> entries (mr V) (mc V) (fun x => 0 <= x) Z) in
    is_proj (mr V) (mc V) feasible (rget V) (rget X) /\ (feasible (rget V) -> X = V).
Proof.
  intros W Hb. destruct (l2ball_update E V rho b nn W Hb) as (X & H1 & H2 & H3 & H4 & H5). exists X. split; [assumption|].
  split; [auto|]. intros feasible. split; [assumption|]. intros HV. apply same_mat; auto.
  exact (is_proj_fixed _ _ _ _ _ H5 HV).
Qed.
Lemma C10_simplex E (V : rmat) rho : mwf V -> (0 < mr V)%nat ->
  (exists X P, factor_matrix_update E UnitSimplex V rho = Ok X /\ (mwf X /\ mr X = mr V /\ mc X = mc V) /\
     is_proj (mr V) (mc V) (cols_in_simplex (mr V) (mc V)) (rget V) P /\
     entries (mr V) (mc V) (fun x => 0 <= x) (rget X) /\
     (forall B, entries (mr V) (mc V) (fun x => Rabs x <= B) (rget V) ->
        (forall i j, (i < mr V)%nat -> (j < mc V)%nat -> Rabs (rget X i j - P i j) <= eps_of B) /\
        (forall j, (j < mc V)%nat -> Rabs (Sum (mr V) (fun i => rget X i j) - 1) <= INR (mr V) * eps_of B))) \/
  (factor_matrix_update E UnitSimplex V rho = Err RuntimeError /\
     forall B, entries (mr V) (mc V) (fun x => Rabs x <= B) (rget V) -> ~ B <= 10 ^ 18).
Proof.
  intros W Hr. destruct (simplex_update E V rho W Hr) as [(X & P & H1 & H2 & H3 & H4 & H5)|H]; [left|right; exact H].
  exists X, P. split; [assumption|]. split; [auto|]. exact H5.
Qed.
Lemma C11_tv E (V : rmat) rho reg l1 : mwf V -> 0 < reg -> 0 <= l1 -> 0 < rho ->
  (forall j, (j < mc V)%nat ->
     tv_minimiser (mcol V j) (reg * 2 / rho) (x_tv E (mcol V j) (reg * 2 / rho))) ->
  exists X, factor_matrix_update E (TotalVariation (N:=RNum) reg l1) V rho = Ok X /\ (mwf X /\ mr X = mr V /\ mc X = mc V) /\
    is_prox (mr V) (mc V)
      (fun Z => reg * total_variation (mr V) (mc V) Z + l1 * abs_sum (mr V) (mc V) Z) anywhere rho (rget V) (rget X).
Proof.
  intros W Hg Hl Hr Ht. destruct (tv_update E V rho reg l1 W Hg Hl Hr Ht) as (X & H1 & H2 & H3 & H4 & H5).
  exists X. split; [assumption|]. split; [auto|assumption].
Qed.
Lemma C02_unimodality E (V : rmat) rho nn : mwf V -> (0 < mr V)%nat -> (0 < mc V)%nat ->
  exists X, factor_matrix_update E (Unimodality (N:=RNum) nn) V rho = Ok X /\ (mwf X /\ mr X = mr V /\ mc X = mc V) /\
    let feasible := fun Z => cols_unimodal (mr V) (mc V) Z /\ (nn = true -> entries (mr V) (mc V) (fun x => 0 <= x) Z) in
    is_nearest (mr V) (mc V) feasible (rget V) (rget X) /\ (feasible (rget V) -> X = V).
Proof.
  intros W Hr Hc. destruct (unimodality_update E V rho nn W Hr Hc) as (X & H1 & H2 & H3 & H4 & H5). exists X. split; [assumption|].
  split; [auto|]. intros feasible. split; [assumption|]. intros HV. apply same_mat; auto.
  exact (is_nearest_fixed _ _ _ _ _ H5 HV).
Qed.
Lemma C14_main E (p : penalty (N:=RNum)) (V : rmat) rho : mwf V -> (0 < mr V)%nat ->
  match p with NonNegativity | Box _ _ | L1Penalty _ _ => True | _ => False end ->
  rowwise_update (N:=RNum) p V rho = factor_matrix_update E p V rho /\
  forall X, factor_matrix_update E p V rho = Ok X ->
    forall i, (i < mr V)%nat -> row_update (N:=RNum) p (mrow V i) rho = Ok (mrow X i).
Proof.
  intros W Hr Hp. pose proof (rowwise_agrees E p V rho W Hr Hp) as EQ. split; [assumption|].
  intros X HX. rewrite <- EQ in HX. now apply rowwise_rows.
Qed.
Lemma C16_value (p : penalty (N:=RNum)) (X : rmat) : valid_penalty p (mr X) -> (forall n a b, p <> Parafac2 (N:=RNum) n a b) ->
  penalty_mat (N:=RNum) p X = Ok (doc_penalty p (mr X) (mc X) (rget X)) /\ 0 <= doc_penalty p (mr X) (mc X) (rget X).
Proof. intros V NP. split; [now apply penalty_value|now apply doc_penalty_nonneg]. Qed.
Lemma C16_list (p : penalty (N:=RNum)) (Xs : list rmat) : (forall X, In X Xs -> valid_penalty p (mr X)) ->
  exists v, penalty_list (N:=RNum) p Xs = Ok v /\ 0 <= v /\
    v = Sum (length Xs) (fun i => doc_penalty p (mr (nth i Xs no_mat)) (mc (nth i Xs no_mat)) (rget (nth i Xs no_mat))).
Proof.
  intros V. eexists. split; [now apply penalty_list_value|]. split; [|reflexivity].
  rewrite Sum_rsum. apply rsum_nonneg. intros i Hi. apply doc_penalty_nonneg, V. now apply nth_In.
Qed.
Lemma C16_pf2 n ub uc (X : rmat) : penalty_mat (N:=RNum) (Parafac2 n ub uc) X = Err TypeError.
Proof. reflexivity. Qed.
Lemma C16_mk (reg l1 b : R) (nn : bool) :
  (mk_L1 (N:=RNum) reg nn = (if Rlt_dec reg 0 then Err ValueError else Ok (L1Penalty reg nn))) /\
  (mk_L2Ball (N:=RNum) b nn = (if Rle_dec b 0 then Err ValueError else Ok (L2Ball b nn))) /\
  (mk_TV (N:=RNum) true reg l1 =
     (if Rle_dec reg 0 then Err ValueError else if Rlt_dec l1 0 then Err ValueError else Ok (TotalVariation reg l1))) /\
  mk_TV (N:=RNum) false reg l1 = Err ModuleNotFoundError.
Proof.
  unfold mk_L1, mk_L2Ball, mk_TV. cbn [negb]. rn.
  assert (A : forall x y, nltb (N:=RNum) x y = if Rlt_dec x y then true else false).
  { intros x y. destruct (Rlt_dec x y); [now apply nltb_true|apply nltb_false; lra]. }
  assert (B : forall x y, Rleb x y = if Rle_dec x y then true else false) by reflexivity.
  rewrite !A, !B. repeat split; repeat destruct Rlt_dec; repeat destruct Rle_dec; reflexivity.
Qed.
