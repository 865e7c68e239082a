(** Two problems that differ in units and orders only: one iteration. *)
From Coq Require Import Reals Lra Lia List Arith Bool ZArith Permutation.
From Verif Require Import Num Numpy RFacts Spec SpecFacts MatFacts ModelSpec Penalties PenaltySpec ProxProofs SimplexProofs
  CoupledMatrices CmfSpec CmfProofs Decomp DecompSpec DecompFacts AdmmA OrderProofs ReorderFacts ReorderPen SymSpec SymFacts SymPen SymStep.
Import ListNotations.
Local Open Scope R_scope.

Lemma moved_pen_mono E E' t k (S S' : Prop) p p' : (S -> S') -> moved_pen E E' t k S p p' -> moved_pen E E' t k S' p p'.
Proof. intros H. destruct p, p'; cbn [moved_pen]; try tauto. Qed.

Lemma lrel_ml n J c k p q l l' : lrel n (fun i => moved (J i) c k (p i) q) no_mat no_mat l l' -> moved_list n J c k p q l l'. Proof. exact (fun H => H). Qed.
(** ** Penalties of a mode with one factor matrix *)
Section Mode.
Variables (E E' : ext (N:=RNum)) (r c : nat) (P Q : nat -> nat) (t k : R).
Hypothesis Hr : (0 < r)%nat.
Hypothesis Hc : (0 < c)%nat.
Hypothesis HP : rearranges r P.
Hypothesis HQ : rearranges c Q.
Hypothesis Ht : 0 < t.
Hypothesis Hk : 0 < k.
Definition mreg_rel (g g' : mregR) : Prop :=
  moved_pen E E' t k (same_order P) (g_pen g) (g_pen g') /\ valid_penalty (g_pen g) r /\ valid_penalty (g_pen g') r /\
  moved r c k P Q (g_aux g) (g_aux g') /\ moved r c k P Q (g_dual g) (g_dual g').
Lemma sub_rel p p' (A A' D D' : rmat) : moved_pen E E' t k (same_order P) p p' -> moved r c k P Q A A' -> moved r c k P Q D D' ->
  res_rel (moved r c k P Q) (subtract_from_aux (N:=RNum) p A D) (subtract_from_aux (N:=RNum) p' A' D').
Proof. intros MP MA MD. destruct p, p'; cbn [moved_pen] in MP; try contradiction; cbn [subtract_from_aux res_rel]; try reflexivity; now apply moved_msub. Qed.
Lemma shifted_rel l l' : Forall2 mreg_rel l l' -> res_rel (Forall2 (moved r c k P Q)) (shifted_mats (N:=RNum) l) (shifted_mats (N:=RNum) l').
Proof. apply mapM_rel. intros g g' (M1 & _ & _ & M2 & M3). now apply sub_rel. Qed.
Lemma gap_rel (M M' : rmat) g g' : moved r c k P Q M M' -> mreg_rel g g' -> gap_mat M' g' = gap_mat M g.
Proof.
  intros MM (M1 & _ & _ & M2 & M3). apply rel_eq. unfold gap_mat. eapply res_rel_bind; [apply (sub_rel _ _ _ _ _ _ M1 M2 MM)|]. intros d d' MD. cbn [res_rel].
  rewrite (moved_mnorm r c P Q HP HQ k d d' (Rlt_le _ _ Hk) MD), (moved_mnorm r c P Q HP HQ k M M' (Rlt_le _ _ Hk) MM). symmetry. now apply xdiv_k.
Qed.
Lemma gaps_rel (M M' : rmat) l l' : moved r c k P Q M M' -> Forall2 mreg_rel l l' -> mapM (gap_mat M') l' = mapM (gap_mat M) l.
Proof. intros MM F. induction F as [|g g' l l' H F IH]; [reflexivity|]. cbn [mapM]. now rewrite (gap_rel M M' g g' MM H), IH. Qed.
Definition mstate_rel (s s' : rmat * list mregR) : Prop := moved r c k P Q (fst s) (fst s') /\ Forall2 mreg_rel (snd s) (snd s').
Lemma conv_mat_rel tol s s' u u' : mstate_rel s s' -> mstate_rel u u' -> conv_mat tol s' u' = conv_mat tol s u.
Proof.
  intros (M1 & F1) (M2 & F2). unfold conv_mat. rewrite (moved_mnorm r c P Q HP HQ k _ _ (Rlt_le _ _ Hk) M2).
  rewrite (moved_mnorm r c P Q HP HQ k _ _ (Rlt_le _ _ Hk) (moved_msub r c P Q HP HQ k _ _ _ _ M2 M1)). apply inner_conv_k; [assumption|]. now apply gaps_rel.
Qed.
(** a step on one penalty, when the whole matrix is updated *)
Lemma mreg_step (rho rho' : R) (M M' : rmat) g g' : 0 <= rho -> rho' = t * rho -> moved r c k P Q M M' -> mreg_rel g g' ->
  res_rel mreg_rel
    (let* aux := factor_matrix_update E (g_pen g) (madd M (g_dual g)) rho in let* sh := subtract_from_aux (g_pen g) aux (g_dual g) in Ok (MReg (g_pen g) aux (msub M sh)))
    (let* aux := factor_matrix_update E' (g_pen g') (madd M' (g_dual g')) rho' in let* sh := subtract_from_aux (g_pen g') aux (g_dual g') in Ok (MReg (g_pen g') aux (msub M' sh))).
Proof.
  intros H1 H2 MM (M1 & V1 & V2 & M2 & M3).
  eapply res_rel_bind; [apply (moved_update E E' r c P Q t k rho rho' Hr Hc HP HQ Ht Hk H1 H2 _ _ _ _ M1 V1 V2); now apply moved_madd|]. intros x x' MX.
  eapply res_rel_bind; [apply (sub_rel _ _ _ _ _ _ M1 MX M3)|]. intros d d' MD. cbn [res_rel]. split; [exact M1|]. split; [exact V1|]. split; [exact V2|]. split; [exact MX|]. now apply moved_msub.
Qed.
(** penalty values *)
Lemma mabs_sum_k (M M' : rmat) : moved r c k P Q M M' -> mabs_sum M' = k * mabs_sum M.
Proof.
  intros MM. unfold mabs_sum. apply (moved_sum r c P Q HP HQ). apply (moved_map r c P Q HP HQ k k); [|exact MM]. intros x. rewrite !nabs_R. rewrite Rabs_mult, (Rabs_pos_eq k) by lra. reflexivity.
Qed.
Lemma penalty_rel p p' (M M' : rmat) : moved_pen E E' t k (same_order P) p p' -> valid_penalty p r -> moved r c k P Q M M' ->
  res_rel (fun a b => b = t * (k * k) * a) (penalty_mat p M) (penalty_mat p' M').
Proof.
  intros MP VP MM.
  destruct p as [|lo hi|reg nn|G U s|reg l1|b nn| |nn|it ub uc], p' as [|lo' hi'|reg' nn'|G' U' s'|reg' l1'|b' nn'| |nn'|it' ub' uc']; cbn [moved_pen] in MP; try contradiction; cbn [penalty_mat res_rel];
    try (rn; lra).
  - destruct MP as (-> & ->). rewrite (mabs_sum_k _ _ MM). rn. rr.
  - destruct MP as (SO & ->). destruct VP as (WG & RG & CG & _).
    assert (M0 : moved r c k (fun i => i) Q M M') by (apply (moved_ext r c k k P Q); [reflexivity|intros; apply SO|reflexivity|exact MM]).
    rewrite (moved_trace c (k * t * k) Q (mmul (mmul (mtrans M) G) M) (mmul (mmul (mtrans M') (mscale (N:=RNum) t G)) M') HQ); [rn; rr|].
    apply (moved_mmul c r c (k * t) k Q Q (fun i => i)); [apply re_id| |exact M0|assumption|assumption].
    apply (moved_mmul c r r k t Q (fun i => i) (fun i => i)); [apply re_id| | |assumption|apply re_id].
    + apply moved_mtrans; [apply re_id|assumption|exact M0].
    + split; [split; assumption || (split; assumption)|]. split; [split; [auto with mwf|mshape; split; assumption]|]. intros i j Hi Hj. now rewrite mget_mscale by lia.
  - destruct MP as (Ek & SO & -> & -> & _).
    assert (TV : mtv M' = mtv M).
    { destruct MM as ((W & Sr & Sc) & (W' & Sr' & Sc') & H). unfold mtv. rewrite Sr, Sr', Sc, Sc'. rewrite !nsum_rsum. apply rsum_ext. intros i Hi. rewrite !nsum_rsum.
      transitivity (rsum c (fun j => nabs (N:=RNum) (rget M (S i) (Q j) - rget M i (Q j)))); [|exact (re_sum c Q HQ (fun j => nabs (N:=RNum) (rget M (S i) j - rget M i j)))].
      apply rsum_ext. intros j Hj. f_equal. rewrite !H by lia. rewrite !SO, Ek. rn. rr. }
    rewrite TV, ntruthy_k by lra. destruct (ntruthy (N:=RNum) l1); cbn [res_rel]; [rewrite (mabs_sum_k _ _ MM)|]; rewrite Ek; rn; rr.
  - reflexivity.
Qed.
End Mode.

(** ** The problem *)
(** On corresponding systems both routines do their job, or both results are unusable. *)
Definition svds_agree (E E' : ext (N:=RNum)) (rk : nat) (sg : nat -> nat) : Prop :=
  forall t M M', moved rk rk t sg sg M M' -> t <> 0 -> mtrans M = M -> mtrans M' = M' ->
    (has_svd M rk (x_svd E M rk) /\ has_svd M' rk (x_svd E' M' rk)) \/ (finite_svd (x_svd E M rk) = false /\ finite_svd (x_svd E' M' rk) = false).
Definition nearest_shaped (E : ext (N:=RNum)) (rk : nat) : Prop :=
  forall (M : rmat) Q, mwf M -> mc M = rk -> (rk <= mr M)%nat -> nearest E M rk = Ok Q -> shaped Q (mr M) rk.
Lemma correct_agree E E' rk sg : svd_correct E rk -> svd_correct E' rk -> svds_agree E E' rk sg.
Proof. intros HE HE' t M M' ((W & Sr & Sc) & (W' & Sr' & Sc') & _) _ _ _. left. split; [apply HE; [assumption|assumption|lia]|apply HE'; [assumption|assumption|lia]]. Qed.
Lemma correct_shaped E rk : svd_correct E rk -> nearest_shaped E rk.
Proof.
  intros HE M Q W C T H. pose proof (HE M W C T) as SV. unfold nearest in H. destruct (x_svd E M rk) as [[U s] Vh]. destruct SV as (WU & RU & CU & _ & WV & RV & CV & _). unfold matmul in H. destruct (_ =? _)%nat; [|discriminate]. injection H as <-.
  split; [auto with mwf|]. mshape. split; congruence.
Qed.
Section Sym.
Variables (E E' : ext (N:=RNum)) (z : sizes) (h : change).
Local Notation n := (z_n z). Local Notation J := (z_rows z). Local Notation K := (z_cols z). Local Notation rk := (z_rank z).
Local Notation kA := (h_A h). Local Notation kB := (h_B h). Local Notation kC := (h_C h).
Local Notation sg := (h_comp h). Local Notation pi := (h_rows h). Local Notation ta := (h_cols h).
Local Notation tA := (problem_factor h 0). Local Notation tB := (problem_factor h 1). Local Notation tC := (problem_factor h 2).
Local Notation id := (fun i : nat => i).
Hypothesis HH : proper z h.
Hypothesis Hn : (0 < n)%nat.
Hypothesis HJ : forall i, (i < n)%nat -> (0 < J i)%nat.
Hypothesis HK : (0 < K)%nat.
Hypothesis HR : (0 < rk)%nat.
Hypothesis HE : svds_agree E E' rk sg.
Hypothesis HE' : nearest_shaped E rk.
Variables Xs Xs' : list rmat.
Hypothesis HX : moved_data z h Xs Xs'.
Local Notation MA := (moved n rk kA id sg).
Local Notation MB := (moved_list n J rk kB pi sg).
Local Notation MC := (moved K rk kC ta sg).

Lemma kA0 : 0 < kA. Proof. apply HH. Qed.
Lemma kB0 : 0 < kB. Proof. apply HH. Qed.
Lemma kC0 : 0 < kC. Proof. apply HH. Qed.
Lemma Hsg : rearranges rk sg. Proof. apply HH. Qed.
Lemma Hta : rearranges K ta. Proof. apply HH. Qed.
Lemma Hpi i : (i < n)%nat -> rearranges (J i) (pi i). Proof. apply HH. Qed.
Lemma Hid m : rearranges m id. Proof. apply re_id. Qed.
Lemma tA0 : 0 < tA. Proof. cbn. pose proof kB0. pose proof kC0. assert (0 < kB * kC) by nra. nra. Qed.
Lemma tB0 : 0 < tB. Proof. cbn. pose proof kA0. pose proof kC0. assert (0 < kA * kC) by nra. nra. Qed.
Lemma tC0 : 0 < tC. Proof. cbn. pose proof kA0. pose proof kB0. assert (0 < kA * kB) by nra. nra. Qed.
Local Hint Resolve kA0 kB0 kC0 Hsg Hta Hpi Hid tA0 tB0 tC0 : sym.
Definition areg := mreg_rel E E' n rk id sg tA kA.
Definition creg := mreg_rel E E' K rk ta sg tC kC.
Definition breg_rel (g g' : bregR) : Prop :=
  moved_pen E E' tB kB (forall i, same_order (pi i)) (b_pen g) (b_pen g') /\
  (forall i, (i < n)%nat -> valid_penalty (b_pen g) (J i)) /\ (forall i, (i < n)%nat -> valid_penalty (b_pen g') (J i)) /\
  (is_parafac2 (b_pen g) -> (forall i, (i < n)%nat -> (rk <= J i)%nat) /\ same_nearest E E' rk kB) /\
  moved_auxes z h (b_aux g) (b_aux g') /\ MB (b_dual g) (b_dual g').

(** the data *)
Lemma HX' : lrel n (fun i => moved (J i) K (h_X h) (pi i) ta) no_mat no_mat Xs Xs'. Proof. exact HX. Qed.

(** systems *)
Definition sys_rel (t : R) (d d' : svd3 (N:=RNum)) : Prop :=
  (exists M M', moved rk rk t sg sg M M' /\ mtrans M = M /\ mtrans M' = M' /\ has_svd M rk d /\ has_svd M' rk d') \/ (finite_svd d = false /\ finite_svd d' = false).
Definition lhs_rel (t : R) (G G' : rmat) : Prop := (moved rk rk t sg sg G G' /\ 0 <= mtrace G) /\ mtrans G = G /\ mtrans G' = G'.
Lemma sys_of t G G' fp fp' l2 l2' m : 0 < t -> lhs_rel t G G' -> fp' = t * fp -> l2' = t * l2 -> sys_rel t (lhs_svd E (ridge (N:=RNum) G fp m l2)) (lhs_svd E' (ridge (N:=RNum) G' fp' m l2')).
Proof.
  intros T0 ((MG & _) & S1 & S2) E1 E2. pose proof (moved_ridge rk t sg G G' fp fp' l2 l2' m Hsg MG E1 E2) as MR. pose proof MG as ((W & Sr & Sc) & (W' & Sr' & Sc') & _).
  assert (Y1 : mtrans (ridge (N:=RNum) G fp m l2) = ridge (N:=RNum) G fp m l2) by (apply ridge_sym; congruence). assert (Y2 : mtrans (ridge (N:=RNum) G' fp' m l2') = ridge (N:=RNum) G' fp' m l2') by (apply ridge_sym; congruence).
  pose proof MR as ((WR & SrR & ScR) & (WR' & SrR' & ScR') & _). unfold lhs_svd. rewrite SrR, SrR'.
  destruct (HE t _ _ MR ltac:(lra) Y1 Y2) as [(D1 & D2)|(D1 & D2)]; [left|right; auto].
  exists (ridge (N:=RNum) G fp m l2), (ridge (N:=RNum) G' fp' m l2'). auto.
Qed.
Lemma svds_rel t ls ls' fps fps' m l2 l2' : 0 < t -> lrel n (fun _ => lhs_rel t) no_mat no_mat ls ls' -> scaled n t fps fps' -> l2' = t * l2 ->
  lrel n (fun _ => sys_rel t) (Mat (N:=RNum) 0 0 [], [], Mat (N:=RNum) 0 0 []) (Mat (N:=RNum) 0 0 [], [], Mat (N:=RNum) 0 0 []) (lhs_svds E ls fps m l2) (lhs_svds E' ls' fps' m l2').
Proof. intros T0 H1 H2 E2. eapply lrel_map2; [exact H1|exact H2|]. cbv beta. intros i a a' b b' Hi HA (HB & _). now apply sys_of. Qed.
Lemma gram_trace (D : rmat) : 0 <= mtrace (mmul (mtrans D) D).
Proof. unfold mtrace. rewrite nsum_rsum. apply rsum_nonneg. intros i Hi. mshape. now apply gram_diag. Qed.

Lemma solve_row_refused (d : svd3 (N:=RNum)) (b : list R) : finite_svd d = false -> solve_row (N:=RNum) d b = Err NonFinite.
Proof. destruct d as [[U s] Vh]. unfold solve_row. now intros ->. Qed.
Lemma solve_mat_refused (d : svd3 (N:=RNum)) (b : rmat) : finite_svd d = false -> solve_mat (N:=RNum) d b = Err NonFinite.
Proof. destruct d as [[U s] Vh]. unfold solve_mat. now intros ->. Qed.

(** ** A *)
Section A.
Variables c c' : rcmf.
Hypothesis HC : moved_cmf z h c c'.
Lemma cmA : MA (cA c) (cA c'). Proof. apply HC. Qed.
Lemma cmB : MB (cBs c) (cBs c'). Proof. apply HC. Qed.
Lemma cmB' : lrel n (fun i => moved (J i) rk kB (pi i) sg) no_mat no_mat (cBs c) (cBs c'). Proof. apply HC. Qed.
Lemma cmC : MC (cC c) (cC c'). Proof. apply HC. Qed.
Lemma A_cross_rel : lrel n (fun _ => lhs_rel tA) no_mat no_mat (A_cross (cBs c) (cC c) Xs) (A_cross (cBs c') (cC c') Xs').
Proof.
  eapply lrel_map2; [exact HX'|exact cmB'|]. cbv beta. intros i X X' B B' Hi _ MBi. pose proof cmC as MCc.
  assert (MX : moved rk rk tA sg sg (cross_product (cC c) B) (cross_product (cC c') B')).
  { apply (moved_ext rk rk (kB * kB * (kC * kC)) tA sg sg sg sg); [cbn; ring|reflexivity|reflexivity|]. unfold cross_product.
    apply moved_mhad; [apply Hsg|apply Hsg| |].
    - apply (moved_mmul rk (J i) rk kB kB sg sg (pi i)); auto with sym. apply moved_mtrans; auto with sym.
    - apply (moved_mmul rk K rk kC kC sg sg ta); auto with sym. apply moved_mtrans; auto with sym. }
  destruct MBi as ((W & Sr & Sc) & (W' & Sr' & Sc') & _). destruct MCc as ((WC & SrC & ScC) & (WC' & SrC' & ScC') & _).
  split; [split; [exact MX|]|split; apply cross_sym; congruence].
  unfold mtrace, cross_product. rewrite nsum_rsum. apply rsum_nonneg. mshape. intros j Hj. unfold mhad. rewrite mget_mmap2 by mlia. apply Rmult_le_pos; apply gram_diag; lia.
Qed.
Lemma A_rhs_rel : lrel n (fun _ => moved_vec rk (tA * kA) sg) [] [] (A_rhses (cBs c) (cC c) Xs) (A_rhses (cBs c') (cC c') Xs').
Proof.
  eapply lrel_map2; [exact HX'|exact cmB'|]. cbv beta. intros i X X' B B' Hi MX MBi. pose proof cmC as MCc.
  apply moved_diag; [apply Hsg|].
  assert (M0 : moved rk rk (tA * kA) sg sg (mmul (mtrans B) (mmul X (cC c))) (mmul (mtrans B') (mmul X' (cC c')))).
  { apply (moved_ext rk rk (kB * (h_X h * kC)) (tA * kA) sg sg sg sg); [unfold h_X; cbn; ring|reflexivity|reflexivity|].
    apply (moved_mmul rk (J i) rk kB (h_X h * kC) sg sg (pi i)); auto with sym; [apply moved_mtrans; auto with sym|]. apply (moved_mmul (J i) K rk (h_X h) kC (pi i) sg ta); auto with sym. }
  destruct MX as ((W & Sr & Sc) & (W' & Sr' & Sc') & _). destruct MBi as ((WB & SrB & ScB) & (WB' & SrB' & ScB') & _). destruct MCc as ((WC & SrC & ScC) & (WC' & SrC' & ScC') & _).
  rewrite !btxc_eq by congruence. exact M0.
Qed.
End A.
Lemma row_update_rel p p' (v v' : list R) rho rho' : moved_pen E E' tA kA (same_order id) p p' -> rho' = tA * rho -> moved_vec rk kA sg v v' ->
  res_rel (moved_vec rk kA sg) (row_update (N:=RNum) p v rho) (row_update (N:=RNum) p' v' rho').
Proof.
  intros MP EH (L1 & L2 & HV). pose proof tA0 as T0. pose proof kA0 as K0.
  assert (MM : forall f f' : R -> R, (forall x, f' (kA * x) = kA * f x) -> moved_vec rk kA sg (map f v) (map f' v')).
  { intros f f' Hf. split; [now rewrite map_length|]. split; [now rewrite map_length|]. intros j Hj. pose proof (re_lt _ _ Hsg j Hj) as Hj'. unfold at_.
    rewrite !(nth_map_lt _ _ _ _ 0) by lia. change (f' (at_ v' j) = kA * f (at_ v (sg j))). rewrite HV by assumption. apply Hf. }
  destruct p as [|lo hi|reg nn|G U s|reg l1|b nn| |nn|it ub uc], p' as [|lo' hi'|reg' nn'|G' U' s'|reg' l1'|b' nn'| |nn'|it' ub' uc']; cbn [moved_pen] in MP; try contradiction; cbn [row_update]; try reflexivity.
  - cbn [res_rel]. apply MM. intros x. now apply relu_k.
  - destruct MP as (-> & ->). assert (EC : clip_ok (N:=RNum) (option_map (Rmult kA) lo) (option_map (Rmult kA) hi) = clip_ok (N:=RNum) lo hi) by now destruct lo, hi. rewrite EC.
    destruct (clip_ok (N:=RNum) lo hi); [|reflexivity]. cbn [res_rel]. apply MM. intros x. now apply clip_k.
  - destruct MP as (-> & ->). rewrite EH, ntruthy_k by lra. destruct (ntruthy (N:=RNum) rho) eqn:TR; [|reflexivity]. cbn [negb].
    assert (ED : @ndiv RNum (tA * kA * reg) (tA * rho) = kA * (reg / rho)) by (rn; apply div_k; lra). rewrite ED.
    destruct nn; cbn [res_rel]; apply MM; intros x.
    + rn. replace (kA * x - kA * (reg / rho)) with (kA * (x - reg / rho)) by ring. now apply relu_k.
    + unfold soft. rewrite !nabs_R. rn. replace (Rabs (kA * x) - kA * (reg / rho)) with (kA * (Rabs x - reg / rho)) by (rewrite Rabs_mult, (Rabs_pos_eq kA) by lra; ring). rewrite relu_k by assumption.
      assert (SG : nsign (N:=RNum) (kA * x) = nsign (N:=RNum) x). { unfold nsign. rn. destruct (nltb_spec (kA * x) 0), (nltb_spec x 0), (nltb_spec 0 (kA * x)), (nltb_spec 0 x); try reflexivity; exfalso; nra. }
      rewrite SG. ring.
Qed.
Lemma rows_update_rel p p' (V V' : rmat) fps fps' : moved_pen E E' tA kA (same_order id) p p' -> MA V V' -> scaled n tA fps fps' ->
  res_rel MA (rows_update (N:=RNum) p V fps) (rows_update (N:=RNum) p' V' fps').
Proof.
  intros MP MV (L1 & L2 & HF). unfold rows_update. cbn [num RNum] in *. rewrite L1, L2. pose proof MV as ((W & Sr & Sc) & (W' & Sr' & Sc') & _). rewrite Sr, Sr', Sc, Sc'.
  eapply res_rel_bind; [apply (mapM_seq_rel _ _ (fun _ => moved_vec rk kA sg) [] [])|].
  - intros i Hi. apply row_update_rel; [exact MP|apply HF; exact Hi|]. now apply (moved_row n rk kA sg V V' i Hsg).
  - intros l l' H. cbn [res_rel]. now apply moved_rows.
Qed.
Lemma A_reg_rel constant fps fps' (A A' : rmat) g g' : scaled n tA fps fps' -> MA A A' -> areg g g' -> res_rel areg (A_reg_step E constant fps A g) (A_reg_step E' constant fps' A' g').
Proof.
  intros HF MAA G. unfold A_reg_step. cbv zeta. destruct constant.
  - destruct HF as (L1 & L2 & HF). destruct (HF 0%nat Hn) as (F1 & F2). apply (mreg_step E E' n rk id sg tA kA); auto with sym.
  - destruct G as (M1 & V1 & V2 & M2 & M3). eapply res_rel_bind; [apply rows_update_rel; [exact M1| |exact HF]; apply moved_madd; auto with sym|]. intros x x' MX.
    eapply res_rel_bind; [apply (sub_rel E E' n rk id sg tA kA (Hid n) Hsg _ _ _ _ _ _ M1 MX M3)|]. intros d d' MD. cbn [res_rel].
    split; [exact M1|]. split; [exact V1|]. split; [exact V2|]. split; [exact MX|]. apply moved_msub; auto with sym.
Qed.
Definition astate := mstate_rel E E' n rk id sg tA kA.
Lemma A_step_rel constant svds svds' fps fps' rhses rhses' s s' :
  lrel n (fun _ => sys_rel tA) (Mat (N:=RNum) 0 0 [], [], Mat (N:=RNum) 0 0 []) (Mat (N:=RNum) 0 0 [], [], Mat (N:=RNum) 0 0 []) svds svds' -> scaled n tA fps fps' ->
  lrel n (fun _ => moved_vec rk (tA * kA) sg) [] [] rhses rhses' -> astate s s' ->
  res_rel astate (A_step E constant svds fps rhses s) (A_step E' constant svds' fps' rhses' s').
Proof.
  intros HS HF HRH (MAA & F). destruct s as [A regs], s' as [A' regs']. cbn [fst snd] in *. unfold A_step.
  eapply res_rel_bind; [apply (shifted_rel E E' n rk id sg tA kA (Hid n) Hsg _ _ F)|]. intros sh sh' MS. pose proof MAA as ((W & Sr & Sc) & (W' & Sr' & Sc') & _). rewrite Sr, Sr', Sc, Sc'.
  eapply res_rel_bind; [apply (mapM_seq_rel _ _ (fun _ => moved_vec rk kA sg) [] [])|].
  - intros i Hi. destruct HS as (_ & _ & HS). pose proof tA0. destruct (HS i Hi) as [(M & M' & MM & S1 & S2 & D1 & D2)|(D1 & D2)]; [|rewrite !solve_row_refused by assumption; reflexivity].
    apply (moved_solve_row rk tA kA sg M M'); auto with sym; [lra|].
    apply (moved_vec_map2 rk (tA * kA) (tA * kA) (tA * kA) sg); [apply Hsg|intros x y; rn; ring| |].
    + apply moved_vec_scale; [apply Hsg|apply HF; exact Hi|]. unfold sum_rows. apply (moved_sum_rows n rk kA sg i Hsg Hi); [exact MS|]. now apply moved_vec_zeros, Hsg.
    + apply HRH. exact Hi.
  - intros rows rows' HRW. pose proof (moved_rows n rk kA sg rows rows' HRW) as MA'. cbv zeta.
    eapply res_rel_bind; [apply (mapM_rel _ _ areg areg); [|exact F]|].
    + intros g g' G. apply A_reg_rel; assumption.
    + intros r r' FR. cbn [res_rel]. split; assumption.
Qed.
Definition inter_rel (x y : list (list R) * list rmat) : Prop :=
  lrel n (fun _ => moved_vec rk (tA * kA) sg) [] [] (fst x) (fst y) /\ lrel n (fun _ => moved rk rk tA sg sg) no_mat no_mat (snd x) (snd y).
Lemma Forall2_len' {A B} (Q : A -> B -> Prop) l l' : Forall2 Q l l' -> length l' = length l.
Proof. intros H. induction H; cbn; congruence. Qed.
Lemma update_A_rel c c' regs regs' l2 l2' m tol scale constant : 0 <= scale -> l2' = tA * l2 -> moved_cmf z h c c' -> Forall2 areg regs regs' ->
  res_rel (fun x y => moved_cmf z h (fst (fst x)) (fst (fst y)) /\ Forall2 areg (snd (fst x)) (snd (fst y)) /\ inter_rel (snd x) (snd y))
    (admm_update_A E Xs c regs l2 m tol scale constant) (admm_update_A E' Xs' c' regs' l2' m tol scale constant).
Proof.
  intros Hs E2 HC F. unfold admm_update_A. cbv zeta. pose proof (A_cross_rel c c' HC) as XR. pose proof (A_rhs_rel c c' HC) as RR.
  eapply res_rel_bind; [apply (feas_penalties_k n rk tA scale constant sg _ _ Hn tA0 Hs Hsg); eapply lrel_impl; [|exact XR]; intros i a b _ (Q & _); exact Q|]. intros fps fps' HF.
  rewrite (Forall2_len' _ _ _ F).
  eapply res_rel_bind; [apply (inner_loop_rel astate)|].
  - intros s s' SS. apply A_step_rel; [|exact HF|exact RR|exact SS]. apply svds_rel; auto with sym.
  - intros s s' u u' S1 S2. apply (conv_mat_rel E E' n rk id sg tA kA (Hid n) Hsg kA0 tol s s' u u' S1 S2).
  - split; [apply cmA; exact HC|exact F].
  - intros [A r] [A' r'] (M1 & F1). cbn [fst snd res_rel] in *. split; [|split; [exact F1|]].
    + split; [exact Logic.I|]. split; [exact M1|]. apply HC.
    + split; cbn [fst snd]; [exact RR|]. eapply lrel_impl; [|exact XR]. intros i a b _ ((Q & _) & _). exact Q.
Qed.

(** ** C *)
Section C.
Variables c c' : rcmf.
Hypothesis HC : moved_cmf z h c c'.
Lemma rows_of (A A' : rmat) k : moved n rk k id sg A A' -> lrel n (fun _ => moved_vec rk k sg) [] [] (me A) (me A').
Proof.
  intros MM. pose proof MM as ((W & Sr & Sc) & (W' & Sr' & Sc') & _). split; [destruct W as (L & _); cbn [num RNum] in *; congruence|]. split; [destruct W' as (L & _); cbn [num RNum] in *; congruence|]. intros i Hi.
  exact (moved_row n rk k sg A A' i Hsg MM Hi).
Qed.
Lemma BA_rel (A A' : rmat) k : moved n rk k id sg A A' -> lrel n (fun i => moved (J i) rk (kB * k) (pi i) sg) no_mat no_mat (BA (cBs c) A) (BA (cBs c') A').
Proof.
  intros MM. unfold BA. eapply lrel_map2; [apply (cmB' c c' HC)|apply (rows_of A A' k MM)|]. cbv beta. intros i B B' a a' Hi HB Ha. apply moved_mcolscale; auto with sym.
Qed.
Lemma C_lhs_rel : exists G G', msum_list (C_lhs_terms Xs (cBs c) (cA c)) = Some G /\ msum_list (C_lhs_terms Xs' (cBs c') (cA c')) = Some G' /\ lhs_rel tC G G'.
Proof.
  assert (L : lrel n (fun _ a b => (moved rk rk tC sg sg a b /\ 0 <= mtrace a) /\ mtrans a = a /\ mtrans b = b) no_mat no_mat (C_lhs_terms Xs (cBs c) (cA c)) (C_lhs_terms Xs' (cBs c') (cA c'))).
  { eapply lrel_map2; [exact HX'|apply (BA_rel _ _ _ (cmA c c' HC))|]. cbv beta. intros i X0 X0' D D' Hi _ HD. 
    assert (MD : moved rk rk tC sg sg (mmul (mtrans D) D) (mmul (mtrans D') D')).
    { apply (moved_ext rk rk (kB * kA * (kB * kA)) tC sg sg sg sg); [cbn; ring|reflexivity|reflexivity|]. apply (moved_mmul rk (J i) rk (kB * kA) (kB * kA) sg sg (pi i)); auto with sym. apply moved_mtrans; auto with sym. }
    destruct HD as ((W & Sr & Sc) & (W' & Sr' & Sc') & _). split; [split; [exact MD|apply gram_trace]|]. split; now apply gram_sym. }
  destruct (moved_msum_list n rk rk tC sg sg _ _ Hsg Hsg Hn (lrel_impl _ _ _ _ _ _ _ (fun i a b _ Q => proj1 (proj1 Q)) L)) as (G & G' & E1 & E2 & MG).
  exists G, G'. split; [exact E1|]. split; [exact E2|].
  assert (SY : forall l : list rmat, (forall i, (i < length l)%nat -> shaped (nth i l no_mat) rk rk /\ mtrans (nth i l no_mat) = nth i l no_mat) -> forall M, msum_list l = Some M -> mtrans M = M).
  { intros l HL M EM. destruct l as [|x l]; [discriminate|]. cbn [msum_list] in EM. injection EM as <-. destruct (HL 0%nat ltac:(cbn; lia)) as (HL0 & HL0'). cbn in HL0, HL0'.
    assert (HL' : forall y, In y l -> shaped y rk rk /\ mtrans y = y) by (intros y Hy; apply (In_nth _ _ no_mat) in Hy; destruct Hy as (i & Hi & <-); apply (HL (S i)); cbn; lia). clear HL.
    revert x HL0 HL0'. induction l as [|y l IH]; intros x Sx Ex; cbn [fold_left]; [exact Ex|]. destruct (HL' y ltac:(now left)) as ((Wy & Ry & Cy) & Ey). destruct Sx as (Wx & Rx & Cx). apply IH; [intros w Hw; apply HL'; now right| |].
    - split; [auto with mwf|mshape; split; assumption].
    - rewrite mtrans_madd by congruence. now rewrite Ex, Ey. }
  destruct L as (L1 & L2 & L). split; [split; [exact MG|]|].
  - (* the trace of a sum of Gram matrices *)
    assert (TR : forall l : list rmat, (forall i, (i < length l)%nat -> shaped (nth i l no_mat) rk rk /\ 0 <= mtrace (nth i l no_mat)) -> forall M, msum_list l = Some M -> 0 <= mtrace M).
    { intros l HL M EM. destruct l as [|x l]; [discriminate|]. cbn [msum_list] in EM. injection EM as <-. destruct (HL 0%nat ltac:(cbn; lia)) as (HL0 & HL0'). cbn in HL0, HL0'.
      assert (HL' : forall y, In y l -> shaped y rk rk /\ 0 <= mtrace y) by (intros y Hy; apply (In_nth _ _ no_mat) in Hy; destruct Hy as (i & Hi & <-); apply (HL (S i)); cbn; lia). clear HL.
      revert x HL0 HL0'. induction l as [|y l IH]; intros x Sx Ex; cbn [fold_left]; [exact Ex|]. destruct (HL' y ltac:(now left)) as ((Wy & Ry & Cy) & Ey). destruct Sx as (Wx & Rx & Cx). apply IH; [intros w Hw; apply HL'; now right| |].
      - split; [auto with mwf|mshape; split; assumption].
      - unfold mtrace in *. mshape. rewrite Rx in *. rewrite Ry in *. rewrite nsum_rsum in *. rewrite (rsum_ext rk _ (fun i => rget x i i + rget y i i)) by (intros i Hi; unfold madd; rewrite mget_mmap2 by lia; reflexivity).
        rewrite rsum_add. rn. lra. }
    apply (TR _ (fun i Hi => conj (proj1 (proj1 (proj1 (L i (eq_ind _ (fun m => (i < m)%nat) Hi _ L1))))) (proj2 (proj1 (L i (eq_ind _ (fun m => (i < m)%nat) Hi _ L1))))) G E1).
  - split; [apply (SY _ (fun i Hi => conj (proj1 (proj1 (proj1 (L i (eq_ind _ (fun m => (i < m)%nat) Hi _ L1))))) (proj1 (proj2 (L i (eq_ind _ (fun m => (i < m)%nat) Hi _ L1))))) G E1)|
           apply (SY _ (fun i Hi => conj (proj1 (proj2 (proj1 (proj1 (L i (eq_ind _ (fun m => (i < m)%nat) Hi _ L2)))))) (proj2 (proj2 (L i (eq_ind _ (fun m => (i < m)%nat) Hi _ L2))))) G' E2)].
Qed.
Lemma C_rhs_rel : exists G G', msum_list (C_rhs_terms Xs (cBs c) (cA c)) = Some G /\ msum_list (C_rhs_terms Xs' (cBs c') (cA c')) = Some G' /\ moved K rk (tC * kC) ta sg G G'.
Proof.
  apply (moved_msum_list n); auto with sym. eapply lrel_map2; [exact HX'|apply (BA_rel _ _ _ (cmA c c' HC))|]. cbv beta. intros i X X' D D' Hi HXi HD.
  apply (moved_ext K rk (h_X h * (kB * kA)) (tC * kC) ta sg ta sg); [unfold h_X; cbn; ring|reflexivity|reflexivity|].
  apply (moved_mmul K (J i) rk (h_X h) (kB * kA) ta sg (pi i)); auto with sym. apply moved_mtrans; auto with sym.
Qed.
End C.
Definition cstate := mstate_rel E E' K rk ta sg tC kC.
Lemma C_step_rel d d' fp fp' (rhs rhs' : rmat) s s' : sys_rel tC d d' -> 0 <= fp -> fp' = tC * fp -> moved K rk (tC * kC) ta sg rhs rhs' -> cstate s s' ->
  res_rel cstate (C_step E d fp rhs s) (C_step E' d' fp' rhs' s').
Proof.
  intros HSY H1 H2 MR (MCC & F). destruct s as [C0 regs], s' as [C0' regs']. cbn [fst snd] in *. unfold C_step.
  eapply res_rel_bind; [apply (shifted_rel E E' K rk ta sg tC kC Hta Hsg _ _ F)|]. intros sh sh' MS. pose proof tC0.
  destruct HSY as [(M & M' & MM & S1 & S2 & D1 & D2)|(D1 & D2)]; [|rewrite !solve_mat_refused by assumption; reflexivity].
  eapply res_rel_bind; [apply (moved_solve K rk tC kC ta sg M M'); auto with sym; [lra|]|].
  - apply moved_madd; [apply Hta|apply Hsg| |exact MR]. apply moved_mscale; [apply Hta|apply Hsg|exact H2|]. pose proof MR as ((W & Sr & Sc) & (W' & Sr' & Sc') & _). rewrite Sr, Sr', Sc, Sc'. unfold sum_mats. apply moved_sum_mats; auto with sym. apply moved_mzeros; auto with sym.
  - intros C1 C1' MC1. eapply res_rel_bind; [apply (mapM_rel _ _ creg creg); [|exact F]|].
    + intros g g' G. unfold C_reg_step. apply (mreg_step E E' K rk ta sg tC kC); auto with sym.
    + intros r r' FR. cbn [res_rel]. split; assumption.
Qed.
Lemma update_C_rel c c' regs regs' l2 l2' m tol scale : 0 <= scale -> l2' = tC * l2 -> moved_cmf z h c c' -> Forall2 creg regs regs' ->
  res_rel (fun x y => moved_cmf z h (fst x) (fst y) /\ Forall2 creg (snd x) (snd y)) (admm_update_C E Xs c regs l2 m tol scale) (admm_update_C E' Xs' c' regs' l2' m tol scale).
Proof.
  intros Hs E2 HC F. unfold admm_update_C. destruct (C_lhs_rel c c' HC) as (G & G' & E3 & E4 & LG). destruct (C_rhs_rel c c' HC) as (B & B' & E5 & E6 & MBB). rewrite E3, E4, E5, E6. cbv zeta.
  assert (FP : feas_penalty (N:=RNum) scale G' = tC * feas_penalty (N:=RNum) scale G /\ 0 <= feas_penalty (N:=RNum) scale G).
  { destruct LG as ((MG & TG) & _). unfold feas_penalty. rewrite (moved_trace rk tC sg G G' Hsg MG). unfold nhalf. assert (0 <= mtrace G * scale) by now apply Rmult_le_pos. rn. split; [field|lra]. }
  rewrite (Forall2_len' _ _ _ F).
  eapply res_rel_bind; [apply (inner_loop_rel cstate)|].
  - intros s s' SS. apply C_step_rel; [|apply FP|apply FP|exact MBB|exact SS]. apply sys_of; [auto with sym|exact LG|apply FP|exact E2].
  - intros s s' u u' S1 S2. apply (conv_mat_rel E E' K rk ta sg tC kC Hta Hsg kC0 tol s s' u u' S1 S2).
  - split; [apply cmC; exact HC|exact F].
  - intros [C0 r] [C0' r'] (M1 & F1). cbn [fst snd res_rel] in *. split; [|exact F1]. split; [exact Logic.I|]. split; [apply HC|]. split; [apply HC|exact M1].
Qed.

(** ** B *)
Lemma pen_B i p p' : moved_pen E E' tB kB (forall i, same_order (pi i)) p p' -> moved_pen E E' tB kB (same_order (pi i)) p p'.
Proof. apply moved_pen_mono. auto. Qed.
Lemma subs_rel p p' a a' d d' : moved_pen E E' tB kB (forall i, same_order (pi i)) p p' -> moved_auxes z h a a' -> MB d d' ->
  res_rel MB (subtract_from_auxes (N:=RNum) p a d) (subtract_from_auxes (N:=RNum) p' a' d').
Proof.
  intros MP HA HD. destruct a as [l|P D], a' as [l'|P' D']; cbn [moved_auxes] in HA; try contradiction.
  - destruct p, p'; cbn [moved_pen] in MP; try contradiction; cbn [subtract_from_auxes res_rel]; try reflexivity;
      (apply lrel_ml; eapply lrel_map2; [exact (ml_lrel _ _ _ _ _ _ _ _ HA)|exact (ml_lrel _ _ _ _ _ _ _ _ HD)|]; cbv beta; intros; apply moved_msub; auto with sym).
  - destruct HA as (-> & SP & MD). destruct p, p'; cbn [moved_pen] in MP; try contradiction; cbn [subtract_from_auxes res_rel]; try reflexivity.
    destruct MP as (SO & _).
    assert (LP : lrel n (fun i a b => b = a /\ shaped a (J i) rk) no_mat no_mat P P) by (destruct SP as (LP & SP); split; [exact LP|]; split; [exact LP|]; intros i Hi; split; [reflexivity|now apply SP]).
    apply lrel_ml; eapply lrel_map2; [exact LP|exact (ml_lrel _ _ _ _ _ _ _ _ HD)|]. cbv beta. intros i Q Q' x x' Hi (-> & SQ) Hx. apply moved_msub; auto with sym.
    apply (moved_ext (J i) rk (1 * kB) kB id sg (pi i) sg); [ring|intros; symmetry; apply SO|reflexivity|].
    apply (moved_mmul (J i) rk rk 1 kB id sg id); auto with sym. split; [exact SQ|]. split; [exact SQ|]. intros. rr.
Qed.
Lemma shifteds_rel l l' : Forall2 breg_rel l l' -> res_rel (Forall2 MB) (shifted_lists (N:=RNum) l) (shifted_lists (N:=RNum) l').
Proof. apply mapM_rel. intros g g' (M1 & _ & _ & _ & M2 & M3). now apply subs_rel. Qed.
Lemma gap_list_rel Bs Bs' g g' : MB Bs Bs' -> breg_rel g g' -> gap_list Bs' g' = gap_list Bs g.
Proof.
  intros MM (M1 & _ & _ & _ & M2 & M3). apply rel_eq. unfold gap_list. eapply res_rel_bind; [apply (subs_rel _ _ _ _ _ _ M1 M2 MM)|]. intros d d' MD. cbn [res_rel].
  rewrite (root_k n J rk kB pi sg d d' kB0 Hsg Hpi MD), (root_k n J rk kB pi sg Bs Bs' kB0 Hsg Hpi MM). symmetry. apply xdiv_k. apply kB0.
Qed.
Lemma gaps_list_rel Bs Bs' l l' : MB Bs Bs' -> Forall2 breg_rel l l' -> mapM (gap_list Bs') l' = mapM (gap_list Bs) l.
Proof. intros MM F. induction F as [|g g' l l' H F IH]; [reflexivity|]. cbn [mapM]. now rewrite (gap_list_rel Bs Bs' g g' MM H), IH. Qed.
Definition bstate (s s' : list rmat * list bregR) : Prop := MB (fst s) (fst s') /\ Forall2 breg_rel (snd s) (snd s').
Lemma conv_list_rel tol s s' u u' : bstate s s' -> bstate u u' -> conv_list tol s' u' = conv_list tol s u.
Proof.
  intros (M1 & F1) (M2 & F2). unfold conv_list. rewrite (root_k n J rk kB pi sg _ _ kB0 Hsg Hpi M2).
  rewrite (root_k n J rk kB pi sg (map2 msub (fst u) (fst s)) (map2 msub (fst u') (fst s')) kB0 Hsg Hpi).
  - apply inner_conv_k; [apply kB0|]. now apply gaps_list_rel.
  - apply lrel_ml; eapply lrel_map2; [exact (ml_lrel _ _ _ _ _ _ _ _ M2)|exact (ml_lrel _ _ _ _ _ _ _ _ M1)|]. cbv beta. intros. apply moved_msub; auto with sym.
Qed.
(** PARAFAC2 *)
Section Pf2.
Hypothesis SO : forall i, same_order (pi i).
Hypothesis HS : same_nearest E E' rk kB.
Hypothesis HW : forall i, (i < n)%nat -> (rk <= J i)%nat.
Variables fms fms' : list rmat.
Hypothesis HF : MB fms fms'.
Variables rhos rhos' : list R.
Hypothesis HRH : scaled n tB rhos rhos'.
Lemma pf2_basis_rel (D D' : rmat) : moved rk rk kB id sg D D' -> pf2_basis E' fms' D' = pf2_basis E fms D /\ forall P, pf2_basis E fms D = Ok P -> list_shaped n J rk P.
Proof.
  intros MD. destruct HF as (L1 & L2 & HFi).
  assert (EQ : forall i, (i < n)%nat -> mmul (nth i fms' no_mat) (mtrans D') = mscale (N:=RNum) (kB * kB) (mmul (nth i fms no_mat) (mtrans D)) /\ shaped (mmul (nth i fms no_mat) (mtrans D)) (J i) rk).
  { intros i Hi. pose proof (moved_mmul (J i) rk rk kB kB id id sg (nth i fms no_mat) (nth i fms' no_mat) (mtrans D) (mtrans D') Hsg) as Q.
    destruct Q as (Q1 & Q2 & Q3); auto with sym.
    - apply (moved_ext (J i) rk kB kB (pi i) sg id sg); auto. intros; apply SO.
    - apply moved_mtrans; auto with sym.
    - split; [|exact Q1]. destruct Q1 as (W1 & R1 & C1), Q2 as (W2 & R2 & C2). apply mat_ext; [assumption|auto with mwf|mshape; congruence|mshape; congruence|]. rewrite R2, C2. intros a b Ha Hb. rewrite Q3 by assumption. rewrite mget_mscale by congruence. rr. }
  destruct MD as ((WD & RD & CD) & (WD' & RD' & CD') & _).
  assert (EM : pf2_basis E' fms' D' = pf2_basis E fms D).
  { unfold pf2_basis. rewrite RD, RD'. 
    assert (SQ : forall (l : list rmat), length l = n -> l = map (fun i => nth i l no_mat) (seq 0 n)) by (intros l L; apply (nth_ext _ _ no_mat no_mat); [now rewrite map_length, seq_length|]; intros i Hi; rewrite (nth_map_lt _ _ _ _ 0%nat) by (rewrite seq_length; lia); now rewrite seq_nth by lia).
    rewrite (SQ fms L1), (SQ fms' L2). rewrite !mapM_map. apply mapM_ext. intros i Hi. apply in_seq in Hi. destruct (EQ i ltac:(lia)) as (-> & (Y1 & Y2 & Y3)). apply HS; [exact Y1|exact Y3|rewrite Y2; apply HW; lia]. }
  split; [exact EM|]. intros P HP. unfold pf2_basis in HP. split; [apply mapM_length in HP; congruence|]. intros i Hi. pose proof (mapM_nth _ _ _ HP i no_mat no_mat ltac:(rn; lia)) as Q. cbv beta in Q.
  destruct (EQ i Hi) as (_ & (W1 & R1 & C1)). rewrite RD in Q. pose proof (HE' _ _ W1 C1 ltac:(rewrite R1; now apply HW) Q) as SV. rewrite R1 in SV. exact SV.
Qed.
Lemma pf2_coord_rel P : list_shaped n J rk P -> res_rel (moved rk rk kB id sg) (pf2_coord fms P rhos) (pf2_coord fms' P rhos').
Proof.
  intros (LP & SP). unfold pf2_coord.
  assert (LT : lrel n (fun _ => moved rk rk (tB * kB) id sg) no_mat no_mat (pf2_terms fms P rhos) (pf2_terms fms' P rhos')).
  { unfold pf2_terms.
    assert (LC : lrel n (fun i a b => fst b = fst a /\ shaped (fst a) (J i) rk /\ moved (J i) rk kB (pi i) sg (snd a) (snd b)) (no_mat, no_mat) (no_mat, no_mat) (combine P fms) (combine P fms')).
    { destruct HF as (L1 & L2 & HFi). split; [rewrite combine_length; lia|]. split; [rewrite combine_length; lia|]. intros i Hi. rewrite !combine_nth by congruence. cbn [fst snd]. split; [reflexivity|]. split; [now apply SP|now apply HFi]. }
    eapply lrel_map2; [exact LC|exact HRH|]. cbv beta. intros i [Q F] [Q' F'] r r' Hi (E1 & E2 & E3) (E4 & _). cbn [fst snd] in *. subst Q'.
    apply (moved_mmul rk (J i) rk tB kB id sg (pi i)); auto with sym. apply (moved_ext rk (J i) (tB * 1) tB id (pi i) id (pi i)); [ring|reflexivity|reflexivity|]. apply moved_mscale; auto with sym.
    apply moved_mtrans; auto with sym. split; [exact E2|]. split; [exact E2|]. intros a b Ha Hb. rewrite (SO i a). rr. }
  destruct (moved_msum_list n rk rk (tB * kB) id sg _ _ (Hid rk) Hsg Hn LT) as (M & M' & E1 & E2 & MM). rewrite E1, E2.
  assert (SS : lsum (N:=RNum) rhos' = tB * lsum (N:=RNum) rhos) by (apply (lrel_lsum n); eapply lrel_impl; [|exact HRH]; intros i a b _ (Q & _); exact Q). pose proof tB0 as T0. rewrite SS.
  rewrite ntruthy_k by lra. destruct (ntruthy (N:=RNum) (lsum (N:=RNum) rhos)) eqn:TR; [|reflexivity]. cbn [res_rel]. apply (moved_map rk rk id sg (Hid rk) Hsg (tB * kB) kB); [|exact MM].
  intros x. apply ntruthy_R in TR. rn. field. split; [exact TR|lra].
Qed.
Lemma pf2_loop_rel ub uc : forall m P D D', list_shaped n J rk P -> moved rk rk kB id sg D D' ->
  res_rel (fun x y => fst y = fst x /\ list_shaped n J rk (fst x) /\ moved rk rk kB id sg (snd x) (snd y)) (pf2_loop E ub uc fms rhos m P D) (pf2_loop E' ub uc fms' rhos' m P D').
Proof.
  induction m as [|m IH]; intros P D D' HP MD; cbn [pf2_loop]; [cbn; auto|].
  apply (res_rel_bind (fun a b => b = a /\ list_shaped n J rk a)).
  - destruct ub; [|cbn; auto]. destruct (pf2_basis_rel D D' MD) as (Q1 & Q2). rewrite Q1. destruct (pf2_basis E fms D) as [P1|]; cbn; auto.
  - intros P1 P1' (-> & HP1). apply (res_rel_bind (moved rk rk kB id sg)).
    + destruct uc; [now apply pf2_coord_rel|exact MD].
    + intros D1 D1' MD1. destruct (negb uc || negb ub); [cbn; auto|now apply IH].
Qed.
End Pf2.
Lemma updates_rel p p' V V' fps fps' a a' : moved_pen E E' tB kB (forall i, same_order (pi i)) p p' -> (forall i, (i < n)%nat -> valid_penalty p (J i)) -> (forall i, (i < n)%nat -> valid_penalty p' (J i)) ->
  (is_parafac2 p -> (forall i, (i < n)%nat -> (rk <= J i)%nat) /\ same_nearest E E' rk kB) -> MB V V' -> scaled n tB fps fps' -> moved_auxes z h a a' ->
  res_rel (moved_auxes z h) (factor_matrices_update E p V fps a) (factor_matrices_update E' p' V' fps' a').
Proof.
  intros MP V1 V2 HW MV HF HA.
  assert (PL : ~ is_parafac2 p -> res_rel (moved_auxes z h) (let* r := matrices_update_list E p V fps n in Ok (AList r)) (let* r := matrices_update_list E' p' V' fps' n in Ok (AList r))).
  { intros _. destruct MV as (L1 & L2 & MV). destruct HF as (L3 & L4 & HF). rewrite !list_update_seq by assumption.
    eapply res_rel_bind; [apply (mapM_seq_rel _ _ (fun i => moved (J i) rk kB (pi i) sg) no_mat no_mat)|].
    - intros i Hi. destruct (HF i Hi) as (F1 & F2). apply (moved_update E E' (J i) rk (pi i) sg tB kB); auto with sym. now apply pen_B.
    - intros l l' H. exact H. }
  destruct a as [l|P D], a' as [l'|P' D']; cbn [moved_auxes] in HA; try contradiction.
  - destruct HA as (L1 & L2 & _).
    destruct p, p'; cbn [moved_pen] in MP; try contradiction; cbn [factor_matrices_update]; try reflexivity; rewrite L1, L2; apply PL; intros [].
  - destruct HA as (-> & SP & MD). destruct p, p'; cbn [moved_pen] in MP; try contradiction; cbn [factor_matrices_update]; try reflexivity.
    destruct MP as (SO & -> & -> & ->). destruct (HW Logic.I) as (HW0 & HS). eapply res_rel_bind; [apply (pf2_loop_rel SO HS HW0 V V' MV fps fps' HF); assumption|].
    intros [P1 D1] [P1' D1'] (Q1 & Q2 & Q3). cbn [fst snd res_rel] in *. subst P1'. cbn [moved_auxes]. auto.
Qed.
Lemma B_reg_rel fps fps' Bs Bs' g g' : scaled n tB fps fps' -> MB Bs Bs' -> breg_rel g g' -> res_rel breg_rel (B_reg_step E fps Bs g) (B_reg_step E' fps' Bs' g').
Proof.
  intros HF MM (M1 & V1 & V2 & HW & M2 & M3). unfold B_reg_step. cbv zeta.
  eapply res_rel_bind; [apply (updates_rel _ _ _ _ fps fps' _ _ M1 V1 V2 HW)|].
  - apply lrel_ml; eapply lrel_map2; [exact (ml_lrel _ _ _ _ _ _ _ _ MM)|exact (ml_lrel _ _ _ _ _ _ _ _ M3)|]. cbv beta. intros. apply moved_madd; auto with sym.
  - exact HF.
  - exact M2.
  - intros x x' MX. eapply res_rel_bind; [apply (subs_rel _ _ _ _ _ _ M1 MX M3)|]. intros d d' MD. cbn [res_rel]. split; [exact M1|]. split; [exact V1|]. split; [exact V2|]. split; [exact HW|]. split; [exact MX|].
    apply lrel_ml; eapply lrel_map2; [exact (ml_lrel _ _ _ _ _ _ _ _ MM)|exact (ml_lrel _ _ _ _ _ _ _ _ MD)|]. cbv beta. intros. apply moved_msub; auto with sym.
Qed.
Lemma B_step_rel svds svds' fps fps' rhses rhses' s s' :
  lrel n (fun _ => sys_rel tB) (Mat (N:=RNum) 0 0 [], [], Mat (N:=RNum) 0 0 []) (Mat (N:=RNum) 0 0 [], [], Mat (N:=RNum) 0 0 []) svds svds' -> scaled n tB fps fps' ->
  lrel n (fun i => moved (J i) rk (tB * kB) (pi i) sg) no_mat no_mat rhses rhses' -> bstate s s' -> res_rel bstate (B_step E svds fps rhses s) (B_step E' svds' fps' rhses' s').
Proof.
  intros HS HF HRH (MM & F). destruct s as [Bs regs], s' as [Bs' regs']. cbn [fst snd] in *. unfold B_step.
  eapply res_rel_bind; [apply (shifteds_rel _ _ F)|]. intros sh sh' MS. pose proof MM as (L1 & L2 & _). rewrite L1, L2.
  eapply res_rel_bind; [apply (mapM_seq_rel _ _ (fun i => moved (J i) rk kB (pi i) sg) no_mat no_mat)|].
  - intros i Hi. cbv zeta. destruct HS as (_ & _ & HS). pose proof tB0. destruct HRH as (_ & _ & HRH). pose proof (HRH i Hi) as MH.
    destruct (HS i Hi) as [(M & M' & MMM & S1 & S2 & D1 & D2)|(D1 & D2)]; [|rewrite !solve_mat_refused by assumption; reflexivity].
    change (Mat (N:=RNum) 0 0 []) with no_mat in *.
    apply (moved_solve (J i) rk tB kB (pi i) sg M M'); auto with sym; [lra|].
    apply moved_madd; [auto with sym|apply Hsg| |exact MH]. apply moved_mscale; [auto with sym|apply Hsg|apply HF; exact Hi|].
    destruct MH as ((W & Sr & Sc) & (W' & Sr' & Sc') & _). rewrite Sr, Sr', Sc, Sc'. unfold sum_mats. apply moved_sum_mats; auto with sym; [|apply moved_mzeros; auto with sym].
    clear - MS Hi. induction MS as [|x y l l' H F IH]; cbn [map]; constructor; [|exact IH]. apply H. exact Hi.
  - intros Bs1 Bs1' HB1. eapply res_rel_bind; [apply (mapM_rel _ _ breg_rel breg_rel); [|exact F]|].
    + intros g g' G. apply B_reg_rel; assumption.
    + intros r r' FR. cbn [res_rel]. split; assumption.
Qed.
Lemma update_B_rel c c' regs regs' l2 l2' m tol scale constant : 0 <= scale -> l2' = tB * l2 -> moved_cmf z h c c' -> Forall2 breg_rel regs regs' ->
  res_rel (fun x y => moved_cmf z h (fst x) (fst y) /\ Forall2 breg_rel (snd x) (snd y)) (admm_update_B E Xs c regs l2 m tol scale constant) (admm_update_B E' Xs' c' regs' l2' m tol scale constant).
Proof.
  intros Hs E2 HC F. unfold admm_update_B. cbv zeta. pose proof (cmC c c' HC) as MCC. pose proof (rows_of _ _ _ (cmA c c' HC)) as RA.
  assert (RR : lrel n (fun i => moved (J i) rk (tB * kB) (pi i) sg) no_mat no_mat (map2 (fun X a => B_rhs X (cC c) a) Xs (me (cA c))) (map2 (fun X a => B_rhs X (cC c') a) Xs' (me (cA c')))).
  { eapply lrel_map2; [exact HX'|exact RA|]. cbv beta. intros i X X' a a' Hi HXi Ha. unfold B_rhs.
    apply (moved_ext (J i) rk (h_X h * (kC * kA)) (tB * kB) (pi i) sg (pi i) sg); [unfold h_X; cbn; ring|reflexivity|reflexivity|]. apply (moved_mmul (J i) K rk (h_X h) (kC * kA) (pi i) sg ta); auto with sym. apply moved_mcolscale; auto with sym. }
  assert (XR : lrel n (fun _ => lhs_rel tB) no_mat no_mat (map2 (fun _ a => B_lhs (cC c) a) Xs (me (cA c))) (map2 (fun _ a => B_lhs (cC c') a) Xs' (me (cA c')))).
  { eapply lrel_map2; [exact HX'|exact RA|]. cbv beta. intros i X X' a a' Hi _ Ha.
    assert (MG : moved rk rk (kC * kC) sg sg (mmul (mtrans (cC c)) (cC c)) (mmul (mtrans (cC c')) (cC c'))) by (apply (moved_mmul rk K rk kC kC sg sg ta); auto with sym; apply moved_mtrans; auto with sym).
    assert (MX : moved rk rk tB sg sg (B_lhs (cC c) a) (B_lhs (cC c') a')).
    { unfold B_lhs. apply (moved_ext rk rk (kC * kC * kA * kA) tB sg sg sg sg); [cbn; ring|reflexivity|reflexivity|]. apply moved_mtrans; auto with sym. apply moved_mcolscale; auto with sym. apply moved_mtrans; auto with sym. apply moved_mcolscale; auto with sym. }
    assert (EN : forall (C0 : rmat) (v : list R) j l, mc C0 = rk -> (j < rk)%nat -> (l < rk)%nat -> rget (B_lhs (N:=RNum) C0 v) j l = rget (mmul (mtrans C0) C0) j l * vg v l * vg v j).
    { intros C0 v j l Hc Hj Hl. unfold B_lhs. rewrite mget_mtrans by mlia. rewrite mget_mcolscale by mlia. rewrite mget_mtrans by mlia. rewrite mget_mcolscale by mlia. reflexivity. }
    assert (SY : forall (C0 : rmat) (v : list R), mwf C0 -> mc C0 = rk -> mtrans (B_lhs (N:=RNum) C0 v) = B_lhs (N:=RNum) C0 v).
    { intros C0 v W0 Hc. apply mat_ext; [auto with mwf|unfold B_lhs; auto with mwf|unfold B_lhs; mlia|unfold B_lhs; mlia|]. unfold B_lhs at 1 2. mshape. intros j l Hj Hl. rewrite mget_mtrans by (unfold B_lhs; mlia). rewrite !EN by mlia.
      rewrite <- (gram_sym C0 W0) at 1. rewrite mget_mtrans by mlia. rr. }
    destruct MCC as ((WC & SrC & ScC) & (WC' & SrC' & ScC') & _). split; [split; [exact MX|]|split; now apply SY].
    unfold mtrace. rewrite nsum_rsum. apply rsum_nonneg. intros j Hj. unfold B_lhs in Hj. mshape. rewrite EN by lia. rewrite Rmult_assoc. apply Rmult_le_pos; [apply gram_diag; lia|apply Rle_0_sqr]. }
  eapply res_rel_bind; [apply (feas_penalties_k n rk tB scale constant sg _ _ Hn tB0 Hs Hsg); eapply lrel_impl; [|exact XR]; intros i a b _ (Q & _); exact Q|]. intros fps fps' HF.
  rewrite (Forall2_len' _ _ _ F).
  eapply res_rel_bind; [apply (inner_loop_rel bstate)|].
  - intros s s' SS. apply B_step_rel; [|exact HF|exact RR|exact SS]. apply svds_rel; auto with sym.
  - intros s s' u u' S1 S2. now apply conv_list_rel.
  - split; [apply cmB; exact HC|exact F].
  - intros [Bs r] [Bs' r'] (M1 & F1). cbn [fst snd res_rel] in *. split; [|exact F1]. split; [exact Logic.I|]. split; [apply HC|]. split; [exact M1|apply HC].
Qed.
End Sym.
