(** Rates of the inner loops: AdmmRate.v for the three modes. *)
From Coq Require Import Reals Lra Lia List Arith Bool.
From Verif Require Import Num Numpy Unimodal RFacts Spec SpecFacts MatFacts SvdFacts ModelSpec Penalties PenaltySpec
  ProxProofs TVProofs GenL2Proofs SimplexProofs Parafac2Proofs PenaltyMain CoupledMatrices CmfSpec CmfProofs
  Decomp DecompSpec DecompFacts AdmmProofs AdmmB AdmmA AdmmRegs AdmmLoop AdmmOne AoState OptSpec AdmmConv AdmmFix AdmmFixB AdmmOpt
  AdmmRate ConvSpec AoRun UpdMain.
Import ListNotations.
Local Open Scope R_scope.

(** ** The smooth parts are quadratic *)
Lemma sq_quadratic a u v t : (a - ((1 - t) * u + t * v)) ^ 2 = (1 - t) * (a - u) ^ 2 + t * (a - v) ^ 2 - t * (1 - t) * (v - u) ^ 2.
Proof. ring. Qed.
Lemma dist2_quadratic r c X Y U V W t : same r c Y (fun i j => (1 - t) * U i j + t * V i j) -> same r c W (fun i j => V i j - U i j) ->
  dist2 r c X Y = (1 - t) * dist2 r c X U + t * dist2 r c X V - t * (1 - t) * sumsq r c W.
Proof.
  intros HY HW. rewrite !ProxProofs.dist2_rsum, sumsq_rsum, <- !rsum_scal, <- rsum_add, <- rsum_sub. apply rsum_ext; intros i Hi.
  rewrite <- !rsum_scal, <- rsum_add, <- rsum_sub. apply rsum_ext; intros j Hj. rewrite HY, HW by assumption. ring.
Qed.
Lemma sumsq_quadratic r c U V t :
  sumsq r c (fun i j => (1 - t) * U i j + t * V i j) = (1 - t) * sumsq r c U + t * sumsq r c V - t * (1 - t) * sumsq r c (fun i j => V i j - U i j).
Proof.
  rewrite !sumsq_rsum, <- !rsum_scal, <- rsum_add, <- rsum_sub. apply rsum_ext; intros i Hi.
  rewrite <- !rsum_scal, <- rsum_add, <- rsum_sub. apply rsum_ext; intros j Hj. ring.
Qed.
Lemma fit_quadratic Xs K n A B C A' B' C' A'' B'' C'' A3 B3 C3 t :
  (forall i j k r, (r < n)%nat -> B i j r * A i r * C k r = (1 - t) * (B' i j r * A' i r * C' k r) + t * (B'' i j r * A'' i r * C'' k r)) ->
  (forall i j k r, (r < n)%nat -> B3 i j r * A3 i r * C3 k r = B'' i j r * A'' i r * C'' k r - B' i j r * A' i r * C' k r) ->
  fit Xs K n A B C = (1 - t) * fit Xs K n A' B' C' + t * fit Xs K n A'' B'' C'' - t * (1 - t) * represented_sq Xs K n A3 B3 C3.
Proof.
  intros H H3. unfold fit, represented_sq. rewrite !Sum_rsum, <- !rsum_scal, <- rsum_add, <- rsum_sub. apply rsum_ext; intros i Hi.
  apply dist2_quadratic.
  - intros j k Hj Hk. rewrite !Sum_rsum, <- !rsum_scal, <- rsum_add. apply rsum_ext; intros r Hr. now apply H.
  - intros j k Hj Hk. rewrite !Sum_rsum, <- rsum_sub. apply rsum_ext; intros r Hr. now apply H3.
Qed.
Section Smooth.
Variables (Xs : list rmat) (c : rcmf) (l2 : R).
Lemma smooth_A_quadratic : quadratic_with (fun p => smooth_A Xs c l2 (p2e p)) (fun p => spread_A Xs c l2 (p2e p)).
Proof.
  intros x z t. unfold smooth_A, spread_A.
  rewrite (fit_quadratic Xs (mr (cC c)) (mc (cA c)) (p2e (pseg t x z)) (entB (cBs c)) (rget (cC c)) (p2e x) (entB (cBs c)) (rget (cC c))
     (p2e z) (entB (cBs c)) (rget (cC c)) (p2e (psub z x)) (entB (cBs c)) (rget (cC c)) t) by (intros; unfold p2e, pseg, psub; rn; ring).
  pose proof (sumsq_quadratic (mr (cA c)) (mc (cA c)) (p2e x) (p2e z) t) as G.
  change (fun i j => (1 - t) * p2e x i j + t * p2e z i j) with (p2e (pseg t x z)) in G.
  change (fun i j => p2e z i j - p2e x i j) with (p2e (psub z x)) in G. rewrite G. rn. field.
Qed.
Lemma smooth_C_quadratic : quadratic_with (fun p => smooth_C Xs c l2 (p2e p)) (fun p => spread_C Xs c l2 (p2e p)).
Proof.
  intros x z t. unfold smooth_C, spread_C.
  rewrite (fit_quadratic Xs (mr (cC c)) (mc (cA c)) (rget (cA c)) (entB (cBs c)) (p2e (pseg t x z)) (rget (cA c)) (entB (cBs c)) (p2e x)
     (rget (cA c)) (entB (cBs c)) (p2e z) (rget (cA c)) (entB (cBs c)) (p2e (psub z x)) t) by (intros; unfold p2e, pseg, psub; rn; ring).
  pose proof (sumsq_quadratic (mr (cC c)) (mc (cA c)) (p2e x) (p2e z) t) as G.
  change (fun i j => (1 - t) * p2e x i j + t * p2e z i j) with (p2e (pseg t x z)) in G.
  change (fun i j => p2e z i j - p2e x i j) with (p2e (psub z x)) in G. rewrite G. rn. field.
Qed.
Lemma smooth_B_quadratic : quadratic_with (fun p => smooth_B Xs c l2 p) (fun p => spread_B Xs c l2 p).
Proof.
  intros x z t. unfold smooth_B, spread_B.
  rewrite (fit_quadratic Xs (mr (cC c)) (mc (cA c)) (rget (cA c)) (pseg t x z) (rget (cC c)) (rget (cA c)) x (rget (cC c))
     (rget (cA c)) z (rget (cC c)) (rget (cA c)) (psub z x) (rget (cC c)) t) by (intros; unfold pseg, psub; rn; ring).
  assert (G : Sum (length (cBs c)) (fun i => sumsq (mr (nthB c i)) (mc (cA c)) (pseg t x z i)) =
     (1 - t) * Sum (length (cBs c)) (fun i => sumsq (mr (nthB c i)) (mc (cA c)) (x i)) +
     t * Sum (length (cBs c)) (fun i => sumsq (mr (nthB c i)) (mc (cA c)) (z i)) -
     t * (1 - t) * Sum (length (cBs c)) (fun i => sumsq (mr (nthB c i)) (mc (cA c)) (psub z x i))).
  { rewrite !Sum_rsum, <- !rsum_scal, <- rsum_add, <- rsum_sub. apply rsum_ext; intros i Hi.
    exact (sumsq_quadratic (mr (nthB c i)) (mc (cA c)) (x i) (z i) t). }
  rewrite G. rn. field.
Qed.
End Smooth.

(** numbers: from any weight to the weight 1/sqrt k *)
Lemma rate_of_weights k (d low spread u e mv : R) : 0 <= u -> 0 <= e -> 0 <= mv -> 0 <= spread -> INR k * mv <= e ->
  (forall s, 0 < s -> d <= s * (u + 5 * e) + mv / s /\ spread - d <= s / 2 * u + mv / (2 * s)) ->
  sqrt (INR k) * Rabs d <= u + 6 * e /\ sqrt (INR k) * spread <= 2 * u + 7 * e.
Proof.
  intros Hu He Hm Hs Hk H. destruct k as [|k]; [cbn [INR]; rewrite sqrt_0; lra|].
  set (K := INR (S k)) in *. assert (HK : 0 < K) by (apply lt_0_INR; lia). pose proof (sqrt_lt_R0 K HK) as Hq.
  set (q := sqrt K) in *. assert (Q2 : q * q = K) by (apply sqrt_sqrt; lra).
  destruct (H (/ q) (Rinv_0_lt_compat _ Hq)) as (H1 & H2).
  replace (mv / / q) with (mv * q) in H1 by (field; lra). replace (mv / (2 * / q)) with (mv * q / 2) in H2 by (field; lra).
  assert (A1 : q * d <= u + 6 * e).
  { assert (q * d <= q * (/ q * (u + 5 * e) + mv * q)) by (apply Rmult_le_compat_l; lra).
    replace (q * (/ q * (u + 5 * e) + mv * q)) with (u + 5 * e + mv * (q * q)) in H0 by (field; lra). rewrite Q2 in H0. nra. }
  assert (A2 : q * (spread - d) <= u / 2 + e / 2).
  { assert (q * (spread - d) <= q * (/ q / 2 * u + mv * q / 2)) by (apply Rmult_le_compat_l; lra).
    replace (q * (/ q / 2 * u + mv * q / 2)) with (u / 2 + mv * (q * q) / 2) in H0 by (field; lra). rewrite Q2 in H0. nra. }
  assert (0 <= q * spread) by (apply Rmult_le_pos; lra). split; [|nra].
  unfold Rabs. destruct (Rcase_abs d); nra.
Qed.

Section Rows.
Variables (r c : nat) (rho : nat -> R) (f spread : ent -> R).
Hypothesis Hrho : forall i, (i < r)%nat -> 0 < rho i.
Hypothesis Hq : quadratic_with (fun p => f (p2e p)) (fun p => spread (p2e p)).
Hypothesis Hsp : forall D, 0 <= spread D.
Notation rz regs := (fun q => e2p (aux_at regs q)).
Notation ru regs := (fun q => e2p (dual_at regs q)).
Notation rstep regs := (astep r one c rho (length regs) (fun p => f (p2e p)) (rpen r c regs) (rdom r c regs)).
Lemma rows_rate m (tr : nat -> list mregR) (X : nat -> ent) x us :
  (forall i, (i <= m)%nat -> map g_pen (tr i) = map g_pen (tr 0%nat)) ->
  (forall i, (i < m)%nat -> rstep (tr i) (rz (tr i)) (ru (tr i)) (e2p (X (S i))) (rz (tr (S i))) (ru (tr (S i)))) ->
  certified r c rho f (tr 0%nat) x us -> forall k, m = S k -> nearly_solved r c rho f spread (tr 0%nat) x us k (X m) (tr m).
Proof.
  intros HP HS HC k ->. pose proof (certified_saddle _ _ _ _ _ _ _ HC) as SD.
  assert (HL : forall i, (i <= S k)%nat -> length (tr i) = length (tr 0%nat)) by (intros i Hi; rewrite <- (map_length g_pen), HP by assumption; apply map_length).
  assert (HS' : forall i, (i < S k)%nat -> rstep (tr 0%nat) (rz (tr i)) (ru (tr i)) (e2p (X (S i))) (rz (tr (S i))) (ru (tr (S i)))).
  { intros i Hi. destruct (HS i Hi) as (A1 & A2 & A3). rewrite HL in A1, A2, A3 by lia. split; [exact A1|]. split; [|exact A3].
    intros q Hq'. destruct (A2 q Hq') as (D & P). unfold rdom, rpen in *. rewrite <- (pens_nth _ _ (HP i ltac:(lia)) q). split; [exact D|exact P]. }
  assert (Hr' : forall i, (i < r)%nat -> 0 <= rho i) by (intros i Hi; left; auto).
  set (Z := fun i => rz (tr i)) in *. set (U := fun i => ru (tr i)) in *.
  pose proof (run_lyap _ _ _ _ Hr' _ _ _ _ (S k) Z U (fun i => e2p (X i)) _ _ HS' SD (S k) (le_n _)) as L.
  pose proof (run_moved _ _ _ _ Hr' _ _ _ _ (S k) Z U (fun i => e2p (X i)) _ _ HS' SD k ltac:(lia)) as M.
  pose proof (run_infeasible _ _ _ _ Hr' _ _ _ _ (S k) Z U (fun i => e2p (X i)) HS' k ltac:(lia)) as I.
  assert (V := fun s Hs => run_value _ _ _ _ Hr' _ _ _ _ (S k) Z U (fun i => e2p (X i)) _ _ _ HS' SD Hq s k Hs ltac:(lia)).
  set (mv := moved r one c rho (length (tr 0%nat)) (Z k) (U k) (Z (S k)) (U (S k))) in *. cbv zeta in V.
  assert (ME : multipliers_sq r c rho (length (tr 0%nat)) us = qs r one c rho (length (tr 0%nat)) (fun q i j s => e2p (us q) i j s ^ 2)).
  { unfold multipliers_sq, qs. apply Sum_rsum_ext. intros q Hq'. rewrite wdot_ws. apply wsum_ext. intros. unfold e2p. ring. }
  assert (EE : energy r c rho x us (tr 0%nat) = lyap r one c rho (length (tr 0%nat)) (e2p x) (fun q => e2p (us q)) (Z 0%nat) (U 0%nat)) by apply energy_lyap.
  unfold nearly_solved. cbv zeta. rewrite ME, EE in *.
  assert (E0 : 0 <= lyap r one c rho (length (tr 0%nat)) (e2p x) (fun q => e2p (us q)) (Z 0%nat) (U 0%nat)) by (apply lyap_nonneg; assumption).
  assert (U0 : 0 <= qs r one c rho (length (tr 0%nat)) (fun q i j s => e2p (us q) i j s ^ 2)) by (apply qs_nonneg; [assumption|intros; apply pow2_ge_0]).
  assert (MV : 0 <= mv) by (apply moved_nonneg; assumption).
  split; [|split].
  - rewrite energy_lyap, HL by lia. exact L.
  - assert (IE : infeasibility r c rho (tr (S k)) (X (S k)) <= mv).
    { eapply Rle_trans; [right|exact I]. unfold infeasibility, qs. rewrite HL by lia. apply Sum_rsum_ext. intros q Hq'. rewrite wsq_ws; reflexivity. }
    pose proof (Rmult_le_compat_l _ _ _ (pos_INR k) IE). lra.
  - apply (rate_of_weights k _ 0 _ _ _ mv U0 E0 MV (Hsp _) M). intros s Hs. destruct (V s Hs) as (V1 & V2).
    assert (OV : split_value r c f (tr (S k)) (X (S k)) = f (p2e (e2p (X (S k)))) + rsum (length (tr 0%nat)) (fun q => rpen r c (tr 0%nat) q (Z (S k) q))).
    { unfold split_value. change (p2e (e2p (X (S k)))) with (X (S k)). f_equal. rewrite HL by lia. apply Sum_rsum_ext. intros q Hq'. unfold rpen.
      now rewrite (pens_nth _ _ (HP (S k) (le_n _)) q). }
    assert (PV : penalised r c f (tr 0%nat) x = f (p2e (e2p x)) + rsum (length (tr 0%nat)) (fun q => rpen r c (tr 0%nat) q (e2p x))).
    { unfold penalised. change (p2e (e2p x)) with x. now rewrite Sum_rsum. }
    rewrite OV, PV. change (esub (X (S k)) x) with (p2e (psub (e2p (X (S k))) (e2p x))). split; [exact V1|].
    eapply Rle_trans; [|exact V2]. right. ring.
Qed.
End Rows.
Section Lists.
Variables (n : nat) (J : nat -> nat) (c : nat) (rho : nat -> R) (f spread : (nat -> ent) -> R).
Hypothesis Hrho : forall i, (i < n)%nat -> 0 < rho i.
Hypothesis Hq : quadratic_with (fun p => f p) (fun p => spread p).
Hypothesis Hsp : forall D, 0 <= spread D.
Notation lstep regs := (astep n J c rho (length regs) f (lpen n J c regs) (ldom n J c regs)).
Lemma lists_rate m (tr : nat -> list bregR) (X : nat -> nat -> ent) x us :
  (forall i, (i <= m)%nat -> map b_pen (tr i) = map b_pen (tr 0%nat)) ->
  (forall i, (i < m)%nat -> lstep (tr i) (baux_at (tr i)) (bdual_at (tr i)) (X (S i)) (baux_at (tr (S i))) (bdual_at (tr (S i)))) ->
  certified_l n J c rho f (tr 0%nat) x us -> forall k, m = S k -> nearly_solved_l n J c rho f spread (tr 0%nat) x us k (X m) (tr m).
Proof.
  intros HP HS HC k ->. pose proof (certified_saddle_l _ _ _ _ _ _ _ _ HC) as SD.
  assert (HL : forall i, (i <= S k)%nat -> length (tr i) = length (tr 0%nat)) by (intros i Hi; rewrite <- (map_length b_pen), HP by assumption; apply map_length).
  assert (HS' : forall i, (i < S k)%nat -> lstep (tr 0%nat) (baux_at (tr i)) (bdual_at (tr i)) (X (S i)) (baux_at (tr (S i))) (bdual_at (tr (S i)))).
  { intros i Hi. destruct (HS i Hi) as (A1 & A2 & A3). rewrite HL in A1, A2, A3 by lia. split; [exact A1|]. split; [|exact A3].
    intros q Hq'. destruct (A2 q Hq') as (D & P). unfold ldom, lpen in *. rewrite <- (bpens_nth _ _ (HP i ltac:(lia)) q). split; [exact D|exact P]. }
  assert (Hr' : forall i, (i < n)%nat -> 0 <= rho i) by (intros i Hi; left; auto).
  set (Z := fun i => baux_at (tr i)) in *. set (U := fun i => bdual_at (tr i)) in *.
  pose proof (run_lyap _ _ _ _ Hr' _ _ _ _ (S k) Z U X _ _ HS' SD (S k) (le_n _)) as L.
  pose proof (run_moved _ _ _ _ Hr' _ _ _ _ (S k) Z U X _ _ HS' SD k ltac:(lia)) as M.
  pose proof (run_infeasible _ _ _ _ Hr' _ _ _ _ (S k) Z U X HS' k ltac:(lia)) as I.
  assert (V := fun s Hs => run_value _ _ _ _ Hr' _ _ _ _ (S k) Z U X _ _ _ HS' SD Hq s k Hs ltac:(lia)).
  set (mv := moved n J c rho (length (tr 0%nat)) (Z k) (U k) (Z (S k)) (U (S k))) in *. cbv zeta in V.
  assert (ME : multipliers_sq_l n J c rho (length (tr 0%nat)) us = qs n J c rho (length (tr 0%nat)) (fun q i j s => us q i j s ^ 2)).
  { unfold multipliers_sq_l, qs. apply Sum_rsum_ext. intros q Hq'. rewrite wdot_l_ws. apply wsum_ext. intros. ring. }
  assert (EE : energy_l n J c rho x us (tr 0%nat) = lyap n J c rho (length (tr 0%nat)) x us (Z 0%nat) (U 0%nat)) by apply energy_lyap_l.
  unfold nearly_solved_l. cbv zeta. rewrite ME, EE in *.
  assert (E0 : 0 <= lyap n J c rho (length (tr 0%nat)) x us (Z 0%nat) (U 0%nat)) by (apply lyap_nonneg; assumption).
  assert (U0 : 0 <= qs n J c rho (length (tr 0%nat)) (fun q i j s => us q i j s ^ 2)) by (apply qs_nonneg; [assumption|intros; apply pow2_ge_0]).
  assert (MV : 0 <= mv) by (apply moved_nonneg; assumption).
  split; [|split].
  - rewrite energy_lyap_l, HL by lia. exact L.
  - assert (IE : infeasibility_l n J c rho (tr (S k)) (X (S k)) <= mv).
    { eapply Rle_trans; [right|exact I]. unfold infeasibility_l, qs. rewrite HL by lia. apply Sum_rsum_ext. intros q Hq'. rewrite wsq_l_ws. reflexivity. }
    pose proof (Rmult_le_compat_l _ _ _ (pos_INR k) IE). lra.
  - apply (rate_of_weights k _ 0 _ _ _ mv U0 E0 MV (Hsp _) M). intros s Hs. destruct (V s Hs) as (V1 & V2).
    assert (OV : split_value_l n J c f (tr (S k)) (X (S k)) = f (X (S k)) + rsum (length (tr 0%nat)) (fun q => lpen n J c (tr 0%nat) q (Z (S k) q))).
    { unfold split_value_l. f_equal. rewrite HL by lia. apply Sum_rsum_ext. intros q Hq'. unfold lpen.
      now rewrite (bpens_nth _ _ (HP (S k) (le_n _)) q). }
    assert (PV : penalised_l n J c f (tr 0%nat) x = f x + rsum (length (tr 0%nat)) (fun q => lpen n J c (tr 0%nat) q x)).
    { unfold penalised_l. now rewrite Sum_rsum. }
    rewrite OV, PV. change (lsub (X (S k)) x) with (psub (X (S k)) x). split; [exact V1|].
    eapply Rle_trans; [|exact V2]. right. ring.
Qed.
End Lists.

(** ** The three modes *)
Lemma sumsq_nonneg r c X : 0 <= sumsq r c X.
Proof. rewrite sumsq_rsum. apply rsum_nonneg; intros. apply rsum_nonneg; intros. apply pow2_ge_0. Qed.
Lemma represented_sq_nonneg Xs K n A B C : 0 <= represented_sq Xs K n A B C.
Proof. unfold represented_sq. rewrite Sum_rsum. apply rsum_nonneg. intros i Hi. apply sumsq_nonneg. Qed.
Lemma spread_A_nonneg Xs c l2 D : 0 <= l2 -> 0 <= spread_A Xs c l2 D.
Proof.
  intros H. unfold spread_A. pose proof (represented_sq_nonneg Xs (mr (cC c)) (mc (cA c)) D (entB (cBs c)) (rget (cC c))).
  pose proof (sumsq_nonneg (mr (cA c)) (mc (cA c)) D). rn. nra.
Qed.
Lemma spread_C_nonneg Xs c l2 D : 0 <= l2 -> 0 <= spread_C Xs c l2 D.
Proof.
  intros H. unfold spread_C. pose proof (represented_sq_nonneg Xs (mr (cC c)) (mc (cA c)) (rget (cA c)) (entB (cBs c)) D).
  pose proof (sumsq_nonneg (mr (cC c)) (mc (cA c)) D). rn. nra.
Qed.
Lemma spread_B_nonneg Xs c l2 D : 0 <= l2 -> 0 <= spread_B Xs c l2 D.
Proof.
  intros H. unfold spread_B. pose proof (represented_sq_nonneg Xs (mr (cC c)) (mc (cA c)) (rget (cA c)) D (rget (cC c))).
  assert (0 <= Sum (length (cBs c)) (fun i => sumsq (mr (nthB c i)) (mc (cA c)) (D i))) by (rewrite Sum_rsum; apply rsum_nonneg; intros; apply sumsq_nonneg).
  rn. nra.
Qed.
Section Modes.
Variables (E : ext (N:=RNum)) (Xs : list rmat) (c : rcmf) (l2 scale : R) (constant : bool).
Hypothesis HF : data_fits Xs c.
Hypothesis HN : nonempty c.
Hypothesis Hl2 : 0 <= l2.
Hypothesis Hsc : 0 <= scale.
Hypothesis Hsvd : svd_correct E (mc (cA c)).
Notation convexC l := (Forall (fun g => convex_pen (g_pen g)) l).
Notation convexB l := (Forall (fun g => convex_pen (b_pen g)) l).
Notation rC := (fun _ : nat => rho_C scale c).
Lemma C_rate regs regs' c' n tol x us : Forall (mreg_valid (mr (cC c)) (mc (cA c))) regs -> convexC regs -> 0 < rho_C scale c ->
  tv_correct E (mr (cC c)) -> certified (mr (cC c)) (mc (cA c)) rC (smooth_C Xs c l2) regs x us ->
  admm_update_C E Xs c regs l2 n tol scale = Ok (c', regs') ->
  exists m tr,
    iterates (fun a b => admm_update_C E Xs (fst a) (snd a) l2 1 None scale = Ok b)
             (fun a b => settled tol (mr (cC c)) (mc (cA c)) (rget (cC (fst a))) (rget (cC (fst b))) (snd b))
             n (unweighted c, regs) (c', regs') m tr /\
    map g_pen regs' = map g_pen regs /\
    forall k, m = S k -> nearly_solved (mr (cC c)) (mc (cA c)) rC (smooth_C Xs c l2) (spread_C Xs c l2) regs x us k (rget (cC c')) regs'.
Proof.
  intros Hv HC Hr Htv HX H. destruct (update_C_trace E Xs c l2 scale HF HN Hl2 Hsc Hsvd regs regs' c' n tol Hv H) as (m & tr & HI & Hinv).
  exists m, tr. split; [assumption|].
  assert (HP : forall i, (i <= m)%nat -> C_inv c (tr i) /\ map g_pen (snd (tr i)) = map g_pen regs /\ convexC (snd (tr i))).
  { apply (iterates_inv _ _ _ _ _ _ _ (fun s => C_inv c s /\ map g_pen (snd s) = map g_pen regs /\ convexC (snd s)) HI).
    - split; [|split; [reflexivity|exact HC]]. destruct HI as (_ & I2 & _). rewrite <- I2. apply Hinv. lia.
    - intros a b (A1 & A2 & A3) Hs. destruct (C_astep E Xs c l2 scale HF HN Hl2 Hsc Hsvd a b A1 A3 Hr Htv Hs) as (B1 & B2 & B3 & _). split; [assumption|]. split; [congruence|assumption]. }
  destruct HI as (_ & I2 & I3 & I4 & _).
  split; [destruct (HP m (le_n _)) as (_ & E1 & _); rewrite I3 in E1; exact E1|].
  intros k Ek.
  assert (K := rows_rate (mr (cC c)) (mc (cA c)) rC (smooth_C Xs c l2) (spread_C Xs c l2) (fun _ _ => Hr) (smooth_C_quadratic Xs c l2)
    (fun D => spread_C_nonneg Xs c l2 D Hl2) m (fun i => snd (tr i)) (fun i => rget (cC (fst (tr i)))) x us).
  cbv beta in K. rewrite I2, I3 in K. cbn [fst snd] in K. apply K; [| |exact HX|exact Ek].
  - intros i Hi. apply HP. assumption.
  - intros i Hi. destruct (HP i ltac:(lia)) as (A1 & A2 & A3).
    apply (C_astep E Xs c l2 scale HF HN Hl2 Hsc Hsvd _ _ A1 A3 Hr Htv (I4 i Hi)).
Qed.
Lemma A_rate regs regs' c' n tol inter rho x us : Forall (mreg_valid (mr (cA c)) (mc (cA c))) regs -> convexC regs ->
  rhos_used constant (length Xs) (rho_A scale c) rho -> (forall i, (i < length Xs)%nat -> 0 < rho_A scale c i) ->
  tv_correct E (mr (cA c)) -> certified (mr (cA c)) (mc (cA c)) rho (smooth_A Xs c l2) regs x us ->
  admm_update_A E Xs c regs l2 n tol scale constant = Ok (c', regs', inter) ->
  exists m tr,
    iterates (fun a b => exists i, admm_update_A E Xs (fst a) (snd a) l2 1 None scale constant = Ok (b, i))
             (fun a b => settled tol (mr (cA c)) (mc (cA c)) (rget (cA (fst a))) (rget (cA (fst b))) (snd b))
             n (unweighted c, regs) (c', regs') m tr /\
    map g_pen regs' = map g_pen regs /\
    forall k, m = S k -> nearly_solved (mr (cA c)) (mc (cA c)) rho (smooth_A Xs c l2) (spread_A Xs c l2) regs x us k (rget (cA c')) regs'.
Proof.
  intros Hv HC Hu Hp Htv HX H.
  destruct (update_A_trace E Xs c l2 scale constant HF HN Hl2 Hsc Hsvd regs regs' c' n tol inter Hv H) as (_ & m & tr & HI & Hinv).
  exists m, tr. split; [assumption|].
  assert (HP : forall i, (i <= m)%nat -> A_inv c (tr i) /\ map g_pen (snd (tr i)) = map g_pen regs /\ convexC (snd (tr i))).
  { apply (iterates_inv _ _ _ _ _ _ _ (fun s => A_inv c s /\ map g_pen (snd s) = map g_pen regs /\ convexC (snd s)) HI).
    - split; [|split; [reflexivity|exact HC]]. destruct HI as (_ & I2 & _). rewrite <- I2. apply Hinv. lia.
    - intros a b (A1 & A2 & A3) Hs. destruct (A_astep E Xs c l2 scale constant HF HN Hl2 Hsc Hsvd rho a b A1 A3 Hu Hp Htv Hs) as (B1 & B2 & B3 & _). split; [assumption|]. split; [congruence|assumption]. }
  destruct HI as (_ & I2 & I3 & I4 & _).
  split; [destruct (HP m (le_n _)) as (_ & E1 & _); rewrite I3 in E1; exact E1|].
  intros k Ek.
  assert (PR : forall i, (i < mr (cA c))%nat -> 0 < rho i) by (rewrite (RX Xs c HF); exact (rhos_used_pos _ _ _ _ Hu Hp)).
  assert (K := rows_rate (mr (cA c)) (mc (cA c)) rho (smooth_A Xs c l2) (spread_A Xs c l2) PR (smooth_A_quadratic Xs c l2)
    (fun D => spread_A_nonneg Xs c l2 D Hl2) m (fun i => snd (tr i)) (fun i => rget (cA (fst (tr i)))) x us).
  cbv beta in K. rewrite I2, I3 in K. cbn [fst snd] in K. apply K; [| |exact HX|exact Ek].
  - intros i Hi. apply HP. assumption.
  - intros i Hi. destruct (HP i ltac:(lia)) as (A1 & A2 & A3).
    apply (A_astep E Xs c l2 scale constant HF HN Hl2 Hsc Hsvd rho _ _ A1 A3 Hu Hp Htv (I4 i Hi)).
Qed.
Lemma B_rate regs regs' c' n tol rho x us : Forall (breg_valid (length Xs) (rowsB c) (mc (cA c))) regs -> convexB regs ->
  rhos_used constant (length Xs) (rho_B scale c) rho -> (forall i, (i < length Xs)%nat -> 0 < rho_B scale c i) ->
  (forall i, (i < length Xs)%nat -> tv_correct E (rowsB c i)) ->
  certified_l (length Xs) (rowsB c) (mc (cA c)) rho (smooth_B Xs c l2) regs x us ->
  admm_update_B E Xs c regs l2 n tol scale constant = Ok (c', regs') ->
  exists m tr,
    iterates (fun a b => admm_update_B E Xs (fst a) (snd a) l2 1 None scale constant = Ok b)
             (fun a b => b_settled tol (length Xs) (rowsB c) (mc (cA c)) (entB (cBs (fst a))) (entB (cBs (fst b))) (snd b))
             n (unweighted c, regs) (c', regs') m tr /\
    map b_pen regs' = map b_pen regs /\
    forall k, m = S k -> nearly_solved_l (length Xs) (rowsB c) (mc (cA c)) rho (smooth_B Xs c l2) (spread_B Xs c l2) regs x us k (entB (cBs c')) regs'.
Proof.
  intros Hv HC Hu Hp Htv HX H.
  destruct (update_B_trace E Xs c l2 scale constant HF HN Hl2 Hsc Hsvd regs regs' c' n tol Hv H) as (m & tr & HI & Hinv).
  exists m, tr. split; [assumption|].
  assert (HP : forall i, (i <= m)%nat -> B_inv Xs c (tr i) /\ map b_pen (snd (tr i)) = map b_pen regs /\ convexB (snd (tr i))).
  { apply (iterates_inv _ _ _ _ _ _ _ (fun s => B_inv Xs c s /\ map b_pen (snd s) = map b_pen regs /\ convexB (snd s)) HI).
    - split; [|split; [reflexivity|exact HC]]. destruct HI as (_ & I2 & _). rewrite <- I2. apply Hinv. lia.
    - intros a b (A1 & A2 & A3) Hs. destruct (B_astep E Xs c l2 scale constant HF HN Hl2 Hsc Hsvd rho a b A1 A3 Hu Hp Htv Hs) as (B1 & B2 & B3 & _). split; [assumption|]. split; [congruence|assumption]. }
  destruct HI as (_ & I2 & I3 & I4 & _).
  split; [destruct (HP m (le_n _)) as (_ & E1 & _); rewrite I3 in E1; exact E1|].
  intros k Ek.
  assert (K := lists_rate (length Xs) (rowsB c) (mc (cA c)) rho (smooth_B Xs c l2) (spread_B Xs c l2) (rhos_used_pos _ _ _ _ Hu Hp) (smooth_B_quadratic Xs c l2)
    (fun D => spread_B_nonneg Xs c l2 D Hl2) m (fun i => snd (tr i)) (fun i => entB (cBs (fst (tr i)))) x us).
  cbv beta in K. rewrite I2, I3 in K. cbn [fst snd] in K. apply K; [| |exact HX|exact Ek].
  - intros i Hi. apply HP. assumption.
  - intros i Hi. destruct (HP i ltac:(lia)) as (A1 & A2 & A3).
    apply (B_astep E Xs c l2 scale constant HF HN Hl2 Hsc Hsvd rho _ _ A1 A3 Hu Hp Htv (I4 i Hi)).
Qed.
End Modes.
