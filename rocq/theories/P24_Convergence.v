(** C65: with enough inner iterations an update solves its penalised subproblem. *)
From Coq Require Import Reals Lra Lia List Arith Bool.
From Verif Require Import Num Numpy Unimodal RFacts Spec SpecFacts MatFacts SvdFacts ModelSpec Penalties PenaltySpec
  ProxProofs TVProofs GenL2Proofs SimplexProofs Parafac2Proofs PenaltyMain CoupledMatrices CmfSpec CmfProofs
  Decomp DecompSpec DecompFacts AdmmProofs AdmmB AdmmA AdmmRegs AdmmLoop AdmmOne AoState OptSpec AdmmConv AdmmFix AdmmFixB AdmmOpt
  AdmmRate ConvSpec AdmmExist AdmmSlater PenConvex AdmmCvg AdmmSol Ideal DecompExamples P04_Updates.
Import ListNotations.
Local Open Scope R_scope.

Lemma abs_bounds a e : Rabs a <= e -> - e <= a <= e.
Proof. intros H. pose proof (Rle_abs a). pose proof (Rle_abs (- a)). rewrite Rabs_Ropp in *. lra. Qed.

(** ** When constraints go together *)
(** A single convex penalty always; several ones whenever none of them is a box. *)
Definition is_box (p : penalty (N:=RNum)) : Prop := match p with Box _ _ => True | _ => False end.
Lemma room p r : convex_pen p -> valid_penalty p r -> ~ is_box p ->
  exists v0, 0 < v0 /\ forall v r' c Z, 0 < v <= v0 -> (r' <= r)%nat -> (forall i j, (i < r')%nat -> (j < c)%nat -> 0 <= Z i j <= 2 * v) -> doc_domain p r' c Z.
Proof.
  intros HC HV HB. destruct p as [|lo hi|reg nn|M U s|reg l1|b nn| |nn|m ub uc]; try contradiction; try (exfalso; apply HB; exact Logic.I); cbn in *.
  - exists 1. split; [lra|]. intros v r' c Z _ _ H i j Hi Hj. now apply H.
  - exists 1. split; [lra|]. intros v r' c Z _ _ H _ i j Hi Hj. now apply H.
  - exists 1. split; [lra|]. intros; exact Logic.I.
  - exists 1. split; [lra|]. intros; exact Logic.I.
  - pose proof (pos_INR r) as HR. exists (b / (2 * (INR r + 1))). split; [apply Rdiv_lt_0_compat; lra|].
    intros v r' c Z Hv Hr H. split; [|intros _ i j Hi Hj; now apply H]. intros j Hj. rewrite Sum_rsum.
    apply Rle_trans with (rsum r' (fun _ => (b / (INR r + 1)) ^ 2)).
    + apply rsum_le; intros i Hi. specialize (H i j Hi Hj). apply pow_incr. split; [lra|]. apply Rle_trans with (2 * v); [lra|].
      replace (b / (INR r + 1)) with (2 * (b / (2 * (INR r + 1)))) by (field; lra). lra.
    + rewrite rsum_const. apply le_INR in Hr. apply Rle_trans with ((INR r + 1) * (b / (INR r + 1)) ^ 2).
      * apply Rmult_le_compat_r; [apply pow2_ge_0|lra].
      * replace ((INR r + 1) * (b / (INR r + 1)) ^ 2) with (b ^ 2 / (INR r + 1)) by (field; lra).
        apply Rmult_le_reg_r with (INR r + 1); [lra|]. unfold Rdiv. rewrite Rmult_assoc, Rinv_l by lra. pose proof (pow2_ge_0 b). nra.
Qed.
Lemma rooms (ps : list (penalty (N:=RNum))) r : Forall (fun p => convex_pen p /\ valid_penalty p r /\ ~ is_box p) ps ->
  exists v, 0 < v /\ forall p, In p ps -> forall r' c Z, (r' <= r)%nat -> (forall i j, (i < r')%nat -> (j < c)%nat -> 0 <= Z i j <= 2 * v) -> doc_domain p r' c Z.
Proof.
  induction 1 as [|p ps (C & V & B) _ (v & V0 & IH)]; [exists 1; split; [lra|intros p []]|].
  destruct (room p r C V B) as (v0 & P0 & HP). exists (Rmin v v0). split; [now apply Rmin_glb_lt|].
  intros p' [<-|Hp] r' c Z Hr HZ.
  - apply (HP (Rmin v v0)); [split; [now apply Rmin_glb_lt|apply Rmin_r]|assumption|exact HZ].
  - apply (IH p' Hp r' c Z Hr). intros i j Hi Hj. specialize (HZ i j Hi Hj). pose proof (Rmin_l v v0). lra.
Qed.
Theorem C65_compatible (r c : nat) (regs : list mregR) :
  Forall (fun g => valid_penalty (g_pen g) r) regs -> Forall (fun g => convex_pen (g_pen g)) regs ->
  (length regs <= 1)%nat \/ Forall (fun g => ~ is_box (g_pen g)) regs -> compatible r c regs.
Proof.
  intros HV HC [HL|HB].
  - destruct regs as [|g [|]]; [| |cbn in HL; lia].
    + exists (fun _ _ => 0), 0%nat, 1. split; [lra|]. split; [intros q Hq; cbn in Hq; lia|]. intros q Z Hq; cbn in Hq; lia.
    + inversion HV; inversion HC; subst. destruct (doc_domain_point (g_pen g) r) as (v & Hp); try assumption. exists (fun _ _ => v), 0%nat, 1. split; [lra|]. split.
      * intros [|q] Hq; [apply Hp|cbn in Hq; lia].
      * intros q Z Hq N; cbn in Hq; lia.
  - destruct (rooms (map g_pen regs) r) as (v & V0 & H).
    { apply Forall_map. rewrite Forall_forall in *. intros g Hg. split; [now apply HC|]. split; [now apply HV|now apply HB]. }
    assert (IN : forall q, (q < length regs)%nat -> In (pen_at regs q) (map g_pen regs)) by (intros q Hq; unfold pen_at; apply in_map, (nth_In regs), Hq).
    exists (fun _ _ => v), (length regs), v. split; [assumption|]. split.
    + intros q Hq. apply (H _ (IN q Hq) r c); [lia|]. intros; lra.
    + intros q Z Hq _ HZ. apply (H _ (IN q Hq) r c); [lia|]. intros i j Hi Hj. specialize (HZ i j Hi Hj). cbv beta in HZ. apply abs_bounds in HZ. lra.
Qed.
Print Assumptions C65_compatible.
Theorem C65_compatible_l (n : nat) (J : nat -> nat) (c : nat) (regs : list bregR) :
  Forall (fun g => forall i, (i < n)%nat -> valid_penalty (b_pen g) (J i)) regs -> Forall (fun g => convex_pen (b_pen g)) regs ->
  (length regs <= 1)%nat \/ Forall (fun g => ~ is_box (b_pen g)) regs -> compatible_l n J c regs.
Proof.
  intros HV HC HB. destruct n as [|n].
  { exists (fun _ _ _ => 0), 0%nat, 1. split; [lra|]. split; [intros q Hq i Hi; lia|]. intros q Z Hq _ _ i Hi; lia. }
  destruct HB as [HL|HB].
  - destruct regs as [|g [|]]; [| |cbn in HL; lia].
    + exists (fun _ _ _ => 0), 0%nat, 1. split; [lra|]. split; [intros q Hq; cbn in Hq; lia|]. intros q Z Hq; cbn in Hq; lia.
    + inversion HV; inversion HC; subst. destruct (doc_domain_point (b_pen g) (J 0%nat)) as (v & Hp); try assumption; [apply H1; lia|].
      exists (fun _ _ _ => v), 0%nat, 1. split; [lra|]. split.
      * intros [|q] Hq i Hi; [apply Hp|cbn in Hq; lia].
      * intros q Z Hq N; cbn in Hq; lia.
  - assert (RM : forall m, (m <= S n)%nat -> exists v, 0 < v /\ forall i, (i < m)%nat -> forall p, In p (map b_pen regs) -> forall Z,
        (forall j k, (j < J i)%nat -> (k < c)%nat -> 0 <= Z j k <= 2 * v) -> doc_domain p (J i) c Z).
    { induction m as [|m IH]; intros Hm; [exists 1; split; [lra|intros; lia]|]. destruct IH as (v & V0 & H); [lia|].
      destruct (rooms (map b_pen regs) (J m)) as (v' & V0' & H').
      { apply Forall_map. rewrite Forall_forall in *. intros g Hg. split; [now apply HC|]. split; [apply HV; [assumption|lia]|now apply HB]. }
      exists (Rmin v v'). split; [now apply Rmin_glb_lt|]. pose proof (Rmin_l v v'). pose proof (Rmin_r v v').
      intros i Hi p Hp Z HZ. destruct (Nat.eq_dec i m) as [->|].
      - apply (H' p Hp (J m) c Z (le_n _)). intros j k Hj Hk. specialize (HZ j k Hj Hk). lra.
      - apply (H i ltac:(lia) p Hp Z). intros j k Hj Hk. specialize (HZ j k Hj Hk). lra. }
    destruct (RM (S n) (le_n _)) as (v & V0 & H).
    assert (IN : forall q, (q < length regs)%nat -> In (bpen_at regs q) (map b_pen regs)) by (intros q Hq; unfold bpen_at; apply in_map, (nth_In regs), Hq).
    exists (fun _ _ _ => v), (length regs), v. split; [assumption|]. split.
    + intros q Hq i Hi. apply (H i Hi _ (IN q Hq)). intros; lra.
    + intros q Z Hq _ HZ i Hi. apply (H i Hi _ (IN q Hq)). intros j k Hj Hk. specialize (HZ i Hi j k Hj Hk). cbv beta in HZ. apply abs_bounds in HZ. lra.
Qed.
Print Assumptions C65_compatible_l.

(** ** Facts about the hypotheses *)
Lemma max_exists n (f : nat -> R) : (0 < n)%nat -> exists v, is_max n f v.
Proof.
  induction n as [|n IH]; intros H; [lia|]. destruct n as [|n].
  - exists (f 0%nat). split; [exists 0%nat; split; [lia|reflexivity]|]. intros i Hi. replace i with 0%nat by lia. lra.
  - destruct IH as (v & (k & Hk & Ek) & M); [lia|]. destruct (Rle_lt_dec v (f (S n))) as [L|L].
    + exists (f (S n)). split; [exists (S n); split; [lia|reflexivity]|]. intros i Hi. destruct (Nat.eq_dec i (S n)) as [->|]; [lra|]. specialize (M i ltac:(lia)). lra.
    + exists v. split; [exists k; split; [lia|assumption]|]. intros i Hi. destruct (Nat.eq_dec i (S n)) as [->|]; [lra|]. apply M. lia.
Qed.
Lemma rhos_exist b n f : exists rho, rhos_used b n f rho.
Proof.
  destruct b; [|exists f; intros i Hi; reflexivity]. destruct n as [|n]; [exists f; intros i Hi; lia|].
  destruct (max_exists (S n) f) as (v & Hv); [lia|]. exists (fun _ => v). intros i Hi. exact Hv.
Qed.
Lemma convex_usable p rho : convex_pen p -> 0 < rho -> usable p rho.
Proof. intros H Hr. split; [|now right]. intros ->. exact H. Qed.
Lemma mvalid_pens r c (regs : list mregR) : Forall (mreg_valid r c) regs -> Forall (fun g => valid_penalty (g_pen g) r) regs.
Proof. apply Forall_impl. intros g (_ & H & _). exact H. Qed.
Lemma bvalid_pens n J c (regs : list bregR) : Forall (breg_valid n J c) regs -> Forall (fun g => convex_pen (b_pen g)) regs ->
  Forall (fun g => forall i, (i < n)%nat -> valid_penalty (b_pen g) (J i)) regs.
Proof.
  rewrite !Forall_forall. intros H HC g Hg. destruct (H g Hg) as (_ & K). specialize (HC g Hg). destruct (b_pen g); try contradiction; destruct (b_aux g); try contradiction; apply K.
Qed.
Lemma iterates_all {S} (one done : S -> S -> Prop) n s s' m tr : iterates one done n s s' m tr -> (forall a b, ~ done a b) -> m = n.
Proof. intros (L & _ & _ & _ & _ & K) H. destruct (Nat.eq_dec m n) as [|N]; [assumption|]. destruct (K ltac:(lia)) as (_ & D). destruct (H _ _ D). Qed.
Lemma unsettled r c old new regs : ~ settled None r c old new regs.
Proof. intros (t & E & _). discriminate. Qed.
Lemma b_unsettled n J c old new regs : ~ b_settled None n J c old new regs.
Proof. intros (t & E & _). discriminate. Qed.
Lemma spread_A_strong Xs c l2 D : l2 / 2 * sumsq (mr (cA c)) (mc (cA c)) D <= spread_A Xs c l2 D.
Proof. unfold spread_A. pose proof (represented_sq_nonneg Xs (mr (cC c)) (mc (cA c)) D (entB (cBs c)) (rget (cC c))). rn. lra. Qed.
Lemma spread_C_strong Xs c l2 D : l2 / 2 * sumsq (mr (cC c)) (mc (cA c)) D <= spread_C Xs c l2 D.
Proof. unfold spread_C. pose proof (represented_sq_nonneg Xs (mr (cC c)) (mc (cA c)) (rget (cA c)) (entB (cBs c)) D). rn. lra. Qed.
Lemma spread_B_strong Xs c l2 D : data_fits Xs c -> l2 / 2 * total_sq (length Xs) (rowsB c) (mc (cA c)) D <= spread_B Xs c l2 D.
Proof.
  intros (_ & HL & _). unfold spread_B, total_sq. rewrite HL. pose proof (represented_sq_nonneg Xs (mr (cC c)) (mc (cA c)) (rget (cA c)) D (rget (cC c))).
  change (fun i => sumsq (rowsB c i) (mc (cA c)) (D i)) with (fun i => sumsq (mr (nthB c i)) (mc (cA c)) (D i)). rn. lra.
Qed.

(** ** C65: rates *)
(** Every solution of the subproblem has multipliers for which the result of an update
    with k + 1 inner iterations is nearly a solution, with an error that goes to 0. *)
Theorem C65_rate_C (E : extR) (Xs : list matR) (c : rcmf) (l2 scale : R) (regs : list mregR) (x : ent) :
  data_fits Xs c -> nonempty c -> 0 <= l2 -> 0 <= scale -> svd_correct E (mc (cA c)) -> tv_correct E (mr (cC c)) ->
  Forall (mreg_valid (mr (cC c)) (mc (cA c))) regs -> Forall (fun g => convex_pen (g_pen g)) regs -> 0 < rho_C scale c ->
  compatible (mr (cC c)) (mc (cA c)) regs -> optimal (mr (cC c)) (mc (cA c)) (smooth_C Xs c l2) regs x ->
  exists us, certified (mr (cC c)) (mc (cA c)) (fun _ => rho_C scale c) (smooth_C Xs c l2) regs x us /\
  forall k c' regs', admm_update_C E Xs c regs l2 (S k) None scale = Ok (c', regs') -> map g_pen regs' = map g_pen regs /\
    nearly_solved (mr (cC c)) (mc (cA c)) (fun _ => rho_C scale c) (smooth_C Xs c l2) (spread_C Xs c l2) regs x us k (mget (cC c')) regs'.
Proof.
  intros HF HN H1 H2 H3 Ht Hv HC Hr HP HX.
  destruct (rows_multipliers (mr (cC c)) (mc (cA c)) (fun _ => rho_C scale c) (smooth_C Xs c l2) (spread_C Xs c l2) regs (fun _ _ => Hr)
    (smooth_C_quadratic Xs c l2) (fun D => spread_C_nonneg Xs c l2 D H1) (mvalid_pens _ _ _ Hv) HC x HP HX) as (us & HU).
  exists us. split; [assumption|]. intros k c' regs' H.
  destruct (C_rate E Xs c l2 scale HF HN H1 H2 H3 regs regs' c' (S k) None x us Hv HC Hr Ht HU H) as (m & tr & HI & HM & K). split; [assumption|].
  apply K. apply (iterates_all _ _ _ _ _ _ _ HI). intros a b. apply unsettled.
Qed.
Print Assumptions C65_rate_C.
Theorem C65_rate_A (E : extR) (Xs : list matR) (c : rcmf) (l2 scale : R) (constant : bool) (regs : list mregR) (rho : nat -> R) (x : ent) :
  data_fits Xs c -> nonempty c -> 0 <= l2 -> 0 <= scale -> svd_correct E (mc (cA c)) -> tv_correct E (mr (cA c)) ->
  Forall (mreg_valid (mr (cA c)) (mc (cA c))) regs -> Forall (fun g => convex_pen (g_pen g)) regs ->
  rhos_used constant (length Xs) (rho_A scale c) rho -> (forall i, (i < length Xs)%nat -> 0 < rho_A scale c i) ->
  compatible (mr (cA c)) (mc (cA c)) regs -> optimal (mr (cA c)) (mc (cA c)) (smooth_A Xs c l2) regs x ->
  exists us, certified (mr (cA c)) (mc (cA c)) rho (smooth_A Xs c l2) regs x us /\
  forall k c' regs' inter, admm_update_A E Xs c regs l2 (S k) None scale constant = Ok (c', regs', inter) -> map g_pen regs' = map g_pen regs /\
    nearly_solved (mr (cA c)) (mc (cA c)) rho (smooth_A Xs c l2) (spread_A Xs c l2) regs x us k (mget (cA c')) regs'.
Proof.
  intros HF HN H1 H2 H3 Ht Hv HC Hu Hr HP HX.
  assert (PR : forall i, (i < mr (cA c))%nat -> 0 < rho i) by (rewrite (RX Xs c HF); exact (rhos_used_pos _ _ _ _ Hu Hr)).
  destruct (rows_multipliers (mr (cA c)) (mc (cA c)) rho (smooth_A Xs c l2) (spread_A Xs c l2) regs PR
    (smooth_A_quadratic Xs c l2) (fun D => spread_A_nonneg Xs c l2 D H1) (mvalid_pens _ _ _ Hv) HC x HP HX) as (us & HU).
  exists us. split; [assumption|]. intros k c' regs' inter H.
  destruct (A_rate E Xs c l2 scale constant HF HN H1 H2 H3 regs regs' c' (S k) None inter rho x us Hv HC Hu Hr Ht HU H) as (m & tr & HI & HM & K). split; [assumption|].
  apply K. apply (iterates_all _ _ _ _ _ _ _ HI). intros a b. apply unsettled.
Qed.
Print Assumptions C65_rate_A.
Theorem C65_rate_B (E : extR) (Xs : list matR) (c : rcmf) (l2 scale : R) (constant : bool) (regs : list bregR) (rho : nat -> R) (x : nat -> ent) :
  data_fits Xs c -> nonempty c -> 0 <= l2 -> 0 <= scale -> svd_correct E (mc (cA c)) -> (forall i, (i < length Xs)%nat -> tv_correct E (rowsB c i)) ->
  Forall (breg_valid (length Xs) (rowsB c) (mc (cA c))) regs -> Forall (fun g => convex_pen (b_pen g)) regs ->
  rhos_used constant (length Xs) (rho_B scale c) rho -> (forall i, (i < length Xs)%nat -> 0 < rho_B scale c i) ->
  compatible_l (length Xs) (rowsB c) (mc (cA c)) regs -> optimal_l (length Xs) (rowsB c) (mc (cA c)) (smooth_B Xs c l2) regs x ->
  exists us, certified_l (length Xs) (rowsB c) (mc (cA c)) rho (smooth_B Xs c l2) regs x us /\
  forall k c' regs', admm_update_B E Xs c regs l2 (S k) None scale constant = Ok (c', regs') -> map b_pen regs' = map b_pen regs /\
    nearly_solved_l (length Xs) (rowsB c) (mc (cA c)) rho (smooth_B Xs c l2) (spread_B Xs c l2) regs x us k (entB (cBs c')) regs'.
Proof.
  intros HF HN H1 H2 H3 Ht Hv HC Hu Hr HP HX.
  destruct (lists_multipliers (length Xs) (rowsB c) (mc (cA c)) rho (smooth_B Xs c l2) (spread_B Xs c l2) regs (rhos_used_pos _ _ _ _ Hu Hr)
    (smooth_B_quadratic Xs c l2) (fun D => spread_B_nonneg Xs c l2 D H1) (bvalid_pens _ _ _ _ Hv HC) HC x HP HX) as (us & HU).
  exists us. split; [assumption|]. intros k c' regs' H.
  destruct (B_rate E Xs c l2 scale constant HF HN H1 H2 H3 regs regs' c' (S k) None rho x us Hv HC Hu Hr Ht HU H) as (m & tr & HI & HM & K). split; [assumption|].
  apply K. apply (iterates_all _ _ _ _ _ _ _ HI). intros a b. apply b_unsettled.
Qed.
Print Assumptions C65_rate_B.

(** ** C65: with a ridge penalty there is exactly one solution, and the updates converge to it *)
Theorem C65_converges_C (E : extR) (Xs : list matR) (c : rcmf) (l2 scale : R) (regs : list mregR) :
  data_fits Xs c -> nonempty c -> 0 < l2 -> 0 <= scale -> svd_correct E (mc (cA c)) -> tv_correct E (mr (cC c)) ->
  Forall (mreg_valid (mr (cC c)) (mc (cA c))) regs -> Forall (fun g => convex_pen (g_pen g)) regs -> 0 < rho_C scale c ->
  compatible (mr (cC c)) (mc (cA c)) regs ->
  exists x, optimal (mr (cC c)) (mc (cA c)) (smooth_C Xs c l2) regs x /\
  (forall y, optimal (mr (cC c)) (mc (cA c)) (smooth_C Xs c l2) regs y -> same (mr (cC c)) (mc (cA c)) x y) /\
  forall eps, 0 < eps -> exists N, forall n, (N <= n)%nat ->
    exists c' regs', admm_update_C E Xs c regs l2 n None scale = Ok (c', regs') /\ map g_pen regs' = map g_pen regs /\
      close (mr (cC c)) (mc (cA c)) eps (mget (cC c')) x /\
      forall q, (q < length regs)%nat -> close (mr (cC c)) (mc (cA c)) eps (aux_at regs' q) x.
Proof.
  intros HF HN H1 H2 H3 Ht Hv HC Hr HP. assert (H1' : 0 <= l2) by lra. assert (M0 : 0 < l2 / 2) by lra.
  pose proof HP as (x0 & q0 & delta & _ & F0 & _).
  destruct (rows_exists (mr (cC c)) (mc (cA c)) (smooth_C Xs c l2) (spread_C Xs c l2) (l2 / 2) regs (smooth_C_quadratic Xs c l2) (mvalid_pens _ _ _ Hv) HC M0
    (spread_C_strong Xs c l2) (fun Z => smooth_C_nonneg Xs c l2 H1' Z) (fun Zk Z => smooth_C_cv Xs c l2 Zk Z) x0 F0) as (x & HX).
  exists x. split; [assumption|]. split.
  { intros y HY. exact (rows_unique (mr (cC c)) (mc (cA c)) (smooth_C Xs c l2) (spread_C Xs c l2) (l2 / 2) regs (smooth_C_quadratic Xs c l2) (mvalid_pens _ _ _ Hv) HC M0
    (spread_C_strong Xs c l2) x y HX HY). }
  intros eps He. destruct (C65_rate_C E Xs c l2 scale regs x HF HN H1' H2 H3 Ht Hv HC Hr HP HX) as (us & _ & HU).
  destruct (rows_limit (mr (cC c)) (mc (cA c)) (fun _ => rho_C scale c) (smooth_C Xs c l2) (spread_C Xs c l2) (l2 / 2) regs (fun _ _ => Hr) M0
    (spread_C_strong Xs c l2) x us eps He) as (N & HL).
  exists (S N). intros [|k] Hk; [lia|].
  destruct (C51_update_C_total E Xs c l2 scale regs (S k) None HF HN H1' H2 H3 Hv) as ((c' & regs') & EQ).
  { eapply Forall_impl; [|exact HC]. intros g Hg. now apply convex_usable. }
  { now left. }
  exists c', regs'. split; [assumption|]. destruct (HU k c' regs' EQ) as (EM & NS). split; [assumption|].
  assert (LE : length regs' = length regs) by (rewrite <- (map_length g_pen regs'), EM; apply map_length).
  rewrite <- LE. apply (HL k); [lia|assumption|assumption].
Qed.
Print Assumptions C65_converges_C.
Theorem C65_converges_A (E : extR) (Xs : list matR) (c : rcmf) (l2 scale : R) (constant : bool) (regs : list mregR) :
  data_fits Xs c -> nonempty c -> 0 < l2 -> 0 <= scale -> svd_correct E (mc (cA c)) -> tv_correct E (mr (cA c)) ->
  Forall (mreg_valid (mr (cA c)) (mc (cA c))) regs -> Forall (fun g => convex_pen (g_pen g)) regs ->
  (forall i, (i < length Xs)%nat -> 0 < rho_A scale c i) -> (constant = false -> Forall (fun g => rowwise (g_pen g)) regs) ->
  compatible (mr (cA c)) (mc (cA c)) regs ->
  exists x, optimal (mr (cA c)) (mc (cA c)) (smooth_A Xs c l2) regs x /\
  (forall y, optimal (mr (cA c)) (mc (cA c)) (smooth_A Xs c l2) regs y -> same (mr (cA c)) (mc (cA c)) x y) /\
  forall eps, 0 < eps -> exists N, forall n, (N <= n)%nat ->
    exists c' regs' inter, admm_update_A E Xs c regs l2 n None scale constant = Ok (c', regs', inter) /\ map g_pen regs' = map g_pen regs /\
      close (mr (cA c)) (mc (cA c)) eps (mget (cA c')) x /\
      forall q, (q < length regs)%nat -> close (mr (cA c)) (mc (cA c)) eps (aux_at regs' q) x.
Proof.
  intros HF HN H1 H2 H3 Ht Hv HC Hr Hw HP. assert (H1' : 0 <= l2) by lra. assert (M0 : 0 < l2 / 2) by lra.
  pose proof HP as (x0 & q0 & delta & _ & F0 & _). destruct (rhos_exist constant (length Xs) (rho_A scale c)) as (rho & Hu).
  assert (PR : forall i, (i < mr (cA c))%nat -> 0 < rho i) by (rewrite (RX Xs c HF); exact (rhos_used_pos _ _ _ _ Hu Hr)).
  destruct (rows_exists (mr (cA c)) (mc (cA c)) (smooth_A Xs c l2) (spread_A Xs c l2) (l2 / 2) regs (smooth_A_quadratic Xs c l2) (mvalid_pens _ _ _ Hv) HC M0
    (spread_A_strong Xs c l2) (fun Z => smooth_A_nonneg Xs c l2 H1' Z) (fun Zk Z => smooth_A_cv Xs c l2 HF Zk Z) x0 F0) as (x & HX).
  exists x. split; [assumption|]. split.
  { intros y HY. exact (rows_unique (mr (cA c)) (mc (cA c)) (smooth_A Xs c l2) (spread_A Xs c l2) (l2 / 2) regs (smooth_A_quadratic Xs c l2) (mvalid_pens _ _ _ Hv) HC M0
    (spread_A_strong Xs c l2) x y HX HY). }
  intros eps He. destruct (C65_rate_A E Xs c l2 scale constant regs rho x HF HN H1' H2 H3 Ht Hv HC Hu Hr HP HX) as (us & _ & HU).
  destruct (rows_limit (mr (cA c)) (mc (cA c)) rho (smooth_A Xs c l2) (spread_A Xs c l2) (l2 / 2) regs PR M0
    (spread_A_strong Xs c l2) x us eps He) as (N & HL).
  exists (S N). intros [|k] Hk; [lia|].
  destruct (C51_update_A_total E Xs c l2 scale constant regs (S k) None rho HF HN H1' H2 H3 Hu Hv) as (((c' & regs') & inter) & EQ).
  { intros i Hi. split; [|now left]. eapply Forall_impl; [|exact HC]. intros g Hg. apply convex_usable; [assumption|]. exact (rhos_used_pos _ _ _ _ Hu Hr i Hi). }
  { assumption. }
  exists c', regs', inter. split; [assumption|]. destruct (HU k c' regs' inter EQ) as (EM & NS). split; [assumption|].
  assert (LE : length regs' = length regs) by (rewrite <- (map_length g_pen regs'), EM; apply map_length).
  rewrite <- LE. apply (HL k); [lia|assumption|assumption].
Qed.
Print Assumptions C65_converges_A.
Theorem C65_converges_B (E : extR) (Xs : list matR) (c : rcmf) (l2 scale : R) (constant : bool) (regs : list bregR) :
  data_fits Xs c -> nonempty c -> 0 < l2 -> 0 <= scale -> svd_correct E (mc (cA c)) -> (forall i, (i < length Xs)%nat -> tv_correct E (rowsB c i)) ->
  Forall (breg_valid (length Xs) (rowsB c) (mc (cA c))) regs -> Forall (fun g => convex_pen (b_pen g)) regs ->
  (forall i, (i < length Xs)%nat -> 0 < rho_B scale c i) ->
  compatible_l (length Xs) (rowsB c) (mc (cA c)) regs ->
  exists x, optimal_l (length Xs) (rowsB c) (mc (cA c)) (smooth_B Xs c l2) regs x /\
  (forall y, optimal_l (length Xs) (rowsB c) (mc (cA c)) (smooth_B Xs c l2) regs y -> forall i, (i < length Xs)%nat -> same (rowsB c i) (mc (cA c)) (x i) (y i)) /\
  forall eps, 0 < eps -> exists N, forall n, (N <= n)%nat ->
    exists c' regs', admm_update_B E Xs c regs l2 n None scale constant = Ok (c', regs') /\ map b_pen regs' = map b_pen regs /\
      close_l (length Xs) (rowsB c) (mc (cA c)) eps (entB (cBs c')) x /\
      forall q, (q < length regs)%nat -> close_l (length Xs) (rowsB c) (mc (cA c)) eps (baux_at regs' q) x.
Proof.
  intros HF HN H1 H2 H3 Ht Hv HC Hr HP. assert (H1' : 0 <= l2) by lra. assert (M0 : 0 < l2 / 2) by lra.
  pose proof HP as (x0 & q0 & delta & _ & F0 & _). destruct (rhos_exist constant (length Xs) (rho_B scale c)) as (rho & Hu).
  pose proof (rhos_used_pos _ _ _ _ Hu Hr) as PR. pose proof (bvalid_pens _ _ _ _ Hv HC) as VP.
  destruct (lists_exists (length Xs) (rowsB c) (mc (cA c)) (smooth_B Xs c l2) (spread_B Xs c l2) (l2 / 2) regs (smooth_B_quadratic Xs c l2) VP HC M0
    (fun D => spread_B_strong Xs c l2 D HF) (fun Z => smooth_B_nonneg Xs c l2 H1' Z) (fun Zk Z => smooth_B_cv Xs c l2 HF Zk Z) x0 F0) as (x & HX).
  exists x. split; [assumption|]. split.
  { intros y HY. exact (lists_unique (length Xs) (rowsB c) (mc (cA c)) (smooth_B Xs c l2) (spread_B Xs c l2) (l2 / 2) regs (smooth_B_quadratic Xs c l2) VP HC M0
    (fun D => spread_B_strong Xs c l2 D HF) x y HX HY). }
  intros eps He. destruct (C65_rate_B E Xs c l2 scale constant regs rho x HF HN H1' H2 H3 Ht Hv HC Hu Hr HP HX) as (us & _ & HU).
  destruct (lists_limit (length Xs) (rowsB c) (mc (cA c)) rho (smooth_B Xs c l2) (spread_B Xs c l2) (l2 / 2) regs PR M0
    (fun D => spread_B_strong Xs c l2 D HF) x us eps He) as (N & HL).
  exists (S N). intros [|k] Hk; [lia|].
  destruct (C51_update_B_total E Xs c l2 scale constant regs (S k) None rho HF HN H1' H2 H3 Hu Hv) as ((c' & regs') & EQ).
  { intros i Hi. split; [|now left]. eapply Forall_impl; [|exact HC]. intros g Hg. apply convex_usable; [assumption|]. exact (PR i Hi). }
  exists c', regs'. split; [assumption|]. destruct (HU k c' regs' EQ) as (EM & NS). split; [assumption|].
  assert (LE : length regs' = length regs) by (rewrite <- (map_length b_pen regs'), EM; apply map_length).
  rewrite <- LE. apply (HL k); [lia|assumption|assumption].
Qed.
Print Assumptions C65_converges_B.

(** ** Cases that meet the hypotheses *)
(** min (x - 2)^2/2 + x^2/2 + |x| subject to x >= 0, with the non-negativity constraint
    and the L1 penalty as two penalties: whatever the auxiliary and dual variables are at the
    start, the factor and both auxiliary variables converge to the solution 1/2. *)
Definition two_regs (a b d e : R) : list mregR := [MReg (N:=RNum) NonNegativity (m11 a) (m11 d); MReg (N:=RNum) (L1Penalty (N:=RNum) 1 false) (m11 b) (m11 e)].
Example C65_nonvacuous_C : exists E : extR, svd_correct E 1 /\ tv_correct E 1 /\ forall c0 a b d e eps, 0 < eps ->
  exists N, forall n, (N <= n)%nat -> exists c' regs', admm_update_C E [m11 2] (st_cmf (cs c0 a d)) (two_regs a b d e) 1 n None 2 = Ok (c', regs') /\
    Rabs (mget (cC c') 0%nat 0%nat - 1 / 2) <= eps /\ Rabs (aux_at regs' 0 0%nat 0%nat - 1 / 2) <= eps /\ Rabs (aux_at regs' 1 0%nat 0%nat - 1 / 2) <= eps.
Proof.
  destruct ideal_exists as (E & HE & HT). exists E. split; [apply HE|]. split; [apply HT|]. intros c0 a b d e eps He.
  destruct (cs_valid 2 c0 a d) as (V1 & V2 & _ & _ & V5). set (c := st_cmf (cs c0 a d)) in *. set (regs := two_regs a b d e).
  assert (VV : Forall (mreg_valid (mr (cC c)) (mc (cA c))) regs).
  { constructor; [inversion V5; assumption|]. constructor; [|constructor]. split; [intros []|]. split; [cbn; lra|split; shm]. }
  assert (VC : Forall (fun g => convex_pen (g_pen g)) regs) by (repeat constructor).
  assert (CO : compatible (mr (cC c)) (mc (cA c)) regs).
  { apply C65_compatible; [now apply (mvalid_pens _ _ _ VV)|assumption|]. right. repeat constructor; intros []. }
  assert (RP : 0 < rho_C 2 c) by (mcomp; lra).
  destruct (C65_converges_C E [m11 2] c 1 2 regs V1 V2 ltac:(lra) ltac:(lra) (HE 1%nat) (HT 1%nat) VV VC RP CO) as (x & HX & HU & HL).
  assert (OP : optimal (mr (cC c)) (mc (cA c)) (smooth_C [m11 2] c 1) regs (fun _ _ => 1 / 2)).
  { split.
    - intros [|[|q]] Hq; [| |cbn in Hq; lia]; cbn; [intros i j _ _; lra|intros K; discriminate].
    - intros Z HZ. pose proof (HZ 0%nat ltac:(cbn; lia) 0%nat 0%nat ltac:(cbn; lia) ltac:(cbn; lia)) as P. cbn in P.
      mcomp. revert P. generalize (Z 0%nat 0%nat). intros z P. rewrite !Rabs_pos_eq by lra. pose proof (pow2_ge_0 (z - 1 / 2)). nra. }
  assert (X12 : x 0%nat 0%nat = 1 / 2) by (apply (HU _ OP); cbn; lia).
  destruct (HL eps He) as (N & HN). exists N. intros n Hn. destruct (HN n Hn) as (c' & regs' & EQ & _ & C1 & C2). exists c', regs'. split; [exact EQ|].
  rewrite <- X12. split; [apply C1; cbn; lia|]. split; apply C2; cbn; lia.
Qed.

(** Two matrices of different heights, rank 2, two penalties per mode. *)
Definition z22 : rmat := Mat (N:=RNum) 2 2 [[0; 0]; [0; 0]].
Definition z32 : rmat := Mat (N:=RNum) 3 2 [[0; 0]; [0; 0]; [0; 0]].
Definition pair_regs (p q : penalty (N:=RNum)) : list mregR := [MReg (N:=RNum) p z22 z22; MReg (N:=RNum) q z22 z22].
Definition pair_bregs (p q : penalty (N:=RNum)) : list bregR :=
  [BReg (N:=RNum) p (AList [z22; z32]) [z22; z32]; BReg (N:=RNum) q (AList [z22; z32]) [z22; z32]].
Example C65_nonvacuous : exists E : extR, svd_correct E 2 /\ (forall r, tv_correct E r) /\ data_fits exX exc /\ nonempty exc /\
  0 < rho_C 1 exc /\ (forall i, (i < 2)%nat -> 0 < rho_A 1 exc i) /\ (forall i, (i < 2)%nat -> 0 < rho_B 1 exc i) /\
  let rA := pair_regs NonNegativity (L1Penalty (N:=RNum) 1 false) in
  let rB := pair_bregs NonNegativity (TotalVariation (N:=RNum) 1 0) in
  let rC := pair_regs NonNegativity (L2Ball (N:=RNum) 1 false) in
  Forall (mreg_valid 2 2) rA /\ compatible 2 2 rA /\ Forall (fun g => rowwise (g_pen g)) rA /\
  Forall (breg_valid 2 (rowsB exc) 2) rB /\ compatible_l 2 (rowsB exc) 2 rB /\
  Forall (mreg_valid 2 2) rC /\ compatible 2 2 rC.
Proof.
  destruct ideal_exists as (E & HE & HT). exists E. split; [apply HE|]. split; [exact HT|]. split; [exact exc_fits|].
  split; [repeat split; try (cbn; lia); intros [|[|k]] Hk; cbn in *; lia|].
  split; [mcomp; lra|]. split; [intros [|[|i]] Hi; try lia; mcomp; lra|]. split; [intros [|[|i]] Hi; try lia; mcomp; lra|]. cbv zeta.
  assert (VA : Forall (mreg_valid 2 2) (pair_regs NonNegativity (L1Penalty (N:=RNum) 1 false))).
  { constructor; [|constructor; [|constructor]]; (split; [intros []|split; [cbn; try exact Logic.I; lra|split; shm]]). }
  assert (VC : Forall (mreg_valid 2 2) (pair_regs NonNegativity (L2Ball (N:=RNum) 1 false))).
  { constructor; [|constructor; [|constructor]]; (split; [intros []|split; [cbn; try exact Logic.I; lra|split; shm]]). }
  assert (LS : list_shaped 2 (rowsB exc) 2 [z22; z32]) by (split; [reflexivity|]; intros [|[|k]] Hk; try lia; shm).
  assert (VB : Forall (breg_valid 2 (rowsB exc) 2) (pair_bregs NonNegativity (TotalVariation (N:=RNum) 1 0))).
  { constructor; [|constructor; [|constructor]]; (split; [exact LS|split; [exact LS|cbn; intros; try exact Logic.I; lra]]). }
  split; [exact VA|]. split; [apply C65_compatible; [exact (mvalid_pens _ _ _ VA)|repeat constructor|right; repeat constructor; intros []]|].
  split; [repeat constructor|]. split; [exact VB|].
  split; [apply C65_compatible_l; [apply (bvalid_pens _ _ _ _ VB); repeat constructor|repeat constructor|right; repeat constructor; intros []]|].
  split; [exact VC|]. apply C65_compatible; [exact (mvalid_pens _ _ _ VC)|repeat constructor|right; repeat constructor; intros []].
Qed.
