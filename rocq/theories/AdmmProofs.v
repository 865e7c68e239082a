(** Reconstruction error and factor updates: proofs. *)
From Coq Require Import Reals Lra Lia List Arith Bool.
From Verif Require Import Num Numpy RFacts Spec SpecFacts MatFacts SvdFacts ModelSpec Penalties PenaltySpec
  ProxProofs PenaltyMain CoupledMatrices CmfSpec CmfProofs Decomp DecompSpec DecompFacts.
Import ListNotations.
Local Open Scope R_scope.

Lemma lsum_map2 {A B} (f : A -> B -> R) l m n da db : length l = n -> length m = n ->
  lsum (N:=RNum) (map2 f l m) = rsum n (fun i => f (nth i l da) (nth i m db)).
Proof.
  intros H1 H2. rewrite (lsum_len _ n) by (rewrite length_map2; lia). apply rsum_ext. intros i Hi.
  unfold vget. apply nth_map2; congruence.
Qed.
Lemma lsum_map {A} (f : A -> R) l n d : length l = n ->
  lsum (N:=RNum) (map f l) = rsum n (fun i => f (nth i l d)).
Proof.
  intros H1. rewrite (lsum_len _ n) by (now rewrite map_length). apply rsum_ext. intros i Hi.
  unfold vget. apply nth_map_lt. congruence.
Qed.

(** ** Reconstruction error *)
Lemma scaled_A_wf (c : rcmf) : mwf (cA c) -> mwf (scaled_A c) /\ mr (scaled_A c) = mr (cA c) /\ mc (scaled_A c) = mc (cA c).
Proof. intros W. unfold scaled_A. destruct (cw c); (split; [auto with mwf|split; reflexivity]). Qed.
Lemma scaled_A_get (c : rcmf) i r : (i < mr (cA c))%nat -> (r < mc (cA c))%nat ->
  rget (scaled_A c) i r = rget (cA c) i r * weight c r.
Proof.
  intros Hi Hr. unfold scaled_A, weight. destruct (cw c).
  - now rewrite mget_mcolscale.
  - rn. exact (eq_sym (Rmult_1_r _)).
Qed.
Definition Di (c : rcmf) (i : nat) : rmat := mcolscale (nthB c i) (mrow (scaled_A c) i).
Lemma Di_shape (c : rcmf) i : mwf (Di c i) /\ mr (Di c i) = mr (nthB c i) /\ mc (Di c i) = mc (nthB c i).
Proof. unfold Di. split; [auto with mwf|split; reflexivity]. Qed.
Lemma length_me (A : rmat) : mwf A -> length (me A) = mr A. Proof. now intros (H & _). Qed.
Lemma nth_BA (c : rcmf) i : valid_cmf c -> (i < length (cBs c))%nat ->
  length (BA (cBs c) (scaled_A c)) = length (cBs c) /\ nth i (BA (cBs c) (scaled_A c)) no_mat = Di c i.
Proof.
  intros (WA & WC & HC & HA & HB & Hw) Hi. destruct (scaled_A_wf c WA) as (WS & SR & SC).
  pose proof (length_me _ WS) as L. unfold BA. split.
  - rewrite length_map2. rn. lia.
  - rewrite (nth_map2 _ _ _ _ no_mat []) by (rn; lia). reflexivity.
Qed.
Lemma residual_term (Xs : list rmat) (c : rcmf) i : data_fits Xs c -> (i < length Xs)%nat ->
  dist2 (mr (nthX Xs i)) (mr (cC c)) (rget (nthX Xs i)) (cmf_entry c i) =
  nsq (msub (nthX Xs i) (mmul (Di c i) (mtrans (cC c)))).
Proof.
  intros (Hv & HL & HX) Hi. destruct (HX i Hi) as (WX & S1 & S2).
  rewrite <- (dist2_nsq _ _ (mr (nthX Xs i)) (mr (cC c))) by auto.
  apply dist2_ext; [intros ? ? _ _; reflexivity|]. intros j k Hj Hk.
  destruct Hv as (WA & WC & HC & HA & HB & Hw). destruct (HB i ltac:(lia)) as (WB & CB).
  unfold Di. rewrite model_entry by congruence. rewrite CB. unfold cmf_entry. apply Sum_ext. intros r Hr.
  rewrite vg_mrow, scaled_A_get by (rn; lia). reflexivity.
Qed.
Lemma residual_rsum (Xs : list rmat) (c : rcmf) : data_fits Xs c ->
  residual Xs c = rsum (length Xs) (fun i => nsq (msub (nthX Xs i) (mmul (Di c i) (mtrans (cC c))))).
Proof. intros H. unfold residual. apply Sum_rsum_ext. intros i Hi. now apply residual_term. Qed.
Lemma root_sq (Xs : list rmat) :
  root_sum_squared (N:=RNum) Xs * root_sum_squared (N:=RNum) Xs = rsum (length Xs) (fun i => nsq (nthX Xs i)).
Proof.
  unfold root_sum_squared. rn. rewrite (lsum_map _ _ (length Xs) no_mat) by reflexivity.
  rewrite (rsum_ext _ _ (fun i => nsq (nthX Xs i))) by (intros; apply msumsq_nsq).
  apply sqrt_sqrt. apply rsum_nonneg. intros. apply nsq_nonneg.
Qed.
Lemma residual_nonneg (Xs : list rmat) (c : rcmf) : 0 <= residual Xs c.
Proof.
  unfold residual. rewrite Sum_rsum. apply rsum_nonneg. intros i Hi. apply dist2_nonneg.
Qed.
Lemma sqrt_clip (x y : R) : 0 <= y -> x = y -> nsqrt (nmax (N:=RNum) 0 x) = sqrt y.
Proof. intros Hy ->. rn. rewrite nmax_R, Rmax_right by assumption. reflexivity. Qed.
Lemma rec_error_plain (Xs : list rmat) (c : rcmf) : data_fits Xs c ->
  rec_error Xs c (root_sum_squared Xs) None = sqrt (residual Xs c).
Proof.
  intros HF. pose proof HF as (Hv & HL & HX). unfold rec_error. apply sqrt_clip; [apply residual_nonneg|].
  rn. rewrite root_sq.
  assert (LB : length (BA (cBs c) (scaled_A c)) = length Xs).
  { rewrite HL. destruct (length (cBs c)) eqn:E; [|now rewrite (proj1 (nth_BA c 0 Hv ltac:(lia)))].
    unfold BA. rewrite length_map2, E. reflexivity. }
  rewrite (lsum_map2 _ _ _ (length Xs) no_mat no_mat) by auto.
  rewrite (lsum_map _ _ (length Xs) no_mat) by auto.
  rewrite residual_rsum by assumption.
  replace (2 / 1) with 2 by field. rewrite <- rsum_scal, <- rsum_sub, <- rsum_add. apply rsum_ext. intros i Hi.
  destruct (nth_BA c i Hv ltac:(lia)) as (_ & ->). destruct (HX i Hi) as (WX & S1 & S2).
  destruct (Di_shape c i) as (WD & SD & CD). pose proof Hv as (WA & WC & HC & HA & HB & Hw).
  destruct (HB i ltac:(lia)) as (WB & CB).
  unfold nthX in *. rewrite rec_inner_mip by (rn; congruence). unfold rec_sq. rewrite msum_mhad.
  symmetry. apply expand_gram; auto; rn; congruence.
Qed.
Lemma rec_error_inter (Xs : list rmat) (c : rcmf) : data_fits Xs c -> cw c = None ->
  rec_error Xs c (root_sum_squared Xs) (Some (A_rhses (cBs c) (cC c) Xs, A_cross (cBs c) (cC c) Xs)) =
  sqrt (residual Xs c).
Proof.
  intros HF Hcw. pose proof HF as (Hv & HL & HX). unfold rec_error. apply sqrt_clip; [apply residual_nonneg|].
  rn. rewrite root_sq. pose proof Hv as (WA & WC & HC & HA & HB & Hw).
  unfold scaled_A. rewrite Hcw. pose proof (length_me _ WA) as LA.
  rewrite (lsum_map2 _ _ _ (length Xs) [] []) by (unfold A_rhses; rewrite ?length_map2; rn; lia).
  rewrite (lsum_map2 _ _ _ (length Xs) no_mat []) by (unfold A_cross; rewrite ?length_map2; rn; lia).
  rewrite residual_rsum by assumption.
  replace (2 / 1) with 2 by field. rewrite <- rsum_scal, <- rsum_sub, <- rsum_add. apply rsum_ext. intros i Hi.
  destruct (HX i Hi) as (WX & S1 & S2).
  destruct (Di_shape c i) as (WD & SD & CD). destruct (HB i ltac:(lia)) as (WB & CB).
  unfold A_rhses, A_cross. rewrite !(nth_map2 _ _ _ _ no_mat no_mat) by (rn; lia).
  change (nth i (me (cA c)) []) with (mrow (cA c) i).
  assert (LR : length (mrow (cA c) i) = mc (nthB c i)).
  { transitivity (mc (cA c)); [|congruence]. apply length_mrow; [assumption|]. rn. lia. }
  fold (nthB c i) in *. unfold nthX in *.
  rewrite inter_inner by (try exact LR; congruence). rewrite inter_sq by (try exact LR; congruence).
  rewrite expand_gram; auto; try (rn; congruence). unfold Di, scaled_A. rewrite Hcw. reflexivity.
Qed.

(** ** Exact solution of the regularised least-squares problems *)
Lemma mapM_inv {A B} (f : A -> res B) (l : list A) (r : list B) da db : mapM f l = Ok r ->
  length r = length l /\ forall i, (i < length l)%nat -> f (nth i l da) = Ok (nth i r db).
Proof.
  revert r; induction l as [|x l IH]; intros r H; cbn [mapM bind] in H.
  - injection H as <-. split; [reflexivity|]. cbn; intros; lia.
  - destruct (f x) eqn:E; [|discriminate]. cbn [bind] in H. destruct (mapM f l) eqn:E2; [|discriminate].
    cbn [bind] in H. injection H as <-. destruct (IH _ eq_refl) as (L & HI). split; [cbn; lia|].
    intros [|i] Hi; cbn [nth]; [assumption|]. apply HI. cbn in Hi. lia.
Qed.
(** data fit up to a constant, ridge term and feasibility terms *)
Definition quad (lhs rhs : rmat) (l2 rho : R) (l : list rmat) (Z : rmat) : R :=
  1 / 2 * (mip (mmul Z lhs) Z - 2 * mip Z rhs) + l2 / 2 * nsq Z +
  rsum (length l) (fun q => rho / 2 * nsq (msub Z (nth q l no_mat))).
Lemma quad_ridge (lhs rhs : rmat) l2 rho (l : list rmat) r n (Z : rmat) :
  mwf lhs -> mr lhs = n -> mc lhs = n -> shaped rhs r n -> (forall T, In T l -> shaped T r n) -> shaped Z r n ->
  quad lhs rhs l2 rho l Z =
  1 / 2 * mip (mmul Z (ridge (N:=RNum) lhs rho (length l) l2)) Z -
  mip Z (madd (mscale (N:=RNum) rho (sum_mats (N:=RNum) r n l)) rhs) +
  rsum (length l) (fun q => rho / 2 * nsq (nth q l no_mat)).
Proof.
  intros W1 H1 H2 (W2 & H3 & H4) Hl (WZ & H5 & H6). unfold quad.
  rewrite mip_ridge by (auto; congruence).
  destruct (sum_mats_spec l r n Z) as ((WS & S1 & S2) & S3); auto.
  { intros T HT. destruct (Hl T HT) as (_ & ? & ?). auto. }
  rewrite mip_madd_r by (mshape; rn; congruence). rewrite mip_mscale_r by (rn; congruence). rewrite S3.
  rewrite (rsum_ext (length l) (fun q => rho / 2 * nsq (msub Z (nth q l no_mat)))
    (fun q => rho / 2 * nsq Z + (rho / 2 * nsq (nth q l no_mat) - rho * mip Z (nth q l no_mat)))).
  2:{ intros q Hq. destruct (Hl (nth q l no_mat) (nth_In _ _ Hq)) as (_ & T1 & T2).
      rewrite nsq_msub by congruence. field. }
  rewrite rsum_add, rsum_const, rsum_sub, rsum_scal with (c := rho).
  fold (nsq Z). field.
Qed.
Lemma quad_solved (lhs rhs : rmat) l2 rho (l : list rmat) r n d (Z0 Z : rmat) :
  mwf lhs -> mr lhs = n -> mc lhs = n -> mtrans lhs = lhs ->
  (forall Y, shaped Y r n -> 0 <= mip (mmul Y lhs) Y) ->
  shaped rhs r n -> (forall T, In T l -> shaped T r n) -> 0 <= rho -> 0 <= l2 ->
  has_svd (ridge (N:=RNum) lhs rho (length l) l2) n d ->
  solve_mat d (madd (mscale (N:=RNum) rho (sum_mats (N:=RNum) r n l)) rhs) = Ok Z0 ->
  shaped Z0 r n /\ (shaped Z r n -> quad lhs rhs l2 rho l Z0 <= quad lhs rhs l2 rho l Z).
Proof.
  intros W1 H1 H2 HS HP Hrhs Hl Hrho Hl2 Hd E.
  destruct (ridge_shape lhs rho (length l) l2) as (M1 & M2 & M3).
  assert (HSM : mtrans (ridge (N:=RNum) lhs rho (length l) l2) = ridge (N:=RNum) lhs rho (length l) l2)
    by (apply ridge_sym; congruence).
  destruct (sum_mats_spec l r n rhs) as ((WS & S1 & S2) & _); [|now destruct Hrhs|now destruct Hrhs|].
  { intros T HT. destruct (Hl T HT) as (_ & ? & ?). auto. }
  assert (B : shaped (madd (mscale (N:=RNum) rho (sum_mats (N:=RNum) r n l)) rhs) r n).
  { split; [auto with mwf|]. mshape. now split. }
  destruct B as (B1 & B2 & B3).
  apply (solve_mat_spec (ridge (N:=RNum) lhs rho (length l) l2) _ _ n) in E; try (congruence || assumption).
  destruct E as ((WZ0 & Z1 & Z2) & E). assert (HZ0 : shaped Z0 r n) by (split; [assumption|split; congruence]).
  split; [assumption|]. intros HZ. rewrite !(quad_ridge _ _ _ _ _ r n) by assumption.
  apply Rplus_le_compat_r. destruct HZ as (WZ & Z3 & Z4).
  apply quad_min; try (rn; congruence). rewrite mip_ridge by (try apply mwf_msub; mshape; congruence).
  assert (HY : shaped (msub Z Z0) r n) by (split; [auto with mwf|mshape; now split]).
  pose proof (HP _ HY). pose proof (nsq_nonneg (msub Z Z0)). unfold nsq in *.
  assert (0 <= rho * INR (length l) + l2).
  { pose proof (pos_INR (length l)). assert (0 <= rho * INR (length l)) by (apply Rmult_le_pos; assumption). lra. }
  assert (0 <= (rho * INR (length l) + l2) * mip (msub Z Z0) (msub Z Z0)) by (apply Rmult_le_pos; assumption).
  lra.
Qed.

(** ** The update of C *)
Definition DA (c : rcmf) (i : nat) : rmat := mcolscale (nthB c i) (mrow (cA c) i).
Lemma nth_terms {T} (f : rmat -> rmat -> T) (Xs : list rmat) (c : rcmf) d : data_fits Xs c ->
  length (map2 f Xs (BA (cBs c) (cA c))) = length Xs /\
  forall i, (i < length Xs)%nat -> nth i (map2 f Xs (BA (cBs c) (cA c))) d = f (nthX Xs i) (DA c i).
Proof.
  intros (Hv & HL & HX). pose proof Hv as (WA & WC & HC & HA & HB & Hw). pose proof (length_me _ WA) as LA.
  assert (L : length (BA (cBs c) (cA c)) = length Xs) by (unfold BA; rewrite length_map2; rn; lia).
  split; [rewrite length_map2; rn; lia|]. intros i Hi. rewrite (nth_map2 _ _ _ _ no_mat no_mat) by (rn; lia).
  f_equal. unfold BA. rewrite (nth_map2 _ _ _ _ no_mat []) by (rn; lia). reflexivity.
Qed.
Lemma DA_shape (Xs : list rmat) (c : rcmf) i : data_fits Xs c -> (i < length Xs)%nat ->
  mwf (DA c i) /\ mr (DA c i) = mr (nthX Xs i) /\ mc (DA c i) = mc (cA c) /\
  mwf (nthX Xs i) /\ mc (nthX Xs i) = mr (cC c).
Proof.
  intros (Hv & HL & HX) Hi. destruct Hv as (WA & WC & HC & HA & HB & Hw). destruct (HX i Hi) as (WX & X1 & X2).
  destruct (HB i ltac:(lia)) as (WB & CB). unfold DA. mshape.
  repeat split; auto with mwf; try congruence; apply mwf_mcolscale || apply WX.
Qed.
Lemma fit_C_term (Xs : list rmat) (c : rcmf) (Z : rmat) i : data_fits Xs c -> (i < length Xs)%nat ->
  shaped Z (mr (cC c)) (mc (cA c)) ->
  dist2 (mr (nthX Xs i)) (mr (cC c)) (rget (nthX Xs i))
    (fun j k => Sum (mc (cA c)) (fun r => entB (cBs c) i j r * rget (cA c) i r * rget Z k r)) =
  nsq (msub (nthX Xs i) (mmul (DA c i) (mtrans Z))).
Proof.
  intros HF Hi (WZ & Z1 & Z2). pose proof HF as (Hv & HL & HX). destruct (HX i Hi) as (WX & X1 & X2).
  destruct Hv as (WA & WC & HC & HA & HB & Hw). destruct (HB i ltac:(lia)) as (WB & CB).
  rewrite <- (dist2_nsq _ _ (mr (nthX Xs i)) (mr (cC c))) by auto.
  apply dist2_ext; [intros ? ? _ _; reflexivity|]. intros j k Hj Hk. unfold DA.
  rewrite model_entry by (rn; congruence). rewrite CB. apply Sum_ext. intros r Hr.
  rewrite vg_mrow. reflexivity.
Qed.
Lemma msum_list_some (l : list rmat) S : msum_list l = Some S -> l <> [].
Proof. intros H ->. discriminate. Qed.
Lemma in_nth {T} (P : T -> Prop) (l : list T) d : (forall i, (i < length l)%nat -> P (nth i l d)) -> forall x, In x l -> P x.
Proof. intros H x Hx. destruct (In_nth _ _ d Hx) as (i & Hi & <-). now apply H. Qed.
Lemma C_lhs_spec (Xs : list rmat) (c : rcmf) (lhs : rmat) : data_fits Xs c ->
  msum_list (C_lhs_terms Xs (cBs c) (cA c)) = Some lhs ->
  shaped lhs (mc (cA c)) (mc (cA c)) /\ mtrans lhs = lhs /\
  (forall Z, mwf Z -> mc Z = mc (cA c) ->
    mip (mmul Z lhs) Z = rsum (length Xs) (fun i => mip (mmul Z (mmul (mtrans (DA c i)) (DA c i))) Z)) /\
  feas_penalty (N:=RNum) 1 lhs = rho_C 1 c.
Proof.
  intros HF El. destruct (nth_terms (fun _ D => mmul (mtrans D) D) Xs c no_mat HF) as (L1 & N1).
  pose proof (msum_list_some _ _ El) as Hne. unfold C_lhs_terms in *.
  destruct (msum_list_spec _ (mc (cA c)) (mc (cA c)) lhs Hne) as ((W1 & S1 & S2) & P1 & G1); auto.
  { apply (in_nth _ _ no_mat). rewrite L1. intros i Hi. rewrite N1 by assumption.
    destruct (DA_shape Xs c i HF Hi) as (D1 & D2 & D3 & _). split; [auto with mwf|mshape; now split]. }
  rewrite L1 in P1, G1.
  assert (GE : forall r q, (r < mc (cA c))%nat -> (q < mc (cA c))%nat -> rget lhs r q =
            rsum (length Xs) (fun i => rsum (mr (nthX Xs i)) (fun j => rget (DA c i) j r * rget (DA c i) j q))).
  { intros r q Hr Hq. rewrite G1 by assumption. apply rsum_ext. intros i Hi. rewrite N1 by assumption.
    destruct (DA_shape Xs c i HF Hi) as (D1 & D2 & D3 & _).
    rewrite mget_mmul by mlia. mshape. rewrite D2. apply rsum_ext. intros j Hj.
    now rewrite mget_mtrans by (rn; congruence). }
  split; [|split; [|split]].
  - repeat split; try assumption; apply W1.
  - apply mat_ext; auto with mwf; mshape; try congruence. intros r q Hr Hq.
    rewrite mget_mtrans by mlia. rewrite !GE by (rn; congruence).
    apply rsum_ext; intros; apply rsum_ext; intros; ring.
  - intros Z WZ CZ. rewrite mip_mmul_r by (rn; congruence). rewrite mip_sym by mlia. rewrite P1 by mlia.
    apply rsum_ext. intros i Hi. rewrite N1 by assumption.
    destruct (DA_shape Xs c i HF Hi) as (D1 & D2 & D3 & _).
    rewrite (mip_mmul_r Z) by mlia. rewrite mip_sym by mlia. reflexivity.
  - unfold feas_penalty, rho_C. rewrite nhalf_R. rn. f_equal. f_equal. unfold mtrace.
    rewrite nsum_rsum. rn. rewrite S1.
    rewrite (rsum_ext _ _ (fun r => rsum (length Xs) (fun i => rsum (mr (nthX Xs i)) (fun j => rget (DA c i) j r * rget (DA c i) j r))))
      by (intros; now apply GE).
    rewrite rsum_swap. pose proof HF as (Hv & HL & HX). rewrite <- HL. symmetry. apply Sum_rsum_ext. intros i Hi.
    apply Sum_rsum_ext. intros r Hr. destruct (HX i Hi) as (WX & X1 & X2). rewrite X1. apply Sum_rsum_ext. intros j Hj.
    destruct Hv as (WA & WC & HC & HA & HB & Hw). destruct (HB i ltac:(lia)) as (WB & CB).
    unfold DA. rewrite mget_mcolscale by (rn; congruence). rewrite vg_mrow. ring.
Qed.
Lemma feas_penalty_scale (scale : R) (M : rmat) : feas_penalty (N:=RNum) scale M = scale * feas_penalty (N:=RNum) 1 M.
Proof. unfold feas_penalty. rn. ring. Qed.
Lemma C_rhs_spec (Xs : list rmat) (c : rcmf) (rhs : rmat) : data_fits Xs c ->
  msum_list (C_rhs_terms Xs (cBs c) (cA c)) = Some rhs ->
  shaped rhs (mr (cC c)) (mc (cA c)) /\
  (forall Z, mr Z = mr (cC c) -> mc Z = mc (cA c) ->
    mip Z rhs = rsum (length Xs) (fun i => mip Z (mmul (mtrans (nthX Xs i)) (DA c i)))).
Proof.
  intros HF El. destruct (nth_terms (fun X D => mmul (mtrans X) D) Xs c no_mat HF) as (L1 & N1).
  pose proof (msum_list_some _ _ El) as Hne. unfold C_rhs_terms in *.
  destruct (msum_list_spec _ (mr (cC c)) (mc (cA c)) rhs Hne) as (HS & P1 & G1); auto.
  { apply (in_nth _ _ no_mat). rewrite L1. intros i Hi. rewrite N1 by assumption.
    destruct (DA_shape Xs c i HF Hi) as (D1 & D2 & D3 & D4 & D5). split; [auto with mwf|mshape; now split]. }
  split; [assumption|]. intros Z HZ1 HZ2. rewrite P1 by assumption. rewrite L1. apply rsum_ext. intros i Hi.
  now rewrite N1.
Qed.
Lemma fit_C (Xs : list rmat) (c : rcmf) (lhs rhs Z : rmat) : data_fits Xs c ->
  msum_list (C_lhs_terms Xs (cBs c) (cA c)) = Some lhs -> msum_list (C_rhs_terms Xs (cBs c) (cA c)) = Some rhs ->
  shaped Z (mr (cC c)) (mc (cA c)) ->
  fit Xs (mr (cC c)) (mc (cA c)) (rget (cA c)) (entB (cBs c)) (rget Z) =
  rsum (length Xs) (fun i => nsq (nthX Xs i)) + (mip (mmul Z lhs) Z - 2 * mip Z rhs).
Proof.
  intros HF El Er HZ. unfold fit.
  rewrite (Sum_rsum_ext _ _ (fun i => nsq (msub (nthX Xs i) (mmul (DA c i) (mtrans Z)))))
    by (intros i Hi; now apply fit_C_term).
  destruct HZ as (WZ & Z1 & Z2). destruct (C_lhs_spec _ _ _ HF El) as (_ & _ & Hl & _).
  destruct (C_rhs_spec _ _ _ HF Er) as (_ & Hr). rewrite Hl, Hr by assumption.
  rewrite <- rsum_scal, <- rsum_sub, <- rsum_add. apply rsum_ext. intros i Hi.
  destruct (DA_shape Xs c i HF Hi) as (D1 & D2 & D3 & D4 & D5).
  rewrite expand_C by (auto; congruence). ring.
Qed.
Lemma shifted_mats_ok (regs : list mregR) r c l : vars_shaped r c regs -> shifted_mats regs = Ok l ->
  length l = length regs /\ (forall T, In T l -> shaped T r c) /\
  forall q, (q < length regs)%nat -> nth q l no_mat = msub (g_aux (nth_reg regs q)) (g_dual (nth_reg regs q)).
Proof.
  intros Hs H. unfold shifted_mats in H.
  apply (mapM_inv _ _ _ (MReg NonNegativity no_mat no_mat) no_mat) in H. destruct H as (L & H).
  assert (H' : forall q, (q < length regs)%nat -> nth q l no_mat = msub (g_aux (nth_reg regs q)) (g_dual (nth_reg regs q))).
  { intros q Hq. specialize (H q Hq). unfold nth_reg. revert H. unfold subtract_from_aux.
    destruct (g_pen _); intros H; try discriminate; now injection H as <-. }
  split; [assumption|]. split; [|assumption].
  apply (in_nth _ _ no_mat). rewrite L. intros q Hq. rewrite H' by assumption.
  unfold vars_shaped in Hs. rewrite Forall_forall in Hs. destruct (Hs _ (nth_In _ (MReg NonNegativity no_mat no_mat) Hq)) as ((W1 & S1 & S2) & _).
  unfold nth_reg. split; [auto with mwf|]. mshape. now split.
Qed.
Lemma dist2_msub (Z A B : rmat) r c : shaped Z r c -> shaped A r c ->
  dist2 r c (rget Z) (fun i j => rget A i j - rget B i j) = nsq (msub Z (msub A B)).
Proof.
  intros (_ & Z1 & Z2) (_ & A1 & A2). rewrite <- (dist2_nsq _ _ r c) by assumption.
  apply dist2_ext; [intros ? ? _ _; reflexivity|]. intros i j Hi Hj. now rewrite mget_msub by (rn; congruence).
Qed.
Lemma obj_C_quad (Xs : list rmat) (c : rcmf) (lhs rhs : rmat) l2 rho (regs : list mregR) (l : list rmat) (Z : rmat) :
  data_fits Xs c ->
  msum_list (C_lhs_terms Xs (cBs c) (cA c)) = Some lhs -> msum_list (C_rhs_terms Xs (cBs c) (cA c)) = Some rhs ->
  vars_shaped (mr (cC c)) (mc (cA c)) regs -> shifted_mats regs = Ok l ->
  shaped Z (mr (cC c)) (mc (cA c)) ->
  obj_C Xs c l2 rho regs (rget Z) = 1 / 2 * rsum (length Xs) (fun i => nsq (nthX Xs i)) + quad lhs rhs l2 rho l Z.
Proof.
  intros HF El Er Hs Hl HZ. destruct (shifted_mats_ok _ _ _ _ Hs Hl) as (L & _ & N1).
  unfold obj_C, quad. rewrite (fit_C _ _ lhs rhs) by assumption.
  rewrite (sumsq_nsq Z) by (apply HZ).
  rewrite (Sum_rsum_ext (length regs) _ (fun q => rho / 2 * nsq (msub Z (nth q l no_mat)))).
  - rewrite L. ring.
  - intros q Hq. f_equal. rewrite N1 by assumption. apply dist2_msub; [assumption|].
    unfold vars_shaped in Hs. rewrite Forall_forall in Hs. apply (Hs _ (nth_In _ _ Hq)).
Qed.
Lemma obj_C_ext (Xs : list rmat) (c : rcmf) l2 rho (regs : list mregR) (Z Y : ent) :
  same (mr (cC c)) (mc (cA c)) Z Y -> obj_C Xs c l2 rho regs Z = obj_C Xs c l2 rho regs Y.
Proof.
  intros H. unfold obj_C. rewrite (sumsq_ext _ _ _ _ H). f_equal; [f_equal; f_equal|].
  - unfold fit. apply Sum_ext. intros i Hi. apply dist2_ext; [intros ? ? _ _; reflexivity|].
    intros j k Hj Hk. apply Sum_ext. intros r Hr. now rewrite H.
  - apply Sum_ext. intros q Hq. f_equal. apply dist2_ext; [assumption|]. intros ? ? _ _; reflexivity.
Qed.
Lemma rho_C_nonneg (c : rcmf) scale : 0 <= scale -> 0 <= rho_C scale c.
Proof.
  intros H. unfold rho_C. apply Rmult_le_pos; [|assumption]. apply Rmult_le_pos; [lra|].
  rewrite Sum_rsum. apply rsum_nonneg. intros i Hi. rewrite Sum_rsum. apply rsum_nonneg. intros r Hr.
  rewrite Sum_rsum. apply rsum_nonneg. intros j Hj. nra.
Qed.
(** One step of the C update. *)
Lemma C_step_min (E : ext (N:=RNum)) (Xs : list rmat) (c : rcmf) (lhs rhs : rmat) l2 scale (regs regs' : list mregR) (C0 C' : rmat) :
  data_fits Xs c -> 0 <= l2 -> 0 <= scale -> svd_correct E (mc (cA c)) ->
  msum_list (C_lhs_terms Xs (cBs c) (cA c)) = Some lhs -> msum_list (C_rhs_terms Xs (cBs c) (cA c)) = Some rhs ->
  vars_shaped (mr (cC c)) (mc (cA c)) regs ->
  let fp := feas_penalty (N:=RNum) scale lhs in
  C_step E (lhs_svd E (ridge (N:=RNum) lhs fp (length regs) l2)) fp rhs (C0, regs) = Ok (C', regs') ->
  fp = rho_C scale c /\ shaped C' (mr (cC c)) (mc (cA c)) /\
  mapM (C_reg_step E fp C') regs = Ok regs' /\
  forall Z, obj_C Xs c l2 (rho_C scale c) regs (rget C') <= obj_C Xs c l2 (rho_C scale c) regs Z.
Proof.
  intros HF Hl2 Hsc HE El Er Hs fp H.
  destruct (C_lhs_spec _ _ _ HF El) as ((W1 & S1 & S2) & HT & Hl & Ht).
  destruct (C_rhs_spec _ _ _ HF Er) as (Hr & _).
  assert (Hfp : fp = rho_C scale c).
  { unfold fp. rewrite feas_penalty_scale, Ht. unfold rho_C. rewrite Rmult_1_r. apply Rmult_comm. }
  split; [assumption|]. unfold C_step in H. destruct (shifted_mats regs) as [l|] eqn:Hsh; [|discriminate].
  cbn [bind] in H. destruct (solve_mat _ _) as [C1|] eqn:Hsolve; [|discriminate]. cbn [bind] in H.
  destruct (mapM _ regs) as [rg|] eqn:Hreg; [|discriminate]. cbn [bind] in H. injection H as -> ->.
  destruct (shifted_mats_ok _ _ _ _ Hs Hsh) as (L & HIn & _).
  assert (Hfp0 : 0 <= fp) by (rewrite Hfp; now apply rho_C_nonneg).
  rewrite <- L in Hsolve. destruct Hr as (WR & R1 & R2). rewrite R1, R2 in Hsolve.
  destruct (ridge_shape lhs fp (length l) l2) as (M1 & M2 & M3).
  assert (Hd : has_svd (ridge (N:=RNum) lhs fp (length l) l2) (mc (cA c)) (lhs_svd E (ridge (N:=RNum) lhs fp (length l) l2))).
  { unfold lhs_svd. rewrite M1, S1. apply HE; rn; try assumption; try congruence. rewrite M1, S1. apply le_n. }
  assert (Q : forall Z, shaped C' (mr (cC c)) (mc (cA c)) /\
     (shaped Z (mr (cC c)) (mc (cA c)) -> quad lhs rhs l2 fp l C' <= quad lhs rhs l2 fp l Z)).
  { intros Z. apply (quad_solved lhs rhs l2 fp l _ _ _ C' Z W1 S1 S2 HT) in Hsolve; [exact Hsolve|..]; try assumption.
    - intros Y (WY & Y1 & Y2). rewrite Hl by assumption. apply rsum_nonneg. intros i Hi.
      destruct (DA_shape Xs c i HF Hi) as (D1 & D2 & D3 & D4 & D5).
      rewrite gram_psd by congruence. apply nsq_nonneg.
    - split; [assumption|now split].
    }
  split; [apply (Q C')|]. split; [assumption|]. intros Z.
  set (Zm := mbuild (N:=RNum) (mr (cC c)) (mc (cA c)) Z).
  assert (HZ : shaped Zm (mr (cC c)) (mc (cA c))) by (split; [apply mwf_mbuild|split; reflexivity]).
  rewrite (obj_C_ext _ _ _ _ _ Z (rget Zm)).
  2:{ intros i j Hi Hj. unfold Zm. now rewrite mget_mbuild. }
  rewrite !(obj_C_quad _ _ lhs rhs _ _ _ l) by (auto; apply (Q C')).
  rewrite <- Hfp. apply Rplus_le_compat_l. now apply (Q Zm).
Qed.
