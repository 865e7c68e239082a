(** Concrete factorizations and runs: cases that meet the hypotheses of the theorems
    about updates and runs, and runs that refute claims of the documentation. *)
From Coq Require Import Reals Lra Lia List Arith Bool ZArith.
From Verif Require Import Num Numpy RFacts Spec SpecFacts MatFacts SvdFacts ModelSpec Penalties PenaltySpec ProxProofs CoupledMatrices CmfSpec
  CmfProofs Decomp DecompSpec DecompFacts AdmmProofs AoLoop AoRun AoHist Total.
Import ListNotations.
Local Open Scope R_scope.

(** equality of reals, not of the carrier of [RNum] *)
Ltac req := match goal with |- @eq _ ?x ?y => change (@eq R x y) end; rn.
(** evaluate everything but the arithmetic *)
Ltac mcomp := cbv -[Rplus Rmult Rminus Ropp Rdiv Rinv IZR Rleb sqrt Rabs Rmax Rmin INR R lhs_svd].
Ltac meq := mcomp; repeat match goal with
  | |- Some _ = Some _ => apply f_equal | |- Ok _ = Ok _ => apply f_equal
  | |- @eq (mat (N:=_)) _ _ => f_equal | |- (_ :: _) = (_ :: _) => f_equal end; try reflexivity.
Definition m11 (a : R) : rmat := Mat (N:=RNum) 1 1 [[a]].
Definition col2 (a b : R) : rmat := Mat (N:=RNum) 2 1 [[a]; [b]].
Lemma m11_wf a : mwf (m11 a). Proof. split; [reflexivity|]. repeat constructor. Qed.
Lemma col2_wf a b : mwf (col2 a b). Proof. split; [reflexivity|]. repeat constructor. Qed.

(** With one component, solving is division. *)
Lemma m11_finite (a : R) d : 0 < a -> has_svd (m11 a) 1 d -> finite_svd d = true.
Proof.
  intros Ha Hd. apply (pd_finite (m11 a) 1 d a); auto using m11_wf.
  intros Y (WY & Y1 & Y2). unfold nsq, mip. mshape. rewrite Y1, Y2. cbn [mc m11]. rewrite !rsum_S, !rsum_0.
  rewrite mget_mmul by (cbn; lia). rewrite Y2, rsum_S, rsum_0. change (rget (m11 a) 0 0) with a. lra.
Qed.
Lemma solve1 (E : ext (N:=RNum)) (a : R) (b : rmat) : svd_correct E 1 -> 0 < a -> mwf b -> mc b = 1%nat ->
  solve_mat (lhs_svd E (m11 a)) b = Ok (mscale (N:=RNum) (/ a) b).
Proof.
  intros HE Ha Wb Cb. assert (Hd : has_svd (m11 a) 1 (lhs_svd E (m11 a))) by (apply HE; [apply m11_wf|reflexivity|cbn; lia]).
  pose proof (m11_finite a _ Ha Hd) as Hf.
  destruct (solve_mat (lhs_svd E (m11 a)) b) as [Z|e] eqn:HZ.
  2:{ unfold solve_mat in HZ. destruct (lhs_svd E (m11 a)) as [[U s] Vh]. rewrite Hf in HZ. discriminate. }
  assert (HT : mtrans (m11 a) = m11 a).
  { reflexivity. }
  destruct (solve_mat_spec (m11 a) b Z 1 _ (m11_wf a) Wb eq_refl eq_refl Cb HT Hd HZ) as ((WZ & Z1 & Z2) & HM).
  f_equal. apply mat_ext; auto with mwf; mshape; try congruence. intros i j Hi Hj. rewrite Z2 in Hj. assert (j = 0%nat) as -> by lia.
  rewrite mget_mscale by (rn; lia). rewrite <- HM. rewrite mget_mmul by (mshape; cbn; rn; lia). rewrite Z2, rsum_S, rsum_0.
  change (rget (m11 a) 0 0) with a. assert (K : forall z : R, z = / a * (0 + z * a)) by (intros; field; lra). apply K.
Qed.
Lemma solve_row1 (E : ext (N:=RNum)) (a b : R) : svd_correct E 1 -> 0 < a ->
  solve_row (lhs_svd E (m11 a)) [b] = Ok [/ a * b].
Proof.
  intros HE Ha. assert (Hd : has_svd (m11 a) 1 (lhs_svd E (m11 a))) by (apply HE; [apply m11_wf|reflexivity|cbn; lia]).
  pose proof (m11_finite a _ Ha Hd) as Hf.
  destruct (solve_row (lhs_svd E (m11 a)) [b]) as [z|e] eqn:HZ.
  2:{ unfold solve_row in HZ. destruct (lhs_svd E (m11 a)) as [[U s] Vh]. rewrite Hf in HZ. discriminate. }
  destruct (solve_row_mat [b] z 1 _ (m11 a) Hd eq_refl eq_refl eq_refl HZ) as (HM & L).
  rewrite solve1 in HM by (auto; apply rowm_wf). assert (K : forall u v : rmat, Ok u = Ok v -> u = v) by (intros u v H; now injection H). apply K in HM. clear K.
  destruct z as [|x [|y z]]; try discriminate. apply (f_equal (fun M => rget M 0 0)) in HM. change (/ a * b = x) in HM. now rewrite HM.
Qed.

(** ** One number: data x, A = B = 1, only C updated, one non-negativity penalty *)
Definition cs (c a d : R) : state (N:=RNum) :=
  St (N:=RNum) (Cmf (N:=RNum) None (m11 1) [m11 1] (m11 c)) [] [] [MReg (N:=RNum) NonNegativity (m11 a) (m11 d)] None.
Definition csP (tol abs feas : option R) (b : bool) : params (N:=RNum) :=
  Params (N:=RNum) 0 0 0 2 true true 1 None false false true tol abs feas b.
Lemma cs_update E (x c a d : R) : svd_correct E 1 ->
  admm_update_C E [m11 x] (Cmf (N:=RNum) None (m11 1) [m11 1] (m11 c)) [MReg (N:=RNum) NonNegativity (m11 a) (m11 d)] 0 1 None 2 =
  Ok (let c' := (x + a - d) / 2 in let a' := Rmax (c' + d) 0 in
      (Cmf (N:=RNum) None (m11 1) [m11 1] (m11 c'), [MReg (N:=RNum) NonNegativity (m11 a') (m11 (c' - (a' - d)))])).
Proof.
  intros HE. unfold admm_update_C. cbn [cA cBs cC].
  assert (L : msum_list (N:=RNum) (C_lhs_terms [m11 x] [m11 1] (m11 1)) = Some (m11 1)).
  { meq. ring. }
  assert (H : msum_list (N:=RNum) (C_rhs_terms [m11 x] [m11 1] (m11 1)) = Some (m11 x)).
  { meq. ring. }
  rewrite L, H. cbv zeta.
  assert (F : feas_penalty (N:=RNum) 2 (m11 1) = 1) by (mcomp; field). rewrite F.
  assert (D : ridge (N:=RNum) (m11 1) 1 1 0 = m11 2) by (meq; field).
  cbn [length]. rewrite D. cbn [inner_loop]. unfold C_step.
  assert (S : shifted_mats (N:=RNum) [MReg (N:=RNum) NonNegativity (m11 a) (m11 d)] = Ok [m11 (a - d)]) by reflexivity.
  rewrite S. cbn [bind].
  assert (T : madd (mscale (N:=RNum) 1 (sum_mats (N:=RNum) (mr (m11 x)) (mc (m11 x)) [m11 (a - d)])) (m11 x) = m11 (x + a - d)).
  { meq. ring. }
  rewrite T, solve1 by (auto using m11_wf; lra). cbn [bind].
  assert (U : mscale (N:=RNum) (/ 2) (m11 (x + a - d)) = m11 ((x + a - d) / 2)) by (meq; field).
  rewrite U. cbn [mapM]. unfold C_reg_step. cbn [g_pen g_dual].
  assert (V : factor_matrix_update E NonNegativity (madd (m11 ((x + a - d) / 2)) (m11 d)) 1 = Ok (m11 (Rmax ((x + a - d) / 2 + d) 0))).
  { rewrite <- relu_R. reflexivity. }
  rewrite V. cbn [bind]. reflexivity.
Qed.
Lemma cs_step E t u f b (x c a d : R) : svd_correct E 1 ->
  outer_step E (csP t u f b) [m11 x] (cs c a d) =
  Ok (let c' := (x + a - d) / 2 in let a' := Rmax (c' + d) 0 in cs c' a' (c' - (a' - d))).
Proof.
  intros HE. unfold outer_step, upd_B, upd_C, upd_A. cbn [csP p_updA p_updB p_updC p_l2C p_inner p_inner_tol p_scale bind].
  cbn [st_cmf st_rC cs]. rewrite cs_update by assumption. reflexivity.
Qed.
Lemma cs_valid x c a d : valid_state [m11 x] (cs c a d).
Proof.
  split; [|split; [|split; [constructor|split; [constructor|]]]].
  - split; [|split; [reflexivity|]].
    + split; [apply m11_wf|]. split; [apply m11_wf|]. split; [reflexivity|]. split; [reflexivity|]. split; [|discriminate].
      intros [|i] Hi; [|cbn in Hi; lia]. split; [apply m11_wf|reflexivity].
    + intros [|i] Hi; [|cbn in Hi; lia]. split; [apply m11_wf|split; reflexivity].
  - repeat split; try (cbn; lia). intros [|i] Hi; cbn in *; lia.
  - constructor; [|constructor]. split; [auto|]. split; [exact Logic.I|]. split; (split; [apply m11_wf|split; reflexivity]).
Qed.
Lemma cs_residual x c a d : residual [m11 x] (st_cmf (cs c a d)) = (x - c) ^ 2.
Proof. mcomp. ring. Qed.
Lemma cs_data x : data_sumsq [m11 x] = x ^ 2.
Proof. mcomp. ring. Qed.
Lemma cs_loss t u f b x c a d : 0 < x -> loss (csP t u f b) [m11 x] (cs c a d) = 1 / 2 * ((x - c) / x) ^ 2.
Proof.
  intros Hx. unfold loss, rel_error. rewrite cs_residual, cs_data.
  assert (L2 : l2_sum (csP t u f b) (st_cmf (cs c a d)) = 0) by (mcomp; field).
  assert (PS : penalty_sum (cs c a d) = 0) by (mcomp; field). rewrite L2, PS.
  rewrite (sqrt_pow2 x) by lra. replace (sqrt ((x - c) ^ 2) / x) with (sqrt ((x - c) ^ 2) * / x) by reflexivity.
  rewrite Rpow_mult_distr. rewrite pow2_sqrt by apply pow2_ge_0. field. lra.
Qed.
Lemma cs_dist c a d : dist_C (cs c a d) 0 = Rabs (a - c).
Proof. unfold dist_C, fdist. rewrite <- sqrt_Rsqr_abs. f_equal. mcomp. ring. Qed.
Lemma cs_norm c a d : norm_C (st_cmf (cs c a d)) = Rabs c.
Proof. unfold norm_C, fnorm. rewrite <- sqrt_Rsqr_abs. f_equal. mcomp. ring. Qed.
Lemma cs_feasible t c a d : feasible_state t (cs c a d) <-> Rabs (a - c) < t * Rabs c.
Proof.
  unfold feasible_state. rewrite <- (cs_dist c a d), <- (cs_norm c a d). split.
  - intros (_ & _ & H). apply H. cbn. lia.
  - intros H. split; [intros q Hq; cbn in Hq; lia|]. split; [intros q Hq; cbn in Hq; lia|].
    intros [|q] Hq; [exact H|cbn in Hq; lia].
Qed.
Lemma cs_no_nan c a d : c <> 0 -> no_nan (cs c a d).
Proof.
  intros Hc. split; [intros q Hq; cbn in Hq; lia|]. split; [intros q Hq; cbn in Hq; lia|].
  intros q Hq H. exfalso. rewrite cs_norm in H. now apply Rabs_no_R0 in H.
Qed.
Lemma cs_check (t x c a d : R) (b : bool) : c <> 0 -> (if b then Rabs (a - c) < t * Rabs c else ~ Rabs (a - c) < t * Rabs c) ->
  exists g, state_gaps (cs c a d) = Ok g /\ check_feasibility g t = b.
Proof.
  intros Hc H. pose proof (cs_valid x c a d) as V. exists (gapsA (cs c a d), gapsB (cs c a d), gapsC (cs c a d)).
  split; [now apply (state_gaps_val [m11 x])|].
  pose proof (check_feasibility_ok [m11 x] (cs c a d) t V (cs_no_nan c a d Hc)) as K. rewrite cs_feasible in K.
  destruct b; [now apply K|]. apply not_true_iff_false. now rewrite K.
Qed.
Lemma cs_state_loss t u f b x c a d : 0 < x -> state_loss (csP t u f b) [m11 x] (cs c a d) = Ok (Fin (1 / 2 * ((x - c) / x) ^ 2)).
Proof.
  intros Hx. rewrite state_loss_ok; [now rewrite cs_loss|apply cs_valid|discriminate || (left; reflexivity) || exact (or_introl eq_refl)|]. rewrite cs_data. now apply pow_lt.
Qed.
(** the same call with and without diagnostics *)
Definition ex36 (b : bool) : params (N:=RNum) := csP (Some (1 / 10)) (Some 0) (Some (1 / 10)) b.
Definition start36 : state (N:=RNum) := cs 0 (1 / 2) (- (1 / 2)).
Lemma ex36_steps E b : svd_correct E 1 ->
  outer_step E (ex36 b) [m11 2] start36 = Ok (cs (3 / 2) 1 0) /\
  outer_step E (ex36 b) [m11 2] (cs (3 / 2) 1 0) = Ok (cs (3 / 2) (3 / 2) 0) /\
  outer_step E (ex36 b) [m11 2] (cs (3 / 2) (3 / 2) 0) = Ok (cs (7 / 4) (7 / 4) 0).
Proof.
  intros HE. unfold ex36, start36. rewrite !cs_step by assumption. cbv zeta.
  assert (K : forall c a d c' a' d' : R, c = c' -> a = a' -> d = d' -> @Ok (state (N:=RNum)) (cs c a d) = Ok (cs c' a' d')) by (intros; congruence).
  split; [|split]; apply K; try lra; rewrite ?Rmax_left by lra; lra.
Qed.
Lemma Rabs_val x y : (x = y \/ x = - y) -> 0 <= y -> Rabs x = y.
Proof. intros [->| ->] H; [now apply Rabs_pos_eq|]. rewrite Rabs_Ropp. now apply Rabs_pos_eq. Qed.
Lemma ex36_gaps : 
  (exists g, state_gaps (cs (3 / 2) 1 0) = Ok g /\ check_feasibility g (1 / 10) = false) /\
  (exists g, state_gaps (cs (3 / 2) (3 / 2) 0) = Ok g /\ check_feasibility g (1 / 10) = true) /\
  (exists g, state_gaps (cs (7 / 4) (7 / 4) 0) = Ok g /\ check_feasibility g (1 / 10) = true).
Proof.
  split; [|split]; apply (cs_check _ 2); try lra.
  - rewrite (Rabs_val (1 - 3 / 2) (1 / 2)), (Rabs_val (3 / 2) (3 / 2)); lra.
  - rewrite (Rabs_val (3 / 2 - 3 / 2) 0), (Rabs_val (3 / 2) (3 / 2)); lra.
  - rewrite (Rabs_val (7 / 4 - 7 / 4) 0), (Rabs_val (7 / 4) (7 / 4)); lra.
Qed.
Lemma rel_crit_R (t a b : R) : rel_crit (N:=RNum) t (Fin a) (Fin b) = true <-> Rabs (a - b) < t * a.
Proof. exact (rel_crit_ok t a b). Qed.
Lemma truthy10 : ntruthy (N:=RNum) (1 / 10) = true.
Proof. apply ntruthy_R. lra. Qed.
(** one pass through the loop in a feasible state *)
Lemma ex36_pass E b (n it : nat) h c0 a0 d0 c a d g l0 (r : bool) : svd_correct E 1 -> outer_step E (ex36 b) [m11 2] (cs c0 a0 d0) = Ok (cs c a d) ->
  state_gaps (cs c a d) = Ok g -> check_feasibility g (1 / 10) = true -> last_x (h_losses h) = Fin l0 ->
  (if r then Rabs (l0 - 1 / 2 * ((2 - c) / 2) ^ 2) < 1 / 10 * l0 else ~ Rabs (l0 - 1 / 2 * ((2 - c) / 2) ^ 2) < 1 / 10 * l0) ->
  exists h', last_x (h_losses h') = Fin (1 / 2 * ((2 - c) / 2) ^ 2) /\
    ao_loop E (ex36 b) [m11 2] (S n) it (cs c0 a0 d0) h =
    (if r then Ok (cs c a d, h', S it, RelLoss) else ao_loop E (ex36 b) [m11 2] n (S it) (cs c a d) h').
Proof.
  intros HE HS HG HC HL Hr. cbn [ao_loop]. rewrite HS. cbn [bind]. rewrite HG. cbn [bind].
  replace (p_tol (ex36 b)) with (Some (1 / 10)) by reflexivity. replace (p_feas_tol (ex36 b)) with (Some (1 / 10)) by reflexivity.
  replace (p_abs_tol (ex36 b)) with (Some 0) by reflexivity.
  cbn [otruthy]. rewrite truthy10. cbn [orb andb negb]. rewrite HC. cbn [negb andb].
  change (ex36 b) with (csP (Some (1 / 10)) (Some 0) (Some (1 / 10)) b) at 1. rewrite cs_state_loss by lra. cbn [bind].
  rewrite HL. eexists. split; [|destruct r].
  2:{ rewrite (proj2 (rel_crit_R _ _ _) Hr). reflexivity. }
  2:{ assert (K : rel_crit (N:=RNum) (1 / 10) (Fin l0) (Fin (1 / 2 * ((2 - c) / 2) ^ 2)) = false).
      { apply not_true_iff_false. rewrite rel_crit_R. exact Hr. }
      assert (K2 : xlt (N:=RNum) (Fin (1 / 2 * ((2 - c) / 2) ^ 2)) 0 = false).
      { apply not_true_iff_false. unfold xlt. intros X. apply nltb_true in X. pose proof (pow2_ge_0 ((2 - c) / 2)). lra. }
      rewrite K, K2.
      reflexivity. }
  cbn [h_losses]. unfold last_x. now rewrite last_last.
Qed.
Lemma ex36_skip E (n it : nat) h c0 a0 d0 c a d g : outer_step E (ex36 false) [m11 2] (cs c0 a0 d0) = Ok (cs c a d) ->
  state_gaps (cs c a d) = Ok g -> check_feasibility g (1 / 10) = false ->
  ao_loop E (ex36 false) [m11 2] (S n) it (cs c0 a0 d0) h =
  ao_loop E (ex36 false) [m11 2] n (S it) (cs c a d) (Hist (h_errors h) (h_gaps h ++ [g]) (h_losses h)).
Proof.
  intros HS HG HC. cbn [ao_loop]. rewrite HS. cbn [bind]. rewrite HG. cbn [bind].
  replace (p_tol (ex36 false)) with (Some (1 / 10)) by reflexivity. replace (p_feas_tol (ex36 false)) with (Some (1 / 10)) by reflexivity.
  cbn [otruthy]. rewrite truthy10. cbn [orb andb negb]. rewrite HC. reflexivity.
Qed.
Lemma ex36_note E (n it : nat) h c0 a0 d0 c a d g : outer_step E (ex36 true) [m11 2] (cs c0 a0 d0) = Ok (cs c a d) ->
  state_gaps (cs c a d) = Ok g -> check_feasibility g (1 / 10) = false ->
  exists h', last_x (h_losses h') = Fin (1 / 2 * ((2 - c) / 2) ^ 2) /\
  ao_loop E (ex36 true) [m11 2] (S n) it (cs c0 a0 d0) h = ao_loop E (ex36 true) [m11 2] n (S it) (cs c a d) h'.
Proof.
  intros HS HG HC. cbn [ao_loop]. rewrite HS. cbn [bind]. rewrite HG. cbn [bind].
  replace (p_tol (ex36 true)) with (Some (1 / 10)) by reflexivity. replace (p_feas_tol (ex36 true)) with (Some (1 / 10)) by reflexivity.
  replace (p_abs_tol (ex36 true)) with (Some 0) by reflexivity. replace (p_return_errors (ex36 true)) with true by reflexivity.
  cbn [otruthy]. rewrite truthy10. cbn [orb andb negb]. rewrite HC. cbn [negb andb].
  change (ex36 true) with (csP (Some (1 / 10)) (Some 0) (Some (1 / 10)) true) at 1. rewrite cs_state_loss by lra. cbn [bind].
  eexists. split; [|reflexivity]. cbn [h_losses]. unfold last_x. now rewrite last_last.
Qed.
(** With diagnostics the run stops after two iterations, without it goes on. *)
Lemma ex36_true E : svd_correct E 1 -> exists d,
  run E (ex36 true) [m11 2] 3 start36 = Ok (cs (3 / 2) (3 / 2) 0, Some d) /\ d_n_iter d = 2%nat /\ d_message d = RelLoss.
Proof.
  intros HE. destruct (ex36_steps E true HE) as (S1 & S2 & S3).
  destruct ex36_gaps as ((g1 & G1 & C1) & (g2 & G2 & C2) & (g3 & G3 & C3)).
  unfold run, init_hist. unfold ex36 at 1, start36 at 1. rewrite cs_state_loss by lra. cbn [bind].
  rewrite (state_gaps_val [m11 2] start36) by apply cs_valid. cbn [bind]. change (Z.to_nat 3) with 3%nat.
  match goal with |- context[ao_loop _ _ _ _ _ _ ?h] => destruct (ex36_note E 2 0 h _ _ _ _ _ _ g1 S1 G1 C1) as (h1 & L1 & R1) end.
  fold start36 in R1. rewrite R1. destruct (ex36_pass E true 1 1 h1 _ _ _ _ _ _ g2 _ true HE S2 G2 C2 L1) as (h2 & L2 & R2).
  { rewrite Rminus_diag_eq by reflexivity. rewrite Rabs_R0. lra. }
  rewrite R2. cbn [bind]. replace (p_feas_tol (ex36 true)) with (Some (1 / 10)) by reflexivity. replace (p_return_errors (ex36 true)) with true by reflexivity.
  rewrite truthy10. cbn [andb]. rewrite G2. cbn [bind]. rewrite revalidate_ok by apply (cs_valid 2). cbn [bind].
  eexists. split; [reflexivity|]. split; reflexivity.
Qed.
Lemma ex36_false E : svd_correct E 1 ->
  run E (ex36 false) [m11 2] 3 start36 = Ok (cs (7 / 4) (7 / 4) 0, None).
Proof.
  intros HE. destruct (ex36_steps E false HE) as (S1 & S2 & S3).
  destruct ex36_gaps as ((g1 & G1 & C1) & (g2 & G2 & C2) & (g3 & G3 & C3)).
  unfold run, init_hist. unfold ex36 at 1, start36 at 1. rewrite cs_state_loss by lra. cbn [bind].
  rewrite (state_gaps_val [m11 2] start36) by apply cs_valid. cbn [bind]. change (Z.to_nat 3) with 3%nat.
  unfold start36 at 1. rewrite (ex36_skip E 2 0 _ _ _ _ _ _ _ g1 S1 G1 C1).
  match goal with |- context[ao_loop _ _ _ _ _ _ ?h] => destruct (ex36_pass E false 1 1 h _ _ _ _ _ _ g2 (1 / 2 * ((2 - 0) / 2) ^ 2) false HE S2 G2 C2 eq_refl) as (h2 & L2 & R2) end.
  { rewrite (Rabs_val _ (15 / 32)); lra. }
  rewrite R2. destruct (ex36_pass E false 0 2 h2 _ _ _ _ _ _ g3 _ false HE S3 G3 C3 L2) as (h3 & L3 & R3).
  { rewrite (Rabs_val _ (3 / 128)); lra. }
  rewrite R3. cbn [ao_loop bind]. replace (p_feas_tol (ex36 false)) with (Some (1 / 10)) by reflexivity. replace (p_return_errors (ex36 false)) with false by reflexivity.
  rewrite truthy10. cbn [andb bind]. rewrite revalidate_ok by apply (cs_valid 2). reflexivity.
Qed.

(** ** Two coupled matrices of different heights, two components *)
Definition exX : list rmat := [Mat (N:=RNum) 2 2 [[1; 2]; [0; 1]]; Mat (N:=RNum) 3 2 [[1; 0]; [2; 1]; [1; 1]]].
Definition exA : rmat := Mat (N:=RNum) 2 2 [[1; 1]; [1; 2]].
Definition exB1 : rmat := Mat (N:=RNum) 2 2 [[1; 0]; [0; 1]].
Definition exB2 : rmat := Mat (N:=RNum) 3 2 [[1; 0]; [0; 1]; [1; 1]].
Definition exP2 : rmat := Mat (N:=RNum) 3 2 [[1; 0]; [0; 1]; [0; 0]].
Definition exC : rmat := Mat (N:=RNum) 2 2 [[1; 0]; [1; 1]].
Definition exc : rcmf := Cmf (N:=RNum) None exA [exB1; exB2] exC.
Definition exrA : list mregR := [MReg (N:=RNum) (Box (Some 0) (Some 3)) exA exC].
Definition exrB (p : bool) : list bregR :=
  (if p then [BReg (N:=RNum) (Parafac2 5 true true) (APf2 [exB1; exP2] exC) [exA; exB2]] else []) ++
  [BReg (N:=RNum) (Unimodality true) (AList [exC; exP2]) [exB1; exP2]].
Definition exrC : list mregR := [MReg (N:=RNum) (L2Ball 1 false) exB1 exA; MReg (N:=RNum) NonNegativity exA exB1].
Definition exS (p : bool) : state (N:=RNum) := St (N:=RNum) exc exrA (exrB p) exrC None.
Definition exP (b : bool) : params (N:=RNum) :=
  Params (N:=RNum) (1/2) 1 2 1 false true 5 (Some (1/10)) true true true (Some (1/100)) (Some 0) (Some (1/10)) b.
Ltac wfm := (split; [reflexivity|repeat constructor]).
Ltac shm := (split; [wfm|split; reflexivity]).
Lemma exc_fits : data_fits exX exc.
Proof.
  split; [|split; [reflexivity|]].
  - split; [wfm|]. split; [wfm|]. split; [reflexivity|]. split; [reflexivity|]. split; [|discriminate].
    intros [|[|i]] Hi; try (cbn in Hi; lia); (split; [wfm|reflexivity]).
  - intros [|[|i]] Hi; try (cbn in Hi; lia); shm.
Qed.
Lemma exc_nonempty : nonempty exc.
Proof. repeat split; try (cbn; lia). intros [|[|i]] Hi; cbn in *; lia. Qed.
Lemma exrA_valid : Forall (mreg_valid 2 2) exrA.
Proof.
  constructor; [|constructor]. split; [auto|]. split; [|split; shm]. split; [intros l h E1 E2; injection E1 as <-; injection E2 as <-; lra|left; discriminate].
Qed.
Lemma exrC_valid : Forall (mreg_valid 2 2) exrC.
Proof.
  constructor; [|constructor; [|constructor]]; (split; [intros []|]; split; [first [exact Logic.I|exact Rlt_0_1]|split; shm]).
Qed.
Lemma exrB_valid p : Forall (breg_valid 2 (rowsB exc) 2) (exrB p).
Proof.
  assert (U : breg_valid 2 (rowsB exc) 2 (BReg (N:=RNum) (Unimodality true) (AList [exC; exP2]) [exB1; exP2])).
  { split; [|split]; try (split; [reflexivity|]; intros [|[|i]] Hi; try lia; shm). intros; exact Logic.I. }
  destruct p; unfold exrB; cbn [app]; [constructor; [|constructor; [exact U|constructor]]|constructor; [exact U|constructor]].
  split; [split; [reflexivity|]; intros [|[|i]] Hi; try lia; shm|].
  cbn. split; [split; [reflexivity|]; intros [|[|i]] Hi; try lia; shm|]. split; [shm|]. intros [|[|i]] Hi; cbn; lia.
Qed.
Lemma exS_valid p : valid_state exX (exS p).
Proof.
  split; [exact exc_fits|]. split; [exact exc_nonempty|]. split; [exact exrA_valid|]. split; [exact (exrB_valid p)|exact exrC_valid].
Qed.
Lemma exS_robust b : robust (exP b) (exS false).
Proof.
  split; [|split]; intros _.
  - split; [cbn; lra|]. split; [repeat constructor|]. intros _. repeat constructor.
  - split; [cbn; lra|]. repeat constructor.
  - split; [cbn; lra|]. repeat constructor.
Qed.
Lemma exP_ok b : params_ok (exP b). Proof. unfold params_ok, exP; cbn. lra. Qed.
Lemma exP_tols b : tols_ok (exP b). Proof. intros _. discriminate. Qed.
Lemma exX_data : data_sumsq exX = 14. Proof. mcomp. lra. Qed.
Lemma exS_ready p : ready_state (exS p).
Proof.
  destruct p; unfold ready_state; cbn [exS st_rB exrB app].
  - constructor; [left; split; [discriminate|reflexivity]|]. constructor; [left; exact Logic.I|constructor].
  - constructor; [left; exact Logic.I|constructor].
Qed.
Lemma ex_rhos : rho_A 1 exc 0 = 3 / 2 /\ rho_A 1 exc 1 = 3 /\ rho_B 1 exc 0 = 3 / 2 /\ rho_B 1 exc 1 = 3 /\ rho_C 1 exc = 6.
Proof. repeat split; mcomp; field. Qed.

(** ** Fixed points with one active and one inactive constraint *)
Definition fixX : list rmat := [m11 (-2); m11 3].
Definition fixA : rcmf := Cmf (N:=RNum) None (col2 0 3) [m11 1; m11 1] (m11 1).
Definition fixAr : list mregR := [MReg (N:=RNum) NonNegativity (col2 0 3) (col2 (-2) 0)].
Definition fixB : rcmf := Cmf (N:=RNum) None (col2 1 1) [m11 0; m11 3] (m11 1).
Definition fixBr : list bregR := [BReg (N:=RNum) NonNegativity (AList [m11 0; m11 3]) [m11 (-2); m11 0]].
Lemma fixA_step E : svd_correct E 1 -> exists i, admm_update_A E fixX fixA fixAr 0 1 None 2 false = Ok (fixA, fixAr, i).
Proof.
  intros HE. unfold admm_update_A. cbn [fixA cA cBs cC].
  assert (K : A_cross [m11 1; m11 1] (m11 1) fixX = [m11 1; m11 1]) by (meq; ring).
  assert (H : A_rhses [m11 1; m11 1] (m11 1) fixX = [[-2]; [3]]) by (meq; ring).
  rewrite K, H. cbv zeta.
  assert (F : feas_penalties (N:=RNum) 2 false [m11 1; m11 1] = Ok [1; 1]) by (meq; field).
  rewrite F. cbn [bind].
  assert (D : lhs_svds E [m11 1; m11 1] [1; 1] (length fixAr) 0 = [lhs_svd E (m11 2); lhs_svd E (m11 2)]).
  { assert (R1 : ridge (N:=RNum) (m11 1) 1 1 0 = m11 2) by (meq; field). unfold lhs_svds. cbn [map2 fixAr length]. now rewrite R1. }
  rewrite D. cbn [inner_loop]. unfold A_step.
  assert (S : shifted_mats (N:=RNum) fixAr = Ok [col2 (0 - -2) (3 - 0)]) by reflexivity. rewrite S. cbn [bind].
  cbn [mr mc col2 seq mapM nth].
  assert (V0 : vadd (vscale (N:=RNum) 1 (sum_rows (N:=RNum) 1 [col2 (0 - -2) (3 - 0)] 0)) [-2] = [0]) by (meq; ring).
  assert (V1 : vadd (vscale (N:=RNum) 1 (sum_rows (N:=RNum) 1 [col2 (0 - -2) (3 - 0)] 1)) [3] = [6]) by (meq; ring).
  rewrite V0, V1, !solve_row1 by (auto; lra). cbn [bind].
  match goal with |- context[@Mat RNum 2 1 ?m] => assert (U : @Mat RNum 2 1 m = col2 0 3) by (meq; field); rewrite U; clear U end.
  assert (G : mapM (A_reg_step E false [1; 1] (col2 0 3)) fixAr = Ok fixAr).
  { unfold fixAr. cbn [mapM]. unfold A_reg_step. cbn [g_pen g_dual].
    assert (Q : rows_update (N:=RNum) NonNegativity (madd (col2 0 3) (col2 (-2) 0)) [1; 1] = Ok (col2 0 3)).
    { change (Ok (col2 (relu (N:=RNum) (0 + -2)) (relu (N:=RNum) (3 + 0))) = Ok (col2 0 3)).
      rewrite !relu_R, Rmax_right, Rmax_left by lra. unfold col2. rewrite Rplus_0_r. reflexivity. }
    rewrite Q. cbn [bind]. assert (W : msub (col2 0 3) (msub (col2 0 3) (col2 (-2) 0)) = col2 (-2) 0) by (meq; ring).
    cbn [subtract_from_aux bind]. rewrite W. reflexivity. }
  rewrite G. cbn [bind]. eexists. reflexivity.
Qed.
Lemma fixB_step E : svd_correct E 1 -> admm_update_B E fixX fixB fixBr 0 1 None 2 false = Ok (fixB, fixBr).
Proof.
  intros HE. unfold admm_update_B. cbn [fixB cA cBs cC].
  assert (K : map2 (fun _ a => B_lhs (N:=RNum) (m11 1) a) fixX (me (col2 1 1)) = [m11 1; m11 1]) by (meq; ring).
  assert (H : map2 (fun X a => B_rhs (N:=RNum) X (m11 1) a) fixX (me (col2 1 1)) = [m11 (-2); m11 3]) by (meq; ring).
  rewrite K, H. cbv zeta.
  assert (F : feas_penalties (N:=RNum) 2 false [m11 1; m11 1] = Ok [1; 1]) by (meq; field).
  rewrite F. cbn [bind].
  assert (D : lhs_svds E [m11 1; m11 1] [1; 1] (length fixBr) 0 = [lhs_svd E (m11 2); lhs_svd E (m11 2)]).
  { assert (R1 : ridge (N:=RNum) (m11 1) 1 1 0 = m11 2) by (meq; field). unfold lhs_svds. cbn [map2 fixBr length]. now rewrite R1. }
  rewrite D. cbn [inner_loop]. unfold B_step.
  assert (S : shifted_lists (N:=RNum) fixBr = Ok [[m11 (0 - -2); m11 (3 - 0)]]) by reflexivity. rewrite S. cbn [bind].
  cbn [length seq mapM nth map].
  assert (V0 : madd (mscale (N:=RNum) 1 (sum_mats (N:=RNum) (mr (m11 (-2))) (mc (m11 (-2))) [m11 (0 - -2)])) (m11 (-2)) = m11 0) by (meq; ring).
  assert (V1 : madd (mscale (N:=RNum) 1 (sum_mats (N:=RNum) (mr (m11 3)) (mc (m11 3)) [m11 (3 - 0)])) (m11 3) = m11 6) by (meq; ring).
  cbv zeta. rewrite V0, V1, !solve1 by (auto using m11_wf; lra). cbn [bind].
  assert (U0 : mscale (N:=RNum) (/ 2) (m11 0) = m11 0) by (meq; field). assert (U1 : mscale (N:=RNum) (/ 2) (m11 6) = m11 3) by (meq; field).
  rewrite U0, U1.
  assert (G : mapM (B_reg_step E [1; 1] [m11 0; m11 3]) fixBr = Ok fixBr).
  { unfold fixBr. cbn [mapM]. unfold B_reg_step. cbn [b_pen b_dual b_aux].
    assert (Q : factor_matrices_update E NonNegativity (map2 madd [m11 0; m11 3] [m11 (-2); m11 0]) [1; 1] (AList [m11 0; m11 3]) = Ok (AList [m11 0; m11 3])).
    { change (Ok (AList [m11 (relu (N:=RNum) (0 + -2)); m11 (relu (N:=RNum) (3 + 0))]) = Ok (AList [m11 0; m11 3])).
      rewrite !relu_R, Rmax_right, Rmax_left by lra. rewrite Rplus_0_r. reflexivity. }
    rewrite Q. cbn [bind subtract_from_auxes map2].
    assert (W : [msub (m11 0) (msub (m11 0) (m11 (-2))); msub (m11 3) (msub (m11 3) (m11 0))] = [m11 (-2); m11 0]) by (meq; ring).
    rewrite W. reflexivity. }
  rewrite G. reflexivity.
Qed.
(** the scalar problem with data -2 *)
Lemma fixC_step E : svd_correct E 1 ->
  admm_update_C E [m11 (-2)] (st_cmf (cs 0 0 (-2))) (st_rC (cs 0 0 (-2))) 0 1 None 2 = Ok (st_cmf (cs 0 0 (-2)), st_rC (cs 0 0 (-2))).
Proof.
  intros HE. cbn [st_cmf st_rC cs]. rewrite cs_update by assumption. cbv zeta.
  replace ((-2 + 0 - -2) / 2) with 0 by field. rewrite Rmax_right by lra. replace (0 - (0 - -2)) with (-2) by ring. reflexivity.
Qed.

(** ** The reported loss can increase: data 2, A = B = 1, ridge penalty 1, C from 2/5 *)
Definition ls (c : R) : state (N:=RNum) := St (N:=RNum) (Cmf (N:=RNum) None (m11 1) [m11 1] (m11 c)) [] [] [] None.
Definition lsP (tol abs feas : option R) (upd : bool) : params (N:=RNum) :=
  Params (N:=RNum) 1 1 1 1 true true 1 None false false upd tol abs feas true.
Lemma ls_valid x c : valid_state [m11 x] (ls c).
Proof.
  destruct (cs_valid x c 0 0) as (V1 & V2 & _). split; [exact V1|]. split; [exact V2|]. split; [constructor|]. split; constructor.
Qed.
Lemma ls_step E t u f x c : svd_correct E 1 -> outer_step E (lsP t u f true) [m11 x] (ls c) = Ok (ls (x / 2)).
Proof.
  intros HE. unfold outer_step, upd_B, upd_C, upd_A. cbn [lsP p_updA p_updB p_updC p_l2C p_inner p_inner_tol p_scale bind].
  cbn [st_cmf st_rC ls]. unfold admm_update_C. cbn [cA cBs cC].
  assert (L : msum_list (N:=RNum) (C_lhs_terms [m11 x] [m11 1] (m11 1)) = Some (m11 1)) by (meq; ring).
  assert (H : msum_list (N:=RNum) (C_rhs_terms [m11 x] [m11 1] (m11 1)) = Some (m11 x)) by (meq; ring).
  rewrite L, H. cbv zeta. cbn [length].
  assert (D : forall f, ridge (N:=RNum) (m11 1) f 0 1 = m11 2) by (intros f'; meq; field). rewrite D.
  cbn [inner_loop]. unfold C_step. cbn [shifted_mats mapM bind].
  assert (T : forall f, madd (mscale (N:=RNum) f (sum_mats (N:=RNum) (mr (m11 x)) (mc (m11 x)) [])) (m11 x) = m11 x) by (intros f'; meq; ring).
  rewrite T, solve1 by (auto using m11_wf; lra). cbn [bind].
  assert (U : mscale (N:=RNum) (/ 2) (m11 x) = m11 (x / 2)) by (meq; field).
  rewrite U. reflexivity.
Qed.
Lemma ls_still E t u f Xs c : outer_step E (lsP t u f false) Xs (ls c) = Ok (ls c).
Proof. reflexivity. Qed.
Lemma ls_loss t u f upd x c : 0 < x -> loss (lsP t u f upd) [m11 x] (ls c) = 1 / 2 * ((x - c) / x) ^ 2 + 1 + 1 / 2 * c ^ 2.
Proof.
  intros Hx. unfold loss, rel_error. pose proof (cs_residual x c 0 0) as Hr. cbn [st_cmf cs] in Hr. cbn [st_cmf ls]. rewrite Hr, cs_data.
  assert (L2 : l2_sum (lsP t u f upd) (Cmf (N:=RNum) None (m11 1) [m11 1] (m11 c)) = 1 + 1 / 2 * c ^ 2) by (mcomp; field).
  assert (PS : penalty_sum (ls c) = 0) by (mcomp; ring). cbn [st_cmf ls] in *. rewrite L2, PS.
  rewrite (sqrt_pow2 x) by lra. unfold Rdiv at 2. 
  rewrite Rpow_mult_distr. rewrite pow2_sqrt by apply pow2_ge_0. field. lra.
Qed.
Lemma ls_data x : 0 < x -> 0 < data_sumsq [m11 x].
Proof. intros H. rewrite cs_data. now apply pow_lt. Qed.
