(** Two problems that differ in units and orders only: whole runs. *)
From Coq Require Import Reals Lra Lia List Arith Bool ZArith Permutation.
From Verif Require Import Num Numpy RFacts Spec SpecFacts MatFacts ModelSpec Penalties PenaltySpec ProxProofs SimplexProofs
  CoupledMatrices CmfSpec CmfProofs Decomp DecompSpec DecompFacts AdmmA OrderProofs ReorderFacts ReorderPen SymSpec SymFacts SymPen SymStep SymRun.
Import ListNotations.
Local Open Scope R_scope.

Section Sym.
Variables (E E' : ext (N:=RNum)) (z : sizes) (h : change).
Local Notation n := (z_n z). Local Notation J := (z_rows z). Local Notation K := (z_cols z). Local Notation rk := (z_rank z).
Local Notation kA := (h_A h). Local Notation kB := (h_B h). Local Notation kC := (h_C h).
Local Notation sg := (h_comp h). Local Notation pi := (h_rows h). Local Notation ta := (h_cols h).
Local Notation tA := (problem_factor h 0). Local Notation tB := (problem_factor h 1). Local Notation tC := (problem_factor h 2).
Local Notation id := (fun i : nat => i).
Hypothesis HH : proper z h.
Hypothesis Hn : (0 < n)%nat.
Hypothesis HJ : forall i, (i < n)%nat -> (0 < J i)%nat.
Hypothesis HK : (0 < K)%nat.
Hypothesis HR : (0 < rk)%nat.
Hypothesis HE : svds_agree E E' rk sg.
Hypothesis HE' : nearest_shaped E rk.
Variables Xs Xs' : list rmat.
Hypothesis HX : moved_data z h Xs Xs'.
Local Notation MA := (moved n rk kA id sg).
Local Notation MB := (moved_list n J rk kB pi sg).
Local Notation MC := (moved K rk kC ta sg).
Local Notation areg := (areg E E' z h). Local Notation breg := (breg_rel E E' z h). Local Notation creg := (creg E E' z h).
Local Notation s := (h_X h).
Lemma s0 : 0 < s.
Proof. unfold h_X. pose proof (kA0 z h HH). pose proof (kB0 z h HH). pose proof (kC0 z h HH). assert (0 < kA * kB) by nra. nra. Qed.
Local Hint Resolve s0 kA0 kB0 kC0 Hsg Hta Hpi Hid tA0 tB0 tC0 : sym.

Definition inter_opt (x y : option (list (list R) * list rmat)) : Prop :=
  match x, y with None, None => True | Some a, Some b => inter_rel z h a b | _, _ => False end.
Definition state_rel (a b : state (N:=RNum)) : Prop :=
  moved_cmf z h (st_cmf a) (st_cmf b) /\ Forall2 areg (st_rA a) (st_rA b) /\ Forall2 breg (st_rB a) (st_rB b) /\ Forall2 creg (st_rC a) (st_rC b) /\
  inter_opt (st_inter a) (st_inter b).
Variables P P' : params (N:=RNum).
Hypothesis HP : P' = Params (N:=RNum) (tA * p_l2A P) (tB * p_l2B P) (tC * p_l2C P) (p_scale P) (p_constA P) (p_constB P) (p_inner P) (p_inner_tol P)
  (p_updA P) (p_updB P) (p_updC P) (p_tol P) (p_abs_tol P) (p_feas_tol P) (p_return_errors P).
Hypothesis Hscale : 0 <= p_scale P.

Lemma upd_B_rel a b : state_rel a b -> res_rel state_rel (upd_B E P Xs a) (upd_B E' P' Xs' b).
Proof.
  intros (M1 & M2 & M3 & M4 & M5). unfold upd_B. rewrite HP. cbn [p_updB p_l2B p_inner p_inner_tol p_scale p_constB]. destruct (p_updB P); [|cbn [res_rel]; unfold state_rel; cbn; auto 6].
  eapply res_rel_bind; [apply (update_B_rel E E' z h); eauto|]. intros [c r] [c' r'] (Q1 & Q2). cbn [fst snd res_rel] in *. unfold state_rel; cbn; auto 6.
Qed.
Lemma upd_C_rel a b : state_rel a b -> res_rel state_rel (upd_C E P Xs a) (upd_C E' P' Xs' b).
Proof.
  intros (M1 & M2 & M3 & M4 & M5). unfold upd_C. rewrite HP. cbn [p_updC p_l2C p_inner p_inner_tol p_scale]. destruct (p_updC P); [|cbn [res_rel]; unfold state_rel; cbn; auto 6].
  eapply res_rel_bind; [apply (update_C_rel E E' z h); eauto|]. intros [c r] [c' r'] (Q1 & Q2). cbn [fst snd res_rel] in *. unfold state_rel; cbn; auto 6.
Qed.
Lemma upd_A_rel a b : state_rel a b -> res_rel state_rel (upd_A E P Xs a) (upd_A E' P' Xs' b).
Proof.
  intros (M1 & M2 & M3 & M4 & M5). unfold upd_A. rewrite HP. cbn [p_updA p_l2A p_inner p_inner_tol p_scale p_constA]. destruct (p_updA P); [|cbn [res_rel]; unfold state_rel; cbn; auto 6].
  eapply res_rel_bind; [apply (update_A_rel E E' z h); eauto|]. intros [[c r] i] [[c' r'] i'] (Q1 & Q2 & Q3). cbn [fst snd res_rel] in *. unfold state_rel; cbn; auto 6.
Qed.
Lemma outer_rel a b : state_rel a b -> res_rel state_rel (outer_step E P Xs a) (outer_step E' P' Xs' b).
Proof.
  intros H. unfold outer_step. eapply res_rel_bind; [now apply upd_B_rel|]. intros a1 b1 H1. eapply res_rel_bind; [now apply upd_C_rel|]. intros a2 b2 H2. now apply upd_A_rel.
Qed.
Lemma gaps_state a b : state_rel a b -> state_gaps b = state_gaps a.
Proof.
  intros (M1 & M2 & M3 & M4 & _). unfold state_gaps, compute_gaps.
  rewrite (gaps_rel E E' n rk id sg tA kA (Hid n) (Hsg z h HH) (kA0 z h HH) (cA (st_cmf a)) (cA (st_cmf b)) (st_rA a) (st_rA b)); [|apply M1|exact M2].
  rewrite (gaps_list_rel E E' z h HH (cBs (st_cmf a)) (cBs (st_cmf b)) (st_rB a) (st_rB b)); [|apply M1|exact M3].
  rewrite (gaps_rel E E' K rk ta sg tC kC (Hta z h HH) (Hsg z h HH) (kC0 z h HH) (cC (st_cmf a)) (cC (st_cmf b)) (st_rC a) (st_rC b)); [|apply M1|exact M4].
  reflexivity.
Qed.
(** ** Reconstruction error *)
Lemma scaled_A_rel c c' : moved_cmf z h c c' -> MA (scaled_A c) (scaled_A c').
Proof.
  intros (W & M & _). unfold scaled_A. destruct (cw c) as [w|], (cw c') as [w'|]; try contradiction; [|exact M].
  apply (moved_ext n rk (kA * 1) kA id sg id sg); [ring|reflexivity|reflexivity|]. apply moved_mcolscale; eauto with sym.
Qed.
Lemma rec_inner_eq (X B C : rmat) : mwf X -> mwf B -> mwf C -> mr X = mr B -> mc X = mr C -> rec_inner X B C = mtrace (mmul (mtrans B) (mmul X C)).
Proof. intros. unfold rec_inner. destruct (mr C <? mr B)%nat; [|reflexivity]. rewrite mmul_assoc by mlia. reflexivity. Qed.
Lemma rec_error_rel a b : state_rel a b -> forall norm, rec_error Xs' (st_cmf b) (s * norm) (st_inter b) = s * rec_error Xs (st_cmf a) norm (st_inter a).
Proof.
  intros (M1 & _ & _ & _ & M5) norm. unfold rec_error. cbv zeta. pose proof (scaled_A_rel _ _ M1) as MS. pose proof s0 as S0. pose proof (Hsg z h HH) as QS. pose proof (rows_of z h HH _ _ _ MS) as RA.
  assert (FIN : forall ip ip' sq sq', ip' = s * s * ip -> sq' = s * s * sq ->
    @nsqrt RNum (nmax (N:=RNum) 0 (@nadd RNum (@nsub RNum (@nmul RNum (s * norm) (s * norm)) (@nmul RNum (nlit 2 1) ip')) sq')) =
    s * @nsqrt RNum (nmax (N:=RNum) 0 (@nadd RNum (@nsub RNum (@nmul RNum norm norm) (@nmul RNum (nlit 2 1) ip)) sq))).
  { intros ip ip' sq sq' -> ->. rn. rewrite !nmax_R. set (w := norm * norm - 2 / 1 * ip + sq).
    assert (EW : s * norm * (s * norm) - 2 / 1 * (s * s * ip) + s * s * sq = s * s * w) by (unfold w; ring). rewrite EW.
    assert (EM : Rmax 0 (s * s * w) = s * s * Rmax 0 w) by (unfold Rmax; destruct (Rle_dec 0 (s * s * w)), (Rle_dec 0 w); nra).
    rewrite EM, sqrt_mult by (try apply Rmax_l; nra). rewrite sqrt_square by lra. reflexivity. }
  destruct (st_inter a) as [[rh cr]|], (st_inter b) as [[rh' cr']|]; cbn [inter_opt] in M5; try contradiction.
  - destruct M5 as (L1 & L2). cbn [fst snd] in *. apply FIN.
    + apply (lrel_lsum n). eapply lrel_map2; [exact L1|exact RA|]. cbv beta. intros i u u' v v' Hi Hu Hv.
      replace (s * s) with (tA * kA * kA) by (unfold h_X; cbn; ring). apply (moved_vec_lsum rk _ sg); [exact QS|].
      apply (moved_vec_map2 rk (tA * kA) kA (tA * kA * kA) sg); auto. intros x y. rn. ring.
    + apply (lrel_lsum n). eapply lrel_map2; [exact L2|exact RA|]. cbv beta. intros i G G' v v' Hi HG Hv.
      replace (s * s) with (kA * tA * kA) by (unfold h_X; cbn; ring). apply (moved_sum rk rk sg sg QS QS).
      assert (MD : moved rk rk kA sg sg (mdiagm v) (mdiagm v')).
      { destruct Hv as (V1 & V2 & V3). unfold mdiagm. cbn [num RNum] in *. rewrite V1, V2. split; [split; [auto with mwf|split; reflexivity]|]. split; [split; [auto with mwf|split; reflexivity]|].
        intros x y Hx Hy. pose proof (re_lt _ _ QS x Hx). pose proof (re_lt _ _ QS y Hy). rewrite !mget_mbuild by assumption.
        destruct (Nat.eqb_spec x y) as [->|NE]; [rewrite Nat.eqb_refl; apply V3; assumption|].
        destruct (Nat.eqb_spec (sg x) (sg y)) as [EQ|]; [apply (re_inj _ _ QS) in EQ; [contradiction|assumption|assumption]|]. rn. ring. }
      apply (moved_mmul rk rk rk (kA * tA) kA sg sg sg); auto. apply (moved_mmul rk rk rk kA tA sg sg sg); auto.
  - pose proof (BA_rel z h HH (st_cmf a) (st_cmf b) M1 _ _ _ MS) as MBA. pose proof (cmC z h _ _ M1) as MCC. apply FIN.
    + apply (lrel_lsum n). eapply lrel_map2; [exact (HX' z h Xs Xs' HX)|exact MBA|]. cbv beta. intros i X X' B B' Hi HXi HB.
      assert (MT : moved rk rk (kB * kA * (s * kC)) sg sg (mmul (mtrans B) (mmul X (cC (st_cmf a)))) (mmul (mtrans B') (mmul X' (cC (st_cmf b))))).
      { apply (moved_mmul rk (J i) rk (kB * kA) (s * kC) sg sg (pi i)); eauto with sym; [apply moved_mtrans; eauto with sym|]. apply (moved_mmul (J i) K rk s kC (pi i) sg ta); eauto with sym. }
      destruct HXi as ((W & Sr & Sc) & (W' & Sr' & Sc') & _). destruct HB as ((WB & SrB & ScB) & (WB' & SrB' & ScB') & _). destruct MCC as ((WC & SrC & ScC) & (WC' & SrC' & ScC') & _).
      rewrite !rec_inner_eq by congruence. rewrite (moved_trace rk _ sg _ _ QS MT). unfold h_X. ring.
    + apply (lrel_lsum n). eapply lrel_map; [exact MBA|]. cbv beta. intros i B B' Hi HB.
      replace (s * s) with (kB * kA * (kB * kA) * (kC * kC)) by (unfold h_X; ring). apply (moved_sum rk rk sg sg QS QS). apply moved_mhad; auto.
      * apply (moved_mmul rk (J i) rk (kB * kA) (kB * kA) sg sg (pi i)); eauto with sym. apply moved_mtrans; eauto with sym.
      * apply (moved_mmul rk K rk kC kC sg sg ta); eauto with sym. apply moved_mtrans; eauto with sym.
Qed.
Lemma error_state a b : state_rel a b -> state_error Xs' b = state_error Xs a.
Proof.
  intros H. unfold state_error. cbv zeta. assert (EN : root_sum_squared (N:=RNum) Xs' = s * root_sum_squared (N:=RNum) Xs) by (apply (root_k n J K s pi ta); eauto with sym).
  rewrite EN, (rec_error_rel a b H). apply xdiv_k, s0.
Qed.
(** ** Loss *)
Lemma l2_rel c c' : moved_cmf z h c c' -> l2_reg c' (p_l2A P') (p_l2B P') (p_l2C P') = s * s * l2_reg c (p_l2A P) (p_l2B P) (p_l2C P).
Proof.
  intros M. rewrite HP. cbn [p_l2A p_l2B p_l2C]. unfold l2_reg. cbv zeta.
  pose proof (Hsg z h HH) as QS. pose proof (tA0 z h HH). pose proof (tB0 z h HH). pose proof (tC0 z h HH).
  rewrite (moved_msumsq n rk id sg (Hid n) QS kA _ _ (cmA z h _ _ M)), (moved_msumsq K rk ta sg (Hta z h HH) QS kC _ _ (cmC z h _ _ M)).
  assert (EB : lsum (N:=RNum) (map (@msumsq RNum) (cBs c')) = kB * kB * lsum (N:=RNum) (map (@msumsq RNum) (cBs c))).
  { apply (lrel_lsum n). eapply lrel_map; [exact (cmB' z h _ _ M)|]. cbv beta. intros i B B' Hi HB. apply (moved_msumsq (J i) rk (pi i) sg); eauto with sym. }
  rewrite EB. rewrite !ntruthy_k by lra. unfold h_X. cbn [problem_factor]. rn. destruct (ntruthy (N:=RNum) (p_l2A P)), (ntruthy (N:=RNum) (p_l2B P)), (ntruthy (N:=RNum) (p_l2C P)); rn; ring.
Qed.
Lemma pens_rel {G} (pen pen' : G -> res R) (Q : G -> G -> Prop) (k : R) l l' : (forall g g', Q g g' -> res_rel (fun a b => b = k * a) (pen g) (pen' g')) -> Forall2 Q l l' ->
  res_rel (fun a b => lsum (N:=RNum) b = k * lsum (N:=RNum) a) (mapM pen l) (mapM pen' l').
Proof.
  intros H F. eapply res_rel_impl; [|apply (mapM_rel pen pen' Q (fun a b => b = k * a) H l l' F)]. intros a b FF. induction FF as [|x y u v EQ _ IH]; [change (0 = k * 0); ring|].
  rewrite (lsum_cons y v), (lsum_cons x u), IH, EQ. rn. ring.
Qed.
Lemma penalties_B p p' Bs Bs' : moved_pen E E' tB kB (forall i, same_order (pi i)) p p' -> (forall i, (i < n)%nat -> valid_penalty p (J i)) -> MB Bs Bs' ->
  res_rel (fun a b => b = s * s * a) (penalty_list p Bs) (penalty_list p' Bs').
Proof.
  intros MP VP MM.
  assert (TS : tB * (kB * kB) = s * s) by (unfold h_X; cbn; ring).
  assert (GEN : res_rel (fun a b => b = s * s * a) (let* vs := mapM (penalty_mat p) Bs in Ok (lsum (N:=RNum) vs)) (let* vs := mapM (penalty_mat p') Bs' in Ok (lsum (N:=RNum) vs))).
  { destruct MM as (L1 & L2 & MM). apply (res_rel_bind (fun a b => lsum (N:=RNum) b = s * s * lsum (N:=RNum) a)); [|intros a b Hab; exact Hab].
    assert (SQ : forall (l : list rmat) (f : rmat -> res R), length l = n -> mapM f l = mapM (fun i => f (nth i l no_mat)) (seq 0 n)).
    { intros l f L. rewrite <- (mapM_map f (fun i => nth i l no_mat)). f_equal. apply (nth_ext _ _ no_mat no_mat); [now rewrite map_length, seq_length|]. intros i Hi. rewrite (nth_map_lt _ _ _ _ 0%nat) by (rewrite seq_length; lia). now rewrite seq_nth by lia. }
    rewrite (SQ Bs _ L1), (SQ Bs' _ L2).
    eapply res_rel_impl; [|apply (mapM_seq_rel _ _ (fun _ a b => b = s * s * a) 0 0 n)].
    - intros a b LL. apply (lrel_lsum n). exact LL.
    - intros i Hi. rewrite <- TS. apply (penalty_rel E E' (J i) rk (pi i) sg tB kB); eauto with sym. now apply pen_B. }
  destruct p as [|lo hi|reg nn|G U sv|reg l1|b nn| |nn|it ub uc], p' as [|lo' hi'|reg' nn'|G' U' sv'|reg' l1'|b' nn'| |nn'|it' ub' uc']; cbn [moved_pen] in MP; try contradiction; cbn [penalty_list]; try exact GEN; try (cbn [res_rel]; rn; ring).
  cbn [res_rel]. destruct MP as (-> & ->).
  assert (ES : lsum (N:=RNum) (map (@mabs_sum RNum) Bs') = kB * lsum (N:=RNum) (map (@mabs_sum RNum) Bs)).
  { apply (lrel_lsum n). eapply lrel_map; [exact (ml_lrel _ _ _ _ _ _ _ _ MM)|]. cbv beta. intros i B B' Hi HB. apply (mabs_sum_k (J i) rk (pi i) sg kB); eauto with sym. }
  rewrite ES, <- TS. rn. ring.
Qed.
Lemma reg_rel a b : state_rel a b -> res_rel (fun x y => y = s * s * x) (reg_penalty (st_cmf a) (st_rA a) (st_rB a) (st_rC a)) (reg_penalty (st_cmf b) (st_rA b) (st_rB b) (st_rC b)).
Proof.
  intros (M1 & M2 & M3 & M4 & _). unfold reg_penalty.
  assert (TA : tA * (kA * kA) = s * s) by (unfold h_X; cbn; ring). assert (TC : tC * (kC * kC) = s * s) by (unfold h_X; cbn; ring).
  eapply res_rel_bind; [apply (pens_rel _ _ areg (s * s)); [|exact M2]|].
  { intros g g' (G1 & G2 & _). cbv beta. rewrite <- TA. apply (penalty_rel E E' n rk id sg tA kA); eauto with sym. apply M1. }
  intros x x' Hx. eapply res_rel_bind; [apply (pens_rel _ _ breg (s * s)); [|exact M3]|].
  { intros g g' (G1 & G2 & _). cbv beta. apply penalties_B; auto. apply M1. }
  intros y y' Hy. eapply res_rel_bind; [apply (pens_rel _ _ creg (s * s)); [|exact M4]|].
  { intros g g' (G1 & G2 & _). cbv beta. rewrite <- TC. apply (penalty_rel E E' K rk ta sg tC kC); eauto with sym. apply M1. }
  intros w w' Hw. cbn [res_rel]. rewrite Hx, Hy, Hw. rn. ring.
Qed.
(** no penalty with a value *)
Definition only_constraints (a : state (N:=RNum)) : Prop :=
  Forall (fun g => constraint_only (g_pen g)) (st_rA a) /\ Forall (fun g => constraint_only (b_pen g)) (st_rB a) /\ Forall (fun g => constraint_only (g_pen g)) (st_rC a).
Definition loss_kept (a : state (N:=RNum)) : Prop := s = 1 \/ (p_l2A P = 0 /\ p_l2B P = 0 /\ p_l2C P = 0 /\ only_constraints a).
Lemma lsum_zero {G} (f : G -> res R) l x : (forall g v, In g l -> f g = Ok v -> v = 0) -> mapM f l = Ok x -> lsum (N:=RNum) x = 0.
Proof.
  revert x. induction l as [|g l IH]; cbn [mapM]; intros x H EQ; [injection EQ as <-; reflexivity|]. destruct (f g) as [v|] eqn:EV; [|discriminate]. cbn [bind] in EQ. destruct (mapM f l) as [u|]; [|discriminate]. injection EQ as <-.
  assert (E1 : lsum (N:=RNum) u = 0) by (apply IH; [intros g0 v0 Hg Hv; apply (H g0); [now right|exact Hv]|reflexivity]).
  assert (E2 : v = 0) by (apply (H g); [now left|exact EV]). rewrite (lsum_cons v u), E1, E2. cbn [num RNum]. lra.
Qed.
Lemma pen_zero p (M : rmat) v : constraint_only p -> penalty_mat p M = Ok v -> v = 0.
Proof. destruct p; cbn; intros H Q; try contradiction; try discriminate; now inversion Q. Qed.
Lemma pens_zero p (l : list rmat) v : constraint_only p -> penalty_list p l = Ok v -> v = 0.
Proof. destruct p; cbn; intros H Q; try contradiction; try discriminate; now inversion Q. Qed.
Lemma reg_zero a x : only_constraints a -> reg_penalty (st_cmf a) (st_rA a) (st_rB a) (st_rC a) = Ok x -> x = 0.
Proof.
  intros (C1 & C2 & C3). rewrite Forall_forall in C1, C2, C3. unfold reg_penalty.
  destruct (mapM (fun g => penalty_mat (g_pen g) (cA (st_cmf a))) (st_rA a)) as [u|] eqn:EU; [|discriminate]. cbn [bind].
  apply lsum_zero in EU; [|intros g v Hg; apply pen_zero; auto].
  destruct (mapM (fun g => penalty_list (b_pen g) (cBs (st_cmf a))) (st_rB a)) as [v|] eqn:EV; [|discriminate]. cbn [bind].
  apply lsum_zero in EV; [|intros g t Hg; apply pens_zero; auto].
  destruct (mapM (fun g => penalty_mat (g_pen g) (cC (st_cmf a))) (st_rC a)) as [w|] eqn:EW; [|discriminate]. cbn [bind].
  apply lsum_zero in EW; [|intros g t Hg; apply pen_zero; auto].
  intros Q. injection Q as <-. rewrite EU, EV, EW. rn. ring.
Qed.
Lemma loss_state a b : state_rel a b -> res_rel (fun x y => loss_kept a -> y = x) (state_loss P Xs a) (state_loss P' Xs' b).
Proof.
  intros H. unfold state_loss. pose proof (reg_rel a b H) as RR. destruct (reg_penalty (st_cmf a) _ _ _) as [x|] eqn:EX, (reg_penalty (st_cmf b) _ _ _) as [y|]; cbn [res_rel] in RR; try contradiction; [|exact RR].
  cbn [bind]. rewrite (error_state a b H). destruct (state_error Xs a) as [e| |]; cbn [res_rel]; try (intros; reflexivity).
  intros LK. f_equal. rewrite (l2_rel _ _ (proj1 H)), RR. destruct LK as [S1|(Z1 & Z2 & Z3 & OC)].
  - rewrite S1. rn. ring.
  - rewrite (reg_zero a x OC EX). rewrite Z1, Z2, Z3. unfold l2_reg. assert (T0 : ntruthy (N:=RNum) 0 = false) by (now apply ntruthy_R_false). rewrite T0. rn. ring.
Qed.
(** ** The loop *)
Definition pens_of (a : state (N:=RNum)) := (map (fun g => g_pen g) (st_rA a), map (fun g => b_pen g) (st_rB a), map (fun g => g_pen g) (st_rC a)).
Lemma only_pens a b : pens_of b = pens_of a -> only_constraints a -> only_constraints b.
Proof.
  intros Q (C1 & C2 & C3). unfold pens_of in Q. injection Q as Q1 Q2 Q3. unfold only_constraints.
  rewrite <- (Forall_map (fun g => g_pen g) constraint_only) in C1 |- *. rewrite <- (Forall_map (fun g => b_pen g) constraint_only) in C2 |- *. rewrite <- (Forall_map (fun g => g_pen g) constraint_only) in C3 |- *.
  rewrite Q1, Q2, Q3. auto.
Qed.
Lemma mapM_same {G T} (pen : G -> T) (f : G -> res G) : (forall g g', f g = Ok g' -> pen g' = pen g) -> forall l l', mapM f l = Ok l' -> map pen l' = map pen l.
Proof.
  intros H. induction l as [|g l IH]; cbn [mapM]; intros l' EQ; [injection EQ as <-; reflexivity|]. destruct (f g) as [g'|] eqn:EG; [|discriminate]. cbn [bind] in EQ. destruct (mapM f l) as [u|]; [|discriminate]. cbn [bind] in EQ.
  injection EQ as <-. cbn [map]. f_equal; [now apply H|now apply IH].
Qed.
Lemma inner_same {S T} (pen : S -> T) step conv : (forall a b, step a = Ok b -> pen b = pen a) -> forall m a b, inner_loop (S:=S) step conv m a = Ok b -> pen b = pen a.
Proof.
  intros H. induction m as [|m IH]; cbn [inner_loop]; intros a b EQ; [injection EQ as <-; reflexivity|]. destruct (step a) as [a'|] eqn:ES; [|discriminate]. cbn [bind] in EQ. destruct (conv a a') as [[|]|]; try discriminate; cbn [bind] in EQ.
  - injection EQ as <-. now apply H.
  - apply IH in EQ. rewrite EQ. now apply H.
Qed.
Ltac binds H := repeat match type of H with bind ?x _ = Ok _ => let E0 := fresh "EB" in destruct x as [?|] eqn:E0; [|discriminate H]; cbn [bind] in H end.
Lemma outer_pens a b : outer_step E P Xs a = Ok b -> pens_of b = pens_of a.
Proof.
  unfold outer_step. intros H. destruct (upd_B E P Xs a) as [a1|] eqn:EB; [|discriminate]. cbn [bind] in H. destruct (upd_C E P Xs a1) as [a2|] eqn:EB0; [|discriminate]. cbn [bind] in H.
  assert (P1 : pens_of a1 = pens_of a).
  { unfold upd_B in EB. destruct (p_updB P); [|injection EB as <-; reflexivity]. destruct (admm_update_B E Xs (st_cmf a) _ _ _ _ _ _) as [[c r]|] eqn:EU; [|discriminate]. injection EB as <-. unfold pens_of. cbn [st_rA st_rB st_rC]. do 2 f_equal.
    unfold admm_update_B in EU. cbv zeta in EU. destruct (feas_penalties _ _ _) as [fps|]; [|discriminate]; cbn [bind] in EU. destruct (inner_loop _ _ _ _) as [[Y r']|] eqn:EI; [|discriminate]; cbn [bind] in EU. injection EU as <- <-. 
    apply (inner_same (fun x => map (fun g => b_pen g) (snd x))) in EI; [exact EI|]. intros [B0 g0] [B1 g1] ES. unfold B_step in ES. binds ES. injection ES as <- <-. cbn [snd]. eapply mapM_same; [|eassumption].
    intros g g' EG. unfold B_reg_step in EG. cbv zeta in EG. binds EG. injection EG as <-. reflexivity. }
  assert (P2 : pens_of a2 = pens_of a1).
  { unfold upd_C in EB0. destruct (p_updC P); [|injection EB0 as <-; reflexivity]. destruct (admm_update_C E Xs (st_cmf a1) _ _ _ _ _) as [[c r]|] eqn:EU; [|discriminate]. injection EB0 as <-. unfold pens_of. cbn [st_rA st_rB st_rC]. f_equal.
    unfold admm_update_C in EU. destruct (msum_list _) as [?|]; [|discriminate]. destruct (msum_list _) as [?|]; [|discriminate]. cbv zeta in EU. destruct (inner_loop _ _ _ _) as [[Y r']|] eqn:EI; [|discriminate]; cbn [bind] in EU. injection EU as <- <-.
    apply (inner_same (fun x => map (fun g => g_pen g) (snd x))) in EI; [exact EI|]. intros [B0 g0] [B1 g1] ES. unfold C_step in ES. binds ES. injection ES as <- <-. cbn [snd]. eapply mapM_same; [|eassumption].
    intros g g' EG. unfold C_reg_step in EG. cbv zeta in EG. binds EG. injection EG as <-. reflexivity. }
  rewrite <- P1, <- P2. unfold upd_A in H. destruct (p_updA P); [|injection H as <-; reflexivity]. destruct (admm_update_A E Xs (st_cmf a2) _ _ _ _ _ _) as [[[c r] i]|] eqn:EU; [|discriminate]. injection H as <-. unfold pens_of. cbn [st_rA st_rB st_rC]. do 2 f_equal.
  unfold admm_update_A in EU. cbv zeta in EU. destruct (feas_penalties _ _ _) as [fps|]; [|discriminate]; cbn [bind] in EU. destruct (inner_loop _ _ _ _) as [[Y r']|] eqn:EI; [|discriminate]; cbn [bind] in EU. injection EU as <- <- <-.
  apply (inner_same (fun x => map (fun g => g_pen g) (snd x))) in EI; [exact EI|]. intros [B0 g0] [B1 g1] ES. unfold A_step in ES. binds ES. injection ES as <- <-. cbn [snd]. eapply mapM_same; [|eassumption].
  intros g g' EG. unfold A_reg_step in EG. cbv zeta in EG. binds EG. injection EG as <-. reflexivity.
Qed.
Lemma kept_next a b : outer_step E P Xs a = Ok b -> loss_kept a -> loss_kept b.
Proof. intros H [S1|(Z1 & Z2 & Z3 & OC)]; [now left|right]. repeat (split; [assumption|]). apply (only_pens a b); [apply outer_pens; exact H|exact OC]. Qed.
(** [LK]: the losses agree *)
Variable LK : Prop.
Hypothesis HL : LK \/ otruthy (N:=RNum) (p_tol P) = false.
Definition hist_rel (u v : hist (N:=RNum)) : Prop := h_errors v = h_errors u /\ h_gaps v = h_gaps u /\ (LK -> h_losses v = h_losses u).
Definition end_rel (u v : state (N:=RNum) * hist (N:=RNum) * nat * message) : Prop :=
  let '(a, g, it, m) := u in let '(b, g', it', m') := v in state_rel a b /\ hist_rel g g' /\ it' = it /\ m' = m.
Lemma loop_rel : forall m it a b g g', (LK -> loss_kept a) -> state_rel a b -> hist_rel g g' -> res_rel end_rel (ao_loop E P Xs m it a g) (ao_loop E' P' Xs' m it b g').
Proof.
  induction m as [|m IH]; intros it a b g g' HLK HS HG; cbn [ao_loop]; [cbn [res_rel]; unfold end_rel; auto|].
  assert (EP : p_tol P' = p_tol P /\ p_abs_tol P' = p_abs_tol P /\ p_feas_tol P' = p_feas_tol P /\ p_return_errors P' = p_return_errors P) by (rewrite HP; auto). destruct EP as (-> & -> & -> & ->).
  pose proof (outer_rel a b HS) as OR. destruct (outer_step E P Xs a) as [a1|] eqn:EO, (outer_step E' P' Xs' b) as [b1|]; cbn [res_rel] in OR; try contradiction; [|exact OR]. cbn [bind].
  assert (HLK1 : LK -> loss_kept a1) by (intros L; eapply kept_next; [exact EO|auto]).
  destruct (otruthy (p_tol P) || otruthy (p_abs_tol P) || p_return_errors P); [|apply IH; auto].
  rewrite (gaps_state a1 b1 OR). destruct (state_gaps a1) as [gp|]; [|reflexivity]. cbn [bind]. destruct HG as (G1 & G2 & G3).
  match goal with |- context [if ?x then ao_loop _ _ _ _ _ _ _ else _] => destruct x end.
  { apply IH; auto. split; [exact G1|]. split; [cbn [h_gaps]; now rewrite G2|exact G3]. }
  pose proof (loss_state a1 b1 OR) as LR. destruct (state_loss P Xs a1) as [l|], (state_loss P' Xs' b1) as [l'|]; cbn [res_rel] in LR; try contradiction; [|exact LR]. cbn [bind]. rewrite (error_state a1 b1 OR).
  assert (HG2 : hist_rel (Hist (h_errors g ++ [state_error Xs a1]) (h_gaps g ++ [gp]) (h_losses g ++ [l])) (Hist (h_errors g' ++ [state_error Xs a1]) (h_gaps g' ++ [gp]) (h_losses g' ++ [l']))).
  { unfold hist_rel. cbn [h_errors h_gaps h_losses]. rewrite G1, G2. split; [reflexivity|]. split; [reflexivity|]. intros L. now rewrite (G3 L), (LR (HLK1 L)). }
  cbn [h_gaps]. destruct (p_tol P) as [tol|] eqn:ET; [|apply IH; auto]. destruct (ntruthy tol) eqn:TT; [|apply IH; auto]. destruct (p_abs_tol P) as [ab|]; [|reflexivity].
  assert (L : LK) by (destruct HL as [L|L]; [exact L|cbn [otruthy] in L; congruence]). rewrite (G3 L) in *. rewrite (LR (HLK1 L)) in *.
  match goal with |- context [if ?x then Ok _ else _] => destruct x end; [cbn [res_rel]; unfold end_rel; auto|].
  match goal with |- context [if ?x then Ok _ else _] => destruct x end; [cbn [res_rel]; unfold end_rel; auto|]. apply IH; auto.
Qed.
Definition diag_rel (u v : option (diagnostics (N:=RNum))) : Prop :=
  match u, v with
  | None, None => True
  | Some d, Some d' => d_errors d' = d_errors d /\ d_gaps d' = d_gaps d /\ (LK -> d_losses d' = d_losses d) /\
      d_stopped d' = d_stopped d /\ d_feasible d' = d_feasible d /\ d_n_iter d' = d_n_iter d /\ d_message d' = d_message d
  | _, _ => False
  end.
Lemma init_rel a b : (LK -> loss_kept a) -> state_rel a b -> res_rel hist_rel (init_hist P Xs a) (init_hist P' Xs' b).
Proof.
  intros HLK HS. unfold init_hist. cbv zeta. rewrite (error_state a b HS), (gaps_state a b HS).
  pose proof (loss_state a b HS) as LR. destruct (state_loss P Xs a) as [l|], (state_loss P' Xs' b) as [l'|]; cbn [res_rel] in LR; try contradiction; [|exact LR]. cbn [bind]. destruct (state_gaps a) as [gp|]; [|reflexivity]. cbn [bind res_rel]. 
  unfold hist_rel. cbn [h_errors h_gaps h_losses]. split; [reflexivity|]. split; [reflexivity|]. intros L. now rewrite (LR (HLK L)).
Qed.
Lemma revalidate_rel c c' : moved_cmf z h c c' -> revalidate (N:=RNum) c = Ok c /\ revalidate (N:=RNum) c' = Ok c'.
Proof.
  intros (W & M1 & M2 & M3).
  assert (G : forall d : rcmf, match cw d with None => True | Some w => length w = rk end -> shaped (cA d) n rk -> list_shaped n J rk (cBs d) -> shaped (cC d) K rk -> revalidate (N:=RNum) d = Ok d).
  { intros d HW (WA & RA & CA) (LB & SB) (WC & RC & CC). apply revalidate_ok. split; [assumption|]. split; [assumption|]. split; [congruence|]. split; [congruence|]. split.
    - intros i Hi. destruct (SB i ltac:(congruence)) as (W1 & W2 & W3). split; [exact W1|]. unfold nthB. congruence.
    - intros w Ew. rewrite Ew in HW. congruence. }
  assert (B1 : list_shaped n J rk (cBs c) /\ list_shaped n J rk (cBs c')) by (destruct M2 as (L1 & L2 & M2); split; (split; [assumption|]); intros i Hi; destruct (M2 i Hi) as (S1 & S2 & _); assumption).
  split; apply G; try tauto; try apply M1; try apply M3; destruct (cw c), (cw c'); try contradiction; auto; apply W.
Qed.
Lemma run_rel m a b : (LK -> loss_kept a) -> state_rel a b ->
  res_rel (fun u v => state_rel (fst u) (fst v) /\ diag_rel (snd u) (snd v)) (run E P Xs m a) (run E' P' Xs' m b).
Proof.
  intros HLK HS. unfold run. eapply res_rel_bind; [now apply init_rel|]. intros g g' HG. eapply res_rel_bind; [now apply loop_rel|]. intros [[[a1 g1] it] ms] [[[b1 g1'] it'] ms'] (HS1 & (G1 & G2 & G3) & -> & ->). cbv beta zeta.
  assert (EP : p_tol P' = p_tol P /\ p_abs_tol P' = p_abs_tol P /\ p_feas_tol P' = p_feas_tol P /\ p_return_errors P' = p_return_errors P) by (rewrite HP; auto). destruct EP as (-> & -> & -> & ->).
  rewrite (gaps_state a1 b1 HS1).
  match goal with |- res_rel _ (bind ?x _) _ => destruct x as [fe|] end; [|reflexivity]. cbn [bind]. destruct (revalidate_rel _ _ (proj1 HS1)) as (R1 & R2). rewrite R1, R2. cbn [bind].
  assert (HS2 : state_rel (St (st_cmf a1) (st_rA a1) (st_rB a1) (st_rC a1) (st_inter a1)) (St (st_cmf b1) (st_rA b1) (st_rB b1) (st_rC b1) (st_inter b1))) by exact HS1.
  destruct (p_return_errors P); cbn [res_rel fst snd]; (split; [exact HS2|]); [|exact Logic.I]. cbn [diag_rel d_errors d_gaps d_losses d_stopped d_feasible d_n_iter d_message]. rewrite G1, G2. auto 8.
Qed.
End Sym.
