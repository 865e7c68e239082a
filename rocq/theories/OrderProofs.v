(** Exact constraints under any arithmetic: penalties, inner and outer loops. *)
From Coq Require Import Lia List Arith Bool ZArith.
From Verif Require Import Num Numpy RFacts Unimodal Penalties CoupledMatrices Decomp OrderSpec OrderUni.
Import ListNotations.

Section OrderProofs.
Context {N : Num}.

(** ** Shapes of built matrices *)
Lemma me_mbuild r c (f : nat -> nat -> num) : me (mbuild r c f) = map (fun i => map (f i) (seq 0 c)) (seq 0 r).
Proof. reflexivity. Qed.
Lemma every_mbuild (Q : num -> Prop) r c f : (forall i j, i < r -> j < c -> Q (f i j)) -> every Q (mbuild r c f).
Proof.
  intros H. unfold every. rewrite me_mbuild. apply Forall_forall. intros row Hr. apply in_map_iff in Hr as (i & <- & Hi). apply in_seq in Hi.
  apply Forall_forall. intros x Hx. apply in_map_iff in Hx as (j & <- & Hj). apply in_seq in Hj. apply H; lia.
Qed.
Lemma every_mmap (Q : num -> Prop) f (M : mat) : (forall x, Q (f x)) -> every Q (mmap f M).
Proof. intros H. apply every_mbuild. intros; apply H. Qed.
Definition built (M : mat) : Prop := exists r c f, M = mbuild r c f.
Lemma col_mbuild r c (f : nat -> nat -> num) j : j < c -> the_column (mbuild r c f) j = map (fun i => f i j) (seq 0 r).
Proof.
  intros Hj. unfold the_column. rewrite me_mbuild, map_map. apply map_ext. intros i. unfold entry. now apply nth_map_seq.
Qed.
Lemma mapM_Forall {A B} (f : A -> res B) (P : B -> Prop) l m : (forall x y, In x l -> f x = Ok y -> P y) -> mapM f l = Ok m -> Forall P m.
Proof.
  revert m. induction l as [|x l IH]; intros m H E; cbn [mapM] in E; [injection E as <-; constructor|].
  destruct (f x) as [y|] eqn:EX; [|discriminate]. cbn [bind] in E. destruct (mapM f l) as [ys|] eqn:EL; [|discriminate]. injection E as <-.
  constructor; [apply (H x); auto; now left|]. apply IH; [intros; eapply H; eauto; now right|reflexivity].
Qed.
Lemma mapM_length {A B} (f : A -> res B) l m : mapM f l = Ok m -> length m = length l.
Proof.
  revert m. induction l as [|x l IH]; intros m E; cbn [mapM] in E; [injection E as <-; reflexivity|].
  destruct (f x) as [y|]; [|discriminate]. cbn [bind] in E. destruct (mapM f l) as [ys|]; [|discriminate]. injection E as <-. cbn. now rewrite (IH ys).
Qed.
Lemma mapM_nth {A B} (f : A -> res B) l m : mapM f l = Ok m -> forall i da db, i < length l -> f (nth i l da) = Ok (nth i m db).
Proof.
  revert m. induction l as [|x l IH]; intros m E i da db Hi; cbn [mapM] in E; [cbn in Hi; lia|].
  destruct (f x) as [y|] eqn:EX; [|discriminate]. cbn [bind] in E. destruct (mapM f l) as [ys|]; [|discriminate]. injection E as <-.
  destruct i; cbn in *; [exact EX|]. apply IH; [reflexivity|lia].
Qed.
Lemma mcol_mbuild r c (f : nat -> nat -> num) j : j < c -> mcol (mbuild r c f) j = map (fun i => f i j) (seq 0 r).
Proof. intros Hj. exact (col_mbuild r c f j Hj). Qed.

(** ** One update *)
Hypothesis HO : ordered.
Lemma relu_nonneg x : le n0 (relu x).
Proof. unfold relu, clip1. apply max_r, HO. Qed.
Lemma clip_lo lo hi x l : consistent (Box lo hi) -> lo = Some l -> le l (clip1 lo hi x).
Proof.
  intros C ->. unfold clip1. destruct hi as [h|]; [|apply max_r, HO]. apply (min_case _ _ (le l)); [apply max_r, HO|exact C].
Qed.
Lemma clip_hi lo hi x h : hi = Some h -> le (clip1 lo hi x) h.
Proof. intros ->. unfold clip1. apply min_r, HO. Qed.
Lemma le_trans' x y z : le x y -> le y z -> le x z. Proof. apply HO. Qed.

Lemma all_some_map (l : list num) : all_some (map Some l) = Some l.
Proof. induction l as [|x l IH]; [reflexivity|]. cbn. now rewrite IH. Qed.
Lemma opt_get_Some (l : list num) : map opt_get (map Some l) = l.
Proof. rewrite map_map. apply map_id. Qed.

Lemma vget_Forall (Q : num -> Prop) v i : Forall Q v -> i < length v -> Q (vget v i).
Proof. intros F H. rewrite Forall_forall in F. apply F. now apply nth_In. Qed.
Lemma col_of_cols r cols j : j < length cols -> length (nth j cols []) = r -> the_column (of_cols r cols) j = nth j cols [].
Proof.
  intros Hj L. unfold of_cols. rewrite col_mbuild by exact Hj. apply (nth_ext _ _ n0 n0); [now rewrite map_length, seq_length|].
  intros i Hi. rewrite map_length, seq_length in Hi. now rewrite nth_map_seq.
Qed.
Lemma every_of_cols (Q : num -> Prop) r cols : (forall j, j < length cols -> length (nth j cols []) = r /\ Forall Q (nth j cols [])) -> every Q (of_cols r cols).
Proof.
  intros H. apply every_mbuild. intros i j Hi Hj. destruct (H j Hj) as (L & F). apply vget_Forall; [exact F|now rewrite L].
Qed.
Lemma simplex_col_ok col u : simplex_col col = Ok u -> length u = length col /\ Forall (le n0) u.
Proof.
  unfold simplex_col. destruct (lagrange_multiplier col) as [mu|]; [|discriminate]. cbn [bind]. intros H. injection H as <-.
  split; [apply map_length|]. apply Forall_forall. intros x Hx. apply in_map_iff in Hx as (y & <- & _). apply relu_nonneg.
Qed.

Theorem update_meets (E : ext) (p : penalty) (r c : nat) (f : nat -> nat -> num) (rho : num) (X : mat) :
  consistent p -> (match p with L2Ball _ true => product_signs | _ => True end) ->
  factor_matrix_update E p (mbuild r c f) rho = Ok X -> meets p X.
Proof.
  intros C PS H. set (fm := mbuild r c f) in *. assert (CM : mc fm = c /\ mr fm = r) by (split; reflexivity). destruct CM as (CM & RM).
  destruct p as [|lo hi|reg nn|M U s|reg l1|bound nn| |nn|n ub uc]; cbn [factor_matrix_update meets] in *; try exact Logic.I; try discriminate.
  - injection H as <-. apply every_mmap, relu_nonneg.
  - destruct (clip_ok lo hi); [|discriminate]. injection H as <-. split; intros b Hb; apply every_mmap; intros x; [now apply clip_lo|now apply clip_hi].
  - destruct nn; [|exact Logic.I]. destruct (negb (ntruthy rho)); [discriminate|]. injection H as <-. apply every_mmap. intros; apply relu_nonneg.
  - destruct nn; [|exact Logic.I]. cbv zeta in H. injection H as <-. unfold mcoldiv. apply every_mbuild. intros i j Hi Hj. destruct PS as (PM & PD). cbn [mr mc] in Hi, Hj.
    apply PD.
    + unfold mscale, mmap, mget. cbn [mr mc me mbuild]. rewrite nth_map_seq by exact Hi. rewrite nth_map_seq by exact Hj. apply PM.
      * unfold consistent, lt in C. destruct (le_total HO n0 bound); [assumption|contradiction].
      * rewrite nth_map_seq by exact Hi. rewrite nth_map_seq by exact Hj. apply relu_nonneg.
    + unfold vget. match goal with |- context[nth j (map ?g ?l) n0] => set (nr := l) end.
      assert (Ln : length nr = c) by (unfold nr, col_norms, vbuild; now rewrite map_length, seq_length).
      rewrite (nth_indep _ n0 (clip1 (Some bound) None n0)) by (rewrite map_length, Ln; exact Hj). rewrite map_nth.
      intros K. apply C. apply (le_trans' _ _ _ (clip_lo (Some bound) None _ bound Logic.I eq_refl) K).
  - destruct (mapM _ _) as [cols|] eqn:EM; [|discriminate]. cbn [bind] in H. injection H as <-.
    apply every_of_cols. intros j Hj. pose proof (mapM_length _ _ _ EM) as LM. rewrite seq_length, CM in LM.
    pose proof (mapM_nth _ _ _ EM j 0 []) as EJ. rewrite CM, seq_length in EJ. specialize (EJ ltac:(lia)). rewrite seq_nth in EJ by lia. cbn [Nat.add] in EJ.
    apply simplex_col_ok in EJ as (L & F). split; [|exact F]. rewrite L. unfold fm. rewrite mcol_mbuild by lia. now rewrite map_length, seq_length.
  - destruct (unimodal_regression_cols store_float fm nn) as [cols|] eqn:EM; [|discriminate]. cbn [bind] in H.
    unfold unimodal_regression_cols in EM. rewrite CM in EM. destruct (c =? 0); [discriminate|].
    destruct (all_some (concat cols)); [|discriminate]. injection H as <-.
    pose proof (mapM_length _ _ _ EM) as LM. rewrite seq_length in LM.
    assert (K : forall j, j < length (map (map opt_get) cols) -> length (nth j (map (map opt_get) cols) []) = r /\
      peaked (nth j (map (map opt_get) cols) []) /\ (nn = true -> Forall (le n0) (nth j (map (map opt_get) cols) []))).
    { intros j Hj. rewrite map_length in Hj. change (@nil num) with (map (@opt_get N) []). rewrite map_nth.
      pose proof (mapM_nth _ _ _ EM j 0 []) as EJ. rewrite seq_length in EJ. specialize (EJ ltac:(lia)). rewrite seq_nth in EJ by lia. cbn [Nat.add] in EJ.
      destruct (Nat.eq_dec r 0) as [R0|R0].
      - exfalso. unfold fm in EJ. rewrite mcol_mbuild in EJ by lia. rewrite R0 in EJ. discriminate EJ.
      - assert (NE : mcol fm j <> []). { unfold fm. rewrite mcol_mbuild by lia. destruct r; [easy|discriminate]. }
        destruct (regression_peaked HO store_float (mcol fm j) nn NE) as (u & EU & LU & PU & NU). rewrite EU in EJ. injection EJ as EJ. rewrite <- EJ, opt_get_Some.
        split; [rewrite LU; unfold fm; rewrite mcol_mbuild by lia; now rewrite map_length, seq_length|]. auto. }
    split.
    + intros j Hj. change (mc (of_cols (mr fm) (map (map opt_get) cols))) with (length (map (map (@opt_get N)) cols)) in Hj.
      destruct (K j Hj) as (L & P & _). rewrite col_of_cols; auto.
    + intros Hn. apply every_of_cols. intros j Hj. destruct (K j Hj) as (L & _ & F). auto.
Qed.

Lemma row_meets p V fps X : consistent p -> rows_update p V fps = Ok X -> meets p X.
Proof.
  intros C H. unfold rows_update in H. destruct (mapM _ _) as [rows|] eqn:EM; [|discriminate]. cbn [bind] in H. injection H as <-.
  assert (K : forall Q : num -> Prop, (forall row rho u, row_update p row rho = Ok u -> Forall Q u) -> every Q (Mat (mr V) (mc V) rows)).
  { intros Q HQ. apply (mapM_Forall _ (Forall Q)) in EM; [exact EM|]. intros i u _ Hu. eapply HQ. exact Hu. }
  assert (FM : forall (Q : num -> Prop) (g : num -> num) row, (forall x, Q (g x)) -> Forall Q (map g row)).
  { intros Q g row HQ. apply Forall_forall. intros x Hx. apply in_map_iff in Hx as (y & <- & _). apply HQ. }
  destruct p as [|lo hi|reg nn|M U s|reg l1|bound nn| |nn|n ub uc]; cbn [meets]; try exact Logic.I.
  - apply K. intros row rho u H. injection H as <-. apply FM, relu_nonneg.
  - split; intros b Hb; apply K; intros row rho u H; cbn [row_update] in H; (destruct (clip_ok lo hi); [|discriminate]); injection H as <-;
      apply FM; intros x; [now apply clip_lo|now apply clip_hi].
  - destruct nn; [|exact Logic.I]. apply K. intros row rho u H. cbn [row_update] in H. destruct (negb (ntruthy rho)); [discriminate|].
    injection H as <-. apply FM. intros; apply relu_nonneg.
  - destruct nn; [|exact Logic.I]. apply K. discriminate.
  - apply K. discriminate.
  - destruct (seq 0 (length fps)) as [|i l] eqn:ES; cbn [mapM] in EM; [|discriminate]. injection EM as <-.
    split; [|intros _; constructor]. intros j _ NE. now destruct NE.
Qed.

(** ** The inner loops *)
(** A usable penalty: consistent, and with sign rules if it is a non-negative ball. *)
Definition usable (p : penalty) : Prop := consistent p /\ (match p with L2Ball _ true => product_signs | _ => True end).
Definition m_meets (g : mreg) : Prop := usable (g_pen g) -> meets (g_pen g) (g_aux g).
Definition b_meets (g : breg) : Prop := usable (b_pen g) -> meets_all (b_pen g) (b_aux g).
Lemma A_reg_meets E b fps A g g' : A_reg_step E b fps A g = Ok g' -> g_pen g' = g_pen g /\ m_meets g'.
Proof.
  intros H. unfold A_reg_step in H. cbv zeta in H.
  match type of H with (let* aux := ?e in _) = _ => destruct e as [aux|] eqn:EA; [|discriminate] end. cbn [bind] in H.
  destruct (subtract_from_aux _ _ _) as [sh|]; [|discriminate]. cbn [bind] in H. injection H as <-. split; [reflexivity|]. unfold m_meets. cbn [g_pen g_aux]. intros (C & PS).
  destruct b; [|now apply row_meets in EA]. unfold madd, mmap2 in EA. now apply update_meets in EA.
Qed.
Lemma C_reg_meets E fp C g g' : C_reg_step E fp C g = Ok g' -> g_pen g' = g_pen g /\ m_meets g'.
Proof.
  intros H. unfold C_reg_step in H.
  destruct (factor_matrix_update _ _ _ _) as [aux|] eqn:EA; [|discriminate]. cbn [bind] in H.
  destruct (subtract_from_aux _ _ _) as [sh|]; [|discriminate]. cbn [bind] in H. injection H as <-. split; [reflexivity|]. unfold m_meets. cbn [g_pen g_aux]. intros (CO & PS).
  unfold madd, mmap2 in EA. now apply update_meets in EA.
Qed.
Lemma list_meets E p : usable p -> forall fms rhos n r, Forall built fms -> matrices_update_list E p fms rhos n = Ok r -> Forall (meets p) r.
Proof.
  intros (C & PS). induction fms as [|fm fms IH]; intros rhos n r HB H; cbn [matrices_update_list] in H; [injection H as <-; constructor|].
  destruct rhos as [|rho rhos]; [injection H as <-; constructor|]. destruct n as [|n]; [injection H as <-; constructor|].
  destruct (factor_matrix_update E p fm rho) as [x|] eqn:EX; [|discriminate]. cbn [bind] in H.
  destruct (matrices_update_list E p fms rhos n) as [xs|] eqn:EL; [|discriminate]. cbn [bind] in H. injection H as <-.
  inversion HB as [|? ? (r0 & c0 & f & ->) HB']; subst. constructor; [now apply update_meets in EX|]. eapply IH; eauto.
Qed.
Lemma built_map2_madd Bs D : Forall built (map2 madd Bs D).
Proof.
  revert D. induction Bs as [|B Bs IH]; intros [|d D]; cbn; try constructor; [|apply IH]. unfold madd, mmap2. do 3 eexists. reflexivity.
Qed.
Lemma B_reg_meets E fps Bs g g' : B_reg_step E fps Bs g = Ok g' -> b_pen g' = b_pen g /\ b_meets g'.
Proof.
  intros H. unfold B_reg_step in H. cbv zeta in H. destruct (factor_matrices_update _ _ _ _ _) as [aux|] eqn:EA; [|discriminate]. cbn [bind] in H.
  destruct (subtract_from_auxes _ _ _) as [sh|]; [|discriminate]. cbn [bind] in H. injection H as <-. split; [reflexivity|]. unfold b_meets. cbn [b_pen b_aux]. intros U.
  destruct aux as [l|]; [|exact Logic.I]. cbn [meets_all].
  unfold factor_matrices_update in EA. destruct (b_pen g) as [|lo hi|reg nn|M0 U0 s|reg l1|bound nn| |nn|n ub uc] eqn:EP, (b_aux g) as [l0|ba co]; try discriminate;
    try (destruct (matrices_update_list _ _ _ _ _) as [r|] eqn:EL; [|discriminate]; cbn [bind] in EA; injection EA as <-; eapply list_meets; [exact U|apply built_map2_madd|exact EL]).
  destruct (pf2_loop _ _ _ _ _ _ _ _) as [[? ?]|]; discriminate.
Qed.
Lemma regs_step {G} (step : G -> res G) (pen : G -> penalty) (ok : G -> Prop) regs regs' :
  (forall g g', step g = Ok g' -> pen g' = pen g /\ ok g') ->
  mapM step regs = Ok regs' -> map pen regs' = map pen regs /\ Forall ok regs'.
Proof.
  intros HS. revert regs'. induction regs as [|g l IH]; intros regs' H; cbn [mapM] in H; [injection H as <-; split; [reflexivity|constructor]|].
  destruct (step g) as [g'|] eqn:EG; [|discriminate]. cbn [bind] in H. destruct (mapM step l) as [l'|]; [|discriminate]. injection H as <-.
  destruct (HS g g') as (K1 & K2); auto. destruct (IH l') as (K3 & K4); auto. split; [cbn; congruence|now constructor].
Qed.
Lemma inner_keeps {S} (step : S -> res S) conv (P Q : S -> Prop) :
  (forall s s', P s -> step s = Ok s' -> P s' /\ Q s') ->
  forall n s s', P s -> inner_loop step conv n s = Ok s' -> P s' /\ (0 < n -> Q s').
Proof.
  intros HS. induction n as [|n IH]; intros s s' HP H; cbn [inner_loop] in H; [injection H as <-; split; [exact HP|lia]|].
  destruct (step s) as [s1|] eqn:E1; [|discriminate]. cbn [bind] in H. destruct (conv s s1) as [b|]; [|discriminate]. cbn [bind] in H.
  destruct (HS _ _ HP E1) as (P1 & Q1). destruct b; [injection H as <-; auto|]. destruct (IH _ _ P1 H) as (P2 & Q2). split; [exact P2|]. intros _.
  destruct n; [|apply Q2; lia]. cbn [inner_loop] in H. injection H as <-. exact Q1.
Qed.
Definition mpens (l : list mreg) : list penalty := map g_pen l.
Definition bpens (l : list breg) : list penalty := map b_pen l.
Lemma inner_meets {F G} (step : F * list G -> res (F * list G)) conv (pen : G -> penalty) (ok : G -> Prop) (ps : list penalty) :
  (forall f regs f' regs', step (f, regs) = Ok (f', regs') -> map pen regs' = map pen regs /\ Forall ok regs') ->
  forall n f regs f' regs', map pen regs = ps -> inner_loop step conv n (f, regs) = Ok (f', regs') -> map pen regs' = ps /\ (0 < n -> Forall ok regs').
Proof.
  intros HS n f regs f' regs' E H.
  refine (inner_keeps step conv (fun s => map pen (snd s) = ps) (fun s => Forall ok (snd s)) _ n (f, regs) (f', regs') E H).
  intros [f1 r1] [f2 r2] K1 K2. cbn [snd] in *. destruct (HS f1 r1 f2 r2) as (K3 & K4); [exact K2|split; [congruence|exact K4]].
Qed.
Lemma update_A_meets E Xs c regs l2 n tol scale b c' regs' i :
  admm_update_A E Xs c regs l2 n tol scale b = Ok (c', regs', i) -> mpens regs' = mpens regs /\ (0 < n -> Forall m_meets regs').
Proof.
  intros H. unfold admm_update_A in H. cbv zeta in H. destruct (feas_penalties _ _ _) as [fps|]; [|discriminate]. cbn [bind] in H.
  destruct (inner_loop _ _ _ _) as [[A r]|] eqn:EI; [|discriminate]. cbn [bind] in H. injection H as <- <- <-.
  refine (inner_meets _ _ g_pen m_meets (mpens regs) _ n (cA c) regs A r eq_refl EI).
  intros f r0 f' r1 H. unfold A_step in H. destruct (shifted_mats r0) as [sh|]; [|discriminate]. cbn [bind] in H.
  destruct (mapM _ (seq 0 (mr f))) as [rows|]; [|discriminate]. cbn [bind] in H.
  destruct (mapM (A_reg_step _ _ _ _) r0) as [r2|] eqn:ER; [|discriminate]. cbn [bind] in H. injection H as <- <-.
  refine (regs_step _ g_pen m_meets r0 r2 _ ER). intros g g' Hg. eapply A_reg_meets; eassumption.
Qed.
Lemma update_C_meets E Xs c regs l2 n tol scale c' regs' :
  admm_update_C E Xs c regs l2 n tol scale = Ok (c', regs') -> mpens regs' = mpens regs /\ (0 < n -> Forall m_meets regs').
Proof.
  intros H. unfold admm_update_C in H. destruct (msum_list _) as [lhs|]; [|discriminate]. destruct (msum_list _) as [rhs|]; [|discriminate]. cbv zeta in H.
  destruct (inner_loop _ _ _ _) as [[A r]|] eqn:EI; [|discriminate]. cbn [bind] in H. injection H as <- <-.
  refine (inner_meets _ _ g_pen m_meets (mpens regs) _ n (cC c) regs A r eq_refl EI).
  intros f r0 f' r1 H. unfold C_step in H. destruct (shifted_mats r0) as [sh|]; [|discriminate]. cbn [bind] in H.
  destruct (solve_mat _ _) as [C'|]; [|discriminate]. cbn [bind] in H.
  destruct (mapM (C_reg_step _ _ _) r0) as [r2|] eqn:ER; [|discriminate]. cbn [bind] in H. injection H as <- <-.
  refine (regs_step _ g_pen m_meets r0 r2 _ ER). intros g g' Hg. eapply C_reg_meets; eassumption.
Qed.
Lemma update_B_meets E Xs c regs l2 n tol scale b c' regs' :
  admm_update_B E Xs c regs l2 n tol scale b = Ok (c', regs') -> bpens regs' = bpens regs /\ (0 < n -> Forall b_meets regs').
Proof.
  intros H. unfold admm_update_B in H. cbv zeta in H. destruct (feas_penalties _ _ _) as [fps|]; [|discriminate]. cbn [bind] in H.
  destruct (inner_loop _ _ _ _) as [[A r]|] eqn:EI; [|discriminate]. cbn [bind] in H. injection H as <- <-.
  refine (inner_meets _ _ b_pen b_meets (bpens regs) _ n (cBs c) regs A r eq_refl EI).
  intros f r0 f' r1 H. unfold B_step in H. destruct (shifted_lists r0) as [sh|]; [|discriminate]. cbn [bind] in H.
  destruct (mapM _ (seq 0 (length f))) as [rows|]; [|discriminate]. cbn [bind] in H.
  destruct (mapM (B_reg_step _ _ _) r0) as [r2|] eqn:ER; [|discriminate]. cbn [bind] in H. injection H as <- <-.
  refine (regs_step _ b_pen b_meets r0 r2 _ ER). intros g g' Hg. eapply B_reg_meets; eassumption.
Qed.

(** ** The outer loop *)
Definition same_pens (s s' : state) : Prop := mpens (st_rA s') = mpens (st_rA s) /\ bpens (st_rB s') = bpens (st_rB s) /\ mpens (st_rC s') = mpens (st_rC s).
Definition state_meets (P : params) (s : state) : Prop :=
  (p_updA P = true -> Forall m_meets (st_rA s)) /\ (p_updB P = true -> Forall b_meets (st_rB s)) /\ (p_updC P = true -> Forall m_meets (st_rC s)).
Lemma outer_meets E P Xs s s' : 0 < p_inner P -> outer_step E P Xs s = Ok s' -> same_pens s s' /\ state_meets P s'.
Proof.
  intros Hi H. unfold outer_step in H.
  destruct (upd_B E P Xs s) as [s1|] eqn:E1; [|discriminate]. cbn [bind] in H. destruct (upd_C E P Xs s1) as [s2|] eqn:E2; [|discriminate]. cbn [bind] in H.
  assert (K1 : st_rA s1 = st_rA s /\ st_rC s1 = st_rC s /\ bpens (st_rB s1) = bpens (st_rB s) /\ (p_updB P = true -> Forall b_meets (st_rB s1))).
  { unfold upd_B in E1. destruct (p_updB P).
    - destruct (admm_update_B _ _ _ _ _ _ _ _ _) as [[c r]|] eqn:EU; [|discriminate]. cbn [bind] in E1. injection E1 as <-.
      destruct (update_B_meets _ _ _ _ _ _ _ _ _ _ _ EU) as (K1 & K2). cbn. auto.
    - injection E1 as <-. cbn. repeat split. discriminate. }
  destruct K1 as (A1 & C1 & B1 & M1).
  assert (K2 : st_rA s2 = st_rA s1 /\ st_rB s2 = st_rB s1 /\ mpens (st_rC s2) = mpens (st_rC s1) /\ (p_updC P = true -> Forall m_meets (st_rC s2))).
  { unfold upd_C in E2. destruct (p_updC P).
    - destruct (admm_update_C _ _ _ _ _ _ _ _) as [[c r]|] eqn:EU; [|discriminate]. cbn [bind] in E2. injection E2 as <-.
      destruct (update_C_meets _ _ _ _ _ _ _ _ _ _ EU) as (K1 & K2). cbn. auto.
    - injection E2 as <-. repeat split. discriminate. }
  destruct K2 as (A2 & B2 & C2 & M2).
  assert (K3 : st_rB s' = st_rB s2 /\ st_rC s' = st_rC s2 /\ mpens (st_rA s') = mpens (st_rA s2) /\ (p_updA P = true -> Forall m_meets (st_rA s'))).
  { unfold upd_A in H. destruct (p_updA P).
    - destruct (admm_update_A _ _ _ _ _ _ _ _ _) as [[[c r] i]|] eqn:EU; [|discriminate]. cbn [bind] in H. injection H as <-.
      destruct (update_A_meets _ _ _ _ _ _ _ _ _ _ _ _ EU) as (K1 & K2). cbn. auto.
    - injection H as <-. repeat split. discriminate. }
  destruct K3 as (B3 & C3 & A3 & M3). split.
  - unfold same_pens. rewrite A3, A2, A1, B3, B2, C3. split; [reflexivity|]. split; [exact B1|]. rewrite C2, C1. reflexivity.
  - split; [exact M3|]. split; [now rewrite B3, B2|]. now rewrite C3.
Qed.
Lemma loop_meets E P Xs : 0 < p_inner P -> forall n it s h s' h' it' msg,
  ao_loop E P Xs n it s h = Ok (s', h', it', msg) -> same_pens s s' /\ (0 < n -> state_meets P s').
Proof.
  intros Hi. induction n as [|n IH]; intros it s h s' h' it' msg H; cbn [ao_loop] in H.
  - injection H as <- <- <- <-. split; [repeat split|lia].
  - destruct (outer_step E P Xs s) as [s1|] eqn:E1; [|discriminate]. cbn [bind] in H. cbv zeta in H.
    destruct (outer_meets E P Xs s s1 Hi E1) as (S1 & M1).
    assert (REC : forall h1, ao_loop E P Xs n (S it) s1 h1 = Ok (s', h', it', msg) -> same_pens s s' /\ (0 < S n -> state_meets P s')).
    { intros h1 H1. destruct (IH _ _ _ _ _ _ _ H1) as (S2 & M2). split.
      - destruct S1 as (X1 & X2 & X3), S2 as (Y1 & Y2 & Y3). repeat split; congruence.
      - intros _. destruct n; [|apply M2; lia]. cbn [ao_loop] in H1. injection H1 as <- <- <- <-. exact M1. }
    assert (STOP : s' = s1 -> same_pens s s' /\ (0 < S n -> state_meets P s')) by (intros ->; auto).
    destruct (otruthy (p_tol P) || otruthy (p_abs_tol P) || p_return_errors P); [|now apply REC in H].
    destruct (state_gaps s1) as [g|]; [|discriminate]. cbn [bind h_errors h_gaps h_losses] in H.
    match type of H with context[if ?b then ao_loop _ _ _ _ _ _ _ else _] => destruct b end; [now apply REC in H|].
    destruct (state_loss P Xs s1) as [l|]; [|discriminate]. cbn [bind] in H.
    destruct (p_tol P) as [t|]; [|now apply REC in H]. destruct (ntruthy t); [|now apply REC in H].
    destruct (p_abs_tol P) as [a|]; [|discriminate].
    match type of H with context[if ?b then _ else _] => destruct b end; [injection H as <- <- <- <-; now apply STOP|].
    match type of H with context[if ?b then _ else _] => destruct b end; [injection H as <- <- <- <-; now apply STOP|]. now apply REC in H.
Qed.
Theorem run_meets E P Xs M s s' od : 0 < p_inner P -> (0 < M)%Z -> run E P Xs M s = Ok (s', od) ->
  same_pens s s' /\ state_meets P s'.
Proof.
  intros Hi HM H. unfold run in H. destruct (init_hist P Xs s) as [h0|]; [|discriminate]. cbn [bind] in H.
  destruct (ao_loop _ _ _ _ _ _ _) as [[[[s1 h] it] msg]|] eqn:EL; [|discriminate]. cbn [bind] in H.
  destruct (loop_meets E P Xs Hi _ _ _ _ _ _ _ _ EL) as (S1 & M1). specialize (M1 ltac:(lia)).
  match type of H with (let* feas := ?e in _) = _ => destruct e as [fe|]; [|discriminate] end. cbn [bind] in H.
  destruct (revalidate _) as [c|]; [|discriminate]. cbn [bind] in H. destruct (p_return_errors P); injection H as <- _; cbn [st_rA st_rB st_rC]; auto.
Qed.
End OrderProofs.
