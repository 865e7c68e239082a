(** C89: the factors of a fit that is reported to be feasible nearly satisfy all requested constraints.
    Specification: NearSpec.v. *)
From Coq Require Import Reals Lra Lia List Arith Bool ZArith.
From Verif Require Import Num Numpy RFacts Spec SpecFacts MatFacts ModelSpec Penalties PenaltySpec CoupledMatrices CmfSpec CmfProofs Decomp DecompSpec
  DecompFacts AdmmOne AoLoop AoMain TotalRun InitVars InitSpec InitProofs Parse ParseSpec ParseProofs P05_Runs P06_Init P07_Parse Fit FitSpec FitProofs Ideal
  P08_Fit NearSpec OptSpec ConvSpec P24_Convergence StationarySpec LoneSpec P11_Total DecompExamples FitExamples P38_OneMode Binary64 PenOrderSpec P44_PenaltyOrder.
Import ListNotations.
Local Open Scope R_scope.

(** The last entry of the diagnostics and the final state. *)
Lemma fit_report V IE rnd (a : fitR) rank out d : sensible V a rank -> ranks_kept IE -> svd_correct (e_ext V) rank -> 0 < data_sumsq (f_data a) ->
  cmf_aoadmm V IE rnd a = Ok out -> out_diag out = Some d ->
  exists P s t, out_cmf out = st_cmf s /\ parsed_as V a t s /\ (user_parafac2_ready a -> (0 < f_n_iter a)%Z -> (0 < f_inner a)%Z -> exact_state P s) /\ p_updA P = f_updA a /\ p_updB P = f_updB a /\ p_updC P = f_updC a /\
    p_feas_tol P = f_feas_tol a /\ mc (cA (st_cmf s)) = rank /\ mc (cC (st_cmf s)) = rank /\ gaps_of s (gaps_at d (d_n_iter d)) /\ (no_nan s -> flags_ok P s d) /\
    (forall v, out_vars out = Some v -> v = vars_of s).
Proof.
  intros HS RK HE HD H HO.
  destruct (fit_final _ _ _ _ _ _ HS RK HE HD H) as (s & l2 & flags & s' & od & t & ES & EL & EF & VS & SI & MC & PO & (pos & EI) & ER & EO & PA & PA' & FR & SS).
  destruct (fit_params_fields a l2 flags) as (F1 & F2 & F3 & F4 & _ & F6 & F7 & F8 & F9 & _).
  assert (HE' : svd_correct (e_ext V) (mc (cA (st_cmf s)))) by now rewrite MC.
  assert (EX : user_parafac2_ready a -> (0 < f_n_iter a)%Z -> (0 < f_inner a)%Z -> exact_state (fit_params a l2 flags) s').
  { intros HU HN HI. assert (RD : ready_state s) by (eapply ready_of_parsed; [apply PA|exact HU|apply PA]). refine (C27_exact_constraints _ _ _ _ _ _ _ PO VS SI HE' HD RD HN _ ER). rewrite F4. lia. }
  destruct (C34_stopping _ _ _ _ _ _ _ PO VS SI HE' HD ER) as (m & tr & pv & msg & Hm & T0 & Tm & HT & ST & R1 & R2).
  rewrite F9 in R1, R2. rewrite EO in HO. cbn [out_diag] in HO. destruct (f_return_errors a) eqn:ERR; [|rewrite R1 in HO; [discriminate|reflexivity]].
  destruct (R2 eq_refl) as (PV & d' & E1 & EM & (HE1 & HL1 & HG1 & HG2 & HN1) & FL). rewrite E1 in HO. injection HO as HO. subst d'.
  exists (fit_params a l2 flags), s', t. rewrite EO. cbn [out_cmf out_vars]. split; [reflexivity|]. split; [exact PA'|]. split; [exact EX|].
  repeat (split; [assumption|]). destruct SS as (S1 & S2 & S3). split; [congruence|].
  split.
  { subst s s'. destruct (trajectory_ok _ _ _ PO m tr HT VS HE' m (le_n _)) as ((VS' & _) & _). destruct VS' as (((_ & _ & WC & _) & _) & _). unfold mc in *. destruct (tr m); cbn in *. congruence. }
  split; [|split; [exact FL|]].
  - rewrite HN1, <- Tm. apply HG2. lia.
  - intros v Hv. destruct (f_return_vars a); congruence.
Qed.

(** The penalty that belongs to a position. *)
Lemma pen_at {A B} (f : A -> penalty (N:=RNum)) (g : B -> penalty (N:=RNum)) (gs : list A) (os : list B) o (dflt : A) : map f gs = map g os -> In o os ->
  exists q, (q < length gs)%nat /\ f (nth q gs dflt) = g o /\ In (nth q gs dflt) gs.
Proof.
  intros EM HI. assert (K : In (g o) (map f gs)) by (rewrite EM; now apply in_map). apply in_map_iff in K as (x & E0 & HX).
  apply (In_nth _ _ dflt) in HX as (q & Hq & E1). exists q. rewrite E1. repeat split; auto. rewrite <- E1. now apply nth_In.
Qed.
Lemma near_penalties V IE rnd (a : fitR) rank out d t : sensible V a rank -> ranks_kept IE -> svd_correct (e_ext V) rank -> 0 < data_sumsq (f_data a) ->
  user_parafac2_ready a -> (0 < f_n_iter a)%Z -> (0 < f_inner a)%Z -> cmf_aoadmm V IE rnd a = Ok out ->
  out_diag out = Some d -> d_feasible d = Some true -> f_feas_tol a = Some t -> all_gaps not_nan (gaps_at d (d_n_iter d)) ->
  exists p, parse_all V (f_kw a) (f_regs a) (f_aux a) (f_dual a) = Ok p /\ forall m o, (m < 3)%nat -> updates a m = true -> In o (pick p m) ->
    (~ is_parafac2 (o_pen o) -> near_mode t (out_cmf out) m (fun r X => exact_domain (o_pen o) r rank X)) /\
    (m = 1%nat -> is_parafac2 (o_pen o) -> near_parafac2 t (out_cmf out) rank).
Proof.
  intros HS RK HE HD HU HN HI H HO HF HT NN.
  destruct (fit_report _ _ _ _ _ _ _ HS RK HE HD H HO) as (P & s & p & EC & (EP & PA & PB & PC) & XX & U1 & U2 & U3 & FT & RA & RC & GP & FL & _). destruct (XX HU HN HI) as (XA & XB & XC).
  destruct (FL (gaps_no_nan _ _ GP NN)) as (_ & FB & _). destruct (proj1 (FB true HF) eq_refl) as (t' & T1 & _ & (FA & FBb & FC)). rewrite FT, HT in T1. injection T1 as <-. rewrite U1 in XA. rewrite U2 in XB. rewrite U3 in XC.
  exists p. split; [exact EP|]. intros m o Hm UM HP. rewrite EC. destruct m as [|[|[|m]]]; [| | |lia]; cbn [updates] in UM; rewrite UM in *.
  - destruct (pen_at g_pen (@o_pen RNum) _ _ o (MReg NonNegativity no_mat no_mat) PA HP) as (q & Hq & E0 & HQ).
    pose proof (proj1 (Forall_forall _ _) (XA eq_refl) _ HQ) as K. cbv beta in K. rewrite E0, RA in K. split; [intros _|discriminate].
    eexists. split; [exact K|]. exact (FA q Hq).
  - destruct (pen_at b_pen (@o_pen RNum) _ _ o (BReg NonNegativity (AList []) []) PB HP) as (q & Hq & E0 & HQ).
    pose proof (proj1 (Forall_forall _ _) (XB eq_refl) _ HQ) as K. specialize (FBb q Hq). unfold b_exact in K. rewrite E0, RA in K.
    split; [intros NP|intros _ IP].
    + exists (baux (nth_breg (st_rB s) q)). split; [|exact FBb]. intros i Hi. destruct (o_pen o); try exact (K i Hi). now destruct NP.
    + exists (baux (nth_breg (st_rB s) q)). destruct (o_pen o); try contradiction. destruct K as (Phi & K). exists Phi. split; [exact K|exact FBb].
  - destruct (pen_at g_pen (@o_pen RNum) _ _ o (MReg NonNegativity no_mat no_mat) PC HP) as (q & Hq & E0 & HQ).
    pose proof (proj1 (Forall_forall _ _) (XC eq_refl) _ HQ) as K. cbv beta in K. rewrite E0, RA in K. split; [intros _|discriminate].
    eexists. split; [exact K|]. exact (FC q Hq).
Qed.

(** ** C89 *)
Lemma met_mono kw c (S1 S2 : (nat -> ent -> Prop) -> Prop) : (forall Q, S1 Q -> S2 Q) -> constraints_met kw c S1 -> constraints_met kw c S2.
Proof.
  intros K (C1 & C2 & C3 & C4 & C5). unfold constraints_met.
  split; [intros; apply K; auto|]. split; [intros; apply K; auto|]. split; [intros; apply K; auto|]. split; [intros; apply K; auto|]. intros; apply K; auto.
Qed.
Lemma near_mono t c m (Q Q' : nat -> ent -> Prop) : (forall r X, Q r X -> Q' r X) -> near_mode t c m Q -> near_mode t c m Q'.
Proof. intros K. destruct m as [|[|m]]; intros (X & H1 & H2); exists X; split; auto. Qed.
(** A fit whose diagnostics say that it is feasible: the factor of every updated mode is within feasibility_tol times its norm of
    matrices that satisfy the constraint, for every constraint that a keyword asks for, for every penalty object and for PARAFAC2. *)
Theorem C89_feasible_partial V IE rnd (a : fitR) rank out d t :
  sensible V a rank -> ranks_kept IE -> svd_correct (e_ext V) rank -> 0 < data_sumsq (f_data a) ->
  user_parafac2_ready a -> (0 < f_n_iter a)%Z -> (0 < f_inner a)%Z -> cmf_aoadmm V IE rnd a = Ok out ->
  out_diag out = Some d -> d_feasible d = Some true -> f_feas_tol a = Some t -> all_gaps not_nan (gaps_at d (d_n_iter d)) ->
  forall m, (m < 3)%nat -> updates a m = true ->
    (forall kw, mode_values (f_kw a) m kw -> constraints_met kw rank (near_mode t (out_cmf out) m)) /\
    (forall u, user_penalties (f_regs a) m u -> Forall (fun o => ~ is_parafac2 (o_pen o) -> near_mode t (out_cmf out) m (fun r X => exact_domain (o_pen o) r rank X)) u) /\
    (m = 1%nat -> wants_parafac2 a -> near_parafac2 t (out_cmf out) rank).
Proof.
  intros HS RK HE HD HU HN HI H HO HF HT NN m Hm UM.
  destruct (near_penalties _ _ _ _ _ _ _ _ HS RK HE HD HU HN HI H HO HF HT NN) as (p & EP & NP).
  destruct (parse_all_ok _ _ _ _ _ _ EP m Hm) as (kw' & pa & u' & MV' & PM & U & EPK).
  split; [|split].
  - intros kw MV. rewrite <- (mode_value_unique _ _ _ _ MV MV') in PM. eapply met_mono; [|exact (parsed_has _ _ _ _ _ PM rank)].
    intros Q K. apply Exists_exists in K as (o & HIn & K1 & K2). eapply near_mono; [exact K2|]. apply NP; auto. rewrite EPK. apply in_or_app. now left.
  - intros u HU0. rewrite (user_unique _ _ _ _ HU0 U). apply Forall_forall. intros o HO0 NPF. apply NP; auto. rewrite EPK. apply in_or_app. now right.
  - intros -> [PF|(u & HU0 & K)].
    + destruct (C38_penalties_are_those_requested _ _ _ _ _ _ EP 1%nat ltac:(lia)) as (kw & pa1 & u1 & MV & _ & E1 & _ & _ & _ & K & _).
      destruct (K ltac:(destruct MV as (_ & _ & _ & _ & _ & _ & _ & _ & ->); now rewrite PF)) as (n & b1 & b2 & tail & ->).
      refine (proj2 (NP 1%nat _ Hm UM _) eq_refl _); [rewrite E1; left; reflexivity|exact Logic.I].
    + apply Exists_exists in K as (o & HIn & K). rewrite (user_unique _ _ _ _ HU0 U) in HIn. refine (proj2 (NP 1%nat o Hm UM _) eq_refl K). rewrite EPK. apply in_or_app. now right.
Qed.
Print Assumptions C89_feasible_partial.

(** ** The same for the entries *)
Lemma sq_le u v : 0 <= v -> u * u <= v * v -> u <= v.
Proof. intros Hv K. destruct (Rle_lt_dec u v) as [L|L]; [exact L|]. nra. Qed.
Lemma cauchy_schwarz n (f g : nat -> R) : rsum n (fun i => f i * g i) * rsum n (fun i => f i * g i) <= rsum n (fun i => f i ^ 2) * rsum n (fun i => g i ^ 2).
Proof.
  induction n as [|n IH]; [rewrite !rsum_0; lra|]. rewrite !rsum_S. set (A := rsum n (fun i => f i ^ 2)) in *. set (B := rsum n (fun i => g i ^ 2)) in *.
  set (Q := rsum n (fun i => f i * g i)) in *. assert (HA : 0 <= A) by (apply rsum_nonneg; intros; apply pow2_ge_0). assert (HB : 0 <= B) by (apply rsum_nonneg; intros; apply pow2_ge_0).
  assert (K : 2 * Q * (f n * g n) <= A * (g n * g n) + B * (f n * f n)).
  { apply sq_le; [apply Rplus_le_le_0_compat; apply Rmult_le_pos; nra|]. apply Rle_trans with (4 * (A * B) * ((f n * f n) * (g n * g n))).
    - replace (2 * Q * (f n * g n) * (2 * Q * (f n * g n))) with (4 * (Q * Q) * ((f n * f n) * (g n * g n))) by ring.
      apply Rmult_le_compat_r; [apply Rmult_le_pos; nra|lra].
    - assert (0 <= (A * (g n * g n) - B * (f n * f n)) ^ 2) by apply pow2_ge_0. cbn [pow] in *. lra. }
  cbn [pow]. rewrite !Rmult_1_r. lra.
Qed.
Lemma minkowski n (f g : nat -> R) : sqrt (rsum n (fun i => f i ^ 2)) <= sqrt (rsum n (fun i => g i ^ 2)) + sqrt (rsum n (fun i => (g i - f i) ^ 2)).
Proof.
  assert (HG : 0 <= rsum n (fun i => g i ^ 2)) by (apply rsum_nonneg; intros; apply pow2_ge_0).
  assert (HD : 0 <= rsum n (fun i => (g i - f i) ^ 2)) by (apply rsum_nonneg; intros; apply pow2_ge_0).
  assert (HF : 0 <= rsum n (fun i => f i ^ 2)) by (apply rsum_nonneg; intros; apply pow2_ge_0).
  apply sq_le; [pose proof (sqrt_pos (rsum n (fun i => g i ^ 2))); pose proof (sqrt_pos (rsum n (fun i => (g i - f i) ^ 2))); lra|].
  rewrite sqrt_sqrt by exact HF. set (x := sqrt (rsum n (fun i => g i ^ 2))). set (y := sqrt (rsum n (fun i => (g i - f i) ^ 2))).
  assert (EX : x * x = rsum n (fun i => g i ^ 2)) by now apply sqrt_sqrt. assert (EY : y * y = rsum n (fun i => (g i - f i) ^ 2)) by now apply sqrt_sqrt.
  assert (CS : - rsum n (fun i => g i * (g i - f i)) <= x * y).
  { apply sq_le; [apply Rmult_le_pos; apply sqrt_pos|]. pose proof (cauchy_schwarz n g (fun i => g i - f i)) as K. cbv beta in K. rewrite <- EX, <- EY in K. nra. }
  assert (ES : rsum n (fun i => f i ^ 2) = rsum n (fun i => g i ^ 2) + rsum n (fun i => (g i - f i) ^ 2) - 2 * rsum n (fun i => g i * (g i - f i))).
  { clear. induction n as [|n IH]; [rewrite !rsum_0; lra|]. rewrite !rsum_S, IH. lra. }
  nra.
Qed.

Lemma entry_near r c X W delta i j : fdist r c X W < delta -> (i < r)%nat -> (j < c)%nat -> Rabs (X i j - W i j) < delta.
Proof.
  intros K Hi Hj. eapply Rle_lt_trans; [|exact K]. unfold fdist. rewrite <- (sqrt_Rsqr_abs (X i j - W i j)). apply sqrt_le_1_alt. unfold dist2. rewrite Sum_rsum.
  eapply Rle_trans; [|apply (rsum_le_one r (fun i => Sum c (fun j => (X i j - W i j) ^ 2)) i); [intros k _; rewrite Sum_rsum; apply rsum_nonneg; intros; apply pow2_ge_0|exact Hi]].
  cbv beta. rewrite Sum_rsum. eapply Rle_trans; [|apply (rsum_le_one c (fun j => (X i j - W i j) ^ 2) j); [intros; apply pow2_ge_0|exact Hj]]. unfold Rsqr. lra.
Qed.
Lemma column_near r c X W delta b k : fdist r c X W < delta -> (k < c)%nat -> 0 < b -> Sum r (fun i => X i k ^ 2) <= b ^ 2 -> sqrt (Sum r (fun i => W i k ^ 2)) <= b + delta.
Proof.
  intros K Hk Hb HX. rewrite Sum_rsum in HX |- *. eapply Rle_trans; [apply (minkowski r (fun i => W i k) (fun i => X i k))|]. apply Rplus_le_compat.
  - replace b with (sqrt (b ^ 2)) by (rewrite <- Rsqr_pow2; apply sqrt_Rsqr; lra). now apply sqrt_le_1_alt.
  - left. eapply Rle_lt_trans; [|exact K]. unfold fdist. apply sqrt_le_1_alt. unfold dist2. rewrite (Sum_rsum r (fun i => Sum c (fun j => (X i j - W i j) ^ 2))). apply rsum_le. intros i Hi. rewrite (Sum_rsum c (fun j => (X i j - W i j) ^ 2)).
    apply (rsum_le_one c (fun j => (X i j - W i j) ^ 2) k); [intros; apply pow2_ge_0|exact Hk].
Qed.
Lemma part_near n J c X W delta i : ldist n J c X W < delta -> (i < n)%nat -> fdist (J i) c (X i) (W i) < delta.
Proof.
  intros K Hi. eapply Rle_lt_trans; [|exact K]. unfold fdist, ldist. apply sqrt_le_1_alt. rewrite Sum_rsum.
  apply (rsum_le_one n (fun i => dist2 (J i) c (X i) (W i)) i); [|exact Hi]. intros k _. unfold dist2. rewrite Sum_rsum. apply rsum_nonneg. intros. rewrite Sum_rsum. apply rsum_nonneg. intros. apply pow2_ge_0.
Qed.
Lemma near_entries t (c : rcmf) rank m (Q : R -> Prop) (Q' : R -> Prop) : mc (cA c) = rank -> mc (cC c) = rank ->
  near_mode t c m (fun r X => entries r rank Q X) -> (forall x y, Q x -> Rabs (x - y) < t * factor_norm c m -> Q' y) -> factor_entries c m Q'.
Proof.
  intros RA RC NM K. destruct m as [|[|m]]; cbn [near_mode factor_norm factor_entries] in *; rewrite ?RA, ?RC in *.
  - destruct NM as (X & H1 & H2). intros i j Hi Hj. apply (K (X i j)); [now apply H1|]. eapply entry_near; eauto.
  - destruct NM as (X & H1 & H2). intros p Hp i j Hi Hj. apply (K (X p i j)); [now apply H1|]. eapply entry_near; [exact (part_near _ _ _ _ _ _ _ H2 Hp)|exact Hi|exact Hj].
  - destruct NM as (X & H1 & H2). intros i j Hi Hj. apply (K (X i j)); [now apply H1|]. eapply entry_near; eauto.
Qed.
Lemma near_columns t (c : rcmf) rank m b : mc (cA c) = rank -> mc (cC c) = rank -> 0 < b ->
  near_mode t c m (fun r X => cols_in_ball r rank b X) -> factor_columns c m (b + t * factor_norm c m).
Proof.
  intros RA RC Hb NM. destruct m as [|[|m]]; cbn [near_mode factor_norm factor_columns] in *; rewrite ?RA, ?RC in *.
  - destruct NM as (X & H1 & H2). intros k Hk. eapply column_near; eauto.
  - destruct NM as (X & H1 & H2). intros p Hp k Hk. eapply (column_near _ _ (X p)); [exact (part_near _ _ _ _ _ _ _ H2 Hp)|exact Hk|exact Hb|now apply H1].
  - destruct NM as (X & H1 & H2). intros k Hk. eapply column_near; eauto.
Qed.
(** No entry violates a bound, and no column exceeds a norm bound, by more than feasibility_tol times the norm of the factor. *)
Theorem C89_entries_partial V IE rnd (a : fitR) rank out d t :
  sensible V a rank -> ranks_kept IE -> svd_correct (e_ext V) rank -> 0 < data_sumsq (f_data a) ->
  user_parafac2_ready a -> (0 < f_n_iter a)%Z -> (0 < f_inner a)%Z -> cmf_aoadmm V IE rnd a = Ok out ->
  out_diag out = Some d -> d_feasible d = Some true -> f_feas_tol a = Some t -> all_gaps not_nan (gaps_at d (d_n_iter d)) ->
  forall m kw, (m < 3)%nat -> updates a m = true -> mode_values (f_kw a) m kw ->
    let c := out_cmf out in let slack := t * factor_norm c m in
    (wants (k_nn kw) -> factor_entries c m (fun x => - slack <= x)) /\
    (forall lo, k_lower kw = Some lo -> factor_entries c m (fun x => lo - slack <= x)) /\
    (forall hi, k_upper kw = Some hi -> factor_entries c m (fun x => x <= hi + slack)) /\
    (forall b, k_norm kw = Some b -> 0 < b -> factor_columns c m (b + slack)).
Proof.
  intros HS RK HE HD HU HN HI H HO HF HT NN m kw Hm UM MV c slack.
  destruct (C89_feasible_partial _ _ _ _ _ _ _ _ HS RK HE HD HU HN HI H HO HF HT NN m Hm UM) as (K & _). destruct (K kw MV) as (K1 & K2 & K3 & K4 & _).
  destruct (fit_report _ _ _ _ _ _ _ HS RK HE HD H HO) as (P & s & p & EC & _ & _ & _ & _ & _ & _ & RA & RC & _).
  rewrite <- EC in RA, RC. fold c in RA, RC, K1, K2, K3, K4.
  split; [|split; [|split]].
  - intros W. eapply near_entries; [exact RA|exact RC|exact (K1 W)|]. fold slack. cbv beta. intros x y Q L. apply Rabs_def2 in L. lra.
  - intros lo W. eapply near_entries; [exact RA|exact RC|exact (K2 lo W)|]. fold slack. cbv beta. intros x y Q L. apply Rabs_def2 in L. lra.
  - intros hi W. eapply near_entries; [exact RA|exact RC|exact (K3 hi W)|]. fold slack. cbv beta. intros x y Q L. apply Rabs_def2 in L. lra.
  - intros b W Hb. eapply near_columns; [exact RA|exact RC|exact Hb|]. apply (K4 b W). lra.
Qed.
Print Assumptions C89_entries_partial.

(** ** Such a report is reached *)
Lemma fit_sizes V IE rnd (a : fitR) rank out : sensible V a rank -> ranks_kept IE -> svd_correct (e_ext V) rank -> 0 < data_sumsq (f_data a) -> cmf_aoadmm V IE rnd a = Ok out ->
  mr (cA (out_cmf out)) = length (f_data a) /\ mr (cC (out_cmf out)) = colsX (f_data a) /\ length (cBs (out_cmf out)) = length (f_data a) /\
  forall i, (i < length (f_data a))%nat -> rowsB (out_cmf out) i = rowsX (f_data a) i.
Proof.
  intros HS RK HE HD H.
  destruct (fit_final _ _ _ _ _ _ HS RK HE HD H) as (s & l2 & flags & s' & od & t & ES & EL & EF & VS & SI & MC & PO & (pos & EI) & ER & EO & PA & PA' & FR & SS).
  destruct (sizes_of_data _ _ _ VS SS) as (Z1 & Z2 & Z3 & Z4 & _). rewrite EO. cbn [out_cmf]. auto.
Qed.
Lemma fnorm_entry r c X i j : (i < r)%nat -> (j < c)%nat -> Rabs (X i j) <= fnorm r c X.
Proof.
  intros Hi Hj. unfold fnorm. rewrite <- (sqrt_Rsqr_abs (X i j)). apply sqrt_le_1_alt. unfold sumsq. rewrite (Sum_rsum r (fun i => Sum c (fun j => X i j ^ 2))).
  eapply Rle_trans; [|apply (rsum_le_one r (fun i => Sum c (fun j => X i j ^ 2)) i); [intros k _; rewrite Sum_rsum; apply rsum_nonneg; intros; apply pow2_ge_0|exact Hi]].
  cbv beta. rewrite Sum_rsum. eapply Rle_trans; [|apply (rsum_le_one c (fun j => X i j ^ 2) j); [intros; apply pow2_ge_0|exact Hj]]. unfold Rsqr. lra.
Qed.
Lemma rsum_bound n f b : (forall i, (i < n)%nat -> f i <= b) -> rsum n f <= INR n * b.
Proof.
  induction n as [|n IH]; intros H; [rewrite rsum_0; cbn; lra|]. rewrite rsum_S, S_INR. pose proof (H n ltac:(lia)). pose proof (IH ltac:(intros; apply H; lia)). lra.
Qed.
Lemma dist2_bound r c X Y b : (forall i j, (i < r)%nat -> (j < c)%nat -> Rabs (X i j - Y i j) <= b) -> dist2 r c X Y <= INR r * (INR c * b ^ 2).
Proof.
  intros H. unfold dist2. rewrite (Sum_rsum r (fun i => Sum c (fun j => (X i j - Y i j) ^ 2))). apply rsum_bound. intros i Hi. rewrite Sum_rsum. apply rsum_bound. intros j Hj.
  specialize (H i j Hi Hj). pose proof (Rabs_pos (X i j - Y i j)). rewrite <- (pow2_abs (X i j - Y i j)). nra.
Qed.
Lemma small_exists t mu (n : R) : 0 < t -> 0 < mu -> 0 <= n -> exists eps, 0 < eps /\ eps <= mu / 2 /\ n * (2 * eps) ^ 2 < (t * (mu / 2)) ^ 2.
Proof.
  intros Ht Hm Hn. set (e := t * mu / (8 * (1 + n))). assert (D : 0 < 8 * (1 + n)) by lra. assert (TM : 0 < t * mu) by (apply Rmult_lt_0_compat; lra).
  assert (He : 0 < e) by (apply Rdiv_lt_0_compat; lra).
  exists (Rmin e (mu / 2)). split; [apply Rmin_glb_lt; lra|]. split; [apply Rmin_r|].
  apply Rle_lt_trans with (n * (2 * e) ^ 2).
  { apply Rmult_le_compat_l; [exact Hn|]. apply pow_incr. assert (0 < Rmin e (mu / 2)) by (apply Rmin_glb_lt; lra). pose proof (Rmin_l e (mu / 2)). lra. }
  assert (EE : 8 * (1 + n) * e = t * mu) by (unfold e; field; lra). assert (n * e <= t * mu / 8) by nra. assert (e <= t * mu / 8) by nra.
  replace ((t * (mu / 2)) ^ 2) with (t * mu * (t * mu) / 4) by field. nra.
Qed.
Lemma close_gap r c x i j t : (i < r)%nat -> (j < c)%nat -> x i j <> 0 -> 0 < t ->
  exists eps, 0 < eps /\ forall W Z, close r c eps W x -> close r c eps Z x -> fdist r c Z W < t * fnorm r c W /\ fnorm r c W <> 0.
Proof.
  intros Hi Hj HX Ht. assert (HM : 0 < Rabs (x i j)) by now apply Rabs_pos_lt.
  destruct (small_exists t (Rabs (x i j)) (INR r * INR c) Ht HM ltac:(apply Rmult_le_pos; apply pos_INR)) as (eps & E1 & E2 & E3). exists eps. split; [exact E1|].
  intros W Z CW CZ. assert (NB : Rabs (x i j) / 2 <= fnorm r c W).
  { eapply Rle_trans; [|apply (fnorm_entry r c W i j Hi Hj)]. pose proof (CW i j Hi Hj) as K. pose proof (Rabs_triang_inv (x i j) (x i j - W i j)) as T.
    replace (x i j - (x i j - W i j)) with (W i j) in T by ring. rewrite (Rabs_minus_sym (x i j) (W i j)) in T. lra. }
  split; [|lra]. apply Rlt_le_trans with (t * (Rabs (x i j) / 2)); [|apply Rmult_le_compat_l; lra].
  unfold fdist. rewrite <- (sqrt_Rsqr (t * (Rabs (x i j) / 2))) by (apply Rmult_le_pos; lra). apply sqrt_lt_1_alt. split.
  { unfold dist2. rewrite (Sum_rsum r (fun i => Sum c (fun j => (Z i j - W i j) ^ 2))). apply rsum_nonneg. intros. rewrite Sum_rsum. apply rsum_nonneg. intros. apply pow2_ge_0. }
  rewrite Rsqr_pow2. eapply Rle_lt_trans; [|exact E3]. rewrite Rmult_assoc. apply dist2_bound. intros p q Hp Hq. pose proof (CW p q Hp Hq) as K1. pose proof (CZ p q Hp Hq) as K2.
  replace (Z p q - W p q) with ((Z p q - x p q) - (W p q - x p q)) by ring. eapply Rle_trans; [apply Rabs_triang|]. rewrite Rabs_Ropp. lra.
Qed.
Lemma flag_reached (P : params (N:=RNum)) (s : stateR) g t d : gaps_of s g -> no_nan s -> (no_nan s -> flags_ok P s d) -> p_feas_tol P = Some t -> 0 < t -> feasible_state t s -> d_feasible d = Some true.
Proof.
  intros _ NN FL FT Ht FS. destruct (FL NN) as (_ & F2 & F3). destruct (d_feasible d) as [b|] eqn:ED.
  - f_equal. apply (F2 b eq_refl). exists t. split; [exact FT|]. split; [lra|exact FS].
  - exfalso. apply F3; [|reflexivity]. rewrite FT. exists t. split; [reflexivity|]. lra.
Qed.
Lemma gap_list_fin (g : list xnumR) n0 f nn : length g = n0 -> (forall q, (q < length g)%nat -> is_ratio (nth q g NaN) (f q) nn) -> ((0 < n0)%nat -> nn <> 0) -> Forall not_nan g.
Proof.
  intros L K Z. apply Forall_forall. intros x Hx. apply (In_nth _ _ NaN) in Hx as (q & Hq & <-). destruct (K q Hq) as (K1 & _). unfold not_nan. rewrite K1; [discriminate|]. apply Z. lia.
Qed.
Definition met_gaps (t : R) (s : stateR) : Prop :=
  (forall q, (q < length (st_rA s))%nat -> dist_A s q < t * norm_A (st_cmf s) /\ norm_A (st_cmf s) <> 0) /\
  (forall q, (q < length (st_rB s))%nat -> dist_B s q < t * norm_B (st_cmf s) /\ norm_B (st_cmf s) <> 0) /\
  (forall q, (q < length (st_rC s))%nat -> dist_C s q < t * norm_C (st_cmf s) /\ norm_C (st_cmf s) <> 0).
Lemma report_of_gaps V IE rnd (a : fitR) rank out t : sensible V a rank -> ranks_kept IE -> svd_correct (e_ext V) rank -> 0 < data_sumsq (f_data a) ->
  f_return_vars a = true -> f_return_errors a = true -> f_feas_tol a = Some t -> 0 < t -> cmf_aoadmm V IE rnd a = Ok out ->
  (forall s, out_cmf out = st_cmf s -> out_vars out = Some (vars_of s) -> mc (cA (st_cmf s)) = rank -> mc (cC (st_cmf s)) = rank ->
     (f_updA a = false -> st_rA s = []) -> (f_updB a = false -> st_rB s = []) -> (f_updC a = false -> st_rC s = []) -> met_gaps t s) ->
  exists d, out_diag out = Some d /\ d_feasible d = Some true /\ all_gaps not_nan (gaps_at d (d_n_iter d)).
Proof.
  intros HS RK HE HD RV RE FT Ht EO K. destruct (C33_fit_reports V IE rnd a rank out HS RK HE HD EO) as (R1 & R2 & _).
  destruct (out_diag out) as [d|] eqn:ED; [|exfalso; now apply (proj1 R2 RE)].
  destruct (out_vars out) as [v|] eqn:EV; [|exfalso; now apply (proj1 R1 RV)].
  exists d. split; [reflexivity|].
  destruct (fit_report V IE rnd a rank out d HS RK HE HD EO ED) as (P & s & p & EC & (EP & PA & PB & PC) & _ & U1 & U2 & U3 & FP & RA & RC & GP & FL & VS).
  assert (MG : met_gaps t s).
  { apply K; auto; [now rewrite (VS v EV)| | |]; intros U; [rewrite U in PA; now apply map_eq_nil in PA|rewrite U in PB; now apply map_eq_nil in PB|rewrite U in PC; now apply map_eq_nil in PC]. }
  destruct MG as (MA & MB & MCc).
  assert (NN : no_nan s) by (split; [|split]; intros q Hq Z; [now destruct (MA q Hq)|now destruct (MB q Hq)|now destruct (MCc q Hq)]).
  split.
  - apply (flag_reached P s _ t d GP NN FL); [congruence|exact Ht|]. split; [|split]; intros q Hq; [now apply MA|now apply MB|now apply MCc].
  - destruct (gaps_at d (d_n_iter d)) as [[gA gB] gC]. destruct GP as ((L1 & K1) & (L2 & K2) & (L3 & K3)). split; [|split].
    + eapply gap_list_fin; [exact L1|exact K1|]. intros Hq. apply (MA 0%nat Hq).
    + eapply gap_list_fin; [exact L2|exact K2|]. intros Hq. apply (MB 0%nat Hq).
    + eapply gap_list_fin; [exact L3|exact K3|]. intros Hq. apply (MCc 0%nat Hq).
Qed.
(** Only C is updated, the problem for it is convex and its solution is not zero: with enough iterations feasibility is reported. *)
Theorem C89_reached_C V IE rnd (a : fitR) rank out0 l kw u t :
  sensible V a rank -> ranks_kept IE -> svd_correct (e_ext V) rank -> (forall r, tv_correct (e_ext V) r) -> 0 < data_sumsq (f_data a) ->
  runs_on a -> updates_only a 2 -> arguments a l kw u -> 0 < l 2%nat -> asks_convex (kw 2%nat) (u 2%nat) ->
  cmf_aoadmm V IE rnd (with_iterations 0 a) = Ok out0 -> let c := out_cmf out0 in let r := mr (cC c) in
  0 < rho_C (f_scale a) c -> has_room r rank (allowed (kw 2%nat) (u 2%nat) r rank) ->
  f_return_vars a = true -> f_return_errors a = true -> f_feas_tol a = Some t -> 0 < t ->
  (forall x, minimiser (allowed (kw 2%nat) (u 2%nat) r rank) (fun Z => smooth_C (f_data a) c (l 2%nat) Z + price (kw 2%nat) (u 2%nat) r rank Z) x ->
     exists i j, (i < r)%nat /\ (j < rank)%nat /\ x i j <> 0) ->
  exists n0, forall n, (n0 <= n)%Z -> exists out d, cmf_aoadmm V IE rnd (with_iterations n a) = Ok out /\ out_diag out = Some d /\
    d_feasible d = Some true /\ all_gaps not_nan (gaps_at d (d_n_iter d)).
Proof.
  intros HS RK HE HTV HD RO UO HA HL HCV H0 c r HR HRM RV RE FT Ht NZ.
  destruct (C82_only_C V IE rnd a rank out0 l kw u HS RK HE HTV RO UO HA HL HCV H0 HR HRM) as (x & BX & _ & LX). fold c r in BX, LX.
  destruct (NZ x BX) as (i & j & Hi & Hj & Hx). destruct (close_gap r rank x i j t Hi Hj Hx Ht) as (eps & He & CG).
  destruct (LX eps He) as (n0 & HN). exists n0. intros n Hn. destruct (HN n Hn) as (out & EO & _ & _ & _ & C1 & C2).
  assert (HS' : sensible V (with_iterations n a) rank) by exact HS. exists out.
  destruct (report_of_gaps V IE rnd (with_iterations n a) rank out t HS' RK HE HD RV RE FT Ht EO) as (d & K); [|exists d; split; [exact EO|exact K]].
  intros s EC EV RA RC NA NB _. specialize (C2 _ EV). cbn [vars_of v_auxC] in C2. rewrite EC in C1.
  pose proof (UO 0%nat ltac:(lia)) as Y0. pose proof (UO 1%nat ltac:(lia)) as Y1. cbn [updates Nat.eqb] in Y0, Y1. specialize (NA Y0). specialize (NB Y1).
  destruct (fit_sizes V IE rnd (with_iterations n a) rank out HS' RK HE HD EO) as (_ & Z1 & _). destruct (fit_sizes V IE rnd (with_iterations 0 a) rank out0 HS RK HE HD H0) as (_ & Z2 & _).
  assert (ER : mr (cC (st_cmf s)) = r) by (rewrite <- EC; exact (eq_trans Z1 (eq_sym Z2))).
  unfold met_gaps. rewrite NA, NB. split; [intros q Hq; cbn in Hq; lia|]. split; [intros q Hq; cbn in Hq; lia|].
  intros q Hq. unfold dist_C, norm_C. rewrite ER, RC. apply CG; [exact C1|]. rewrite Forall_map in C2. apply (proj1 (Forall_forall _ _) C2). apply nth_In. exact Hq.
Qed.
Print Assumptions C89_reached_C.
Theorem C89_reached_A V IE rnd (a : fitR) rank out0 l kw u t :
  sensible V a rank -> ranks_kept IE -> svd_correct (e_ext V) rank -> (forall r, tv_correct (e_ext V) r) -> 0 < data_sumsq (f_data a) ->
  runs_on a -> updates_only a 0 -> arguments a l kw u -> 0 < l 0%nat -> asks_convex (kw 0%nat) (u 0%nat) ->
  (constant_for_A (f_const a) = false -> ~ needs_constant_A a) ->
  cmf_aoadmm V IE rnd (with_iterations 0 a) = Ok out0 -> let c := out_cmf out0 in let r := length (f_data a) in
  (forall i, (i < r)%nat -> 0 < rho_A (f_scale a) c i) -> has_room r rank (allowed (kw 0%nat) (u 0%nat) r rank) ->
  f_return_vars a = true -> f_return_errors a = true -> f_feas_tol a = Some t -> 0 < t ->
  (forall x, minimiser (allowed (kw 0%nat) (u 0%nat) r rank) (fun Z => smooth_A (f_data a) c (l 0%nat) Z + price (kw 0%nat) (u 0%nat) r rank Z) x ->
     exists i j, (i < r)%nat /\ (j < rank)%nat /\ x i j <> 0) ->
  exists n0, forall n, (n0 <= n)%Z -> exists out d, cmf_aoadmm V IE rnd (with_iterations n a) = Ok out /\ out_diag out = Some d /\
    d_feasible d = Some true /\ all_gaps not_nan (gaps_at d (d_n_iter d)).
Proof.
  intros HS RK HE HTV HD RO UO HA HL HCV HCA H0 c r HR HRM RV RE FT Ht NZ.
  destruct (C82_only_A V IE rnd a rank out0 l kw u HS RK HE HTV RO UO HA HL HCV HCA H0 HR HRM) as (x & BX & _ & LX). fold c r in BX, LX.
  destruct (NZ x BX) as (i & j & Hi & Hj & Hx). destruct (close_gap r rank x i j t Hi Hj Hx Ht) as (eps & He & CG).
  destruct (LX eps He) as (n0 & HN). exists n0. intros n Hn. destruct (HN n Hn) as (out & EO & _ & _ & _ & C1 & C2).
  assert (HS' : sensible V (with_iterations n a) rank) by exact HS. exists out.
  destruct (report_of_gaps V IE rnd (with_iterations n a) rank out t HS' RK HE HD RV RE FT Ht EO) as (d & K); [|exists d; split; [exact EO|exact K]].
  intros s EC EV RA RC _ NB NC. specialize (C2 _ EV). cbn [vars_of v_auxA] in C2. rewrite EC in C1.
  pose proof (UO 1%nat ltac:(lia)) as Y1. pose proof (UO 2%nat ltac:(lia)) as Y2. cbn [updates Nat.eqb] in Y1, Y2. specialize (NB Y1). specialize (NC Y2).
  destruct (fit_sizes V IE rnd (with_iterations n a) rank out HS' RK HE HD EO) as (Z1 & _).
  assert (ER : mr (cA (st_cmf s)) = r) by (rewrite <- EC; exact Z1).
  unfold met_gaps. rewrite NB, NC. split; [|split; [intros q Hq; cbn in Hq; lia|intros q Hq; cbn in Hq; lia]].
  intros q Hq. unfold dist_A, norm_A. rewrite ER, RA. apply CG; [exact C1|]. rewrite Forall_map in C2. apply (proj1 (Forall_forall _ _) C2). apply nth_In. exact Hq.
Qed.
Print Assumptions C89_reached_A.
Lemma close_gap_l n J c x i0 i j t : (i0 < n)%nat -> (i < J i0)%nat -> (j < c)%nat -> x i0 i j <> 0 -> 0 < t ->
  exists eps, 0 < eps /\ forall W Z, close_l n J c eps W x -> close_l n J c eps Z x -> ldist n J c Z W < t * lnorm n J c W /\ lnorm n J c W <> 0.
Proof.
  intros H0 Hi Hj HX Ht. assert (HM : 0 < Rabs (x i0 i j)) by now apply Rabs_pos_lt. set (K := rsum n (fun p => INR (J p) * INR c)).
  assert (HK : 0 <= K) by (apply rsum_nonneg; intros; apply Rmult_le_pos; apply pos_INR).
  destruct (small_exists t (Rabs (x i0 i j)) K Ht HM HK) as (eps & E1 & E2 & E3). exists eps. split; [exact E1|].
  intros W Z CW CZ. assert (NB : Rabs (x i0 i j) / 2 <= lnorm n J c W).
  { eapply Rle_trans; [|apply Rle_trans with (fnorm (J i0) c (W i0)); [apply (fnorm_entry (J i0) c (W i0) i j Hi Hj)|]].
    - pose proof (CW i0 H0 i j Hi Hj) as Q. pose proof (Rabs_triang_inv (x i0 i j) (x i0 i j - W i0 i j)) as T.
      replace (x i0 i j - (x i0 i j - W i0 i j)) with (W i0 i j) in T by ring. rewrite (Rabs_minus_sym (x i0 i j) (W i0 i j)) in T. lra.
    - unfold fnorm, lnorm. apply sqrt_le_1_alt. rewrite (Sum_rsum n (fun p => sumsq (J p) c (W p))). apply (rsum_le_one n (fun p => sumsq (J p) c (W p)) i0); [|exact H0].
      intros p _. unfold sumsq. rewrite (Sum_rsum (J p)). apply rsum_nonneg. intros. rewrite Sum_rsum. apply rsum_nonneg. intros. apply pow2_ge_0. }
  split; [|lra]. apply Rlt_le_trans with (t * (Rabs (x i0 i j) / 2)); [|apply Rmult_le_compat_l; lra].
  unfold ldist. rewrite <- (sqrt_Rsqr (t * (Rabs (x i0 i j) / 2))) by (apply Rmult_le_pos; lra). apply sqrt_lt_1_alt. rewrite (Sum_rsum n (fun p => dist2 (J p) c (Z p) (W p))). split.
  { apply rsum_nonneg. intros p _. unfold dist2. rewrite (Sum_rsum (J p)). apply rsum_nonneg. intros. rewrite Sum_rsum. apply rsum_nonneg. intros. apply pow2_ge_0. }
  rewrite Rsqr_pow2. eapply Rle_lt_trans; [|exact E3]. unfold K. rewrite Rmult_comm, <- rsum_scal. apply rsum_le. intros p Hp.
  eapply Rle_trans; [apply (dist2_bound (J p) c (Z p) (W p) (2 * eps))|lra]. intros q k Hq Hk. pose proof (CW p Hp q k Hq Hk) as K1. pose proof (CZ p Hp q k Hq Hk) as K2.
  replace (Z p q k - W p q k) with ((Z p q k - x p q k) - (W p q k - x p q k)) by ring. eapply Rle_trans; [apply Rabs_triang|]. rewrite Rabs_Ropp. lra.
Qed.
Theorem C89_reached_B V IE rnd (a : fitR) rank out0 l kw u t :
  sensible V a rank -> ranks_kept IE -> svd_correct (e_ext V) rank -> (forall r, tv_correct (e_ext V) r) -> 0 < data_sumsq (f_data a) ->
  runs_on a -> updates_only a 1 -> arguments a l kw u -> 0 < l 1%nat -> asks_convex (kw 1%nat) (u 1%nat) ->
  cmf_aoadmm V IE rnd (with_iterations 0 a) = Ok out0 -> let c := out_cmf out0 in let n := length (f_data a) in let J := rowsX (f_data a) in
  (forall i, (i < n)%nat -> 0 < rho_B (f_scale a) c i) -> has_room_l n J rank (allowed_l (kw 1%nat) (u 1%nat) n J rank) ->
  f_return_vars a = true -> f_return_errors a = true -> f_feas_tol a = Some t -> 0 < t ->
  (forall x, minimiser (allowed_l (kw 1%nat) (u 1%nat) n J rank) (fun Z => smooth_B (f_data a) c (l 1%nat) Z + price_l (kw 1%nat) (u 1%nat) n J rank Z) x ->
     exists i j k, (i < n)%nat /\ (j < J i)%nat /\ (k < rank)%nat /\ x i j k <> 0) ->
  exists n0, forall N, (n0 <= N)%Z -> exists out d, cmf_aoadmm V IE rnd (with_iterations N a) = Ok out /\ out_diag out = Some d /\
    d_feasible d = Some true /\ all_gaps not_nan (gaps_at d (d_n_iter d)).
Proof.
  intros HS RK HE HTV HD RO UO HA HL HCV H0 c n J HR HRM RV RE FT Ht NZ.
  destruct (C82_only_B V IE rnd a rank out0 l kw u HS RK HE HTV RO UO HA HL HCV H0 HR HRM) as (x & BX & _ & LX). fold c n J in BX, LX.
  destruct (NZ x BX) as (i & j & k & Hi & Hj & Hk & Hx). destruct (close_gap_l n J rank x i j k t Hi Hj Hk Hx Ht) as (eps & He & CG).
  destruct (LX eps He) as (n0 & HN). exists n0. intros N HNn. destruct (HN N HNn) as (out & EO & _ & _ & _ & C1 & C2).
  assert (HS' : sensible V (with_iterations N a) rank) by exact HS. exists out.
  destruct (report_of_gaps V IE rnd (with_iterations N a) rank out t HS' RK HE HD RV RE FT Ht EO) as (d & K); [|exists d; split; [exact EO|exact K]].
  intros s EC EV RA RC NA _ NC. specialize (C2 _ EV). cbn [vars_of v_auxB] in C2. rewrite EC in C1.
  pose proof (UO 0%nat ltac:(lia)) as Y0. pose proof (UO 2%nat ltac:(lia)) as Y2. cbn [updates Nat.eqb] in Y0, Y2. specialize (NA Y0). specialize (NC Y2).
  destruct (fit_sizes V IE rnd (with_iterations N a) rank out HS' RK HE HD EO) as (_ & _ & Z3 & Z4). rewrite EC in Z3, Z4.
  assert (ED : forall W Z, ldist (length (cBs (st_cmf s))) (rowsB (st_cmf s)) (mc (cA (st_cmf s))) Z W = ldist n J rank Z W).
  { intros W Z. unfold ldist. f_equal. rewrite RA. change (length (cBs (st_cmf s))) with (length (cBs (st_cmf s))) in *. rewrite Z3. fold n. rewrite !Sum_rsum. apply rsum_ext. intros p Hp. now rewrite (Z4 p Hp). }
  assert (EN : forall W, lnorm (length (cBs (st_cmf s))) (rowsB (st_cmf s)) (mc (cA (st_cmf s))) W = lnorm n J rank W).
  { intros W. unfold lnorm. f_equal. rewrite RA, Z3. rewrite !Sum_rsum. apply rsum_ext. intros p Hp. now rewrite (Z4 p Hp). }
  unfold met_gaps. rewrite NA, NC. split; [intros q Hq; cbn in Hq; lia|]. split; [|intros q Hq; cbn in Hq; lia].
  intros q Hq. unfold dist_B, norm_B. rewrite ED, EN. apply CG; [exact C1|]. rewrite Forall_map in C2. exact (proj1 (Forall_forall _ _) C2 _ (nth_In _ _ Hq)).
Qed.
Print Assumptions C89_reached_B.

(** ** What is missing: a zero factor *)
(** In double precision: A = 0, its penalty objects are non-negativity and the bounds 1 and 2, feasibility_tol is 1/1000.  The fit is reported as
    feasible, although no matrix with entries of at least 1 is near A = 0. *)
Definition zero_out : Prop := exists out d, zero_result nn_box = Ok out /\ out_diag out = Some d /\ d_feasible d = Some true /\ cA (out_cmf out) = d11 (lit 0 1) /\
  user_penalties (f_regs (zero_call nn_box)) 0 [d_nn (lit 0 1) (lit 0 1); d_box (lit 1 1) (lit 2 1)] /\ f_feas_tol (zero_call nn_box) = Some (lit 1 1000) /\ f_updA (zero_call nn_box) = true.
Theorem C89_zero_factor_refuted : zero_out.
Proof.
  destruct C88_zero_factor_refuted as ((v & d & H & _ & F & _) & _). eexists. exists d. split; [exact H|]. repeat split; exact F.
Qed.
Print Assumptions C89_zero_factor_refuted.

(** ** A case that meets the hypotheses *)
(** Data 2, rank 1, A = B = 1; C is updated, with ridge 1, non-negativity and the upper bound 1/2.  With enough iterations feasibility is reported,
    and then C exceeds 1/2 by at most a tenth of its size. *)
Example C89_nonvacuous rnd : exists V, svd_correct (e_ext V) 1 /\ sensible V (args82 2) 1 /\ exists n0, forall n, (n0 <= n)%Z -> (0 < n)%Z -> exists out d, let b := with_iterations n (args82 2) in
  cmf_aoadmm V no_ext rnd b = Ok out /\ out_diag out = Some d /\ d_feasible d = Some true /\ all_gaps not_nan (gaps_at d (d_n_iter d)) /\ user_parafac2_ready b /\
  factor_entries (out_cmf out) 2 (fun x => x <= 1 / 2 + 1 / 10 * factor_norm (out_cmf out) 2).
Proof.
  destruct ideal_exists as (E & HE & HT). set (V := Env (N:=RNum) E (fun _ => []) true). exists V. split; [apply HE|].
  assert (SE : sensible V (args82 2) 1) by apply (dependable82 E 2). split; [exact SE|].
  assert (RO : runs_on (args82 2)) by (split; [intros (x & K & _); discriminate K|]; split; [reflexivity|cbn; lra]).
  assert (UO : updates_only (args82 2) 2) by (intros k Hk; destruct k as [|[|[|k]]]; try lia; reflexivity).
  assert (CV : asks_convex (kw82 2) user82) by (split; [discriminate|]; split; [reflexivity|repeat constructor]).
  assert (HD : 0 < data_sumsq (f_data (args82 2))) by (mcomp; lra).
  assert (ST : exists out0, cmf_aoadmm V no_ext rnd (with_iterations 0 (args82 2)) = Ok out0).
  { assert (D' : dependable V (with_iterations 0 (args82 2)) 1) by exact (dependable82 E 2). exact (C51_fit_total V no_ext rnd _ 1 D' no_ext_ranks (HE 1%nat)). }
  destruct ST as (out0 & H0). destruct (start82_out E rnd 2 out0 (HE 1%nat) H0) as (S1 & S2 & S3).
  destruct (C89_reached_C V no_ext rnd (args82 2) 1 out0 (fun _ => 1) kw82 (fun _ => user82) (1 / 10) SE no_ext_ranks (HE 1%nat) HT HD RO UO (arguments82 2) ltac:(lra) CV) as (n0 & HN).
  { exact H0. }
  { unfold rho_C, nthB. rewrite S1, S2. mcomp. lra. }
  { rewrite S3. apply room82. }
  { reflexivity. } { reflexivity. } { reflexivity. } { lra. }
  { intros x. rewrite S3. intros (_ & BX). exists 0%nat, 0%nat. split; [cbn; lia|]. split; [lia|]. intros Z.
    specialize (BX (fun _ _ => 1 / 2)). assert (AL : allowed (kw82 2) user82 1 1 (fun _ _ => 1 / 2)) by (apply allowed82; lra). specialize (BX AL). clear AL.
    unfold smooth_C, price in BX. rewrite S1, S2, S3 in BX. revert BX. mcomp. rewrite Z. lra. }
  exists n0. intros n Hn Hp. destruct (HN n Hn) as (out & d & H1 & H2 & H3 & H4). exists out, d. cbv zeta. do 4 (split; [assumption|]).
  assert (UR : user_parafac2_ready (with_iterations n (args82 2))).
  { intros u HU. assert (EU : u = user82) by (eapply user_unique; [exact HU|reflexivity]). rewrite EU. constructor; [exact Logic.I|constructor]. }
  split; [exact UR|].
  destruct (C89_entries_partial V no_ext rnd (with_iterations n (args82 2)) 1 out d (1 / 10) SE no_ext_ranks (HE 1%nat) HD UR Hp ltac:(reflexivity) H1 H2 H3 eq_refl H4 2%nat (kw82 2) ltac:(lia) eq_refl) as (_ & _ & K & _).
  { apply (arguments82 2 2%nat ltac:(lia)). }
  exact (K (1 / 2) eq_refl).
Qed.
