(** Two problems in different orthonormal coordinates: whole calls. *)
From Coq Require Import Reals Lra Lia List Arith Bool ZArith.
From Verif Require Import Num Numpy RFacts Spec SpecFacts MatFacts ModelSpec SvdFacts Penalties PenaltySpec ProxProofs CoupledMatrices CmfSpec CmfProofs Decomp DecompSpec
  DecompFacts AoRun TotalRun AdmmA Parafac2Proofs OrderSpec OrderProofs OrderSizes InitVars InitSpec Parse ParseSpec ParseProofs Fit FitSpec FitProofs ResumeSpec StartSpec
  SymSpec SymFacts SymPen SymStep SymRun SymLoop SymFit SymCall P10_Start P29_Symmetry TurnSpec TurnFacts PadSpec PadFacts TurnRun TurnLoop.
Import ListNotations.
Local Open Scope R_scope.
Local Notation shaped := PenaltySpec.shaped.

(** ** Requests *)
Lemma parse_mode_pens V kw ai di ai' di' l l' : parse_mode V kw ai di = Ok l -> parse_mode V kw ai' di' = Ok l' -> map o_pen l' = map (o_pen (N:=RNum)) l.
Proof.
  intros H H'. apply parse_mode_iff in H as (_ & gl & GL & ->). apply parse_mode_iff in H' as (_ & gl' & GL' & ->). rewrite !map_app.
  assert (EG : map o_pen gl' = map o_pen gl).
  { unfold gl_ok in GL, GL'. destruct (k_gl2 kw) as [[|M|]|]; try (subst; reflexivity); try contradiction. destruct GL as (U & s & -> & E1), GL' as (U' & s' & -> & E2). rewrite E1 in E2. injection E2 as <- <-. reflexivity. }
  assert (EB : map o_pen (s_box kw ai' di') = map o_pen (s_box kw ai di)) by (unfold s_box; destruct (k_lower kw), (k_upper kw); reflexivity).
  assert (ES : s_skip kw ai' di' = s_skip kw ai di) by (unfold s_skip; f_equal; unfold s_box; destruct (k_lower kw), (k_upper kw); reflexivity).
  rewrite EG, EB. unfold s_non. rewrite ES. unfold s_pf2, s_uni, s_ball, s_tv, s_l1.
  f_equal; [destruct (k_pf2 kw); reflexivity|]. f_equal; [destruct (btruthy (k_uni kw)); reflexivity|]. f_equal. f_equal; [destruct (k_norm kw) as [b|]; [destruct (ntruthy b)|]; reflexivity|].
  f_equal; [destruct (k_tv kw) as [b|]; [destruct (ntruthy b)|]; reflexivity|]. f_equal; [match goal with |- context[if ntruthy ?x then _ else _] => destruct (ntruthy x) end; reflexivity|]. f_equal. destruct (_ && _)%bool; reflexivity.
Qed.
Lemma requests_equal V a b : same_requests a b -> forall m l l', (m < 3)%nat -> penalties_of V a m l -> penalties_of V b m l' -> l' = l.
Proof.
  intros (_ & EK & EU) m l l' Hm (t & EP & ->) (t' & EP' & ->). rewrite EK in EP'.
  destruct (parse_all_ok _ _ _ _ _ _ EP m Hm) as (kw & pa & u & MV & PM & US & ->). destruct (parse_all_ok _ _ _ _ _ _ EP' m Hm) as (kw' & pa' & u' & MV' & PM' & US' & ->).
  rewrite <- (values_fun _ _ _ _ MV MV') in PM'. rewrite !map_app. f_equal; [exact (parse_mode_pens _ _ _ _ _ _ _ _ PM PM')|exact (EU m u u' Hm US US')].
Qed.
Lemma free_pens V a m l : (m < 3)%nat -> free_mode a m -> penalties_of V a m l -> Forall coordinate_free l.
Proof.
  intros Hm (F1 & F2) (t & EP & ->). destruct (parse_all_ok _ _ _ _ _ _ EP m Hm) as (kw & pa & u & MV & PM & US & ->). rewrite map_app, Forall_app. split; [|rewrite Forall_map; exact (F2 u US)].
  destruct (F1 kw MV) as (NN & LO & UP & L1 & NU & TV & GG). apply parse_mode_iff in PM as (_ & gl & GL & ->).
  assert (G : gl = []) by (unfold gl_ok in GL; now destruct GG as [GG|GG]; rewrite GG in GL). subst gl.
  assert (B1 : btruthy (k_nn kw) = false) by (destruct (btruthy (k_nn kw)) eqn:E0; [apply btruthy_wants in E0; tauto|reflexivity]).
  assert (B2 : btruthy (k_uni kw) = false) by (destruct (btruthy (k_uni kw)) eqn:E0; [apply btruthy_wants in E0; tauto|reflexivity]).
  assert (S5 : s_tv kw (f_aux a) (f_dual a) = []).
  { unfold s_tv. destruct (k_tv kw) as [b|]; [|reflexivity]. cbn in TV. subst b. now rewrite zero_not_truthy. }
  assert (S6 : s_l1 kw (f_aux a) (f_dual a) = []).
  { unfold s_l1. replace (ntruthy (N:=RNum) _) with false; [reflexivity|]. symmetry.
    destruct (k_tv kw) as [b|]; cbn in TV; [subst b|]; cbn [otruthy]; rewrite ?zero_not_truthy; destruct (k_l1 kw) as [b|]; cbn in L1; try subst b; exact zero_not_truthy. }
  rewrite S5, S6. unfold s_pf2, s_uni, s_ball, s_box, s_non. rewrite B1, B2, LO, UP. cbn [andb app]. rewrite !map_app, !Forall_app.
  split; [destruct (k_pf2 kw); repeat constructor|]. split; [destruct (k_norm kw) as [b|]; [destruct (ntruthy b)|]; repeat constructor|]. constructor.
Qed.

(** none of the penalties of the B_i and of C sees the change *)
Definition unseen V (a : fitR) (z : sizes) (t : coords) : Prop :=
  (forall l p, penalties_of V a 1 l -> In p l -> ~ is_parafac2 p -> forall i, (i < z_n z)%nat -> free_here (z_rows z i) (t_rows t i) p) /\
  (forall l p, penalties_of V a 2 l -> In p l -> ~ is_parafac2 p -> free_here (z_cols z) (t_cols t) p).
Lemma free_unseen V a z t : frames z t -> free_mode a 1 \/ rows_straight z t -> free_mode a 2 \/ cols_straight z t -> unseen V a z t.
Proof.
  intros HF FB FC.
  assert (CF : forall (p : penalty (N:=RNum)), ~ is_parafac2 p -> coordinate_free p -> exists b, p = L2Ball b false).
  { intros p NP K. destruct p as [|lo hi|reg nn|M U s0|reg l1|b0 nn| |nn|n0' ub uc]; try contradiction. cbn in K. subst nn. eauto. }
  split; intros l p PL IN NP.
  - intros i Hi. destruct FB as [FM|RS]; [|left; apply straight_eye; [apply HF; exact Hi|exact (RS i Hi)]]. right. left. apply CF; [exact NP|]. pose proof (free_pens V a 1 l ltac:(lia) FM PL) as K. rewrite Forall_forall in K. auto.
  - destruct FC as [FM|CS]; [|left; apply straight_eye; [apply HF|exact CS]]. right. left. apply CF; [exact NP|]. pose proof (free_pens V a 2 l ltac:(lia) FM PL) as K. rewrite Forall_forall in K. auto.
Qed.

(** ** The start *)
Section Fit.
Variables (V : envR) (IE IE' : initextR) (rnd rnd' : rand (N:=RNum)) (a b : fitR) (rank : nat) (z : sizes) (t : coords).
Hypothesis HS : sensible V a rank.
Hypothesis HS' : sensible V b rank.
Hypothesis RK : ranks_kept IE.
Hypothesis RK' : ranks_kept IE'.
Hypothesis HR : z_rank z = rank.
Hypothesis HF : frames z t.
Hypothesis HX : turned_data z t (f_data a) (f_data b).
Hypothesis HSET : same_settings a b.
Hypothesis HREQ : same_requests a b.
Hypothesis FU : unseen V a z t.
Variables (c c' : rcmf) (v v' : admmvars (N:=RNum)).
Hypothesis ST : starts_at V IE rnd a c v.
Hypothesis ST' : starts_at V IE' rnd' b c' v'.
Hypothesis MC : turned_cmf z t c c'.
Hypothesis MV : turned_vars z t v v'.
Variable E : ext (N:=RNum).
Hypothesis HPOL : wants_parafac2 a -> (forall i, (i < z_n z)%nat -> (z_rank z <= z_rows z i)%nat) -> pol_ok E z t.

Lemma t_pos : (0 < z_n z)%nat.
Proof. destruct HS as (NE & _). destruct HX as (L1 & _). rewrite <- L1. destruct (f_data a); [congruence|cbn; lia]. Qed.
Lemma turned_start : exists s s' l2, setup V IE rnd a = Ok (s, l2) /\ setup V IE' rnd' b = Ok (s', l2) /\ tst E z t s s' /\ weights_ok z s.
Proof.
  destruct (start_setup _ _ _ _ _ _ _ HS RK ST) as (s & l2 & SE & EC & EV). destruct (start_setup _ _ _ _ _ _ _ HS' RK' ST') as (s' & l2' & SE' & EC' & EV').
  destruct (setup_ok _ _ _ _ _ _ _ HS RK SE) as (VS & SI & MR & EL & _ & p & (EP & TA & TB & TC)). destruct (setup_ok _ _ _ _ _ _ _ HS' RK' SE') as (VS' & SI' & MR' & EL' & _ & p' & (EP' & TA' & TB' & TC')).
  destruct HSET as (S1 & S2 & S3 & S4 & S5 & S6 & S7 & S8 & S9 & S10 & S11 & S12 & S13 & S14). pose proof HREQ as (ER & _). rewrite ER, EL in EL'. injection EL' as <-.
  exists s, s', l2. split; [exact SE|]. split; [exact SE'|].
  assert (PEN : forall m, (m < 3)%nat -> map o_pen (pick p' m) = map o_pen (pick p m)) by (intros m Hm; apply (requests_equal V a b HREQ m _ _ Hm); [exists p; auto|exists p'; auto]).
  destruct VS as (DF & _ & VA & VB & VC). rewrite EC in *. pose proof DF as (VCM & _). destruct VCM as (WA & WC & CC & RA & FBs & FW).
  pose proof MC as (M1 & M2 & M3 & M4). pose proof M3 as (LB & LB' & MB). pose proof M4 as ((_ & RC & _) & _).
  rewrite MR, <- HR in *. rewrite RA, RC, LB in *.
  assert (SA : shaped (cA c) (z_n z) (z_rank z)) by (split; [exact WA|split; [exact RA|exact MR]]).

  rewrite <- EV, <- EV' in MV. destruct MV as (V1 & V2 & V3 & V4 & V5 & V6). cbn [vars_of v_auxA v_auxB v_auxC v_dualA v_dualB v_dualC] in V1, V2, V3, V4, V5, V6.
  assert (EQ : mc (t_cols t) = z_cols z) by apply HF.
  split; [|unfold weights_ok; rewrite EC; destruct (cw c) as [w|]; [apply FW; reflexivity|exact Logic.I]].
  split; [|split; [|split; [|split]]].
  - rewrite EC, EC'. split; [exact M1|]. split; [exact M2|]. split; [exact SA|]. split; [now apply tl_turned|now apply tm_turned].
  - assert (PA : map g_pen (st_rA s') = map g_pen (st_rA s)) by (rewrite TA, TA', S10; destruct (f_updA a); [apply (PEN 0%nat); lia|reflexivity]).
    clear - PA V1 V2. revert V1 V2 PA. generalize (st_rA s). generalize (st_rA s'). induction l as [|g l IH]; intros [|g' l'] H1 H2 H3; try discriminate; [reflexivity|]. cbn in H1, H2, H3. injection H1 as H1 H1'. injection H2 as H2 H2'. injection H3 as H3 H3'. f_equal; [|now apply IH]. destruct g, g'. cbn in *. congruence.
  - assert (PB : Forall2 (fun q q' => q' = q /\ In q (map o_pen (pick p 1)) /\ (f_updB a = true)) (map b_pen (st_rB s)) (map b_pen (st_rB s'))).
    { rewrite TB, TB', S11. destruct (f_updB a); [|constructor]. rewrite (PEN 1%nat ltac:(lia)). assert (AL : forall l : list (penalty (N:=RNum)), (forall x, In x l -> In x (map o_pen (pick p 1))) -> Forall2 (fun q q' => q' = q /\ In q (map o_pen (pick p 1)) /\ true = true) l l). { induction l as [|x l IH]; intros H; constructor; [split; [reflexivity|]; split; [apply H; left; reflexivity|reflexivity]|]. apply IH. intros y Hy. apply H. now right. } now apply AL. }
    pose proof (F2_split _ _ _ b_pen b_aux b_dual _ _ PB V3 V4) as F3.
    assert (F4 : Forall2 (fun x y => ((b_pen y = b_pen x /\ In (b_pen x) (map o_pen (pick p 1)) /\ f_updB a = true) /\ turned_auxes z t (b_aux x) (b_aux y) /\ turned_list (z_n z) (z_rows z) (z_rank z) (t_rows t) (b_dual x) (b_dual y)) /\ breg_valid (z_n z) (rowsB c) (z_rank z) x) (st_rB s) (st_rB s')).
    { revert VB. clear - F3. induction F3; intros VB; constructor; inversion VB; subst; auto. }
    eapply F2_impl; [|exact F4]. intros g g' (((Q1 & Q2 & _) & Q3 & Q4) & Q5). destruct Q5 as (_ & Q5).
    assert (RB : forall i, (i < z_n z)%nat -> rowsB c i = z_rows z i) by (intros i Hi; destruct (MB i Hi) as ((_ & Y1 & _) & _); exact Y1).
    split; [exact Q1|]. split.
    { intros PF. apply HPOL.
      - apply (parafac2_wanted V a p EP). apply in_map_iff in Q2 as (o & E1 & IN). apply Exists_exists. exists o. rewrite E1. auto.
      - intros i Hi. destruct (b_pen g), (b_aux g); try contradiction. destruct Q5 as (_ & _ & Q5). rewrite <- (RB i Hi). now apply Q5. }
    split.
    { intros NP i Hi. split.
      - apply (proj1 FU (map o_pen (pick p 1))); auto. exists p. auto.
      - destruct (b_pen g), (b_aux g); try contradiction; try exact Logic.I; rewrite <- (RB _ Hi); now apply Q5. }
    split; [|now apply tl_turned]. destruct (b_aux g), (b_aux g'); cbn [turned_auxes taux] in *; try contradiction; [now apply tl_turned|]. destruct Q3 as (Q3 & Q6). split; [now apply tl_turned|exact Q6].
  - assert (PC : Forall2 (fun q q' => q' = q /\ In q (map o_pen (pick p 2))) (map g_pen (st_rC s)) (map g_pen (st_rC s'))).
    { rewrite TC, TC', S12. destruct (f_updC a); [|constructor]. rewrite (PEN 2%nat ltac:(lia)). assert (AL : forall l : list (penalty (N:=RNum)), (forall x, In x l -> In x (map o_pen (pick p 2))) -> Forall2 (fun q q' => q' = q /\ In q (map o_pen (pick p 2))) l l). { induction l as [|x l IH]; intros H; constructor; [split; [reflexivity|apply H; left; reflexivity]|]. apply IH. intros y Hy. apply H. now right. } now apply AL. }
    pose proof (F2_split _ _ _ g_pen g_aux g_dual _ _ PC V5 V6) as F3.
    assert (F4 : Forall2 (fun x y => ((g_pen y = g_pen x /\ In (g_pen x) (map o_pen (pick p 2))) /\ turned (z_cols z) (z_rank z) (t_cols t) (g_aux x) (g_aux y) /\ turned (z_cols z) (z_rank z) (t_cols t) (g_dual x) (g_dual y)) /\ mreg_valid (z_cols z) (z_rank z) x) (st_rC s) (st_rC s')).
    { revert VC. clear - F3. induction F3; intros VC; constructor; inversion VC; subst; auto. }
    eapply F2_impl; [|exact F4]. intros g g' (((Q1 & Q2) & Q3 & Q4) & (NP & VP & _)).
    split; [exact Q1|]. split; [|split; [exact VP|split; now apply tm_turned]].
    apply (proj2 FU (map o_pen (pick p 2))); auto. exists p. auto.
  - now rewrite SI, SI'.
Qed.
Lemma vars_turned s s' : tst E z t s s' -> turned_vars z t (vars_of s) (vars_of s').
Proof.
  intros (_ & H2 & H3 & H4 & _). unfold turned_vars, vars_of. cbn [v_auxA v_auxB v_auxC v_dualA v_dualB v_dualC]. rewrite H2, !F2_map_iff. assert (EQ : mc (t_cols t) = z_cols z) by apply HF.
  split; [reflexivity|]. split; [reflexivity|]. split; [|split; [|split]].
  - eapply F2_impl; [|exact H3]. intros g g' (_ & _ & _ & Q & _). destruct (b_aux g), (b_aux g'); cbn [turned_auxes taux] in *; try contradiction; [now apply tl_turned|]. destruct Q as (Q3 & Q6). split; [now apply tl_turned|exact Q6].
  - eapply F2_impl; [|exact H3]. intros g g' (_ & _ & _ & _ & Q). now apply tl_turned.
  - eapply F2_impl; [|exact H4]. intros g g' (_ & _ & _ & Q & _). now apply tm_turned.
  - eapply F2_impl; [|exact H4]. intros g g' (_ & _ & _ & _ & Q). now apply tm_turned.
Qed.
Lemma cmf_turned x y : tcmf z t x y -> turned_cmf z t x y.
Proof.
  intros (H1 & H2 & _ & H3 & H4). split; [exact H1|]. split; [exact H2|]. split; [now apply tl_turned|]. apply tm_turned; [apply HF|exact H4].
Qed.
(** With any routines [E] in the loop. *)
Hypothesis HW : forall G : rmat, shaped G rank rank -> finite_svd (x_svd E G rank) = true -> mc (snd (x_svd E G rank)) = rank.
Lemma fit_turned s s' l2 : tst E z t s s' -> weights_ok z s -> same_outcome (turned_output z t) (fit_with E a (s, l2)) (fit_with E b (s', l2)).
Proof.
  intros TS WT. destruct HSET as (S1 & S2 & S3 & S4 & S5 & S6 & S7 & S8 & S9 & S10 & S11 & S12 & S13 & S14).
  assert (PP : forall fl, fit_params b l2 fl = fit_params a l2 fl) by (intros fl; unfold fit_params; rewrite S3, S5, S6, S7, S8, S9, S10, S11, S12, S14; reflexivity).
  assert (HWz : forall G : rmat, shaped G (z_rank z) (z_rank z) -> finite_svd (x_svd E G (z_rank z)) = true -> mc (snd (x_svd E G (z_rank z))) = z_rank z) by (rewrite HR; exact HW).
  assert (HSC : forall fl, 0 <= p_scale (fit_params a l2 fl)) by (intros fl; destruct l2 as [[? ?] ?]; change (0 <= f_scale a); apply HS).
  unfold fit_with. rewrite PP. rewrite (t_init E z t HF t_pos (f_data a) (f_data b) HX (fit_params a l2 (false, false)) s s' TS).
  destruct (init_hist _ (f_data a) s) as [h0|]; [|reflexivity]. cbn [bind]. rewrite S4. destruct (const_flags (f_const a)) as [fl|]; [|reflexivity]. cbn [bind]. rewrite PP, S2, S13.
  pose proof (t_run E z t HF t_pos HWz (f_data a) (f_data b) HX (fit_params a l2 fl) (HSC fl) (f_n_iter a) s s' WT TS) as RR.
  destruct (run E _ (f_data a) _ _) as [[s1 d1]|], (run E _ (f_data b) _ _) as [[s1' d1']|]; cbn [res_rel] in RR; try contradiction; [|exact RR]. cbn [bind same_outcome fst snd] in *. destruct RR as (TS1 & ED).
  split; [apply cmf_turned, TS1|]. split; [|exact ED]. cbn [out_vars]. destruct (f_return_vars a); [now apply vars_turned|exact Logic.I].
Qed.
End Fit.
