(** C83: the same problem in other orthonormal coordinates. *)
From Coq Require Import Reals Lra Lia List Arith Bool ZArith Classical IndefiniteDescription.
From Verif Require Import Num Numpy RFacts Spec SpecFacts MatFacts ModelSpec SvdFacts Penalties PenaltySpec CoupledMatrices CmfSpec CmfProofs Decomp DecompSpec
  DecompFacts AoRun TotalRun InitVars InitSpec InitProofs Parse ParseSpec ParseProofs Fit FitSpec FitProofs P10_Start P11_Total ResumeSpec StartSpec ReorderFit
  SymSpec SymFacts SymPen SymStep SymRun SymLoop SymFit SymCall Ideal FitExamples P25_Starts P29_Symmetry DecompExamples TurnSpec TurnFacts TurnRun TurnLoop TurnFit TurnPolar TurnRefuse.
Import ListNotations.
Local Open Scope R_scope.
Local Notation shaped := PenaltySpec.shaped.

(** ** With penalties that do not see the change *)
Lemma turned_any V IE IE' rnd rnd' (a b : fitR) rank t c c' v v' :
  let z := data_sizes a rank in
  sensible V a rank -> sensible V b rank -> ranks_kept IE -> ranks_kept IE' -> svd_correct (e_ext V) rank ->
  frames z t -> turned_data z t (f_data a) (f_data b) -> same_settings a b -> same_requests a b ->
  unseen V a z t -> ~ wants_parafac2 a \/ rows_straight z t ->
  starts_at V IE rnd a c v -> starts_at V IE' rnd' b c' v' -> turned_cmf z t c c' -> turned_vars z t v v' ->
  same_outcome (turned_output z t) (cmf_aoadmm V IE rnd a) (cmf_aoadmm V IE' rnd' b).
Proof.
  intros z HS HS' RK RK' HE HF HX SS RQ FU NP ST ST' MC MV.
  assert (HP : wants_parafac2 a -> (forall i, (i < z_n z)%nat -> (z_rank z <= z_rows z i)%nat) -> pol_ok (e_ext V) z t).
  { intros WP HJ. destruct NP as [NP|RS]; [contradiction|]. now apply straight_pol. }
  destruct (turned_start V IE IE' rnd rnd' a b rank z t HS HS' RK RK' eq_refl HF SS RQ FU c c' v v' ST ST' MC MV (e_ext V) HP) as (s & s' & l2 & E1 & E2 & TS & WT).
  rewrite !fit_is_with, E1, E2. cbn [bind]. apply (fit_turned V a b rank z t HS eq_refl HF HX SS (e_ext V) (svd_width _ _ HE) s s' l2 TS WT).
Qed.

Lemma outcome_ok Q (x y : res outR) o : same_outcome Q x y -> x = Ok o -> exists o', y = Ok o' /\ Q o o'.
Proof. intros H ->. destruct y as [o'|]; [exists o'; auto|destruct H]. Qed.
Lemma parafac2_any V Vc IE IE' rnd rnd' (a b : fitR) rank t c c' v v' o :
  let z := data_sizes a rank in
  sensible V a rank -> sensible V b rank -> ranks_kept IE -> ranks_kept IE' -> svd_correct (e_ext V) rank -> refuses_dependent V Vc rank ->
  frames z t -> turned_data z t (f_data a) (f_data b) -> same_settings a b -> same_requests a b ->
  unseen V a z t ->
  starts_at V IE rnd a c v -> starts_at V IE' rnd' b c' v' -> turned_cmf z t c c' -> turned_vars z t v v' ->
  start_without_svd a -> norms_independent a rank -> cmf_aoadmm Vc IE rnd a = Ok o ->
  cmf_aoadmm V IE rnd a = Ok o /\ exists o', cmf_aoadmm V IE' rnd' b = Ok o' /\ turned_output z t o o'.
Proof.
  intros z HS HS' RK RK' HE HV HF HX SS RQ FU ST ST' MC MV SW NI HO.
  assert (HP : wants_parafac2 a -> (forall i, (i < z_n z)%nat -> (z_rank z <= z_rows z i)%nat) -> pol_ok (e_ext Vc) z t) by (intros _ HJ; now apply (refusing_pol V)).
  destruct (turned_start V IE IE' rnd rnd' a b rank z t HS HS' RK RK' eq_refl HF SS RQ FU c c' v v' ST ST' MC MV (e_ext Vc) HP) as (s & s' & l2 & E1 & E2 & TS & WT).
  rewrite !fit_is_with in *. rewrite (setup_refusing V Vc rank HV IE rnd a NI SW), E1 in HO. rewrite E1, E2. cbn [bind] in *.
  pose proof (fit_turned V a b rank z t HS eq_refl HF HX SS (e_ext Vc) (refusing_width V Vc rank HE HV) s s' l2 TS WT) as OUT.
  destruct (outcome_ok _ _ _ _ OUT HO) as (o' & EO & TO).
  assert (LE : forall d s0, ok_le (fit_with (e_ext Vc) d (s0, l2)) (fit_with (e_ext V) d (s0, l2))).
  { intros d s0. unfold fit_with. apply ok_bind; [apply ok_refl|]. intros _. apply ok_bind; [apply ok_refl|]. intros fl. apply ok_bind; [|intros [s1 dg]; apply ok_refl]. apply ok_run; [apply HV|apply (refuses_or V Vc rank HV)]. }
  split; [apply LE; exact HO|]. exists o'. split; [apply LE; exact EO|exact TO].
Qed.

(** Given factors, variables that start at zero *)
Lemma scaled_shape (c : rcmf) n r : shaped (cA c) n r -> shaped (scaled_A c) n r.
Proof. intros (W & R0 & C0). unfold scaled_A. destruct (cw c); [|split; auto]. split; [auto with mwf|]. mshape. auto. Qed.
Lemma setup_given V rnd (a : fitR) rank c : sensible V a rank -> accepted V a -> zero_vars a -> without_parafac2 a -> starts_from a c -> data_fits (f_data a) c -> mc (cA c) = rank ->
  exists s l2, setup V no_ext rnd a = Ok (s, l2) /\ st_cmf s = folded c.
Proof.
  intros HS (SV & WL & WK & GR & AC) ZV NP (VC & l & IL & PL) DF CR. destruct HS as (NE & FX & HR & R0 & _).
  destruct (listify_total _ WL) as (x & y & w & EL). destruct (parse_all_total V (f_kw a) (f_regs a) (f_aux a) (f_dual a) GR WK AC) as (t & EP).
  destruct (given_start (e_ext V) no_ext rnd (f_data a) (f_rank a) c l 0 VC PL) as (EI & VF). fold (folded c) in *.
  assert (SO : forall m, (m < 3)%nat -> updates a m = true -> Forall simple_obj (pick t m)).
  { intros m Hm U. pose proof (parsed_zero V a t ZV EP m Hm) as Z. destruct (parse_all_ok _ _ _ _ _ _ EP m Hm) as (kw & pa & u & MV & PM & US & E0). destruct (NP m Hm U) as (N1 & N2). specialize (N1 kw MV). specialize (N2 u US).
    assert (NQ : Forall (fun o : pobjR => ~ is_parafac2 (o_pen o)) (pick t m)).
    { rewrite E0, Forall_app. split; [|exact N2]. apply parse_mode_iff in PM as (_ & gl & GL & ->). unfold s_pf2. rewrite N1. cbn [app]. rewrite !Forall_app. unfold s_uni, s_ball, s_tv, s_l1, s_box, s_non.
      split; [destruct (btruthy (k_uni kw)); repeat constructor; exact (fun K => K)|].
      split; [unfold gl_ok in GL; destruct (k_gl2 kw) as [[|M|]|]; try contradiction; try (subst gl; constructor); destruct GL as (U0 & s0 & -> & _); repeat constructor; exact (fun K => K)|].
      split; [destruct (k_norm kw) as [b0|]; [destruct (ntruthy b0)|]; repeat constructor; exact (fun K => K)|].
      split; [destruct (k_tv kw) as [b0|]; [destruct (ntruthy b0)|]; repeat constructor; exact (fun K => K)|].
      split; [match goal with |- context[if ntruthy ?x then _ else _] => destruct (ntruthy x) end; repeat constructor; exact (fun K => K)|].
      split; [destruct (k_lower kw), (k_upper kw); repeat constructor; exact (fun K => K)|]. destruct (_ && _)%bool; repeat constructor; exact (fun K => K). }
    rewrite Forall_forall in *. intros o Ho. destruct (Z o Ho) as (Z1 & Z2). split; [exact (NQ o Ho)|]. split; exists Zeros; (split; [assumption|discriminate]). }
  assert (DFF : data_fits (f_data a) (folded c)).
  { destruct DF as (_ & L & H). split; [exact VF|]. split; [exact L|exact H]. }
  assert (RF : mc (cA (folded c)) = rank).
  { cbn [folded cA]. pose proof VC as (WA & _). destruct (scaled_shape c (mr (cA c)) (mc (cA c)) (conj WA (conj eq_refl eq_refl))) as (_ & _ & K). congruence. }
  destruct t as [[rA rB] rC]. pose proof (SO 0%nat ltac:(lia)) as P0. pose proof (SO 1%nat ltac:(lia)) as P1. pose proof (SO 2%nat ltac:(lia)) as P2. cbn [updates pick] in P0, P1, P2.
  set (uA := if f_updA a then rA else []). set (uB := if f_updB a then rB else []). set (uC := if f_updC a then rC else []).
  assert (FA : Forall simple_obj uA) by (unfold uA; destruct (f_updA a); [auto|constructor]). assert (FB : Forall simple_obj uB) by (unfold uB; destruct (f_updB a); [auto|constructor]). assert (FC : Forall simple_obj uC) by (unfold uC; destruct (f_updC a); [auto|constructor]).
  destruct (initialize_total (init_aux rnd true) (f_data a) (f_rank a) uA uB uC 0) as (aA & aB & aC & p & EA & A0 & A1 & A2); auto.
  { intros o m q (Q1 & Q2 & _) Hm. rewrite (not_pf2_init_aux rnd true o Q1), HR. apply common_total; assumption. }
  destruct (initialize_total (init_dual rnd) (f_data a) (f_rank a) uA uB uC p) as (dA & dB & dC & q & ED & D0 & D1 & D2); auto.
  { intros o m q (Q1 & _ & Q2) Hm. rewrite HR. apply common_total; assumption. }
  destruct (make_mregs_total 0 uA ltac:(lia) aA dA A0 D0) as (gA & EGA). destruct (make_bregs_total uB aB dB A1 D1) as (gB & EGB). destruct (make_mregs_total 2 uC ltac:(lia) aC dC A2 D2) as (gC & EGC).
  unfold setup. rewrite SV, IL, EI, EL, EP. cbn [negb bind]. cbv zeta. fold uA uB uC. unfold initialize_aux, initialize_dual. rewrite EA. cbn [bind]. rewrite ED. cbn [bind]. rewrite HR, shapes_match_ok by assumption. cbn [negb]. rewrite EGA, EGB, EGC. cbn [bind].
  eexists _, _. split; reflexivity.
Qed.
Lemma zero_turned r c (Q M M' : matR) : mc Q = r -> shaped M r c -> shaped M' (mr Q) c -> zero_mat M -> zero_mat M' -> turned r c Q M M'.
Proof.
  intros EQ S S' (x & y & ->) (x' & y' & ->). pose proof S as (_ & E1 & E2). pose proof S' as (_ & E3 & E4). cbn in E1, E2, E3, E4. subst x y x' y'.
  split; [exact S|]. split; [exact S'|]. intros i j Hi Hj. rewrite mget_mzeros by assumption. symmetry. etransitivity; [apply Sum_rsum|]. apply rsum_zero. intros k Hk. rewrite mget_mzeros by assumption. rn. ring.
Qed.
Lemma given_any V IE rnd (a b : fitR) rank t c c' :
  let z := data_sizes a rank in
  sensible V a rank -> sensible V b rank -> accepted V a -> accepted V b -> svd_correct (e_ext V) rank ->
  frames z t -> turned_data z t (f_data a) (f_data b) -> same_settings a b -> same_requests a b ->
  unseen V a z t -> ~ wants_parafac2 a -> without_parafac2 a -> without_parafac2 b ->
  starts_from a c -> starts_from b c' -> turned_cmf z t c c' -> zero_vars a -> zero_vars b ->
  same_outcome (turned_output z t) (cmf_aoadmm V IE rnd a) (cmf_aoadmm V IE rnd b).
Proof.
  intros z HS HS' AC AC' HE HF HX SS RQ FU NW NP NP' SF SF' MC ZV ZV'.
  pose proof SF as (VC & l & IL & PL). pose proof SF' as (VC' & l' & IL' & PL'). rewrite (seq_any_ext V IE rnd a l IL), (seq_any_ext V IE rnd b l' IL').
  pose proof MC as (M1 & M2 & (L1 & L2 & MB) & (SC & SC' & MCC)). pose proof HX as (X1 & X2 & HXi).
  pose proof VC as (WA & WC & CC & RA & FBs & FW). pose proof VC' as (WA' & WC' & CC' & RA' & FBs' & FW').
  assert (RNK : mc (cA c) = rank) by (destruct SC as (_ & _ & K); rewrite <- CC; exact K).
  assert (DF : data_fits (f_data a) c).
  { split; [exact VC|]. split; [rewrite L1; exact X1|]. intros i Hi. rewrite X1 in Hi. destruct (HXi i Hi) as (SX & _). destruct (MB i Hi) as ((_ & Y1 & _) & _). destruct SC as (_ & Y2 & _). unfold nthX, nthB in *. rewrite Y1, Y2. exact SX. }
  assert (DF' : data_fits (f_data b) c').
  { split; [exact VC'|]. split; [rewrite L2; exact X2|]. intros i Hi. rewrite X2 in Hi. destruct (HXi i Hi) as (_ & SX & _). destruct (MB i Hi) as (_ & (_ & Y1 & _) & _). destruct SC' as (_ & Y2 & _). unfold nthX, nthB in *. rewrite Y1, Y2. exact SX. }
  destruct (setup_given V rnd a rank c HS AC ZV NP SF DF RNK) as (s & l2 & E1 & C1). destruct (setup_given V rnd b rank c' HS' AC' ZV' NP' SF' DF' ltac:(rewrite M2; exact RNK)) as (s' & l2' & E2 & C2).
  destruct (setup_ok _ _ _ _ _ _ _ HS no_ext_ranks E1) as (VS & _ & MR & EL & _ & p & (EP & TA & TB & TC)). destruct (setup_ok _ _ _ _ _ _ _ HS' no_ext_ranks E2) as (VS' & _ & MR' & EL' & _ & p' & (EP' & TA' & TB' & TC')).
  pose proof SS as (S1 & S2 & S3 & S4 & S5 & S6 & S7 & S8 & S9 & S10 & S11 & S12 & S13 & S14).
  assert (PEN : forall m, (m < 3)%nat -> map o_pen (pick p' m) = map o_pen (pick p m)) by (intros m Hm; apply (requests_equal V a b RQ m _ _ Hm); [exists p; auto|exists p'; auto]).
  assert (PA : map g_pen (st_rA s') = map g_pen (st_rA s)) by (rewrite TA, TA', S10; destruct (f_updA a); [apply (PEN 0%nat); lia|reflexivity]).
  assert (PB : map b_pen (st_rB s') = map b_pen (st_rB s)) by (rewrite TB, TB', S11; destruct (f_updB a); [apply (PEN 1%nat); lia|reflexivity]).
  assert (PC : map g_pen (st_rC s') = map g_pen (st_rC s)) by (rewrite TC, TC', S12; destruct (f_updC a); [apply (PEN 2%nat); lia|reflexivity]).
  destruct (setup_zero _ _ _ _ _ _ ZV E1) as (Z1 & Z2 & Z3). destruct (setup_zero _ _ _ _ _ _ ZV' E2) as (Z1' & Z2' & Z3').
  assert (MF : turned_cmf z t (folded c) (folded c')).
  { split; [reflexivity|]. split; [|split; [exact (conj L1 (conj L2 MB))|exact (conj SC (conj SC' MCC))]]. cbn [folded cA]. unfold scaled_A. now rewrite M1, M2. }
  assert (MV : turned_vars z t (vars_of s) (vars_of s')).
  { destruct VS as (_ & _ & VA & VB & VCr), VS' as (_ & _ & VA' & VB' & VCr'). rewrite C1 in *. rewrite C2 in *.
    assert (RWB : forall i, (i < z_n z)%nat -> rowsB (folded c) i = z_rows z i) by (intros i Hi; destruct (MB i Hi) as ((_ & Y1 & _) & _); exact Y1).
    assert (RWB' : forall i, (i < z_n z)%nat -> rowsB (folded c') i = mr (t_rows t i)) by (intros i Hi; destruct (MB i Hi) as (_ & (_ & Y1 & _) & _); exact Y1).
    cbn [folded cA cBs cC] in VA, VB, VCr, VA', VB', VCr', MR, MR'. rewrite MR in *. rewrite MR' in *.
    assert (ESA : scaled_A c' = scaled_A c) by (unfold scaled_A; now rewrite M1, M2). rewrite ESA in *.
    assert (RC : mr (cC c) = z_cols z) by apply SC. assert (RC' : mr (cC c') = mr (t_cols t)) by apply SC'. rewrite RC in VCr. rewrite RC' in VCr'. rewrite L1 in VB. rewrite L2 in VB'.
    assert (ZE : forall M M' : matR, forall r k, shaped M r k -> shaped M' r k -> zero_mat M -> zero_mat M' -> M' = M).
    { intros M M' r k (_ & Q1 & Q2) (_ & Q3 & Q4) (? & ? & ->) (? & ? & ->). cbn in Q1, Q2, Q3, Q4. subst. reflexivity. }
    unfold turned_vars, vars_of. cbn [v_auxA v_auxB v_auxC v_dualA v_dualB v_dualC].
    assert (GA : Forall2 (fun g g' : mregR => g_aux g' = g_aux g /\ g_dual g' = g_dual g) (st_rA s) (st_rA s')).
    { clear - PA VA VA' Z1 Z1' ZE. revert PA VA VA' Z1 Z1'. generalize (st_rA s'). induction (st_rA s) as [|g l IH]; intros [|g' l'] PA VA VA' Z1 Z1'; try discriminate; constructor; cbn in PA; injection PA as PA PA'; inversion VA; inversion VA'; inversion Z1; inversion Z1'; subst; [|now apply IH].
      destruct H1 as (_ & _ & Q1 & Q2), H5 as (_ & _ & Q3 & Q4), H9 as (Q5 & Q6), H13 as (Q7 & Q8). split; eapply ZE; eassumption. }
    assert (TLZ : forall l l', list_shaped (z_n z) (rowsB (folded c)) rank l -> list_shaped (z_n z) (rowsB (folded c')) rank l' -> Forall zero_mat l -> Forall zero_mat l' -> turned_list (z_n z) (z_rows z) rank (t_rows t) l l').
    { intros x x' (LL & H1) (LL' & H2) F1 F2. split; [exact LL|]. split; [exact LL'|]. intros i Hi. rewrite Forall_forall in F1, F2. apply zero_turned; [apply HF; exact Hi|rewrite <- (RWB i Hi); now apply H1|rewrite <- (RWB' i Hi); now apply H2|apply F1, nth_In; rewrite LL; exact Hi|apply F2, nth_In; rewrite LL'; exact Hi]. }
    assert (NPB : Forall (fun g : bregR => ~ is_parafac2 (b_pen g)) (st_rB s)).
    { rewrite <- Forall_map with (f := b_pen (N:=RNum)) (P := fun q => ~ is_parafac2 q). rewrite TB. destruct (f_updB a) eqn:UB; [|constructor].
      rewrite Forall_map. apply Forall_forall. intros o Ho K. apply NW. apply (parafac2_wanted V a p EP). apply Exists_exists. exists o. auto. }
    assert (GB : Forall2 (fun g g' : bregR => turned_auxes z t (b_aux g) (b_aux g') /\ turned_list (z_n z) (z_rows z) (z_rank z) (t_rows t) (b_dual g) (b_dual g')) (st_rB s) (st_rB s')).
    { clear - PB VB VB' Z2 Z2' TLZ NPB. revert PB VB VB' Z2 Z2' NPB. generalize (st_rB s'). induction (st_rB s) as [|g l IH]; intros [|g' l'] PB VB VB' Z2 Z2' NPB; try discriminate; constructor; cbn in PB; injection PB as PB PB'; inversion VB; inversion VB'; inversion Z2; inversion Z2'; inversion NPB; subst; [|now apply IH].
      destruct H1 as (Q1 & Q2), H5 as (Q3 & Q4), H9 as (Q5 & Q6), H13 as (Q7 & Q8). rewrite PB in Q4. split; [|now apply TLZ].
      destruct (b_aux g) as [x|x y], (b_aux g') as [x'|x' y']; destruct (b_pen g); try contradiction; try (exfalso; apply H17; exact Logic.I); cbn [turned_auxes zero_val] in *; apply TLZ; tauto. }
    assert (GC : Forall2 (fun g g' : mregR => turned (z_cols z) (z_rank z) (t_cols t) (g_aux g) (g_aux g') /\ turned (z_cols z) (z_rank z) (t_cols t) (g_dual g) (g_dual g')) (st_rC s) (st_rC s')).
    { assert (EQ : mc (t_cols t) = z_cols z) by apply HF. clear - PC VCr VCr' Z3 Z3' EQ. revert PC VCr VCr' Z3 Z3'. generalize (st_rC s'). induction (st_rC s) as [|g l IH]; intros [|g' l'] PC VC VC' Z3 Z3'; try discriminate; constructor; cbn in PC; injection PC as PC PC'; inversion VC; inversion VC'; inversion Z3; inversion Z3'; subst; [|now apply IH].
      destruct H1 as (_ & _ & Q1 & Q2), H5 as (_ & _ & Q3 & Q4), H9 as (Q5 & Q6), H13 as (Q7 & Q8). split; now apply zero_turned. }
    clear - GA GB GC. split; [|split; [|split; [|split; [|split]]]]; try (rewrite F2_map_iff; (eapply F2_impl; [|eassumption]); intros ? ? (? & ?); assumption); clear - GA; induction GA as [|? ? ? ? (? & ?) ? IH]; cbn; congruence. }
  destruct (const_flags (f_const a)) as [fl|e] eqn:EF.
  2:{ assert (IH : forall (X : list matR) s0 P', valid_state X s0 -> exists h0, init_hist P' X s0 = Ok h0).
      { intros X s0 P' W0. unfold init_hist. cbv zeta. destruct (TotalRun.state_loss_total P' X s0 W0) as (lo & ->). destruct (AoRun.state_gaps_ok X s0 W0) as (g & -> & _). cbn. eauto. }
      unfold cmf_aoadmm. rewrite E1, E2. cbn [bind]. destruct (IH _ _ (fit_params a l2 (false, false)) VS) as (h0 & ->). destruct (IH _ _ (fit_params b l2' (false, false)) VS') as (h1 & ->). cbn [bind]. rewrite S4, EF. reflexivity. }
  assert (NC : f_const a <> COther) by (intros K; rewrite K in EF; discriminate).
  apply (turned_any V no_ext no_ext rnd rnd a b rank t (folded c) (folded c') (vars_of s) (vars_of s')); try assumption; try exact no_ext_ranks; [now left| |].
  - pose proof (setup_start V no_ext rnd a rank s l2 HS no_ext_ranks NC E1) as Q. now rewrite C1 in Q.
  - assert (NC' : f_const b <> COther) by (rewrite S4; exact NC). pose proof (setup_start V no_ext rnd b rank s' l2' HS' no_ext_ranks NC' E2) as Q. now rewrite C2 in Q.
Qed.
(** ** From corresponding starts *)
(** The second call is the first with X_i replaced by P_i X_i Q^T, where P_i and Q have orthonormal
    columns.  What is asked of the B_i, and of C, does not depend on the coordinates, or they are not
    turned.  If the calls start at corresponding points, both return: the same A, the B_i and C turned, the
    variables turned, the same diagnostics; or both raise the same exception. *)
Theorem C83_turned V IE IE' rnd rnd' (a b : fitR) rank t c c' v v' :
  let z := data_sizes a rank in
  sensible V a rank -> sensible V b rank -> ranks_kept IE -> ranks_kept IE' -> svd_correct (e_ext V) rank ->
  frames z t -> turned_data z t (f_data a) (f_data b) -> same_settings a b -> same_requests a b ->
  free_mode a 1 \/ rows_straight z t -> free_mode a 2 \/ cols_straight z t -> ~ wants_parafac2 a \/ rows_straight z t ->
  starts_at V IE rnd a c v -> starts_at V IE' rnd' b c' v' -> turned_cmf z t c c' -> turned_vars z t v v' ->
  same_outcome (turned_output z t) (cmf_aoadmm V IE rnd a) (cmf_aoadmm V IE' rnd' b).
Proof.
  intros z HS HS' RK RK' HE HF HX SS RQ FB FC. apply turned_any; auto. now apply free_unseen.
Qed.

(** With PARAFAC2 on turned rows: the nearest orthonormal matrix is unique only for matrices whose columns are
    independent.  If the first call returns with a routine that refuses to decompose any other
    matrix, then both calls return, and the results correspond. *)
Theorem C83_parafac2 V Vc IE IE' rnd rnd' (a b : fitR) rank t c c' v v' o :
  let z := data_sizes a rank in
  sensible V a rank -> sensible V b rank -> ranks_kept IE -> ranks_kept IE' -> svd_correct (e_ext V) rank -> refuses_dependent V Vc rank ->
  frames z t -> turned_data z t (f_data a) (f_data b) -> same_settings a b -> same_requests a b ->
  free_mode a 1 \/ rows_straight z t -> free_mode a 2 \/ cols_straight z t ->
  starts_at V IE rnd a c v -> starts_at V IE' rnd' b c' v' -> turned_cmf z t c c' -> turned_vars z t v v' ->
  start_without_svd a -> norms_independent a rank -> cmf_aoadmm Vc IE rnd a = Ok o ->
  cmf_aoadmm V IE rnd a = Ok o /\ exists o', cmf_aoadmm V IE' rnd' b = Ok o' /\ turned_output z t o o'.
Proof.
  intros z HS HS' RK RK' HE HV HF HX SS RQ FB FC. apply parafac2_any; auto. now apply free_unseen.
Qed.

(** ** Given factors, variables that start at zero *)
Theorem C83_given V IE rnd (a b : fitR) rank t c c' :
  let z := data_sizes a rank in
  sensible V a rank -> sensible V b rank -> accepted V a -> accepted V b -> svd_correct (e_ext V) rank ->
  frames z t -> turned_data z t (f_data a) (f_data b) -> same_settings a b -> same_requests a b ->
  free_mode a 1 \/ rows_straight z t -> free_mode a 2 \/ cols_straight z t -> ~ wants_parafac2 a -> without_parafac2 a -> without_parafac2 b ->
  starts_from a c -> starts_from b c' -> turned_cmf z t c c' -> zero_vars a -> zero_vars b ->
  same_outcome (turned_output z t) (cmf_aoadmm V IE rnd a) (cmf_aoadmm V IE rnd b).
Proof.
  intros z HS HS' AC AC' HE HF HX SS RQ FB FC. apply given_any; auto. now apply free_unseen.
Qed.
Print Assumptions C83_given.
Print Assumptions C83_turned.
Print Assumptions C83_parafac2.

(** ** A call in other coordinates *)
(** Rank 2; ridge terms, A non-negative, a bound on the column norms of the B_i, nothing asked of C. *)
Definition args83 (Xs : list matR) (c : rcmf) : fitR :=
  FitArgs (N:=RNum) Xs (PyInt 2) (InitSeq (seq66 c)) 3 (AIter [Some (1 / 10); Some (1 / 5); Some (3 / 10)])
    (KwArgs (AIter [Some true; None; None]) (AOne None) (AOne None) (AIter [None; Some 2; None]) (AOne None) false (AOne None) (AOne None) (AOne None)) RNone
    1 (CBool false) (IStr Zeros) (IStr Zeros) true (Some (1 / 100)) (Some (1 / 1000)) (Some (1 / 10000)) None 5 true true true true true.
Lemma kw83 Xs c m kw : (m < 3)%nat -> mode_values (f_kw (args83 Xs c)) m kw -> k_nn kw = (if (m =? 0)%nat then Some true else None) /\ k_lower kw = None /\ k_upper kw = None /\ k_norm kw = (if (m =? 1)%nat then Some 2 else None) /\
  k_uni kw = None /\ k_l1 kw = None /\ k_tv kw = None /\ k_gl2 kw = None /\ k_pf2 kw = false.
Proof. intros Hm ((_ & M1) & M2 & M3 & (_ & M4) & M5 & M6 & M7 & M8 & M9). cbn in M2, M3, M5, M6, M7, M8, M9. destruct m as [|[|[|m]]]; [| | |lia]; cbn in M1, M4; injection M1 as M1; injection M4 as M4; auto 12. Qed.
Lemma l283 Xs c m v : (m < 3)%nat -> means (f_l2 (args83 Xs c)) m v -> v = Some (match m with 0%nat => 1 / 10 | 1%nat => 1 / 5 | _ => 3 / 10 end).
Proof. intros Hm (_ & K). destruct m as [|[|[|m]]]; [| | |lia]; cbn in K; now injection K. Qed.
Lemma valid83 (B : matR) a1 a2 a3 a4 c1 c2 c3 c4 y1 y2 : mwf B -> mc B = 2%nat -> valid_cmf (start69 (m22 a1 a2 a3 a4) B (m22 c1 c2 c3 c4) y1 y2).
Proof.
  intros WB CB. split; [repeat constructor|]. split; [repeat constructor|]. split; [reflexivity|]. split; [reflexivity|]. split; [|discriminate].
  intros [|[|i]] Hi; [split; assumption|repeat constructor|cbn in Hi; lia].
Qed.
Lemma dependable83 E (X B : matR) x1 x2 a1 a2 a3 a4 c1 c2 c3 c4 y1 y2 : mwf X -> mwf B -> mr X = mr B -> mc X = 2%nat -> mc B = 2%nat -> (0 < mr X)%nat ->
  dependable (Env (N:=RNum) E (fun _ => []) true) (args83 [X; m12 x1 x2] (start69 (m22 a1 a2 a3 a4) B (m22 c1 c2 c3 c4) y1 y2)) 2.
Proof.
  intros WX WB RX CX CB PX. set (a := args83 _ _).
  assert (UPX : forall m u, user_penalties (f_regs a) m u -> u = []) by (intros m u H; exact H).
  assert (KWX : forall m kw, (m < 3)%nat -> mode_values (f_kw a) m kw -> _) by (intros m kw; apply kw83). assert (L2X : forall m v, (m < 3)%nat -> means (f_l2 a) m v -> 0 < strength v) by (intros m v Hm MV; rewrite (l283 _ _ m v Hm MV); destruct m as [|[|m]]; cbn; lra).
  split.
  { unfold sensible. split; [discriminate|]. split; [constructor; [split; [exact WX|lia]|repeat constructor]|].
    split; [reflexivity|]. split; [lia|]. split; [do 5 eexists; reflexivity|]. split; [cbn; lra|]. split; [intros m v Hm MV; apply Rlt_le, (L2X m v Hm MV)|]. split.
    - intros m r kw Hm _ MV. destruct (KWX m kw Hm MV) as (K1 & K2 & K3 & K4 & K5 & K6 & K7 & K8 & K9). split; [intros hi E0; congruence|intros M E0; congruence].
    - split.
      + intros m r u Hm _ HU. rewrite (UPX m u HU). constructor.
      + intros [K|(u & HU & K)]; [discriminate K|]. rewrite (UPX 1%nat u HU) in K. inversion K. }
  split; [intros M [<-|[<-|[]]]; [reflexivity|exact (eq_sym CX)]|]. split.
  { eexists. split; [reflexivity|]. split; [|reflexivity]. split; [now apply valid83|]. split; [reflexivity|].
    intros [|[|i]] Hi; [split; [exact WX|split; [exact RX|exact CX]]|repeat constructor|cbn in Hi; lia]. }
  split; [reflexivity|]. split; [discriminate|].
  split; [eexists; split; [reflexivity|discriminate]|]. split; [eexists; split; [reflexivity|discriminate]|].
  split; [reflexivity|]. split; [repeat split; exact Logic.I|]. split; [exact Logic.I|]. split.
  { intros m kw Hm MV. destruct (KWX m kw Hm MV) as (K1 & K2 & K3 & K4 & K5 & K6 & K7 & K8 & K9). unfold acceptable. rewrite K4, K6, K7, K8. cbn [strength].
    split; [lra|]. split; [lra|]. split; [intros K; now destruct K|]. split; [destruct (m =? 1)%nat; cbn [strength]; lra|exact Logic.I]. }
  split.
  { intros m Hm _. split; [intros v MV; now apply (L2X m v)|]. split.
    - intros kw MV. destruct (KWX m kw Hm MV) as (K1 & K2 & K3 & K4 & K5 & K6 & K7 & K8 & K9). unfold asks_plain. rewrite K6, K7, K8, K9. cbn. auto.
    - intros u HU. rewrite (UPX m u HU). constructor. }
  split.
  { intros _ _ [(kw & MV & K)|(u & HU & K)].
    - destruct (KWX 0%nat kw ltac:(lia) MV) as (K1 & K2 & K3 & K4 & K5 & K6 & K7 & K8 & K9). unfold asks_matrixwise, wants in K. rewrite K4, K5, K7, K8 in K. cbn in K.
      destruct K as [K|[K|[K|(M & K)]]]; try discriminate K; lra.
    - rewrite (UPX 0%nat u HU) in K. inversion K. }
  intros _. discriminate.
Qed.
(** The rows of the first matrix are turned and a row of zeros is appended, the row of the second changes
    sign, the columns are turned. *)
Definition m32 (x y u v p q : R) : matR := Mat (N:=RNum) 3 2 [[x; y]; [u; v]; [p; q]].
Definition turn83 : coords := Coords (fun i => if (i =? 0)%nat then m32 (3 / 5) (- (4 / 5)) (4 / 5) (3 / 5) 0 0 else Mat (N:=RNum) 1 1 [[- 1]]) (m22 (4 / 5) (3 / 5) (- (3 / 5)) (4 / 5)).
Definition c83 : rcmf := start69 (m22 1 2 3 1) (m22 1 0 2 1) (m22 1 2 0 1) 1 3.
Definition c83' : rcmf := start69 (m22 1 2 3 1) (m32 (- 1) (- (4 / 5)) 2 (3 / 5) 0 0) (m22 (4 / 5) (11 / 5) (- (3 / 5)) (- (2 / 5))) (- 1) (- 3).
Definition a83 : fitR := args83 [m22 1 2 3 4; m12 5 6] c83.
Definition b83 : fitR := args83 [m32 (- (66 / 25)) (- (13 / 25)) (112 / 25) (41 / 25) 0 0; m12 (- (38 / 5)) (- (9 / 5))] c83'.
Ltac fin i := destruct i as [|[|[|i]]]; try (cbn in *; lia).
Example C83_nonvacuous rnd : exists V out, let z := data_sizes a83 2 in sensible V a83 2 /\ sensible V b83 2 /\ accepted V a83 /\ accepted V b83 /\ svd_correct (e_ext V) 2 /\
  frames z turn83 /\ turned_data z turn83 (f_data a83) (f_data b83) /\ same_settings a83 b83 /\ same_requests a83 b83 /\ free_mode a83 1 /\ free_mode a83 2 /\
  ~ wants_parafac2 a83 /\ without_parafac2 a83 /\ without_parafac2 b83 /\ starts_from a83 c83 /\ starts_from b83 c83' /\ turned_cmf z turn83 c83 c83' /\ zero_vars a83 /\ zero_vars b83 /\
  cmf_aoadmm V no_ext rnd a83 = Ok out.
Proof.
  destruct ideal_exists as (E & HE & _). set (V := Env (N:=RNum) E (fun _ => []) true).
  assert (D : dependable V a83 2) by (apply dependable83; try (repeat constructor); cbn; lia). assert (D' : dependable V b83 2) by (apply dependable83; try (repeat constructor); cbn; lia).
  destruct (C51_fit_total V no_ext rnd _ 2 D no_ext_ranks (HE 2%nat)) as (out & H). exists V, out. cbv zeta.
  assert (NP : forall Xs c, without_parafac2 (args83 Xs c)).
  { intros Xs c m Hm _. split; [intros kw MV; apply (kw83 Xs c m kw Hm MV)|intros u K; cbn in K; rewrite K; constructor]. }
  split; [apply D|]. split; [apply D'|]. split; [now apply (accepted_dependable V _ 2)|]. split; [now apply (accepted_dependable V _ 2)|]. split; [apply HE|].
  split. { split; [|intros [|[|i]] Hi; [| |cbn in Hi; lia]]; (split; [repeat constructor|split; [reflexivity|]]); intros p q Hp Hq; fin p; fin q; cbv; lra. }
  split. { split; [reflexivity|]. split; [reflexivity|]. intros [|[|i]] Hi; [| |cbn in Hi; lia]; (split; [repeat constructor|split; [repeat constructor|]]); intros p q Hp Hq; fin p; fin q; cbv; lra. }
  split; [repeat split|]. split; [split; [reflexivity|split; [reflexivity|intros m u u' Hm K K'; cbn in K, K'; rewrite K, K'; reflexivity]]|].
  assert (FM : forall m, (0 < m < 3)%nat -> free_mode a83 m).
  { intros m Hm. split; [|intros u K; cbn in K; rewrite K; constructor]. intros kw MV. destruct (kw83 _ _ m kw ltac:(lia) MV) as (K1 & K2 & K3 & K4 & K5 & K6 & K7 & K8 & K9). rewrite K1, K2, K3, K5, K6, K7, K8. destruct m as [|m]; [lia|]. cbn.
    split; [discriminate|]. split; [reflexivity|]. split; [reflexivity|]. split; [reflexivity|]. split; [discriminate|]. split; [reflexivity|now left]. }
  split; [apply FM; lia|]. split; [apply FM; lia|]. split; [intros [K|(u & HU & K)]; [discriminate K|cbn in HU; rewrite HU in K; inversion K]|]. split; [apply NP|]. split; [apply NP|].
  split. { split; [apply valid83; repeat constructor|]. exists (seq66 c83). split; reflexivity. }
  split. { split; [apply valid83; repeat constructor|]. exists (seq66 c83'). split; reflexivity. }
  split. { split; [reflexivity|]. split; [reflexivity|]. split; [split; [reflexivity|split; [reflexivity|]]|]; [intros [|[|i]] Hi; [| |cbn in Hi; lia]|]; (split; [repeat constructor|split; [repeat constructor|]]); intros p q Hp Hq; fin p; fin q; cbv; lra. }
  split; [split; [reflexivity|split; [reflexivity|intros m u _ K; cbn in K; rewrite K; constructor]]|]. split; [split; [reflexivity|split; [reflexivity|intros m u _ K; cbn in K; rewrite K; constructor]]|exact H].
Qed.

(** ** A PARAFAC2 call in other coordinates *)
(** Rank 1, one 2 x 1 matrix; B is updated under PARAFAC2 and the call starts at a stationary point, so that the
    matrices decomposed are known.  In the second call a row of zeros is appended. *)
Definition col3 (x y u : R) : matR := Mat (N:=RNum) 3 1 [[x]; [y]; [u]].
Definition args83p (X B : matR) : fitR :=
  FitArgs (N:=RNum) [X] (PyInt 1) (InitSeq [PNone; PSeq [py_of_mat (m11 1); PSeq [py_of_mat B]; py_of_mat (m11 1)]]) 1 (AOne None)
    (KwArgs (AOne None) (AOne None) (AOne None) (AOne None) (AOne None) true (AOne None) (AOne None) (AOne None)) RNone
    1 (CBool false) (IStr RandomUniform) (IStr Zeros) true None None None None 1 false true false true true.
Definition rnd83 : rand (N:=RNum) := fun _ _ => 1.
Definition turn83p : coords := Coords (fun _ => m32 1 0 0 1 0 0) (m11 1).
Definition state83 (B P dual : matR) : state (N:=RNum) := St (N:=RNum) (Cmf (N:=RNum) None (m11 1) [B] (m11 1)) [] [BReg (N:=RNum) (Parafac2 1 true true) (APf2 [P] (m11 1)) [dual]] [] None.
Lemma parse83 V X B : parse_all V (f_kw (args83p X B)) (f_regs (args83p X B)) (f_aux (args83p X B)) (f_dual (args83p X B)) = Ok ([], [PObj (N:=RNum) (Parafac2 1 true true) (IStr RandomUniform) (IStr Zeros)], []).
Proof.
  unfold parse_all. cbn [f_kw f_regs args83p f_aux f_dual check_regs a_nn a_upper a_lower a_norm a_uni a_l1 a_gl2 a_tv a_pf2 listify bind].
  assert (K : forall b ai di, parse_mode V (ModeKw (N:=RNum) None None None None None b None None None) ai di = Ok (if b then [PObj (N:=RNum) (Parafac2 1 true true) ai di] else [])).
  { intros b ai di. unfold parse_mode. cbn [k_nn k_lower k_upper k_norm k_uni k_pf2 k_l1 k_tv k_gl2 btruthy bind otruthy]. cbv zeta. cbv iota.
    change (ntruthy (N:=RNum) n0) with (ntruthy (N:=RNum) 0). rewrite zero_not_truthy. destruct b; reflexivity. }
  rewrite !K. reflexivity.
Qed.
Lemma sensible83 V (X B : matR) : mwf X -> (0 < mr X)%nat -> (0 < mc X)%nat -> sensible V (args83p X B) 1.
Proof.
  intros WX RX CX. unfold sensible. cbn [f_data f_rank f_init f_scale f_l2 f_kw f_regs args83p]. split; [discriminate|].
  split; [repeat constructor; apply WX || assumption|]. split; [reflexivity|]. split; [lia|]. split; [do 5 eexists; reflexivity|]. split; [lra|].
  split; [intros m v _ K; cbn in K; subst v; cbn; lra|].
  split; [intros m r kw _ _ (_ & L & U & _ & _ & _ & _ & G & _); cbn in L, U, G; split; [intros hi K; congruence|intros M K; congruence]|].
  split; [intros m r u _ _ ->; constructor|]. intros _ Y [<-|[]]. lia.
Qed.
Lemma setup83 V : setup V no_ext rnd83 (args83p (col2 1 0) (col2 1 0)) = Ok (state83 (col2 1 0) (col2 1 0) (col2 0 0), (None, None, None)) /\
  setup V no_ext rnd83 (args83p (col3 1 0 0) (col3 1 0 0)) = Ok (state83 (col3 1 0 0) (col3 1 0 0) (col3 0 0 0), (None, None, None)).
Proof.
  pose proof (parse83 V no_mat no_mat) as PA. cbn [f_kw f_aux f_dual f_regs args83p] in PA.
  split; (unfold setup, args83p; cbn [f_svd f_data f_rank f_init f_l2 f_kw f_regs f_aux f_dual f_updA f_updB f_updC negb];
    match goal with |- _ = Ok (?s, _) => match goal with |- context[initialize_cmf ?a ?b ?c ?d ?e ?f ?g] => assert (E1 : initialize_cmf a b c d e f g = Ok (st_cmf s, 0%nat)) by reflexivity end end;
    rewrite E1; cbn [bind listify]; rewrite PA; reflexivity).
Qed.
Lemma svd83 : has_svd (m11 (3 / 2)) 1 (m11 1, [3 / 2], m11 1) /\ has_svd (col2 1 0) 1 (col2 1 0, [1], m11 1).
Proof.
  split; (do 4 (split; [repeat constructor|]); split; [repeat constructor|]; split; [reflexivity|]; split; [reflexivity|];
    split; [intros p q Hp Hq; fin p; fin q; cbv; lra|]; split; [intros p q Hp Hq; fin p; fin q; cbv; lra|]; split; [intros p Hp; fin p; cbv; lra|]; intros p q Hp Hq; cbn in Hp, Hq; fin p; fin q; cbv; lra).
Qed.
Lemma independent11 x : x <> 0 -> independent (m11 x).
Proof. intros NX v H j Hj. cbn in Hj. assert (j = 0)%nat by lia. subst j. specialize (H 0%nat ltac:(cbn; lia)). cbv -[Rplus Rmult R IZR] in H. nra. Qed.
Lemma independent21 : independent (col2 1 0).
Proof. intros v H j Hj. cbn in Hj. assert (j = 0)%nat by lia. subst j. specialize (H 0%nat ltac:(cbn; lia)). cbv -[Rplus Rmult R IZR] in H. lra. Qed.
Lemma step83 Ec P : x_svd Ec (m11 (3 / 2)) 1 = (m11 1, [3 / 2], m11 1) -> x_svd Ec (col2 1 0) 1 = (col2 1 0, [1], m11 1) ->
  P = fit_params (N:=RNum) (args83p (col2 1 0) (col2 1 0)) (None, None, None) (false, false) ->
  outer_step Ec P [col2 1 0] (state83 (col2 1 0) (col2 1 0) (col2 0 0)) = Ok (state83 (col2 1 0) (col2 1 0) (col2 0 0)).
Proof.
  intros H1 H2 ->. unfold outer_step, upd_B, upd_C, upd_A. cbn [fit_params args83p f_updA f_updB f_updC p_updA p_updB p_updC p_l2B p_constB p_inner p_inner_tol p_scale bind f_scale f_inner f_inner_tol l2_value snd fst].
  cbn [st_cmf st_rB st_rA st_rC state83 st_inter].
  match goal with |- context[admm_update_B Ec ?x ?c ?r ?l ?n ?t ?q ?k] => change (admm_update_B Ec x c r l n t q k) with (admm_update_B Ec [col2 1 0] (st_cmf (state83 (col2 1 0) (col2 1 0) (col2 0 0))) (st_rB (state83 (col2 1 0) (col2 1 0) (col2 0 0))) 0 1 None 1 false);
    assert (K : admm_update_B Ec [col2 1 0] (st_cmf (state83 (col2 1 0) (col2 1 0) (col2 0 0))) (st_rB (state83 (col2 1 0) (col2 1 0) (col2 0 0))) 0 1 None 1 false = Ok (st_cmf (state83 (col2 1 0) (col2 1 0) (col2 0 0)), st_rB (state83 (col2 1 0) (col2 1 0) (col2 0 0)))) end.
  2:{ rewrite K. reflexivity. }
  unfold admm_update_B. cbv zeta.
  match goal with |- context[lhs_svds Ec ?l] => assert (L1 : l = [m11 1]) by (meq; ring); rewrite L1; clear L1 end.
  match goal with |- context[B_step Ec _ _ ?l] => assert (L1 : l = [col2 1 0]) by (meq; ring); rewrite L1; clear L1 end.
  assert (F : feas_penalties (N:=RNum) 1 false [m11 1] = Ok [1 / 2]) by (meq; field). rewrite F. cbn [bind]. clear F.
  assert (D : lhs_svds Ec [m11 1] [1 / 2] (length (st_rB (state83 (col2 1 0) (col2 1 0) (col2 0 0)))) 0 = [(m11 1, [3 / 2], m11 1)]).
  { unfold lhs_svds. cbn [map2 state83 st_rB length]. match goal with |- context[lhs_svd Ec ?m] => assert (G : m = m11 (3 / 2)) by (meq; field) end. rewrite G. unfold lhs_svd. cbn [mr m11]. rewrite <- H1. reflexivity. }
  rewrite D. clear D H1. set (d := (m11 1, [3 / 2], m11 1)). cbn [state83 st_cmf st_rB cBs cA cC].
  assert (ST : B_step Ec [d] [1 / 2] [col2 1 0] ([col2 1 0], [BReg (N:=RNum) (Parafac2 1 true true) (APf2 [col2 1 0] (m11 1)) [col2 0 0]]) = Ok ([col2 1 0], [BReg (N:=RNum) (Parafac2 1 true true) (APf2 [col2 1 0] (m11 1)) [col2 0 0]])).
  { unfold B_step. match goal with |- context[shifted_lists ?r] => assert (S1 : shifted_lists r = Ok [[col2 1 0]]) by (meq; ring) end. rewrite S1. cbn [bind length seq mapM nth].
    match goal with |- context[solve_mat d ?m] => assert (S2 : m = col2 (3 / 2) 0) by (meq; field); rewrite S2 end.
    assert (S3 : solve_mat d (col2 (3 / 2) 0) = Ok (col2 1 0)).
    { unfold solve_mat, d, finite_svd. assert (T : forallb (ntruthy (N:=RNum)) [3 / 2] = true) by (cbn [forallb]; rewrite (proj2 (ntruthy_R (3 / 2))) by lra; reflexivity). rewrite T. meq; field. }
    rewrite S3. cbn [bind]. unfold B_reg_step. cbn [b_dual b_pen b_aux]. cbv zeta. match goal with |- context[factor_matrices_update Ec _ ?m] => assert (S4 : m = [col2 1 0]) by (meq; ring); rewrite S4 end.
    cbn [factor_matrices_update pf2_loop negb orb]. unfold pf2_basis. cbn [mapM mr m11]. match goal with |- context[x_svd Ec ?m 1] => assert (S5 : m = col2 1 0) by (meq; ring); rewrite S5 end. rewrite H2.
    match goal with |- context[matmul ?u ?v] => assert (S6 : matmul (N:=RNum) u v = Ok (col2 1 0)) by (meq; ring); rewrite S6 end. cbn [bind].
    assert (S7 : pf2_coord (N:=RNum) [col2 1 0] [col2 1 0] [1 / 2] = Ok (m11 1)).
    { unfold pf2_coord. match goal with |- context[msum_list ?l] => assert (S8 : msum_list (N:=RNum) l = Some (m11 (1 / 2))) by (meq; field); rewrite S8 end.
      assert (S9 : lsum (N:=RNum) [1 / 2] = 1 / 2) by (cbv -[Rplus Rmult Rdiv Rinv IZR R]; field). rewrite S9. rewrite (proj2 (ntruthy_R (1 / 2))) by lra. meq; field. }
    rewrite S7. cbn [bind]. match goal with |- context[subtract_from_auxes ?a ?b ?c] => assert (S10 : subtract_from_auxes (N:=RNum) a b c = Ok [col2 1 0]) by (meq; ring); rewrite S10 end. cbn [bind].
    match goal with |- context[map2 msub ?x ?y] => assert (S11 : map2 (msub (N:=RNum)) x y = [col2 0 0]) by (meq; ring); rewrite S11 end. reflexivity. }
  cbn [inner_loop]. rewrite ST. reflexivity.
Qed.
Lemma ext83 : exists E Ec : ext (N:=RNum), (forall k, svd_correct E k) /\ x_svd E (m11 (3 / 2)) 1 = (m11 1, [3 / 2], m11 1) /\ x_svd E (col2 1 0) 1 = (col2 1 0, [1], m11 1) /\
  refuses_dependent (Env (N:=RNum) E (fun _ => []) true) (Env (N:=RNum) Ec (fun _ => []) true) 1.
Proof.
  destruct ideal_exists as (E0 & HE & _). destruct svd83 as (W1 & W2).
  assert (S : forall p : matR * nat, exists t, (mwf (fst p) -> mc (fst p) = snd p -> (snd p <= mr (fst p))%nat -> has_svd (fst p) (snd p) t) /\ (p = (m11 (3 / 2), 1%nat) -> t = (m11 1, [3 / 2], m11 1)) /\ (p = (col2 1 0, 1%nat) -> t = (col2 1 0, [1], m11 1))).
  { intros p. destruct (classic (p = (m11 (3 / 2), 1%nat))) as [->|N1]; [|destruct (classic (p = (col2 1 0, 1%nat))) as [->|N2]].
    - exists (m11 1, [3 / 2], m11 1). split; [intros; exact W1|]. split; [reflexivity|]. intros K. injection K. intros. lra.
    - exists (col2 1 0, [1], m11 1). split; [intros; exact W2|]. split; [|reflexivity]. intros K. destruct (N1 K).
    - exists (x_svd E0 (fst p) (snd p)). split; [intros W C K; now apply HE|]. split; intros K; contradiction. }
  apply functional_choice in S. destruct S as (f & Hf). set (E := Ext (N:=RNum) (fun M k => f (M, k)) (x_tv E0)).
  assert (T : forall p : matR * nat, exists t, (mc (fst p) = 1%nat -> ~ independent (fst p) -> refused t) /\ ((mc (fst p) = 1%nat -> independent (fst p)) -> t = f p)).
  { intros p. destruct (classic (mc (fst p) = 1%nat -> independent (fst p))) as [H|H].
    - exists (f p). split; [intros K K'; destruct (K' (H K))|auto].
    - exists (Mat (N:=RNum) 0 1 [], [0], Mat (N:=RNum) 0 0 []). split; [intros _ _; split; [discriminate|now left]|intros K; contradiction]. }
  apply functional_choice in T. destruct T as (g & Hg). exists E, (Ext (N:=RNum) (fun M k => g (M, k)) (x_tv E0)).
  split; [intros k M W C K; apply (Hf (M, k)); assumption|]. split; [now apply (Hf (m11 (3 / 2), 1%nat))|]. split; [now apply (Hf (col2 1 0, 1%nat))|].
  split; [reflexivity|]. split; [reflexivity|]. split; [reflexivity|]. intros M k. exact (Hg (M, k)).
Qed.
Example C83_parafac2_nonvacuous : let a := args83p (col2 1 0) (col2 1 0) in let b := args83p (col3 1 0 0) (col3 1 0 0) in
  exists V Vc c c' v v' o, let z := data_sizes a 1 in
  sensible V a 1 /\ sensible V b 1 /\ ranks_kept no_ext /\ svd_correct (e_ext V) 1 /\ refuses_dependent V Vc 1 /\
  frames z turn83p /\ turned_data z turn83p (f_data a) (f_data b) /\ same_settings a b /\ same_requests a b /\ free_mode a 1 /\ cols_straight z turn83p /\ wants_parafac2 a /\ ~ rows_straight z turn83p /\
  starts_at V no_ext rnd83 a c v /\ starts_at V no_ext rnd83 b c' v' /\ turned_cmf z turn83p c c' /\ turned_vars z turn83p v v' /\
  start_without_svd a /\ norms_independent a 1 /\ cmf_aoadmm Vc no_ext rnd83 a = Ok o.
Proof.
  intros a b. destruct ext83 as (E & Ec & HE & X1 & X2 & RD). set (V := Env (N:=RNum) E (fun _ => []) true) in *. set (Vc := Env (N:=RNum) Ec (fun _ => []) true) in *.
  assert (HS : sensible V a 1) by (apply sensible83; [apply col2_wf|cbn; lia|cbn; lia]). assert (HS' : sensible V b 1) by (apply sensible83; [repeat constructor|cbn; lia|cbn; lia]).
  destruct (setup83 V) as (SA & SB). destruct (setup83 Vc) as (SAc & _). fold a in SA, SAc. fold b in SB.
  destruct (setup_ok _ _ _ _ _ _ _ HS no_ext_ranks SA) as (VS & _).
  set (P := fit_params (N:=RNum) a (None, None, None) (false, false)).
  assert (Y1 : x_svd Ec (m11 (3 / 2)) 1 = (m11 1, [3 / 2], m11 1)) by (rewrite <- X1; apply RD; intros _; apply independent11; lra).
  assert (Y2 : x_svd Ec (col2 1 0) 1 = (col2 1 0, [1], m11 1)) by (rewrite <- X2; apply RD; intros _; apply independent21).
  assert (RUN : exists r, run Ec P [col2 1 0] 1 (state83 (col2 1 0) (col2 1 0) (col2 0 0)) = Ok r).
  { destruct (state_loss_total P [col2 1 0] _ VS) as (lo & LO). destruct (state_gaps_ok [col2 1 0] _ VS) as (g & GO & _).
    unfold run, init_hist. rewrite LO. cbn [bind]. rewrite GO. cbn [bind]. change (Z.to_nat 1) with 1%nat. cbn [ao_loop]. rewrite (step83 Ec P Y1 Y2 eq_refl). cbn [bind].
    change (p_tol P) with (@None R). change (p_abs_tol P) with (@None R). change (p_return_errors P) with true. change (p_feas_tol P) with (@None R). cbn [otruthy orb andb negb]. rewrite GO. cbn [bind]. rewrite LO. cbn [bind]. rewrite revalidate_ok by apply VS. cbn [bind]. eexists. reflexivity. }
  destruct RUN as ((s1 & dg) & RUN).
  assert (OK : exists o, cmf_aoadmm Vc no_ext rnd83 a = Ok o).
  { unfold cmf_aoadmm. rewrite SAc. cbn [bind]. cbn [f_data f_const f_n_iter a args83p const_flags f_return_vars].
    match goal with |- context[init_hist ?p ?x ?s] => assert (H1 : exists h, init_hist p x s = Ok h) end.
    { unfold init_hist. destruct (state_loss_total P [col2 1 0] _ VS) as (lo & LO). destruct (state_gaps_ok [col2 1 0] _ VS) as (g & GO & _). change (state_loss (fit_params _ _ _) [col2 1 0] ?s) with (state_loss P [col2 1 0] s). rewrite LO. cbn [bind]. rewrite GO. cbn [bind]. eauto. }
    destruct H1 as (h & H1). rewrite H1. cbn [bind]. match goal with |- context[run ?e ?p ?x ?n ?s] => change (run e p x n s) with (run Ec P [col2 1 0] 1 (state83 (col2 1 0) (col2 1 0) (col2 0 0))) end.
    rewrite RUN. eexists. reflexivity. }
  destruct OK as (o & OK). pose proof (setup_start V no_ext rnd83 a 1 _ _ HS no_ext_ranks ltac:(discriminate) SA) as TA. pose proof (setup_start V no_ext rnd83 b 1 _ _ HS' no_ext_ranks ltac:(discriminate) SB) as TB.
  exists V, Vc, (st_cmf (state83 (col2 1 0) (col2 1 0) (col2 0 0))), (st_cmf (state83 (col3 1 0 0) (col3 1 0 0) (col3 0 0 0))), (vars_of (state83 (col2 1 0) (col2 1 0) (col2 0 0))), (vars_of (state83 (col3 1 0 0) (col3 1 0 0) (col3 0 0 0))), o.
  cbv zeta. split; [exact HS|]. split; [exact HS'|]. split; [exact no_ext_ranks|]. split; [apply HE|]. split; [exact RD|].
  split. { split; [|intros [|i] Hi; [|cbn in Hi; lia]]; (split; [repeat constructor|split; [reflexivity|]]); intros p q Hp Hq; cbn in Hp, Hq; fin p; fin q; cbv; lra. }
  split. { split; [reflexivity|]. split; [reflexivity|]. intros [|i] Hi; [|cbn in Hi; lia]. split; [repeat constructor|split; [repeat constructor|]]. intros p q Hp Hq; cbn in Hp, Hq; fin p; fin q; cbv; lra. }
  split; [repeat split|]. split; [split; [reflexivity|split; [reflexivity|intros m u u' Hm K K'; cbn in K, K'; rewrite K, K'; reflexivity]]|].
  split. { split; [|intros u K; cbn in K; rewrite K; constructor]. intros kw (M1 & M2 & M3 & M4 & M5 & M6 & M7 & M8 & M9). cbn in M1, M2, M3, M5, M6, M7, M8, M9. rewrite M1, M2, M3, M5, M6, M7, M8. cbn. repeat split; auto; discriminate. }
  split; [split; [reflexivity|intros p q Hp Hq; cbn in Hp, Hq; fin p; fin q; reflexivity]|]. split; [now left|]. split; [intros K; destruct (K 0%nat ltac:(cbn; lia)) as (K1 & _); discriminate K1|].
  split; [exact TA|]. split; [exact TB|].
  assert (TL : forall x, turned_list 1 (fun _ => 2%nat) 1 (fun _ => m32 1 0 0 1 0 0) [col2 x 0] [col3 x 0 0]).
  { intros x. split; [reflexivity|]. split; [reflexivity|]. intros [|i] Hi; [|lia]. split; [repeat constructor|]. split; [repeat constructor|]. intros p q Hp Hq; cbn in Hp, Hq; fin p; fin q; cbv -[Rplus Rmult IZR R]; ring. }
  assert (TM : forall x l l', turned_list 1 (fun _ => 2%nat) 1 (fun _ => m32 1 0 0 1 0 0) l l' -> l = [col2 x 0] -> turned_list (z_n (data_sizes a 1)) (z_rows (data_sizes a 1)) 1 (t_rows turn83p) l l').
  { intros x l l' (K1 & K2 & K3) ->. split; [exact K1|]. split; [exact K2|]. intros [|i] Hi; [|cbn in Hi; lia]. apply (K3 0%nat). lia. }
  split. { split; [reflexivity|]. split; [reflexivity|]. split; [apply (TM 1); [apply TL|reflexivity]|]. split; [repeat constructor|split; [repeat constructor|]]. intros p q Hp Hq; cbn in Hp, Hq; fin p; fin q; cbv; lra. }
  split. { split; [reflexivity|]. split; [reflexivity|]. split; [constructor; [split; [apply (TM 1); [apply TL|reflexivity]|split; [reflexivity|repeat constructor]]|constructor]|]. split; [constructor; [apply (TM 0); [apply TL|reflexivity]|constructor]|]. split; constructor. }
  split; [split; discriminate|]. split; [intros m M Hm K; cbn in K; discriminate K|exact OK].
Qed.
