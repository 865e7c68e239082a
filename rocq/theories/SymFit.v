(** Two calls that differ in units and orders only. *)
From Coq Require Import Reals Lra Lia List Arith Bool ZArith Permutation.
From Verif Require Import Num Numpy RFacts Spec SpecFacts MatFacts ModelSpec Penalties PenaltySpec
  CoupledMatrices CmfSpec CmfProofs Decomp DecompSpec DecompFacts AoLoop AoRun TotalRun InitVars InitSpec Parse ParseSpec ParseProofs Fit FitSpec FitProofs ResumeSpec
  SymSpec SymFacts SymPen SymStep SymRun SymLoop.
Import ListNotations.
Local Open Scope R_scope.

(** ** The start of a call *)
Lemma start_setup V IE rnd (a : fitR) rank c v : sensible V a rank -> ranks_kept IE -> starts_at V IE rnd a c v ->
  exists s l2, setup V IE rnd a = Ok (s, l2) /\ st_cmf s = c /\ vars_of s = v.
Proof.
  intros HS RK (o & H & EC & EV). assert (HS' : sensible V (at_start a) rank) by exact HS.
  destruct (fit_run _ _ _ _ _ H) as (s & l2 & flags & s' & d & SET & EF & ER & ->). change (setup V IE rnd (at_start a)) with (setup V IE rnd a) in SET.
  exists s, l2. split; [exact SET|]. destruct (setup_ok _ _ _ _ _ _ _ HS RK SET) as (VS & _).
  unfold run in ER. destruct (init_hist _ _ s) as [h0|]; [|discriminate]. cbn [bind f_n_iter at_start Z.to_nat ao_loop] in ER.
  match type of ER with (let* feas := ?x in _) = _ => destruct x as [feas|] eqn:EFE; [|discriminate ER] end. cbn [bind] in ER.
  rewrite (revalidate_ok _ (proj1 (proj1 VS))) in ER. cbn [bind] in ER. cbn [out_cmf out_vars f_return_vars at_start] in EC, EV. injection EV as EV.
  destruct (p_return_errors _); injection ER as <- <-; cbn [st_cmf] in EC; split; assumption || (rewrite <- EV; reflexivity).
Qed.
Lemma setup_start V IE rnd (a : fitR) rank s l2 : sensible V a rank -> ranks_kept IE -> f_const a <> COther -> setup V IE rnd a = Ok (s, l2) -> starts_at V IE rnd a (st_cmf s) (vars_of s).
Proof.
  intros HS RK HC SET. destruct (setup_ok _ _ _ _ _ _ _ HS RK SET) as (VS & _). unfold starts_at, cmf_aoadmm. change (setup V IE rnd (at_start a)) with (setup V IE rnd a). rewrite SET. cbn [bind f_data at_start].
  assert (IH : forall P', exists h0, init_hist P' (f_data a) s = Ok h0).
  { intros P'. unfold init_hist. cbv zeta. destruct (state_loss_total P' (f_data a) s VS) as (lo & ->). destruct (state_gaps_ok (f_data a) s VS) as (g & -> & _). cbn. eauto. }
  destruct (IH (fit_params (at_start a) l2 (false, false))) as (h0 & ->). cbn [bind f_const at_start].
  assert (EF : exists fl, const_flags (f_const a) = Ok fl) by (destruct (f_const a); cbn; eauto; congruence). destruct EF as (fl & ->). cbn [bind f_n_iter at_start]. unfold run. destruct (IH (fit_params (at_start a) l2 fl)) as (h1 & ->). cbn [bind f_n_iter at_start Z.to_nat ao_loop].
  destruct (state_gaps_ok (f_data a) s VS) as (g & EG & _). rewrite EG. 
  match goal with |- context[let* feas := ?x in _] => assert (EX : exists fe, x = Ok fe) by (destruct (p_feas_tol (fit_params (at_start a) l2 fl)) as [t|]; [|eauto]; destruct (ntruthy t && _); cbn; eauto) end.
  destruct EX as (fe & ->). cbn [bind]. rewrite (revalidate_ok _ (proj1 (proj1 VS))). cbn [bind]. destruct (p_return_errors _); cbn [bind]; eexists; (split; [reflexivity|split; reflexivity]).
Qed.
Lemma F2_split {A B C} (Q1 : A -> A -> Prop) (Q2 : B -> B -> Prop) (Q3 : C -> C -> Prop) {G} (f : G -> A) (g : G -> B) (k : G -> C) l l' :
  Forall2 Q1 (map f l) (map f l') -> Forall2 Q2 (map g l) (map g l') -> Forall2 Q3 (map k l) (map k l') -> Forall2 (fun x y => Q1 (f x) (f y) /\ Q2 (g x) (g y) /\ Q3 (k x) (k y)) l l'.
Proof.
  revert l'. induction l as [|x l IH]; intros [|y l'] H1 H2 H3; inversion H1; inversion H2; inversion H3; subst; constructor; auto.
Qed.
Lemma F2_and_l {A} (Q : A -> A -> Prop) (S S' : A -> Prop) l l' : Forall2 Q l l' -> Forall S l -> Forall S' l' -> Forall2 (fun x y => Q x y /\ S x /\ S' y) l l'.
Proof. intros H. induction H; intros H1 H2; [constructor|]. inversion H1; inversion H2; subst. constructor; auto. Qed.
Lemma F2_map_iff {A B} (Q : B -> B -> Prop) (f : A -> B) l l' : Forall2 Q (map f l) (map f l') <-> Forall2 (fun x y => Q (f x) (f y)) l l'.
Proof.
  split.
  - revert l'. induction l as [|x l IH]; intros [|y l'] H; inversion H; subst; constructor; auto.
  - intros H. induction H; cbn; constructor; auto.
Qed.
Lemma F2_impl {A B} (Q Q' : A -> B -> Prop) l l' : (forall x y, Q x y -> Q' x y) -> Forall2 Q l l' -> Forall2 Q' l l'.
Proof. intros H F. induction F; constructor; auto. Qed.

(** The penalties the two calls impose correspond. *)
Definition penalties_moved (h : change) (V V' : envR) (a b : fitR) : Prop :=
  forall m l l', (m < 3)%nat -> updates a m = true -> penalties_of V a m l -> penalties_of V' b m l' ->
    Forall2 (moved_pen (e_ext V) (e_ext V') (problem_factor h m) (unit_of h m) (rows_kept h m)) l l'.
Definition losses_equal (h : change) (V : envR) (a : fitR) : Prop :=
  h_X h = 1 \/ (without_ridge a /\ forall m l, (m < 3)%nat -> updates a m = true -> penalties_of V a m l -> Forall constraint_only l).

(** A call after its set-up, with any routines [X] in the loop. *)
Definition fit_with (X : ext (N:=RNum)) (d : fitR) (sl : state (N:=RNum) * three (option R)) : res outR :=
  let '(s, l2) := sl in
  let* _ := init_hist (fit_params d l2 (false, false)) (f_data d) s in
  let* flags := const_flags (f_const d) in
  let* (s, dg) := run X (fit_params d l2 flags) (f_data d) (f_n_iter d) s in
  Ok (Output (st_cmf s) (if f_return_vars d then Some (vars_of s) else None) dg).
Lemma fit_is_with W I0 r (d : fitR) : cmf_aoadmm W I0 r d = let* sl := setup W I0 r d in fit_with (e_ext W) d sl.
Proof. unfold cmf_aoadmm. destruct (setup W I0 r d) as [[s l2]|]; reflexivity. Qed.
Lemma pen_routines E E' X X' t k S p p' : x_tv X = x_tv E -> x_tv X' = x_tv E' -> moved_pen E E' t k S p p' -> moved_pen X X' t k S p p'.
Proof. intros H H'. destruct p, p'; cbn [moved_pen]; try tauto. rewrite H, H'. tauto. Qed.

Section Fit.
Variables (V V' : envR) (IE IE' : initextR) (rnd rnd' : rand (N:=RNum)) (a b : fitR) (rank : nat) (z : sizes) (h : change).
Hypothesis HS : sensible V a rank.
Hypothesis HS' : sensible V' b rank.
Hypothesis RK : ranks_kept IE.
Hypothesis RK' : ranks_kept IE'.
(* the routines in the loops *)
Variables X X' : ext (N:=RNum).
Hypothesis HXT : x_tv X = x_tv (e_ext V).
Hypothesis HXT' : x_tv X' = x_tv (e_ext V').
Hypothesis HE : svds_agree X X' rank (h_comp h).
Hypothesis HE' : nearest_shaped X rank.
Hypothesis HN : f_updB a = true -> wants_parafac2 a -> same_nearest X X' rank (h_B h).
Hypothesis HR : z_rank z = rank.
Hypothesis HP : proper z h.
Hypothesis HX : moved_data z h (f_data a) (f_data b).
Hypothesis HSET : same_settings a b.
Hypothesis HL2 : ridge_moved h a b.
Hypothesis HPEN : penalties_moved h V V' a b.
Variables (c c' : rcmf) (v v' : admmvars (N:=RNum)).
Hypothesis ST : starts_at V IE rnd a c v.
Hypothesis ST' : starts_at V' IE' rnd' b c' v'.
Hypothesis MC : moved_cmf z h c c'.
Hypothesis MV : moved_vars z h v v'.
Hypothesis HL : losses_equal h V a \/ ~ tol_set (f_tol a).

Lemma sizes_pos : (0 < z_n z)%nat /\ (forall i, (i < z_n z)%nat -> (0 < z_rows z i)%nat) /\ (0 < z_cols z)%nat /\ (0 < z_rank z)%nat.
Proof.
  destruct HS as (NE & FX & _ & R0 & _). destruct HX as (L1 & _ & MX). rewrite Forall_forall in FX.
  assert (N0 : (0 < z_n z)%nat) by (rewrite <- L1; destruct (f_data a); [congruence|cbn; lia]).
  assert (SH : forall i, (i < z_n z)%nat -> (0 < z_rows z i)%nat /\ (0 < z_cols z)%nat).
  { intros i Hi. destruct (MX i Hi) as ((W & Sr & Sc) & _). rewrite <- Sr, <- Sc. apply FX. apply nth_In. rewrite L1. exact Hi. }
  split; [exact N0|]. split; [apply SH|]. split; [apply (SH 0%nat N0)|rewrite HR; exact R0].
Qed.
Lemma otruthy_set (t : option R) : ~ tol_set t -> otruthy (N:=RNum) t = false.
Proof.
  intros H. destruct t as [x|]; [|reflexivity]. cbn. destruct (ntruthy (N:=RNum) x) eqn:E0; [|reflexivity]. apply ntruthy_true in E0. destruct H. exists x. auto.
Qed.
Theorem fit_moved_with : exists sl sl', setup V IE rnd a = Ok sl /\ setup V' IE' rnd' b = Ok sl' /\
  same_outcome (moved_output z h (losses_equal h V a)) (fit_with X a sl) (fit_with X' b sl').
Proof.
  destruct (start_setup _ _ _ _ _ _ _ HS RK ST) as (s & l2 & SE & EC & EV). destruct (start_setup _ _ _ _ _ _ _ HS' RK' ST') as (s' & l2' & SE' & EC' & EV').
  destruct (setup_ok _ _ _ _ _ _ _ HS RK SE) as (VS & SI & MR & EL & _ & t & (EP & TA & TB & TC)). destruct (setup_ok _ _ _ _ _ _ _ HS' RK' SE') as (VS' & SI' & MR' & EL' & _ & t' & (EP' & TA' & TB' & TC')).
  destruct HSET as (S1 & S2 & S3 & S4 & S5 & S6 & S7 & S8 & S9 & S10 & S11 & S12 & S13 & S14).
  destruct sizes_pos as (N0 & J0 & K0 & R0).
  assert (PEN : forall m, (m < 3)%nat -> updates a m = true -> Forall2 (moved_pen X X' (problem_factor h m) (unit_of h m) (rows_kept h m)) (map o_pen (pick t m)) (map o_pen (pick t' m))).
  { intros m Hm U. eapply F2_impl; [intros p p'; apply (pen_routines _ _ _ _ _ _ _ _ _ HXT HXT')|]. apply (HPEN m); [exact Hm|exact U|exists t; auto|exists t'; auto]. }
  destruct VS as (DF & _ & VA & VB & VC), VS' as (DF' & _ & VA' & VB' & VC'). rewrite EC in *. rewrite EC' in *.
  pose proof MC as (_ & ((WA & RA & CA) & (WA' & RA' & CA') & _) & (LB & LB' & MB) & ((WC & RC & CC) & (WC' & RC' & CC') & _)).
  rewrite RA, RC, CA, LB in *. rewrite RA', RC', CA', LB' in *. clear MR MR'.
  rewrite <- EV, <- EV' in MV. destruct MV as (V1 & V2 & V3 & V4 & V5 & V6). cbn [vars_of v_auxA v_auxB v_auxC v_dualA v_dualB v_dualC] in V1, V2, V3, V4, V5, V6.
  assert (SR : state_rel X X' z h s s').
  { split; [rewrite EC, EC'; exact MC|]. split; [|split; [|split]].
    - assert (PA : Forall2 (moved_pen X X' (problem_factor h 0) (h_A h) (same_order (fun i => i))) (map g_pen (st_rA s)) (map g_pen (st_rA s'))).
      { rewrite TA, TA', S10. pose proof (PEN 0%nat ltac:(lia)) as Q. cbn [updates] in Q. destruct (f_updA a); [|constructor]. eapply F2_impl; [|exact (Q eq_refl)]. intros p p'. apply moved_pen_mono. intros _ i. reflexivity. }
      eapply F2_impl; [|apply (F2_and_l _ _ _ _ _ (F2_split _ _ _ g_pen g_aux g_dual _ _ PA V1 V2) VA VA')]. intros g g' ((Q1 & Q2 & Q3) & (_ & Q4 & _) & (_ & Q5 & _)). split; [exact Q1|]. split; [exact Q4|]. split; [exact Q5|]. split; assumption.
    - assert (PB : Forall2 (moved_pen X X' (problem_factor h 1) (h_B h) (forall i, same_order (h_rows h i))) (map b_pen (st_rB s)) (map b_pen (st_rB s'))).
      { rewrite TB, TB', S11. pose proof (PEN 1%nat ltac:(lia)) as Q. cbn [updates] in Q. destruct (f_updB a); [|constructor]. exact (Q eq_refl). }
      assert (NB : Forall (fun g => is_parafac2 (b_pen g) -> same_nearest X X' (z_rank z) (h_B h)) (st_rB s)).
      { apply Forall_forall. intros g Hg PF. rewrite HR. assert (IP : In (b_pen g) (map b_pen (st_rB s))) by now apply in_map. rewrite TB in IP. destruct (f_updB a) eqn:UB; [|destruct IP]. apply HN; [reflexivity|]. apply (parafac2_wanted V a t EP).
        apply in_map_iff in IP as (o & E1 & IN). apply Exists_exists. exists o. rewrite E1. auto. }
      assert (VBN : Forall (fun g => breg_valid (z_n z) (rowsB c) (z_rank z) g /\ (is_parafac2 (b_pen g) -> same_nearest X X' (z_rank z) (h_B h))) (st_rB s)) by (apply Forall_and; assumption).
      eapply F2_impl; [|apply (F2_and_l _ _ _ _ _ (F2_split _ _ _ b_pen b_aux b_dual _ _ PB V3 V4) VBN VB')]. intros g g' ((Q1 & Q2 & Q3) & ((_ & Q4) & QN) & (_ & Q5)).
      assert (RB : forall i, (i < z_n z)%nat -> rowsB c i = z_rows z i /\ rowsB c' i = z_rows z i) by (intros i Hi; destruct (MB i Hi) as ((_ & Y1 & _) & (_ & Y2 & _) & _); split; assumption).
      assert (VP : (forall i, (i < z_n z)%nat -> valid_penalty (b_pen g) (z_rows z i)) /\ (is_parafac2 (b_pen g) -> forall i, (i < z_n z)%nat -> (z_rank z <= z_rows z i)%nat)).
      { destruct (b_pen g), (b_aux g); try contradiction; try (destruct Q4 as (_ & Q4)); split; intros; try contradiction; try exact Logic.I; try (rewrite <- (proj1 (RB _ H)); now apply Q4); try exact Q4.
        - destruct Q4 as (_ & Q4). rewrite <- (proj1 (RB i H0)). now apply Q4. }
      assert (VP' : forall i, (i < z_n z)%nat -> valid_penalty (b_pen g') (z_rows z i)).
      { clear Q4 VP. destruct (b_pen g'), (b_aux g'); try contradiction; intros; try exact Logic.I; rewrite <- (proj2 (RB _ H)); now apply Q5. }
      split; [exact Q1|]. split; [apply VP|]. split; [exact VP'|]. split; [split; [now apply VP|now apply QN]|]. split; assumption.
    - assert (PC : Forall2 (moved_pen X X' (problem_factor h 2) (h_C h) (same_order (h_cols h))) (map g_pen (st_rC s)) (map g_pen (st_rC s'))).
      { rewrite TC, TC', S12. pose proof (PEN 2%nat ltac:(lia)) as Q. cbn [updates] in Q. destruct (f_updC a); [|constructor]. exact (Q eq_refl). }
      eapply F2_impl; [|apply (F2_and_l _ _ _ _ _ (F2_split _ _ _ g_pen g_aux g_dual _ _ PC V5 V6) VC VC')]. intros g g' ((Q1 & Q2 & Q3) & (_ & Q4 & _) & (_ & Q5 & _)). split; [exact Q1|]. split; [exact Q4|]. split; [exact Q5|]. split; assumption.
    - rewrite SI, SI'. exact Logic.I. }
  destruct l2 as [[x0 x1] x2], l2' as [[y0 y1] y2]. pose proof EL as EL2. apply listify_iff in EL2 as (M0 & M1 & M2). pose proof EL' as EL2'. apply listify_iff in EL2' as (M0' & M1' & M2').
  assert (PP : forall fl, fit_params b (y0, y1, y2) fl = let P := fit_params a (x0, x1, x2) fl in Params (N:=RNum) (problem_factor h 0 * p_l2A P) (problem_factor h 1 * p_l2B P) (problem_factor h 2 * p_l2C P) (p_scale P) (p_constA P) (p_constB P) (p_inner P) (p_inner_tol P)
     (p_updA P) (p_updB P) (p_updC P) (p_tol P) (p_abs_tol P) (p_feas_tol P) (p_return_errors P)).
  { intros fl. unfold fit_params. rewrite S3, S5, S6, S7, S8, S9, S10, S11, S12, S14. cbn [p_l2A p_l2B p_l2C p_scale p_constA p_constB p_inner p_inner_tol p_updA p_updB p_updC p_tol p_abs_tol p_feas_tol p_return_errors].
    assert (Q0 := HL2 0%nat x0 y0 ltac:(lia) M0 M0'). assert (Q1 := HL2 1%nat x1 y1 ltac:(lia) M1 M1'). assert (Q2 := HL2 2%nat x2 y2 ltac:(lia) M2 M2').
    assert (LV : forall x : option R, l2_value (N:=RNum) x = strength x) by (intros [x|]; reflexivity). rewrite !LV. f_equal; assumption. }
  assert (LKs : forall fl, losses_equal h V a -> loss_kept h (fit_params a (x0, x1, x2) fl) s).
  { intros fl [H1|(WR & CO)]; [now left|right]. split; [exact (WR 0%nat x0 ltac:(lia) M0)|]. split; [exact (WR 1%nat x1 ltac:(lia) M1)|]. split; [exact (WR 2%nat x2 ltac:(lia) M2)|].
    assert (CP : forall m, (m < 3)%nat -> updates a m = true -> Forall constraint_only (map o_pen (pick t m))) by (intros m Hm U; apply (CO m _ Hm U); exists t; auto).
    split; [|split]; rewrite <- Forall_map; [rewrite TA|rewrite TB|rewrite TC]; [specialize (CP 0%nat ltac:(lia))|specialize (CP 1%nat ltac:(lia))|specialize (CP 2%nat ltac:(lia))]; cbn [updates] in CP;
      [destruct (f_updA a)|destruct (f_updB a)|destruct (f_updC a)]; auto; constructor. }
  assert (SC : forall fl, 0 <= p_scale (fit_params a (x0, x1, x2) fl)) by (intros fl; apply HS).
  assert (HEz : svds_agree X X' (z_rank z) (h_comp h)) by (rewrite HR; exact HE). assert (HEz' : nearest_shaped X (z_rank z)) by (rewrite HR; exact HE').
  exists (s, (x0, x1, x2)), (s', (y0, y1, y2)). split; [exact SE|]. split; [exact SE'|]. unfold fit_with.
  pose proof (init_rel X X' z h HP N0 J0 K0 R0 (f_data a) (f_data b) HX (fit_params a (x0, x1, x2) (false, false)) (fit_params b (y0, y1, y2) (false, false)) (PP _) (losses_equal h V a) s s' (LKs _) SR) as IR.
  destruct (init_hist (fit_params a _ _) _ _) as [h0|], (init_hist (fit_params b _ _) _ _) as [h0'|]; cbn [res_rel] in IR; try contradiction; [|exact IR]. cbn [bind]. rewrite S4.
  destruct (const_flags (f_const a)) as [fl|]; [|reflexivity]. cbn [bind]. rewrite S2, S13.
  assert (HLt : losses_equal h V a \/ otruthy (N:=RNum) (p_tol (fit_params a (x0, x1, x2) fl)) = false) by (destruct HL as [L|L]; [now left|right; now apply otruthy_set]).
  pose proof (run_rel X X' z h HP N0 J0 K0 R0 HEz HEz' (f_data a) (f_data b) HX (fit_params a (x0, x1, x2) fl) (fit_params b (y0, y1, y2) fl) (PP _) (SC _) (losses_equal h V a) HLt (f_n_iter a) s s' (LKs _) SR) as RR.
  destruct (run X _ _ _ _) as [[s1 d]|], (run X' _ _ _ _) as [[s1' d']|]; cbn [res_rel] in RR; try contradiction; [|exact RR]. cbn [bind same_outcome]. destruct RR as ((Q1 & Q2 & Q3 & Q4 & _) & DR). cbn [fst snd] in *.
  split; [exact Q1|]. split; [|exact DR]. cbn [out_vars]. destruct (f_return_vars a); [|exact Logic.I]. unfold moved_vars, vars_of. cbn [v_auxA v_auxB v_auxC v_dualA v_dualB v_dualC].
  rewrite !F2_map_iff. repeat split; (eapply F2_impl; [|eassumption]); intros g g' G; unfold areg, creg, mreg_rel, breg_rel in G; tauto.
Qed.
End Fit.
Theorem fit_moved (V V' : envR) (IE IE' : initextR) (rnd rnd' : rand (N:=RNum)) (a b : fitR) (rank : nat) (z : sizes) (h : change) :
  sensible V a rank -> sensible V' b rank -> ranks_kept IE -> ranks_kept IE' -> svd_correct (e_ext V) rank -> svd_correct (e_ext V') rank ->
  (f_updB a = true -> wants_parafac2 a -> same_nearest (e_ext V) (e_ext V') rank (h_B h)) ->
  z_rank z = rank -> proper z h -> moved_data z h (f_data a) (f_data b) -> same_settings a b -> ridge_moved h a b -> penalties_moved h V V' a b ->
  forall (c c' : rcmf) (v v' : admmvars (N:=RNum)), starts_at V IE rnd a c v -> starts_at V' IE' rnd' b c' v' -> moved_cmf z h c c' -> moved_vars z h v v' ->
  losses_equal h V a \/ ~ tol_set (f_tol a) ->
  same_outcome (moved_output z h (losses_equal h V a)) (cmf_aoadmm V IE rnd a) (cmf_aoadmm V' IE' rnd' b).
Proof.
  intros HS HS' RK RK' HE HE' HN HR HP HX SS RM PM c c' v v' ST ST' MC MV HL.
  destruct (fit_moved_with V V' IE IE' rnd rnd' a b rank z h HS HS' RK RK' (e_ext V) (e_ext V') eq_refl eq_refl (correct_agree _ _ _ _ HE HE') (correct_shaped _ _ HE) HN HR HP HX SS RM PM c c' v v' ST ST' MC MV HL) as (sl & sl' & E1 & E2 & SO).
  rewrite !fit_is_with, E1, E2. exact SO.
Qed.
