(** C82: a fit that updates a single mode, with convex penalties, finds the optimum. *)
From Coq Require Import Reals Lra Lia List Arith Bool ZArith.
From Verif Require Import Num Numpy RFacts Spec SpecFacts MatFacts ModelSpec Unimodal Penalties PenaltySpec PenaltyMain CoupledMatrices CmfSpec CmfProofs Decomp DecompSpec
  DecompFacts DecompExamples AoState AoLoop AoRun TotalRun InitVars InitSpec InitProofs Parse ParseSpec ParseProofs Fit FitSpec FitProofs P03_CoupledMatrices P04_Updates P05_Runs P06_Init
  P07_Parse P08_Fit P09_Calls P10_Start P11_Total OptSpec ConvSpec AdmmOpt P24_Convergence StationarySpec P30_Stationary LoneSpec LoneRun Ideal FitExamples.
Import ListNotations.
Local Open Scope R_scope.

(** ** The penalties of a mode *)
Lemma parsed_convex V kw ai di l : parse_mode (N:=RNum) V kw ai di = Ok l -> ~ wants (k_uni kw) -> k_pf2 kw = false -> Forall (fun o => convex_pen (o_pen o)) l.
Proof.
  intros H NU NP. apply parse_mode_iff in H as (_ & gl & GL & ->). rewrite !Forall_app. unfold s_pf2, s_uni, s_ball, s_tv, s_l1, s_box, s_non. rewrite NP.
  split; [constructor|].
  split; [destruct (btruthy (k_uni kw)) eqn:T; [exfalso; apply NU; now apply btruthy_wants|constructor]|].
  split. { unfold gl_ok in GL. destruct (k_gl2 kw) as [[|M|]|]; try (subst gl; constructor); [|contradiction]. destruct GL as (U & s & -> & _). repeat constructor. }
  split; [destruct (k_norm kw) as [b|]; [destruct (ntruthy b)|]; repeat constructor|].
  split; [destruct (k_tv kw) as [b|]; [destruct (ntruthy b)|]; repeat constructor|].
  split; [match goal with |- context [if ?b then _ else _] => destruct b end; repeat constructor|].
  split; [destruct (k_lower kw), (k_upper kw); repeat constructor|].
  destruct (_ && _)%bool; repeat constructor.
Qed.
Lemma parsed_rowwise V kw ai di l : parse_mode (N:=RNum) V kw ai di = Ok l -> ~ asks_matrixwise kw -> k_pf2 kw = false -> Forall (fun o => rowwise (o_pen o)) l.
Proof.
  intros H NM NP. unfold asks_matrixwise in NM. apply parse_mode_iff in H as (_ & gl & GL & ->). rewrite !Forall_app. unfold s_pf2, s_uni, s_ball, s_tv, s_l1, s_box, s_non. rewrite NP.
  split; [constructor|].
  split; [destruct (btruthy (k_uni kw)) eqn:T; [exfalso; apply NM; right; left; now apply btruthy_wants|constructor]|].
  split. { unfold gl_ok in GL. destruct (k_gl2 kw) as [[|M|]|]; try (subst gl; constructor); [|contradiction]. destruct NM. right; right; right. eauto. }
  split; [destruct (k_norm kw) as [b|] eqn:EN; [destruct (ntruthy b) eqn:T|]; try constructor; [|constructor]; exfalso; apply NM; left; now apply ntruthy_true|].
  split; [destruct (k_tv kw) as [b|] eqn:EN; [destruct (ntruthy b) eqn:T|]; try constructor; [|constructor]; exfalso; apply NM; right; right; left; now apply ntruthy_true|].
  split; [match goal with |- context [if ?b then _ else _] => destruct b end; repeat constructor|].
  split; [destruct (k_lower kw), (k_upper kw); repeat constructor|].
  destruct (_ && _)%bool; repeat constructor.
Qed.
Lemma imposed_at {G} (f : G -> penalty (N:=RNum)) (d : G) (l : list pobjR) : forall gs r c X, map f gs = map o_pen l ->
  ((forall q, (q < length gs)%nat -> doc_domain (f (nth q gs d)) r c X) <-> imposed l r c X).
Proof.
  induction l as [|o l IH]; intros [|g gs] r c X E0; try discriminate; [split; [constructor|intros _ q Hq; cbn in Hq; lia]|].
  injection E0 as E0 E1. specialize (IH gs r c X E1). unfold imposed in *. rewrite Forall_cons_iff, <- IH, <- E0. split.
  - intros H. split; [apply (H 0%nat); cbn; lia|]. intros q Hq. apply (H (S q)). cbn; lia.
  - intros (H & K) [|q] Hq; [exact H|]. apply K. cbn in Hq. lia.
Qed.
Lemma at_pick V (a : fitR) t m kw u l : parse_all V (f_kw a) (f_regs a) (f_aux a) (f_dual a) = Ok t -> arguments a l kw u -> (m < 3)%nat ->
  (forall r c X, imposed (pick t m) r c X <-> allowed (kw m) (u m) r c X) /\ (forall r c X, total_penalty (pick t m) r c X = price (kw m) (u m) r c X) /\
  (asks_convex (kw m) (u m) -> Forall (fun o => convex_pen (o_pen o)) (pick t m)).
Proof.
  intros EP HA Hm. destruct (HA m Hm) as (_ & MV & U).
  destruct (C38_penalties_are_those_requested _ _ _ _ _ _ EP m Hm) as (kw' & pa & u' & MV' & U' & E & K1 & K2 & _).
  destruct (parse_all_ok _ _ _ _ _ _ EP m Hm) as (kw2 & pa2 & u2 & MV2 & PM & U2 & E2).
  rewrite <- (mode_value_unique _ _ _ _ MV MV') in *. rewrite <- (user_unique _ _ _ _ U U') in *. rewrite <- (mode_value_unique _ _ _ _ MV MV2) in *. rewrite <- (user_unique _ _ _ _ U U2) in *.
  split; [|split].
  - intros r c X. rewrite E, imposed_app, K1. reflexivity.
  - intros r c X. unfold price. rewrite E, total_penalty_app, K2. reflexivity.
  - intros (A1 & A2 & A3). rewrite E2. apply Forall_app. split; [|exact A3]. eapply parsed_convex; eauto.
Qed.
Lemma optimal_is_minimiser t m kw u r c f (regs : list mregR) : map g_pen regs = map o_pen (pick t m) ->
  (forall r c X, imposed (pick t m) r c X <-> allowed kw u r c X) -> (forall r c X, total_penalty (pick t m) r c X = price kw u r c X) ->
  forall x, optimal r c f regs x <-> minimiser (allowed kw u r c) (fun Z => f Z + price kw u r c Z) x.
Proof.
  intros E HI HT x. unfold optimal, minimiser.
  assert (M : forall Z, meets r c regs Z <-> allowed kw u r c Z) by (intros Z; rewrite <- HI; apply (imposed_at g_pen _ _ _ _ _ _ E)).
  assert (P : forall Z, penalised r c f regs Z = f Z + price kw u r c Z) by (intros Z; unfold penalised; f_equal; rewrite <- HT; now apply penalty_of_regs).
  rewrite M. split; intros (H & K); (split; [exact H|]); intros Z HZ; specialize (K Z); rewrite M, !P in *; auto.
Qed.
Lemma room_compatible t m kw u r c (regs : list mregR) : map g_pen regs = map o_pen (pick t m) ->
  (forall r c X, imposed (pick t m) r c X <-> allowed kw u r c X) -> has_room r c (allowed kw u r c) -> compatible r c regs.
Proof.
  intros E HI (x0 & delta & D & H). exists x0, (length regs), delta. split; [exact D|].
  assert (M : forall Z, meets r c regs Z <-> allowed kw u r c Z) by (intros Z; rewrite <- HI; apply (imposed_at g_pen _ _ _ _ _ _ E)). split.
  - apply M, H. intros i j _ _. rewrite Rminus_diag_eq, Rabs_R0 by reflexivity. lra.
  - intros q Z Hq _ HZ. apply (proj2 (M Z)); [now apply H|exact Hq].
Qed.
Lemma optimal_l_is_minimiser t m kw u n J c f (regs : list bregR) : map b_pen regs = map o_pen (pick t m) ->
  (forall r c X, imposed (pick t m) r c X <-> allowed kw u r c X) -> (forall r c X, total_penalty (pick t m) r c X = price kw u r c X) ->
  forall x, optimal_l n J c f regs x <-> minimiser (allowed_l kw u n J c) (fun Z => f Z + price_l kw u n J c Z) x.
Proof.
  intros E HI HT x. unfold optimal_l, minimiser.
  assert (M : forall Z, meets_l n J c regs Z <-> allowed_l kw u n J c Z).
  { intros Z. unfold allowed_l, meets_l, dom_l. split.
    - intros H i Hi. rewrite <- HI. apply (imposed_at b_pen (BReg NonNegativity (AList []) []) _ _ _ _ _ E). intros q Hq. now apply (H q Hq i).
    - intros H q Hq i Hi. specialize (H i Hi). rewrite <- HI in H. now apply (imposed_at b_pen (BReg NonNegativity (AList []) []) _ _ _ _ _ E). }
  assert (P : forall Z, penalised_l n J c f regs Z = f Z + price_l kw u n J c Z).
  { intros Z. unfold penalised_l, price_l, pen_l. f_equal. rewrite !Sum_rsum. erewrite rsum_ext; [|intros q Hq; rewrite Sum_rsum; reflexivity]. rewrite rsum_swap.
    apply rsum_ext. intros i Hi. rewrite <- HT, <- Sum_rsum. now apply penalty_of_bregs. }
  rewrite M. split; intros (H & K); (split; [exact H|]); intros Z HZ; specialize (K Z); rewrite M, !P in *; auto.
Qed.
Lemma room_compatible_l t m kw u n J c (regs : list bregR) : map b_pen regs = map o_pen (pick t m) ->
  (forall r c X, imposed (pick t m) r c X <-> allowed kw u r c X) -> has_room_l n J c (allowed_l kw u n J c) -> compatible_l n J c regs.
Proof.
  intros E HI (x0 & delta & D & H). exists x0, (length regs), delta. split; [exact D|].
  assert (M : forall Z, allowed_l kw u n J c Z -> meets_l n J c regs Z).
  { intros Z K q Hq i Hi. specialize (K i Hi). rewrite <- HI in K. now apply (imposed_at b_pen (BReg NonNegativity (AList []) []) _ _ _ _ _ E). } split.
  - apply M, H. intros k Hk i j _ _. rewrite Rminus_diag_eq, Rabs_R0 by reflexivity. lra.
  - intros q Z Hq _ HZ. apply (M Z); [now apply H|exact Hq].
Qed.

(** ** The call *)
(** A call that returns with no iterations starts from a valid state; any number of
    iterations that can be made are made by the call with that number. *)
Lemma lone_start V IE rnd (a : fitR) rank out0 l kw u : sensible V a rank -> ranks_kept IE -> svd_correct (e_ext V) rank -> runs_on a -> arguments a l kw u ->
  cmf_aoadmm V IE rnd (with_iterations 0 a) = Ok out0 ->
  exists s P t, valid_state (f_data a) s /\ st_cmf s = out_cmf out0 /\ mc (cA (st_cmf s)) = rank /\ params_ok P /\ parsed_as V a t s /\
    p_updA P = f_updA a /\ p_updB P = f_updB a /\ p_updC P = f_updC a /\ p_inner P = Z.to_nat (f_inner a) /\ never_settles (p_inner_tol P) /\
    p_scale P = f_scale a /\ p_l2A P = l 0%nat /\ p_l2B P = l 1%nat /\ p_l2C P = l 2%nat /\ p_constA P = constant_for_A (f_const a) /\
    (exists pos, initialize_cmf (e_ext V) IE rnd (f_data a) (f_rank a) (f_init a) 0 = Ok (st_cmf s, pos)) /\
    forall n s', iterated (e_ext V) (f_data a) P n s s' -> exists d,
      cmf_aoadmm V IE rnd (with_iterations (Z.of_nat n) a) = Ok (Output (st_cmf s') (if f_return_vars a then Some (vars_of s') else None) d).
Proof.
  intros HS RK HE (HT & HI & HN) HA H. destruct (fit_run _ _ _ _ _ H) as (s & l2 & flags & s' & d & ES & EF & ER & EO).
  change (setup V IE rnd (with_iterations 0 a)) with (setup V IE rnd a) in ES. cbn [f_const f_data f_n_iter with_iterations] in EF, ER.
  change (fit_params (with_iterations 0 a) l2 flags) with (fit_params a l2 flags) in ER.
  destruct (setup_ok _ _ _ _ _ _ _ HS RK ES) as (VS & SI & MC & EL & IN & t & PA).
  assert (PO : params_ok (fit_params a l2 flags)) by (eapply fit_params_ok; eauto).
  destruct (fit_params_fields a l2 flags) as (F1 & F2 & F3 & F4 & F5 & F6 & _ & _ & _ & F10 & _ & F12).
  assert (RI : ridges a l) by (intros m Hm; destruct (HA m Hm) as ((v & Mv & Ev) & _); eauto).
  destruct (ridge_params a l2 flags l EL RI) as (L0 & L1 & L2).
  assert (HE' : svd_correct (e_ext V) (mc (cA (st_cmf s)))) by now rewrite MC.
  assert (NT : ~ tol_set (p_tol (fit_params a l2 flags))) by now rewrite F6.
  assert (ALL : forall n s1, iterated (e_ext V) (f_data a) (fit_params a l2 flags) n s s1 -> exists d, run (e_ext V) (fit_params a l2 flags) (f_data a) (Z.of_nat n) s = Ok (s1, d)).
  { intros n s1 IT. now apply (run_all (e_ext V) (f_data a) (fit_params a l2 flags) PO NT). }
  destruct (ALL 0%nat s (it0 _ _ _ s)) as (d0 & R0). change (Z.of_nat 0) with 0%Z in R0. rewrite R0 in ER. injection ER as <- <-.
  exists s, (fit_params a l2 flags), t. rewrite F1, F2, F3, F4, F5, F10, F12.
  split; [exact VS|]. split; [now rewrite EO|]. split; [exact MC|]. split; [exact PO|]. split; [exact PA|]. do 4 (split; [reflexivity|]).
  split; [exact HN|]. split; [reflexivity|]. do 3 (split; [assumption|]).
  split. { destruct (f_const a) as [b| | |]; cbn in EF; try discriminate; injection EF as <-; reflexivity. }
  split; [exact IN|]. intros n s1 IT. destruct (ALL n s1 IT) as (d1 & R1). exists d1. unfold cmf_aoadmm.
  change (setup V IE rnd (with_iterations (Z.of_nat n) a)) with (setup V IE rnd a). rewrite ES. cbn [bind f_data with_iterations f_const f_n_iter f_return_vars].
  assert (IH : init_hist (fit_params (with_iterations (Z.of_nat n) a) l2 (false, false)) (f_data a) s = init_hist (fit_params a l2 flags) (f_data a) s) by (destruct l2 as [[? ?] ?]; reflexivity).
  rewrite IH.
  pose proof R1 as R1'. unfold run in R1'. destruct (init_hist (fit_params a l2 flags) (f_data a) s) as [h|]; [|discriminate R1']. cbn [bind].
  rewrite EF. cbn [bind]. change (fit_params (with_iterations (Z.of_nat n) a) l2 flags) with (fit_params a l2 flags). rewrite R1. reflexivity.
Qed.

(** ** C82: mode 2 *)
Theorem C82_only_C V IE rnd (a : fitR) rank out0 l kw u :
  sensible V a rank -> ranks_kept IE -> svd_correct (e_ext V) rank -> (forall r, tv_correct (e_ext V) r) ->
  runs_on a -> updates_only a 2 -> arguments a l kw u -> 0 < l 2%nat -> asks_convex (kw 2%nat) (u 2%nat) ->
  cmf_aoadmm V IE rnd (with_iterations 0 a) = Ok out0 -> let c := out_cmf out0 in let r := mr (cC c) in
  0 < rho_C (f_scale a) c -> has_room r rank (allowed (kw 2%nat) (u 2%nat) r rank) ->
  exists x, let best := minimiser (allowed (kw 2%nat) (u 2%nat) r rank) (fun Z => smooth_C (f_data a) c (l 2%nat) Z + price (kw 2%nat) (u 2%nat) r rank Z) in
    best x /\ (forall y, best y -> same r rank x y) /\
    forall eps, 0 < eps -> exists n0, forall n, (n0 <= n)%Z -> exists out,
      cmf_aoadmm V IE rnd (with_iterations n a) = Ok out /\
      cw (out_cmf out) = None /\ cA (out_cmf out) = cA c /\ cBs (out_cmf out) = cBs c /\
      close r rank eps (mget (cC (out_cmf out))) x /\
      forall v, out_vars out = Some v -> Forall (fun Z => close r rank eps (mget Z) x) (v_auxC v).
Proof.
  intros HS RK HE HTV RO UO HA HL HCV H0 c r HR HRM.
  destruct (lone_start V IE rnd a rank out0 l kw u HS RK HE RO HA H0) as (s & P & t & VS & EC & MC & PO & PA & F1 & F2 & F3 & F4 & F5 & F6 & L0 & L1 & L2 & _ & _ & GO).
  fold c in EC. pose proof (UO 0%nat ltac:(lia)) as U0. pose proof (UO 1%nat ltac:(lia)) as U1. pose proof (UO 2%nat ltac:(lia)) as U2. cbn [updates Nat.eqb] in U0, U1, U2.
  destruct PA as (EP & _ & _ & MP). rewrite U2 in MP. destruct (at_pick V a t 2 kw u l EP HA ltac:(lia)) as (AI & AT & AC). specialize (AC HCV).
  pose proof VS as (DF & NE & _ & _ & VC). rewrite EC in DF, NE, VC, MC.
  assert (SC : 0 <= f_scale a) by (rewrite <- F6; apply PO).
  assert (CV : Forall (fun g => convex_pen (g_pen g)) (st_rC s)) by (eapply (pens_Forall g_pen convex_pen); eauto).
  assert (CO : compatible r rank (st_rC s)) by (eapply room_compatible; eauto).
  rewrite <- MC in HE, CO.
  destruct (C65_converges_C (e_ext V) (f_data a) c (l 2%nat) (f_scale a) (st_rC s) DF NE HL SC HE (HTV _) VC CV HR CO) as (x & OX & UX & LX).
  fold r in OX, UX, LX. rewrite MC in OX, UX, LX. exists x. cbv zeta.
  assert (OP := optimal_is_minimiser t 2 _ _ r rank (smooth_C (f_data a) c (l 2%nat)) (st_rC s) MP AI AT).
  split; [now apply OP|]. split; [intros y Hy; apply UX; now apply OP|].
  intros eps Heps. destruct (LX eps Heps) as (N & HN). exists (Z.of_nat (S N)). intros n Hn.
  assert (M := many_C (e_ext V) (f_data a) P F5 s). rewrite F1, F2, F3, L2, F6, EC in M. specialize (M U1 U2 U0).
  destruct (M) with (n := (Z.to_nat n - 1)%nat) as (c' & r' & EQ & IT & EA & EB).
  { intros k. destruct (C51_update_C_total (e_ext V) (f_data a) c (l 2%nat) (f_scale a) (st_rC s) k None DF NE ltac:(lra) SC HE VC) as ((c' & r') & EQ); eauto.
    - eapply Forall_impl; [|exact CV]. intros g Hg. now apply convex_usable.
    - now left. }
  replace (S (Z.to_nat n - 1)) with (Z.to_nat n) in IT, EQ by lia. destruct (GO _ _ IT) as (d & EO). rewrite Z2Nat.id in EO by lia. cbn [st_cmf] in EO.
  eexists. split; [exact EO|]. cbn [out_cmf out_vars].
  destruct (HN (Z.to_nat n * p_inner P)%nat) as (c2 & r2 & EQ2 & EM & C1 & C2).
  { rewrite F4. destruct RO as (_ & HI & _). assert (0 < Z.to_nat (f_inner a))%nat by lia. nia. }
  rewrite EQ in EQ2. injection EQ2 as <- <-. split; [|split; [exact EA|split; [exact EB|split; [exact C1|]]]].
  { unfold admm_update_C in EQ. destruct (msum_list _); [|discriminate]. destruct (msum_list _); [|discriminate]. cbv zeta in EQ.
    match type of EQ with bind ?z _ = _ => destruct z as [[C3 r3]|] end; [|discriminate]. cbn [bind] in EQ. now injection EQ as <- _. }
  intros v Hv. destruct (f_return_vars a); [|discriminate]. injection Hv as <-. cbn [vars_of v_auxC st_rC]. apply Forall_map, Forall_forall. intros g Hg.
  apply (In_nth _ _ (MReg NonNegativity no_mat no_mat)) in Hg as (q & Hq & <-). apply C2.
  assert (LE : length r' = length (st_rC s)) by (rewrite <- (map_length g_pen r'), EM; apply map_length). rewrite <- LE. exact Hq.
Qed.
Print Assumptions C82_only_C.

(** ** C82: mode 0 *)
Theorem C82_only_A V IE rnd (a : fitR) rank out0 l kw u :
  sensible V a rank -> ranks_kept IE -> svd_correct (e_ext V) rank -> (forall r, tv_correct (e_ext V) r) ->
  runs_on a -> updates_only a 0 -> arguments a l kw u -> 0 < l 0%nat -> asks_convex (kw 0%nat) (u 0%nat) ->
  (constant_for_A (f_const a) = false -> ~ needs_constant_A a) ->
  cmf_aoadmm V IE rnd (with_iterations 0 a) = Ok out0 -> let c := out_cmf out0 in let r := length (f_data a) in
  (forall i, (i < r)%nat -> 0 < rho_A (f_scale a) c i) -> has_room r rank (allowed (kw 0%nat) (u 0%nat) r rank) ->
  exists x, let best := minimiser (allowed (kw 0%nat) (u 0%nat) r rank) (fun Z => smooth_A (f_data a) c (l 0%nat) Z + price (kw 0%nat) (u 0%nat) r rank Z) in
    best x /\ (forall y, best y -> same r rank x y) /\
    forall eps, 0 < eps -> exists n0, forall n, (n0 <= n)%Z -> exists out,
      cmf_aoadmm V IE rnd (with_iterations n a) = Ok out /\
      cw (out_cmf out) = None /\ cBs (out_cmf out) = cBs c /\ cC (out_cmf out) = cC c /\
      close r rank eps (mget (cA (out_cmf out))) x /\
      forall v, out_vars out = Some v -> Forall (fun Z => close r rank eps (mget Z) x) (v_auxA v).
Proof.
  intros HS RK HE HTV RO UO HA HL HCV HCA H0 c r HR HRM.
  destruct (lone_start V IE rnd a rank out0 l kw u HS RK HE RO HA H0) as (s & P & t & VS & EC & MC & PO & PA & F1 & F2 & F3 & F4 & F5 & F6 & L0 & L1 & L2 & F7 & _ & GO).
  fold c in EC. pose proof (UO 0%nat ltac:(lia)) as U0. pose proof (UO 1%nat ltac:(lia)) as U1. pose proof (UO 2%nat ltac:(lia)) as U2. cbn [updates Nat.eqb] in U0, U1, U2.
  destruct PA as (EP & MP & _ & _). rewrite U0 in MP. destruct (at_pick V a t 0 kw u l EP HA ltac:(lia)) as (AI & AT & AC). specialize (AC HCV).
  pose proof VS as (DF & NE & VC & _ & _). rewrite EC in DF, NE, VC, MC.
  assert (ER : mr (cA c) = r) by (destruct DF as ((_ & _ & _ & RA & _) & DL & _); unfold r; congruence).
  assert (SC : 0 <= f_scale a) by (rewrite <- F6; apply PO).
  assert (CV : Forall (fun g => convex_pen (g_pen g)) (st_rA s)) by (eapply (pens_Forall g_pen convex_pen); eauto).
  assert (CO : compatible r rank (st_rA s)) by (eapply room_compatible; eauto).
  assert (RW : constant_for_A (f_const a) = false -> Forall (fun g => rowwise (g_pen g)) (st_rA s)).
  { intros CF. specialize (HCA CF). apply (pens_Forall g_pen rowwise (pick t 0)); [exact MP|].
    destruct (parse_all_ok _ _ _ _ _ _ EP 0%nat ltac:(lia)) as (kw2 & pa & u2 & MV & PM & US & ->). apply Forall_app. split.
    - apply (parsed_rowwise _ _ _ _ _ PM); [intros K; apply HCA; left; eauto|]. destruct MV as (_ & _ & _ & _ & _ & _ & _ & _ & ->). apply andb_false_r.
    - apply not_exists_rowwise. intros K. apply HCA. right. eauto. }
  rewrite <- MC in HE, CO. rewrite <- ER in CO.
  destruct (C65_converges_A (e_ext V) (f_data a) c (l 0%nat) (f_scale a) (constant_for_A (f_const a)) (st_rA s) DF NE HL SC HE (HTV _) VC CV HR RW CO) as (x & OX & UX & LX).
  rewrite ER, MC in OX, UX, LX. exists x. cbv zeta.
  assert (OP := optimal_is_minimiser t 0 _ _ r rank (smooth_A (f_data a) c (l 0%nat)) (st_rA s) MP AI AT).
  split; [now apply OP|]. split; [intros y Hy; apply UX; now apply OP|].
  intros eps Heps. destruct (LX eps Heps) as (N & HN). exists (Z.of_nat (S N)). intros n Hn.
  assert (M := many_A (e_ext V) (f_data a) P F5 s). rewrite F1, F2, F3, L0, F6, F7, EC in M. specialize (M U1 U2 U0).
  destruct (rhos_exist (constant_for_A (f_const a)) (length (f_data a)) (rho_A (f_scale a) c)) as (rho & Hu).
  destruct (M) with (n := (Z.to_nat n - 1)%nat) as (c' & r' & i' & EQ & IT & EA & EB).
  { intros k. destruct (C51_update_A_total (e_ext V) (f_data a) c (l 0%nat) (f_scale a) (constant_for_A (f_const a)) (st_rA s) k None rho DF NE ltac:(lra) SC HE Hu VC) as (((c' & r') & i') & EQ); eauto.
    intros i Hi. split; [|now left]. eapply Forall_impl; [|exact CV]. intros g Hg. apply convex_usable; [exact Hg|]. exact (AdmmOpt.rhos_used_pos _ _ _ _ Hu HR i Hi). }
  replace (S (Z.to_nat n - 1)) with (Z.to_nat n) in IT, EQ by lia. destruct (GO _ _ IT) as (d & EO). rewrite Z2Nat.id in EO by lia. cbn [st_cmf] in EO.
  eexists. split; [exact EO|]. cbn [out_cmf out_vars].
  destruct (HN (Z.to_nat n * p_inner P)%nat) as (c2 & r2 & i2 & EQ2 & EM & C1 & C2).
  { rewrite F4. destruct RO as (_ & HI & _). assert (0 < Z.to_nat (f_inner a))%nat by lia. nia. }
  rewrite EQ in EQ2. injection EQ2 as <- <- <-. split; [|split; [exact EA|split; [exact EB|split; [exact C1|]]]].
  { unfold admm_update_A in EQ. cbv zeta in EQ. destruct (feas_penalties _ _ _); [|discriminate]. cbn [bind] in EQ.
    match type of EQ with bind ?z _ = _ => destruct z as [[C3 r3]|] end; [|discriminate]. cbn [bind] in EQ. now injection EQ as <- _ _. }
  intros v Hv. destruct (f_return_vars a); [|discriminate]. injection Hv as <-. cbn [vars_of v_auxA st_rA]. apply Forall_map, Forall_forall. intros g Hg.
  apply (In_nth _ _ (MReg NonNegativity no_mat no_mat)) in Hg as (q & Hq & <-). apply C2.
  assert (LE : length r' = length (st_rA s)) by (rewrite <- (map_length g_pen r'), EM; apply map_length). rewrite <- LE. exact Hq.
Qed.
Print Assumptions C82_only_A.

(** ** C82: mode 1 *)
Theorem C82_only_B V IE rnd (a : fitR) rank out0 l kw u :
  sensible V a rank -> ranks_kept IE -> svd_correct (e_ext V) rank -> (forall r, tv_correct (e_ext V) r) ->
  runs_on a -> updates_only a 1 -> arguments a l kw u -> 0 < l 1%nat -> asks_convex (kw 1%nat) (u 1%nat) ->
  cmf_aoadmm V IE rnd (with_iterations 0 a) = Ok out0 -> let c := out_cmf out0 in let n := length (f_data a) in let J := rowsX (f_data a) in
  (forall i, (i < n)%nat -> 0 < rho_B (f_scale a) c i) -> has_room_l n J rank (allowed_l (kw 1%nat) (u 1%nat) n J rank) ->
  exists x, let best := minimiser (allowed_l (kw 1%nat) (u 1%nat) n J rank) (fun Z => smooth_B (f_data a) c (l 1%nat) Z + price_l (kw 1%nat) (u 1%nat) n J rank Z) in
    best x /\ (forall y, best y -> forall i, (i < n)%nat -> same (J i) rank (x i) (y i)) /\
    forall eps, 0 < eps -> exists n0, forall N, (n0 <= N)%Z -> exists out,
      cmf_aoadmm V IE rnd (with_iterations N a) = Ok out /\
      cw (out_cmf out) = None /\ cA (out_cmf out) = cA c /\ cC (out_cmf out) = cC c /\
      close_l n J rank eps (entB (cBs (out_cmf out))) x /\
      forall v, out_vars out = Some v -> Forall (fun Z => close_l n J rank eps (aux_entry Z) x) (v_auxB v).
Proof.
  intros HS RK HE HTV RO UO HA HL HCV H0 c n J HR HRM.
  destruct (lone_start V IE rnd a rank out0 l kw u HS RK HE RO HA H0) as (s & P & t & VS & EC & MC & PO & PA & F1 & F2 & F3 & F4 & F5 & F6 & L0 & L1 & L2 & F7 & _ & GO).
  fold c in EC. pose proof (UO 0%nat ltac:(lia)) as U0. pose proof (UO 1%nat ltac:(lia)) as U1. pose proof (UO 2%nat ltac:(lia)) as U2. cbn [updates Nat.eqb] in U0, U1, U2.
  destruct PA as (EP & _ & MP & _). rewrite U1 in MP. destruct (at_pick V a t 1 kw u l EP HA ltac:(lia)) as (AI & AT & AC). specialize (AC HCV).
  pose proof VS as (DF & NE & _ & VC & _). rewrite EC in DF, NE, VC, MC.
  assert (DL : length (cBs c) = n) by (destruct DF as (_ & DL & _); unfold n; congruence). rewrite DL in VC.
  assert (ER : forall i, (i < n)%nat -> rowsB c i = J i).
  { intros i Hi. destruct DF as (_ & _ & DS). unfold rowsB, J, rowsX. now destruct (DS i Hi) as (_ & -> & _). }
  assert (SC : 0 <= f_scale a) by (rewrite <- F6; apply PO).
  assert (CV : Forall (fun g => convex_pen (b_pen g)) (st_rB s)) by (eapply (pens_Forall b_pen convex_pen); eauto).
  assert (CL : forall e X Y, close_l n (rowsB c) rank e X Y <-> close_l n J rank e X Y).
  { intros e X Y. unfold close_l. split; intros K i Hi; specialize (K i Hi); [rewrite <- ER|rewrite ER]; assumption. }
  assert (AL : forall Z, allowed_l (kw 1%nat) (u 1%nat) n (rowsB c) rank Z <-> allowed_l (kw 1%nat) (u 1%nat) n J rank Z).
  { intros Z. unfold allowed_l. split; intros K i Hi; specialize (K i Hi); [rewrite <- ER|rewrite ER]; assumption. }
  assert (PL : forall Z, price_l (kw 1%nat) (u 1%nat) n (rowsB c) rank Z = price_l (kw 1%nat) (u 1%nat) n J rank Z).
  { intros Z. unfold price_l. rewrite !Sum_rsum. apply rsum_ext. intros i Hi. now rewrite ER. }
  assert (CO : compatible_l n (rowsB c) rank (st_rB s)).
  { eapply room_compatible_l; eauto. destruct HRM as (x0 & delta & D & K). exists x0, delta. split; [exact D|]. intros Z HZ. apply AL, K. now apply CL. }
  rewrite <- MC in HE, CO.
  set (cB := p_constB P) in *.
  destruct (C65_converges_B (e_ext V) (f_data a) c (l 1%nat) (f_scale a) cB (st_rB s) DF NE HL SC HE (fun _ _ => HTV _) VC CV HR CO) as (x & OX & UX & LX).
  fold n in OX, UX, LX. rewrite MC in OX, UX, LX. exists x. cbv zeta.
  assert (OP := optimal_l_is_minimiser t 1 _ _ n (rowsB c) rank (smooth_B (f_data a) c (l 1%nat)) (st_rB s) MP AI AT).
  assert (BE : forall y, minimiser (allowed_l (kw 1%nat) (u 1%nat) n J rank) (fun Z => smooth_B (f_data a) c (l 1%nat) Z + price_l (kw 1%nat) (u 1%nat) n J rank Z) y <->
     optimal_l n (rowsB c) rank (smooth_B (f_data a) c (l 1%nat)) (st_rB s) y).
  { intros y. rewrite OP. unfold minimiser. rewrite AL. split; intros (K1 & K2); (split; [exact K1|]); intros Z HZ; specialize (K2 Z); rewrite AL, !PL in *; auto. }
  split; [now apply BE|]. split; [intros y Hy i Hi; rewrite <- ER by exact Hi; apply UX; [now apply BE|exact Hi]|].
  intros eps Heps. destruct (LX eps Heps) as (N0 & HN). exists (Z.of_nat (S N0)). intros N Hn.
  assert (M := many_B (e_ext V) (f_data a) P F5 s). fold cB in M. rewrite F1, F2, F3, L1, F6, EC in M. specialize (M U1 U2 U0).
  destruct (rhos_exist cB (length (f_data a)) (rho_B (f_scale a) c)) as (rho & Hu).
  destruct (M) with (n := (Z.to_nat N - 1)%nat) as (c' & r' & EQ & IT & EA & EB).
  { intros k. destruct (C51_update_B_total (e_ext V) (f_data a) c (l 1%nat) (f_scale a) cB (st_rB s) k None rho DF NE ltac:(lra) SC HE Hu VC) as ((c' & r') & EQ); eauto.
    intros i Hi. split; [|now left]. eapply Forall_impl; [|exact CV]. intros g Hg. apply convex_usable; [exact Hg|]. exact (AdmmOpt.rhos_used_pos _ _ _ _ Hu HR i Hi). }
  replace (S (Z.to_nat N - 1)) with (Z.to_nat N) in IT, EQ by lia. destruct (GO _ _ IT) as (d & EO). rewrite Z2Nat.id in EO by lia. cbn [st_cmf] in EO.
  eexists. split; [exact EO|]. cbn [out_cmf out_vars].
  destruct (HN (Z.to_nat N * p_inner P)%nat) as (c2 & r2 & EQ2 & EM & C1 & C2).
  { rewrite F4. destruct RO as (_ & HI & _). assert (0 < Z.to_nat (f_inner a))%nat by lia. nia. }
  rewrite EQ in EQ2. injection EQ2 as <- <-. split; [|split; [exact EA|split; [exact EB|split; [now apply CL|]]]].
  { unfold admm_update_B in EQ. cbv zeta in EQ. destruct (feas_penalties _ _ _); [|discriminate]. cbn [bind] in EQ.
    match type of EQ with bind ?z _ = _ => destruct z as [[C3 r3]|] end; [|discriminate]. cbn [bind] in EQ. now injection EQ as <- _. }
  intros v Hv. destruct (f_return_vars a); [|discriminate]. injection Hv as <-. cbn [vars_of v_auxB st_rB]. apply Forall_map, Forall_forall. intros g Hg.
  apply (In_nth _ _ (BReg NonNegativity (AList []) [])) in Hg as (q & Hq & <-).
  assert (LE : length r' = length (st_rB s)) by (rewrite <- (map_length b_pen r'), EM; apply map_length). rewrite LE in Hq. specialize (C2 q Hq). apply CL in C2.
  intros i Hi. exact (C2 i Hi).
Qed.
Print Assumptions C82_only_B.

(** ** Cases that meet the hypotheses *)
(** Data 2, rank 1, all factors start at 1, ridge 1; an upper bound of 1/2 and a
    non-negativity object for every mode; only mode [m] is updated.  The problem is to
    minimise (2 - x)^2/2 + x^2/2 subject to 0 <= x <= 1/2: the solution is 1/2. *)
Definition start82 : rcmf := Cmf (N:=RNum) None (m11 1) [m11 1] (m11 1).
Definition user82 : list pobjR := [PObj (N:=RNum) NonNegativity (IStr RandomUniform) (IStr Zeros)].
Definition args82 (m : nat) : fitR :=
  FitArgs (N:=RNum) [m11 2] (PyInt 1) (InitSeq [PNone; PSeq [py_of_mat (m11 1); PSeq [py_of_mat (m11 1)]; py_of_mat (m11 1)]]) 7 (AOne (Some 1))
    (KwArgs (AOne None) (AOne None) (AOne (Some (1 / 2))) (AOne None) (AOne None) false (AOne None) (AOne None) (AOne None))
    (RList [EList (map RPen user82); EList (map RPen user82); EList (map RPen user82)])
    2 (CBool false) (IStr RandomUniform) (IStr RandomUniform) true None (Some (1 / 10)) (Some (1 / 10)) (Some 0) 3 (m =? 0)%nat (m =? 1)%nat (m =? 2)%nat true true.
Definition kw82 (k : nat) : modekw (N:=RNum) := ModeKw (N:=RNum) None None (Some (1 / 2)) None None false None None None.
Lemma arguments82 m : arguments (args82 m) (fun _ => 1) kw82 (fun _ => user82).
Proof.
  intros k Hk. split; [exists (Some 1); split; reflexivity|]. split.
  - repeat split; reflexivity.
  - destruct k as [|[|[|k]]]; try lia; reflexivity.
Qed.
Lemma dependable82 E m : dependable (Env (N:=RNum) E (fun _ => []) true) (args82 m) 1.
Proof.
  assert (UPX : forall k u, (k < 3)%nat -> user_penalties (f_regs (args82 m)) k u -> u = user82).
  { intros k u Hk H. eapply user_unique; [exact H|]. destruct k as [|[|[|k]]]; [reflexivity|reflexivity|reflexivity|lia]. }
  assert (KWX : forall k kw, (k < 3)%nat -> mode_values (f_kw (args82 m)) k kw -> kw = kw82 k).
  { intros k kw Hk H. eapply mode_value_unique; [exact H|]. apply (arguments82 m k Hk). }
  split.
  { unfold sensible. cbn [f_data f_rank f_init f_scale f_l2 args82]. split; [discriminate|]. split; [repeat constructor|].
    split; [reflexivity|]. split; [lia|]. split; [do 5 eexists; reflexivity|]. split; [lra|]. split; [intros k v _ ->; cbn; lra|]. split.
    - intros k r kw Hk _ MV. rewrite (KWX k kw Hk MV). split; [|intros M E0; discriminate E0].
      intros hi E0. cbn in E0. injection E0 as <-. split; [intros lo E1; discriminate E1|intros _; lra].
    - split.
      + intros k r u Hk _ HU. rewrite (UPX k u Hk HU). repeat constructor.
      + intros [K|(u & HU & K)]; [discriminate K|]. rewrite (UPX 1%nat u ltac:(lia) HU) in K. unfold user82 in K. rewrite Exists_cons, Exists_nil in K. cbn in K. tauto. }
  split; [intros X [<-|[]]; reflexivity|]. split.
  { exists start82. split; [reflexivity|]. split; [|reflexivity]. apply (us_valid 1). }
  split; [reflexivity|]. split; [discriminate|].
  split; [eexists; split; [reflexivity|discriminate]|]. split; [eexists; split; [reflexivity|discriminate]|].
  split; [exact Logic.I|]. split; [repeat split; exact Logic.I|]. split.
  { cbn. split.
    - intros e [<-|[<-|[<-|[]]]]; exists user82; now left.
    - intros [|[|[|k]]] Hk; [exists user82|exists user82|exists user82|lia]; reflexivity. }
  split.
  { intros k kw Hk MV. rewrite (KWX k kw Hk MV). unfold acceptable, kw82. cbn [k_l1 k_tv k_norm k_gl2 strength].
    split; [lra|]. split; [lra|]. split; [intros K; now destruct K|]. split; [lra|exact Logic.I]. }
  split.
  { intros k Hk _. split; [intros v ->; cbn; lra|]. split.
    - intros kw MV. rewrite (KWX k kw Hk MV). unfold asks_plain. cbn. auto.
    - intros u HU. rewrite (UPX k u Hk HU). constructor; [|constructor]. split; [exact Logic.I|]. split; eexists; (split; [reflexivity|discriminate]). }
  split.
  { intros _ _ [(kw & MV & K)|(u & HU & K)].
    - rewrite (KWX 0%nat kw ltac:(lia) MV) in K. unfold asks_matrixwise, wants, kw82 in K. cbn in K. destruct K as [K|[K|[K|(M & K)]]]; try discriminate K; lra.
    - rewrite (UPX 0%nat u ltac:(lia) HU) in K. unfold user82 in K. rewrite Exists_cons, Exists_nil in K. cbn in K. tauto. }
  intros (x & K & _). discriminate K.
Qed.
Lemma start82_out E rnd m out0 : svd_correct E 1 ->
  cmf_aoadmm (Env (N:=RNum) E (fun _ => []) true) no_ext rnd (with_iterations 0 (args82 m)) = Ok out0 ->
  cA (out_cmf out0) = m11 1 /\ cBs (out_cmf out0) = [m11 1] /\ cC (out_cmf out0) = m11 1.
Proof.
  intros HE H. set (V := Env (N:=RNum) E (fun _ => []) true) in *.
  destruct (lone_start V no_ext rnd (args82 m) 1 out0 (fun _ => 1) kw82 (fun _ => user82) (proj1 (dependable82 E m)) no_ext_ranks HE) as (s & P & t & VS & EC & _ & _ & _ & _ & _ & _ & _ & _ & _ & _ & _ & _ & _ & (pos & EI) & _).
  { split; [intros (x & K & _); discriminate K|]. split; [reflexivity|cbn; lra]. }
  { apply arguments82. }
  { exact H. }
  assert (E1 : initialize_cmf (e_ext V) no_ext rnd (f_data (args82 m)) (f_rank (args82 m)) (f_init (args82 m)) 0 = Ok (start82, 0%nat)) by reflexivity.
  rewrite E1 in EI. injection EI as EI _. rewrite <- EC, <- EI. auto.
Qed.
Lemma allowed82 k Z : allowed (kw82 k) user82 1 1 Z <-> 0 <= Z 0%nat 0%nat <= 1 / 2.
Proof.
  unfold allowed, requested_domain, imposed, user82, kw82. cbn [k_nn k_lower k_upper k_norm k_uni o_pen]. split.
  - intros ((_ & _ & H & _) & K). inversion K as [|? ? K1 _]. cbn in K1. split; [apply (K1 0%nat 0%nat); lia|]. apply (H (1 / 2) eq_refl 0%nat 0%nat); lia.
  - intros H. split.
    + split; [discriminate|]. split; [discriminate|]. split; [|split; [discriminate|discriminate]]. intros hi E0. injection E0 as <-. intros [|i] [|j] Hi Hj; try lia. lra.
    + constructor; [|constructor]. cbn. intros [|i] [|j] Hi Hj; try lia. lra.
Qed.
Lemma room82 k : has_room 1 1 (allowed (kw82 k) user82 1 1).
Proof.
  exists (fun _ _ => 1 / 4), (1 / 4). split; [lra|]. intros Z HZ. apply allowed82. specialize (HZ 0%nat 0%nat ltac:(lia) ltac:(lia)). cbv beta in HZ. apply abs_bounds in HZ. lra.
Qed.
Example C82_nonvacuous rnd : exists V, (forall m, sensible V (args82 m) 1) /\ ranks_kept no_ext /\ svd_correct (e_ext V) 1 /\ (forall r, tv_correct (e_ext V) r) /\
  (forall eps, 0 < eps -> exists n0, forall n, (n0 <= n)%Z -> exists out, cmf_aoadmm V no_ext rnd (with_iterations n (args82 0)) = Ok out /\ Rabs (mget (cA (out_cmf out)) 0%nat 0%nat - 1 / 2) <= eps) /\
  (forall eps, 0 < eps -> exists n0, forall n, (n0 <= n)%Z -> exists out, cmf_aoadmm V no_ext rnd (with_iterations n (args82 1)) = Ok out /\ Rabs (entB (cBs (out_cmf out)) 0%nat 0%nat 0%nat - 1 / 2) <= eps) /\
  (forall eps, 0 < eps -> exists n0, forall n, (n0 <= n)%Z -> exists out, cmf_aoadmm V no_ext rnd (with_iterations n (args82 2)) = Ok out /\ Rabs (mget (cC (out_cmf out)) 0%nat 0%nat - 1 / 2) <= eps).
Proof.
  destruct ideal_exists as (E & HE & HT). set (V := Env (N:=RNum) E (fun _ => []) true). exists V.
  assert (SE : forall m, sensible V (args82 m) 1) by (intros m; apply (dependable82 E m)).
  assert (RO : forall m, runs_on (args82 m)) by (intros m; split; [intros (x & K & _); discriminate K|]; split; [reflexivity|cbn; lra]).
  assert (UO : forall m, updates_only (args82 m) m) by (intros m k Hk; destruct k as [|[|[|k]]]; try lia; cbn [updates args82 f_updA f_updB f_updC]; apply Nat.eqb_sym).
  assert (CV : forall k, asks_convex (kw82 k) user82) by (intros k; split; [discriminate|]; split; [reflexivity|repeat constructor]).
  assert (ST : forall m, exists out0, cmf_aoadmm V no_ext rnd (with_iterations 0 (args82 m)) = Ok out0).
  { intros m. assert (D' : dependable V (with_iterations 0 (args82 m)) 1) by exact (dependable82 E m). exact (C51_fit_total V no_ext rnd _ 1 D' no_ext_ranks (HE 1%nat)). }
  split; [exact SE|]. split; [exact no_ext_ranks|]. split; [apply HE|]. split; [exact HT|].
  assert (QM : forall z, 0 <= z <= 1 / 2 -> 1 / 2 * (2 - 1 / 2) ^ 2 + 1 / 2 * (1 / 2) ^ 2 <= 1 / 2 * (2 - z) ^ 2 + 1 / 2 * z ^ 2) by (intros z Hz; nra).
  split; [|split].
  - destruct (ST 0%nat) as (out0 & H0). destruct (start82_out E rnd 0 out0 (HE 1%nat) H0) as (S1 & S2 & S3). intros eps Heps. set (c := out_cmf out0) in *.
    destruct (C82_only_A V no_ext rnd (args82 0) 1 out0 (fun _ => 1) kw82 (fun _ => user82) (SE 0%nat) no_ext_ranks (HE 1%nat) HT (RO 0%nat) (UO 0%nat) (arguments82 0) ltac:(lra) (CV 0%nat)) as (x & _ & UX & LX).
    { intros _. apply (dependable82 E 0); reflexivity. }
    { exact H0. }
    { fold c. intros [|i] Hi; [|cbn in Hi; lia]. unfold rho_A, nthB. rewrite S1, S2, S3. mcomp. lra. }
    { apply room82. }
    assert (X12 : x 0%nat 0%nat = 1 / 2).
    { specialize (UX (fun _ _ => 1 / 2)). unfold same in UX. cbn [f_data args82 length] in UX. apply UX; [|lia|lia]. clear UX LX. fold c. split; [apply allowed82; lra|].
      intros z Hz. apply allowed82 in Hz. unfold smooth_A, price. rewrite S1, S2, S3. pose proof (QM _ Hz) as Q. mcomp. lra. }
    destruct (LX eps Heps) as (n0 & HN). exists n0. intros n Hn. destruct (HN n Hn) as (out & EO & _ & _ & _ & C1 & _). exists out. split; [exact EO|]. rewrite <- X12. apply C1; cbn; lia.
  - destruct (ST 1%nat) as (out0 & H0). destruct (start82_out E rnd 1 out0 (HE 1%nat) H0) as (S1 & S2 & S3). intros eps Heps. set (c := out_cmf out0) in *.
    destruct (C82_only_B V no_ext rnd (args82 1) 1 out0 (fun _ => 1) kw82 (fun _ => user82) (SE 1%nat) no_ext_ranks (HE 1%nat) HT (RO 1%nat) (UO 1%nat) (arguments82 1) ltac:(lra) (CV 1%nat)) as (x & _ & UX & LX).
    { exact H0. }
    { fold c. intros [|i] Hi; [|cbn in Hi; lia]. unfold rho_B. rewrite S1, S3. mcomp. lra. }
    { destruct (room82 1) as (x0 & delta & D & K). exists (fun _ => x0), delta. split; [exact D|]. intros Z HZ [|i] Hi; [|cbn in Hi; lia]. apply K, (HZ 0%nat Hi). }
    assert (X12 : x 0%nat 0%nat 0%nat = 1 / 2).
    { specialize (UX (fun _ _ _ => 1 / 2)). unfold same in UX. cbn [f_data args82 length] in UX. refine (UX _ 0%nat _ 0%nat 0%nat _ _); [|lia|cbn; lia|lia]. clear UX LX. fold c.
      split; [intros [|i] Hi; [apply allowed82; lra|lia]|].
      intros z Hz. specialize (Hz 0%nat ltac:(cbn; lia)). apply allowed82 in Hz. unfold smooth_B, price_l, price, nthB. rewrite S1, S2, S3. pose proof (QM _ Hz) as Q. mcomp. lra. }
    destruct (LX eps Heps) as (n0 & HN). exists n0. intros n Hn. destruct (HN n Hn) as (out & EO & _ & _ & _ & C1 & _). exists out. split; [exact EO|]. rewrite <- X12. apply (C1 0%nat); cbn; lia.
  - destruct (ST 2%nat) as (out0 & H0). destruct (start82_out E rnd 2 out0 (HE 1%nat) H0) as (S1 & S2 & S3). intros eps Heps. set (c := out_cmf out0) in *.
    destruct (C82_only_C V no_ext rnd (args82 2) 1 out0 (fun _ => 1) kw82 (fun _ => user82) (SE 2%nat) no_ext_ranks (HE 1%nat) HT (RO 2%nat) (UO 2%nat) (arguments82 2) ltac:(lra) (CV 2%nat)) as (x & _ & UX & LX).
    { exact H0. }
    { fold c. unfold rho_C, nthB. rewrite S1, S2. mcomp. lra. }
    { fold c. rewrite S3. apply room82. }
    assert (X12 : x 0%nat 0%nat = 1 / 2).
    { specialize (UX (fun _ _ => 1 / 2)). unfold same in UX. fold c in UX. rewrite S3 in UX. apply UX; [|cbn; lia|lia]. clear UX LX. split; [apply allowed82; lra|].
      intros z Hz. apply allowed82 in Hz. unfold smooth_C, price. rewrite S1, S2, S3. pose proof (QM _ Hz) as Q. mcomp. lra. }
    destruct (LX eps Heps) as (n0 & HN). exists n0. intros n Hn. destruct (HN n Hn) as (out & EO & _ & _ & _ & C1 & _). exists out. split; [exact EO|]. fold c in C1. rewrite S3 in C1. rewrite <- X12. apply C1; cbn; lia.
Qed.
