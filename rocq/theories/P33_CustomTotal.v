(** C79: fits with penalties written by the user that cannot fail. *)
From Coq Require Import Reals Lra Lia List Arith Bool ZArith.
From Verif Require Import Num Numpy RFacts Spec SpecFacts MatFacts ModelSpec Unimodal Penalties PenaltySpec PenaltyMain CoupledMatrices CmfSpec Decomp DecompSpec
  AoState TotalRun InitVars InitSpec InitProofs Parse ParseSpec ParseProofs Fit FitSpec FitProofs FitExamples DecompFacts P03_CoupledMatrices P05_Runs P06_Init P07_Parse P08_Fit P09_Calls P10_Start P11_Total Ideal
  Custom CustomBase CustomSpec CustomFit CustomCalls CustomExample P31_Custom P32_CustomExample CustomTotalSpec CustomTotal.
Import ListNotations.
Local Open Scope R_scope.

Lemma umake_ok {X} (Q : nat -> uobj (N:=RNum) X -> Prop) r k (l : list (uobj (N:=RNum) X)) (reg : ureg (N:=RNum) X -> Prop) :
  forall a d, Forall2 (fun o v => exists x, v = WMat x /\ forall D, shaped D r k -> reg (UReg (w_cls o) x D)) l a -> Forall2 (fun _ => one_dual r k) l d ->
  exists g, umake l a d = Ok g /\ Forall reg g.
Proof.
  induction l as [|o l IH]; intros a d FA FD; inversion FA as [|? v ? a' (x & EV & QV) FA']; subst; inversion FD as [|? w ? d' (D & EW & SD) FD']; subst; cbn [umake]; [eauto|].
  destruct (IH _ _ FA' FD') as (g & E0 & Fg). rewrite E0. cbn [bind]. eexists. split; [reflexivity|]. constructor; auto.
Qed.
Lemma umakes_ok {X} n J k (l : list (uobj (N:=RNum) X)) (reg : uregs (N:=RNum) X -> Prop) :
  forall a d, Forall2 (fun o v => exists x, v = WMats x /\ forall D, list_shaped n J k D -> reg (URegs (w_cls o) x D)) l a -> Forall2 (fun _ => many_duals n J k) l d ->
  exists g, umakes l a d = Ok g /\ Forall reg g.
Proof.
  induction l as [|o l IH]; intros a d FA FD; inversion FA as [|? v ? a' (x & EV & QV) FA']; subst; inversion FD as [|? w ? d' (D & EW & SD) FD']; subst; cbn [umakes]; [eauto|].
  destruct (IH _ _ FA' FD') as (g & E0 & Fg). rewrite E0. cbn [bind]. eexists. split; [reflexivity|]. constructor; auto.
Qed.
(** With ridge terms on the updated modes, keywords that ask for non-negativity, bounds,
    norm bounds or unimodality, and objects whose methods can be relied on, the fit returns,
    with factor matrices of the right shapes: no state that the iterations reach makes the
    code of the fit fail. *)
Theorem C79_user_fit_total {X} V IE rnd (rA rB rC : list (uobj (N:=RNum) X)) (a : fitR) rank :
  dependable V a rank -> f_regs a = RNone -> ranks_kept IE -> svd_correct (e_ext V) rank ->
  (forall m, (m < 3)%nat -> updated_modes a m = true -> Forall (sound_object rnd (f_data a) rank (constant_for_A a) m) (pick (rA, rB, rC) m)) ->
  exists o, user_fit V IE rnd (objects rA rB rC) a = Ok o /\ data_fits (f_data a) (uo_cmf o) /\ mc (cA (uo_cmf o)) = rank.
Proof.
  intros (HS & SC & ST & SV & CO & NA & ND & WL & WK & GR & AC & UP & CA & TO) NR RK HE SO.
  pose proof HS as (HX & HXs & HR & HR0 & HIR & HSC & HL2 & HKW & HUS & HPF).
  assert (INI : exists c pos, initialize_cmf (e_ext V) IE rnd (f_data a) (f_rank a) (f_init a) 0 = Ok (c, pos) /\ data_fits (f_data a) c /\ mc (cA c) = rank).
  { rewrite HR. unfold start_ok in ST. destruct (f_init a) as [l|m].
    - destruct ST as (c0 & EQ & DF & MC). destruct (C41_given_start_partial (e_ext V) IE rnd (f_data a) (PyInt (Z.of_nat rank)) c0 l 0 (proj1 DF) EQ) as (c & E1 & VC & W & M1 & M2 & M3 & _).
      exists c, 0%nat. split; [exact E1|]. split; [|congruence]. destruct DF as (_ & L & DF). split; [exact VC|]. rewrite M2, M3. split; [exact L|].
      unfold nthB in *. rewrite M2. exact DF.
    - destruct m; try contradiction. destruct (C53_random_start (e_ext V) IE rnd (f_data a) rank 0 HX) as (c & p1 & p2 & p3 & E1 & VC & W & D1 & D2 & D3).
      exists c, p3. split; [exact E1|]. apply drawn_list_shaped in D3. split; [|exact (proj2 (proj2 (proj1 D1)))].
      destruct c as [w A Bs C]. cbn in W. subst w. eapply shaped_fits; eauto; [apply D1|apply D2]. }
  destruct INI as (c & pos & EI & DF & MC).
  destruct (listify_total _ WL) as (x & y & z & EL).
  rewrite NR in GR, HUS, UP. destruct (parse_all_total V (f_kw a) RNone (f_aux a) (f_dual a) GR WK AC) as (t & EP).
  (* all objects, those of the keywords and those of the user *)
  assert (ALL : forall m, (m < 3)%nat -> Forall (sound_object rnd (f_data a) rank (constant_for_A a) m)
            (if updated_modes a m then map (uobj_of (X:=X) (e_ext V) rnd) (pick t m) ++ pick (rA, rB, rC) m else [])).
  { intros m Hm. destruct (updated_modes a m) eqn:Um; [|constructor]. apply Forall_app. split; [|now apply SO].
    destruct (UP m Hm Um) as (_ & U1 & _). destruct (parse_all_ok _ _ _ _ _ _ EP m Hm) as (kw & pa & u & MV & PM & US & EU).
    assert (EQ : pick t m = pa) by (inversion US; subst; rewrite EU; apply app_nil_r). rewrite EQ.
    destruct (plain_parsed _ _ _ _ _ (U1 kw MV) PM) as (K1 & K2).
    assert (VP : forall r, mode_rows (f_data a) m r -> Forall (fun o => valid_penalty (o_pen o) r) pa).
    { intros r Hr. rewrite <- EQ. eapply C38_built_penalties_valid; [exact EP|exact Hm| |]; intros; eauto. }
    apply Forall_forall. intros u0 Hu. apply in_map_iff in Hu. destruct Hu as (o & <- & Ho). rewrite Forall_forall in K1. destruct (K1 o Ho) as (RF & EA & ED).
    apply builtin_object; auto; [now rewrite EA|now rewrite ED| |].
    - intros r Hr. specialize (VP r Hr). rewrite Forall_forall in VP. auto.
    - intros -> CF. specialize (CA Um). assert (NM : ~ asks_matrixwise kw).
      { intros K. apply CA; [|left; eauto]. revert CF. unfold CustomSpec.constant_for_A, FitSpec.constant_for_A. auto. }
      specialize (K2 NM). rewrite Forall_forall in K2. auto. }
  set (oA := if f_updA a then map (uobj_of (X:=X) (e_ext V) rnd) (pick t 0) ++ rA else []).
  set (oB := if f_updB a then map (uobj_of (X:=X) (e_ext V) rnd) (pick t 1) ++ rB else []).
  set (oC := if f_updC a then map (uobj_of (X:=X) (e_ext V) rnd) (pick t 2) ++ rC else []).
  pose proof (ALL 0%nat ltac:(lia)) as S0. pose proof (ALL 1%nat ltac:(lia)) as S1. pose proof (ALL 2%nat ltac:(lia)) as S2. cbn [updated_modes pick] in S0, S1, S2. fold oA in S0. fold oB in S1. fold oC in S2.
  rewrite Forall_forall in S0, S1, S2.
  assert (FL : exists flags, const_flags (f_const a) = Ok flags /\ fst flags = constant_for_A a) by (unfold constant_for_A; destruct (f_const a) as [[]| | |]; try (now destruct CO); eexists; split; reflexivity).
  destruct FL as (flags & EF & FA).
  destruct (fit_params_fields a (x, y, z) flags) as (F1 & F2 & F3 & _ & _ & F6 & F7 & _ & _ & F10 & _).
  set (PR := fit_params a (x, y, z) flags) in *.
  assert (FIT : fitting (f_data a) rank c).
  { split; [exact DF|]. split; [|exact MC]. pose proof DF as (VC & L & DS). assert (L0 : (0 < length (f_data a))%nat) by (destruct (f_data a); [congruence|cbn; lia]). rewrite Forall_forall in HXs.
    split; [rewrite <- L; exact L0|]. split; [|split].
    - destruct (DS 0%nat L0) as (_ & _ & <-). apply HXs. now apply nth_In.
    - now rewrite MC.
    - intros i Hi. rewrite <- L in Hi. destruct (DS i Hi) as (_ & <- & _). apply HXs. now apply nth_In. }
  assert (SET : exists s, usetup V IE rnd (objects rA rB rC) a = Ok (s, (x, y, z)) /\ uvalid PR (f_data a) rank s).
  { unfold usetup. rewrite SV. cbn [negb]. rewrite EI. cbn [bind]. rewrite EL. cbn [bind]. rewrite uparse_objects, EP. cbn [rmap bind]. destruct t as [[tA tB] tC]. cbn [pick] in *. cbv zeta. fold oA oB oC.
    rewrite HR. unfold uinitialize.
    set (Xs := f_data a) in *.
    destruct (mapS_total (fun o => uinit_aux rnd o Xs (PyInt (Z.of_nat rank)) (PyInt 0))
      (fun o v => exists x, v = WMat x /\ forall D, shaped D (length Xs) rank -> regA (X:=X) Xs rank (p_constA PR) (UReg (w_cls o) x D)) oA) with (pos := pos) as (aA & p1 & E1 & A1).
    { intros o p Ho. destruct (S0 o Ho) as (I & SS & SM). destruct (SS p) as ((v & q & Ev & (w & -> & Iw)) & _). exists (WMat w), q. split; [exact Ev|]. exists w. split; [reflexivity|]. intros D SD.
      unfold regA. rewrite F10, FA. destruct (constant_for_A a); [split; [exact SD|exists I; auto]|]. destruct SM as (SM & IA). split; [exact SD|]. split; [now apply IA|exact SM]. }
    rewrite E1. cbn [bind].
    destruct (mapS_total (fun o => uinit_aux rnd o Xs (PyInt (Z.of_nat rank)) (PyInt 1))
      (fun o v => exists x, v = WMats x /\ forall D, list_shaped (length Xs) (rowsX Xs) rank D -> regL (X:=X) Xs rank (URegs (w_cls o) x D)) oB) with (pos := p1) as (aB & p2 & E2 & A2).
    { intros o p Ho. destruct (S1 o Ho) as (I & SS & SM). destruct (SS p) as ((v & q & Ev & (w & -> & Iw)) & _). exists (WMats w), q. split; [exact Ev|]. exists w. split; [reflexivity|]. intros D SD. split; [exact SD|exists I; auto]. }
    rewrite E2. cbn [bind].
    destruct (mapS_total (fun o => uinit_aux rnd o Xs (PyInt (Z.of_nat rank)) (PyInt 2))
      (fun o v => exists x, v = WMat x /\ forall D, shaped D (colsX Xs) rank -> regM (X:=X) rank (colsX Xs) (UReg (w_cls o) x D)) oC) with (pos := p2) as (aC & p3 & E3 & A3).
    { intros o p Ho. destruct (S2 o Ho) as (I & SS & SM). destruct (SS p) as ((v & q & Ev & (w & -> & Iw)) & _). exists (WMat w), q. split; [exact Ev|]. exists w. split; [reflexivity|]. intros D SD. split; [exact SD|exists I; auto]. }
    rewrite E3. cbn [bind].
    destruct (mapS_total (fun o => uinit_dual rnd o Xs (PyInt (Z.of_nat rank)) (PyInt 0)) (fun _ => one_dual (length Xs) rank) oA) with (pos := p3) as (dA & q1 & G1 & D1).
    { intros o p Ho. destruct (S0 o Ho) as (I & SS & _). destruct (SS p) as (_ & v & q & Ev & Dv). eauto. }
    rewrite G1. cbn [bind].
    destruct (mapS_total (fun o => uinit_dual rnd o Xs (PyInt (Z.of_nat rank)) (PyInt 1)) (fun _ => many_duals (length Xs) (rowsX Xs) rank) oB) with (pos := q1) as (dB & q2 & G2 & D2).
    { intros o p Ho. destruct (S1 o Ho) as (I & SS & _). destruct (SS p) as (_ & v & q & Ev & Dv). eauto. }
    rewrite G2. cbn [bind].
    destruct (mapS_total (fun o => uinit_dual rnd o Xs (PyInt (Z.of_nat rank)) (PyInt 2)) (fun _ => one_dual (colsX Xs) rank) oC) with (pos := q2) as (dC & q3 & G3 & D3).
    { intros o p Ho. destruct (S2 o Ho) as (I & SS & _). destruct (SS p) as (_ & v & q & Ev & Dv). eauto. }
    rewrite G3. cbn [bind]. rewrite shapes_match_ok by assumption. cbn [negb].
    destruct (umake_ok (fun _ _ => True) _ _ oA (regA Xs rank (p_constA PR)) _ _ A1 D1) as (gA & -> & K0). cbn [bind].
    destruct (umakes_ok _ _ _ oB (regL Xs rank) _ _ A2 D2) as (gB & -> & K1). cbn [bind].
    destruct (umake_ok (fun _ _ => True) _ _ oC (regM rank (colsX Xs)) _ _ A3 D3) as (gC & -> & K2). cbn [bind].
    eexists. split; [reflexivity|]. split; cbn [us_cmf us_rA us_rB us_rC]; auto. }
  destruct SET as (s & ES & VS). unfold user_fit. rewrite ES. cbn [bind].
  assert (MEA := proj1 (listify_iff _ _ _ _) EL). destruct MEA as (MX & MY & MZ).
  destruct (urun_total (X:=X) (e_ext V) PR (f_data a) rank HXs SC HE (fit_params_ok _ _ _ _ _ HS EL)) with (N := f_n_iter a) (s := s) as (h & s' & d & EH & ER & VS'); auto.
  - rewrite F1. intros U. exact (proj1 (UP 0%nat ltac:(lia) U) x MX).
  - rewrite F2. intros U. exact (proj1 (UP 1%nat ltac:(lia) U) y MY).
  - rewrite F3. intros U. exact (proj1 (UP 2%nat ltac:(lia) U) z MZ).
  - assert (IH : uinit_hist (fit_params a (x, y, z) (false, false)) (f_data a) s = uinit_hist PR (f_data a) s) by reflexivity.
    rewrite IH, EH. cbn [bind]. rewrite EF. cbn [bind]. fold PR. rewrite ER. cbn [bind]. eexists. split; [reflexivity|]. cbn [uo_cmf]. destruct VS' as ((K1 & _ & K3) & _). auto.
Qed.
Print Assumptions C79_user_fit_total.
