(** Fits that are in order: every step of the call returns, or raises an allowed exception. *)
From Coq Require Import Reals Lra Lia List Arith Bool ZArith.
From Verif Require Import Num Numpy RFacts Spec SpecFacts MatFacts ModelSpec Unimodal Penalties PenaltySpec PenaltyMain CoupledMatrices CmfSpec Decomp DecompSpec
  AoState TotalRun InitVars InitSpec InitProofs Parse ParseSpec ParseProofs Fit FitSpec FitProofs DecompFacts P03_CoupledMatrices P05_Runs P06_Init P07_Parse P08_Fit P09_Calls P10_Start P11_Total
  Custom CustomBase CustomSpec CustomFit CustomCalls CustomTotalSpec CustomTotal P33_CustomTotal FailSpec FailRun FailBuiltin.
Import ListNotations.
Local Open Scope R_scope.

(** The penalties that the keywords ask for. *)
Lemma parsed_kinds V kw ai di l : parse_mode (N:=RNum) V kw ai di = Ok l ->
  Forall (fun o => o_aux o = ai /\ o_dual o = di) l /\ Forall (fun o => o_pen o <> UnitSimplex) l /\ (k_pf2 kw = false -> Forall (fun o => ~ is_parafac2 (o_pen o)) l) /\
  (~ asks_matrixwise kw -> k_pf2 kw = false -> Forall (fun o => rowwise (o_pen o)) l).
Proof.
  intros H. apply parse_mode_iff in H as (_ & gl & GL & ->). split; [now apply inits_parsed with (V := V)|].
  assert (G : forall Q : penalty (N:=RNum) -> Prop, (forall M U s, k_gl2 kw = Some (GMat M) -> Q (GeneralizedL2 M U s)) -> Forall (fun o => Q (o_pen o)) gl).
  { intros Q HQ. unfold gl_ok in GL. destruct (k_gl2 kw) as [[|M|]|]; try (subst gl; constructor); [|contradiction]. destruct GL as (U & s & -> & _). repeat constructor. cbn. now apply HQ. }
  assert (ALL : forall Q : penalty (N:=RNum) -> Prop,
     (k_pf2 kw = true -> Q (Parafac2 1 true true)) -> (wants (k_uni kw) -> forall b, Q (Unimodality b)) -> (forall M U s, k_gl2 kw = Some (GMat M) -> Q (GeneralizedL2 M U s)) ->
     (strength (k_norm kw) <> 0 -> forall b nn, Q (L2Ball b nn)) -> (strength (k_tv kw) <> 0 -> forall b nn, Q (TotalVariation b nn)) -> (forall b nn, Q (L1Penalty b nn)) -> (forall lo hi, Q (Box lo hi)) -> Q NonNegativity ->
     Forall (fun o => Q (o_pen o)) (s_pf2 kw ai di ++ s_uni kw ai di ++ gl ++ s_ball kw ai di ++ s_tv kw ai di ++ s_l1 kw ai di ++ s_box kw ai di ++ s_non kw ai di)).
  { intros Q Q1 Q2 Q3 Q4 Q5 Q6 Q7 Q8. rewrite !Forall_app. unfold s_pf2, s_uni, s_ball, s_tv, s_l1, s_box, s_non.
    split; [destruct (k_pf2 kw); repeat constructor; now apply Q1|].
    split; [destruct (btruthy (k_uni kw)) eqn:T; repeat constructor; cbn; apply Q2; now apply btruthy_wants|].
    split; [now apply G|].
    split; [destruct (k_norm kw) as [b|]; [destruct (ntruthy b) eqn:T|]; repeat constructor; cbn; apply Q4; now apply ntruthy_true|].
    split; [destruct (k_tv kw) as [b|]; [destruct (ntruthy b) eqn:T|]; repeat constructor; cbn; apply Q5; now apply ntruthy_true|].
    split; [match goal with |- context [if ?b then _ else _] => destruct b end; repeat constructor; cbn; apply Q6|].
    split; [destruct (k_lower kw), (k_upper kw); repeat constructor; cbn; apply Q7|].
    destruct (_ && _)%bool; repeat constructor; exact Q8. }
  split; [apply (ALL (fun p => p <> UnitSimplex)); intros; discriminate|]. split.
  - intros K. apply (ALL (fun p => ~ is_parafac2 p)); intros; cbn; auto. congruence.
  - intros NM K. unfold asks_matrixwise in NM. apply (ALL rowwise); intros; cbn; auto; try congruence; exfalso; apply NM; eauto.
Qed.

(** A call whose penalties, those of the keywords and those in [regs], can be relied on. *)
Lemma fit_fail {X} (al : exn -> Prop) V IE rnd (regs : uregsarg (N:=RNum) X) (a : fitR) rank tA tB tC :
  al NonFinite -> in_order V a rank -> svd_correct (e_ext V) rank -> svd_shapes (e_ext V) rank ->
  uparse_all V rnd (f_kw a) regs (f_aux a) (f_dual a) = Ok (tA, tB, tC) ->
  (forall m, (m < 3)%nat -> updated_modes a m = true -> Forall (reliable_object al rnd (f_data a) rank (constant_for_A a) m) (pick (tA, tB, tC) m)) ->
  yields al (fun o => data_fits (f_data a) (uo_cmf o) /\ mc (cA (uo_cmf o)) = rank) (user_fit V IE rnd regs a).
Proof.
  intros NF (HS & SC & ST & SV & CO & NA & ND & WL & WK & GR & AC & UP & CA & TO) HE HSH EP SO.
  pose proof HS as (HX & HXs & HR & HR0 & HIR & HSC & HL2 & HKW & HUS & HPF).
  assert (INI : exists c pos, initialize_cmf (e_ext V) IE rnd (f_data a) (f_rank a) (f_init a) 0 = Ok (c, pos) /\ data_fits (f_data a) c /\ mc (cA c) = rank).
  { rewrite HR. unfold start_in_order in ST. destruct (f_init a) as [l|m].
    - destruct ST as (c0 & EQ & DF & MC). destruct (C41_given_start_partial (e_ext V) IE rnd (f_data a) (PyInt (Z.of_nat rank)) c0 l 0 (proj1 DF) EQ) as (c & E1 & VC & W & M1 & M2 & M3 & _).
      exists c, 0%nat. split; [exact E1|]. split; [|congruence]. destruct DF as (_ & L & DF). split; [exact VC|]. rewrite M2, M3. split; [exact L|].
      unfold nthB in *. rewrite M2. exact DF.
    - assert (SVD : forall clip : bool, (forall X, In X (f_data a) -> (rank <= mr X)%nat /\ (rank <= mc X)%nat) ->
        exists c pos, initialize_cmf (e_ext V) IE rnd (f_data a) (PyInt (Z.of_nat rank)) (InitName (if clip then MThresholdSvd else MSvd)) 0 = Ok (c, pos) /\ data_fits (f_data a) c /\ mc (cA c) = rank).
      { intros clip RS. destruct (C53_svd_start (e_ext V) IE rnd (f_data a) rank 0 clip HX SC) as (c & M & E1 & VC & W & _ & S1 & S2 & S3 & _); auto.
        { intros Z HZ. rewrite Forall_forall in HXs. specialize (HXs Z HZ). specialize (RS Z HZ). tauto. }
        exists c, 0%nat. split; [exact E1|]. split; [|exact (proj2 (proj2 S1))]. destruct c as [w A Bs C]. cbn in W. subst w. eapply shaped_fits; eauto. }
      destruct m; try contradiction.
      + destruct (C53_random_start (e_ext V) IE rnd (f_data a) rank 0 HX) as (c & p1 & p2 & p3 & E1 & VC & W & D1 & D2 & D3).
        exists c, p3. split; [exact E1|]. apply drawn_list_shaped in D3. split; [|exact (proj2 (proj2 (proj1 D1)))].
        destruct c as [w A Bs C]. cbn in W. subst w. eapply shaped_fits; eauto; [apply D1|apply D2].
      + exact (SVD false ST).
      + exact (SVD true ST). }
  destruct INI as (c & pos & EI & DF & MC).
  destruct (listify_total _ WL) as (x & y & z & EL).
  assert (ALL : forall m, (m < 3)%nat -> Forall (reliable_object al rnd (f_data a) rank (constant_for_A a) m) (if updated_modes a m then pick (tA, tB, tC) m else [])).
  { intros m Hm. destruct (updated_modes a m) eqn:Um; [auto|constructor]. }
  set (oA := if f_updA a then tA else []). set (oB := if f_updB a then tB else []). set (oC := if f_updC a then tC else []).
  pose proof (ALL 0%nat ltac:(lia)) as S0. pose proof (ALL 1%nat ltac:(lia)) as S1. pose proof (ALL 2%nat ltac:(lia)) as S2. cbn [updated_modes pick] in S0, S1, S2. fold oA in S0. fold oB in S1. fold oC in S2.
  rewrite Forall_forall in S0, S1, S2.
  assert (FL : exists flags, const_flags (f_const a) = Ok flags /\ fst flags = constant_for_A a) by (unfold constant_for_A; destruct (f_const a) as [[]| | |]; try (now destruct CO); eexists; split; reflexivity).
  destruct FL as (flags & EF & FA).
  destruct (fit_params_fields a (x, y, z) flags) as (F1 & F2 & F3 & _ & _ & F6 & F7 & _ & _ & F10 & _).
  set (PR := fit_params a (x, y, z) flags) in *.
  assert (FIT : fitting (f_data a) rank c).
  { split; [exact DF|]. split; [|exact MC]. pose proof DF as (VC & L & DS). assert (L0 : (0 < length (f_data a))%nat) by (destruct (f_data a); [congruence|cbn; lia]). rewrite Forall_forall in HXs.
    split; [rewrite <- L; exact L0|]. split; [|split].
    - destruct (DS 0%nat L0) as (_ & _ & <-). apply HXs. now apply nth_In.
    - now rewrite MC.
    - intros i Hi. rewrite <- L in Hi. destruct (DS i Hi) as (_ & <- & _). apply HXs. now apply nth_In. }
  set (Xs := f_data a) in *.
  assert (SET : yields al (fun v => rvalid al PR Xs rank (fst v) /\ snd v = (x, y, z)) (usetup V IE rnd regs a)).
  { unfold usetup. fold Xs. rewrite SV. cbn [negb]. rewrite EI. cbn [bind]. rewrite EL. cbn [bind]. rewrite EP. cbn [bind]. cbv zeta. fold oA oB oC.
    rewrite HR. unfold uinitialize.
    set (QA := fun (o : uobj (N:=RNum) X) v => exists x, v = WMat x /\ forall D, shaped D (length Xs) rank -> relA (X:=X) al Xs rank (p_constA PR) (UReg (w_cls o) x D)).
    set (QB := fun (o : uobj (N:=RNum) X) v => exists x, v = WMats x /\ forall D, list_shaped (length Xs) (rowsX Xs) rank D -> relL (X:=X) al Xs rank (URegs (w_cls o) x D)).
    set (QC := fun (o : uobj (N:=RNum) X) v => exists x, v = WMat x /\ forall D, shaped D (colsX Xs) rank -> relM (X:=X) al rank (colsX Xs) (UReg (w_cls o) x D)).
    eapply y_bind with (Q := fun v => Forall2 QA oA (fst (fst (fst v))) /\ Forall2 QB oB (snd (fst (fst v))) /\ Forall2 QC oC (snd (fst v))).
    { eapply y_bind; [apply (y_mapS al (fun o => uinit_aux rnd o Xs (PyInt (Z.of_nat rank)) (PyInt 0)) QA)|].
      { intros o p Ho. destruct (S0 o Ho) as (I & SS & SM). eapply y_weak; [|apply (SS p)]. intros (v, q) (w & -> & Iw). cbn [fst]. exists w. split; [reflexivity|]. intros D SD.
        unfold relA. rewrite F10, FA. destruct (constant_for_A a); [split; [exact SD|exists I; auto]|]. destruct SM as (SM & IA). split; [exact SD|]. split; [now apply IA|exact SM]. }
      intros (aA, p1) A1. cbn [fst] in A1.
      eapply y_bind; [apply (y_mapS al (fun o => uinit_aux rnd o Xs (PyInt (Z.of_nat rank)) (PyInt 1)) QB)|].
      { intros o p Ho. destruct (S1 o Ho) as (I & SS & SM). eapply y_weak; [|apply (SS p)]. intros (v, q) (w & -> & Iw). cbn [fst]. exists w. split; [reflexivity|]. intros D SD. split; [exact SD|exists I; auto]. }
      intros (aB, p2) A2. cbn [fst] in A2.
      eapply y_bind; [apply (y_mapS al (fun o => uinit_aux rnd o Xs (PyInt (Z.of_nat rank)) (PyInt 2)) QC)|].
      { intros o p Ho. destruct (S2 o Ho) as (I & SS & SM). eapply y_weak; [|apply (SS p)]. intros (v, q) (w & -> & Iw). cbn [fst]. exists w. split; [reflexivity|]. intros D SD. split; [exact SD|exists I; auto]. }
      intros (aC, p3) A3. cbn [fst] in A3. cbn [yields fst snd]. auto. }
    intros (((aA, aB), aC), p3) (A1 & A2 & A3). cbn [fst snd] in A1, A2, A3.
    eapply y_bind with (Q := fun v => Forall2 (fun _ => one_dual (length Xs) rank) oA (fst (fst (fst v))) /\ Forall2 (fun _ => many_duals (length Xs) (rowsX Xs) rank) oB (snd (fst (fst v))) /\ Forall2 (fun _ => one_dual (colsX Xs) rank) oC (snd (fst v))).
    { eapply y_bind; [apply (y_mapS al (fun o => uinit_dual rnd o Xs (PyInt (Z.of_nat rank)) (PyInt 0)) (fun _ => one_dual (length Xs) rank))|].
      { intros o p Ho. destruct (S0 o Ho) as (I & SS & _). apply (SS p). }
      intros (dA, q1) D1. cbn [fst] in D1.
      eapply y_bind; [apply (y_mapS al (fun o => uinit_dual rnd o Xs (PyInt (Z.of_nat rank)) (PyInt 1)) (fun _ => many_duals (length Xs) (rowsX Xs) rank))|].
      { intros o p Ho. destruct (S1 o Ho) as (I & SS & _). apply (SS p). }
      intros (dB, q2) D2. cbn [fst] in D2.
      eapply y_bind; [apply (y_mapS al (fun o => uinit_dual rnd o Xs (PyInt (Z.of_nat rank)) (PyInt 2)) (fun _ => one_dual (colsX Xs) rank))|].
      { intros o p Ho. destruct (S2 o Ho) as (I & SS & _). apply (SS p). }
      intros (dC, q3) D3. cbn [fst] in D3. cbn [yields fst snd]. auto. }
    intros (((dA, dB), dC), q3) (D1 & D2 & D3). cbn [fst snd] in D1, D2, D3. rewrite shapes_match_ok by assumption. cbn [negb].
    destruct (umake_ok (fun _ _ => True) _ _ oA (relA al Xs rank (p_constA PR)) _ _ A1 D1) as (gA & -> & K0). cbn [bind].
    destruct (umakes_ok _ _ _ oB (relL al Xs rank) _ _ A2 D2) as (gB & -> & K1). cbn [bind].
    destruct (umake_ok (fun _ _ => True) _ _ oC (relM al rank (colsX Xs)) _ _ A3 D3) as (gC & -> & K2). cbn [bind yields fst snd].
    split; [|reflexivity]. split; [exact FIT|]. cbn [us_rA us_rB us_rC]. auto. }
  unfold user_fit. eapply y_bind; [exact SET|]. intros (s, l2) (VS & EQ). cbn [fst snd] in VS, EQ. subst l2.
  assert (TOL : tols_ok PR) by (unfold tols_ok; rewrite ?F6, ?F7; auto).
  assert (IH : uinit_hist (fit_params a (x, y, z) (false, false)) (f_data a) s = uinit_hist PR (f_data a) s) by reflexivity.
  rewrite IH. eapply y_bind; [apply (hist_fail al PR Xs rank s VS)|]. intros _ _. rewrite EF. cbn [bind]. fold PR.
  eapply y_bind; [apply (urun_fail al (e_ext V) PR Xs rank HXs SC HE (fit_params_ok _ _ _ _ _ HS EL)); auto|].
  intros (s', d) ((K1 & _ & K3) & _). cbn [yields uo_cmf fst] in *. auto.
Qed.
