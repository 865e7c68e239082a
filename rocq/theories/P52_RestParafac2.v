(** C96: an exact PARAFAC2 solution is returned unchanged. *)
From Coq Require Import Reals Lra Lia List Arith Bool ZArith.
From Verif Require Import Num Numpy RFacts Spec SpecFacts MatFacts ModelSpec Penalties PenaltySpec CoupledMatrices CmfSpec CmfProofs Decomp DecompSpec
  DecompFacts AdmmOpt AdmmCvg AdmmSol AoMono AoRun InitVars InitSpec Parse ParseSpec ParseProofs Fit FitSpec P08_Fit FitProofs OptSpec P11_Total DecompExamples FitExamples Ideal
  ResumeSpec ResumeLoop ResumeProofs P28_Resume SymSpec SymFit StationarySpec P30_Stationary RestSpec Rest RestRun RestPerfect RestPf2Spec RestPf2 RestPf2Run P51_Rest.
Import ListNotations.
Local Open Scope R_scope.

(** B_i that minimise the smooth part by themselves and meet every constraint, PARAFAC2 among them, with zero dual
    variables; A and C at rest.  The call returns the factors it started from, with the same dual variables and
    auxiliary variables for the same matrices, whatever the numbers of outer and inner iterations and of iterations
    of the PARAFAC2 projection, and records one error, gap and loss throughout. *)
Theorem C96_start_at_rest_is_returned V IE rnd (a : fitR) rank c v o : sensible V a rank -> ranks_kept IE -> svd_correct (e_ext V) rank -> (forall r, tv_correct (e_ext V) r) ->
  starts_at V IE rnd a c v -> start_rests_pf2 V a c v -> cmf_aoadmm V IE rnd a = Ok o -> returns_start_pf2 a c v o.
Proof. intros HS RK HE HT ST SR H. exact (rest2_call V IE rnd a rank c v HS RK HE HT ST SR o H). Qed.
Print Assumptions C96_start_at_rest_is_returned.
(** Such a call does not fail, if a penalty or a ridge term holds every updated mode. *)
Theorem C96_start_at_rest_succeeds V IE rnd (a : fitR) rank c v : sensible V a rank -> ranks_kept IE -> svd_correct (e_ext V) rank -> (forall r, tv_correct (e_ext V) r) ->
  starts_at V IE rnd a c v -> start_rests_pf2 V a c v -> held V a -> exists o, cmf_aoadmm V IE rnd a = Ok o /\ returns_start_pf2 a c v o.
Proof.
  intros HS RK HE HT ST SR HH. destruct (rest2_total V IE rnd a rank c v HS RK HE HT ST SR HH) as (o & H). exists o. split; [exact H|].
  exact (rest2_call V IE rnd a rank c v HS RK HE HT ST SR o H).
Qed.
Print Assumptions C96_start_at_rest_succeeds.

Lemma perfect_pf2_rests V IE rnd (a : fitR) rank c v : sensible V a rank -> ranks_kept IE -> starts_at V IE rnd a c v -> perfect_start_pf2 V a c v -> start_rests_pf2 V a c v.
Proof.
  intros HS RK ST (CW & R0 & L0 & HA & HB & HC).
  destruct (start_setup _ _ _ _ _ _ _ HS RK ST) as (s & l2 & SET & EC & EV).
  destruct (setup_ok _ _ _ _ _ _ _ HS RK SET) as (_ & _ & _ & EL & _).
  destruct (ridges_exist _ _ EL) as (l & HL). rewrite (residual_fit (f_data a) c CW) in R0. change rget with (@mget RNum) in R0.
  split; [exact CW|]. exists l. split; [exact HL|].
  assert (FN : forall A B C, 0 <= fit (f_data a) (mr (cC c)) (mc (cA c)) A B C) by (intros; apply fit_nonneg).
  split; [|split].
  - intros U. destruct (HA U) as (P1 & ps & K1 & K2 & K3). exists ps. split; [exact K1|]. split; [exact P1|]. intros rho _.
    apply perfect_mode; auto; unfold smooth_A; rewrite (L0 0%nat l ltac:(lia) U HL).
    + rewrite R0. lra.
    + intros Z. specialize (FN Z (entB (cBs c)) (mget (cC c))). lra.
  - intros U. destruct (HB U) as (P1 & ps & K1 & K2 & K3). exists ps. split; [exact K1|]. split; [exact P1|]. split; [exact K2|]. split; [|exact K3].
    intros Z. unfold smooth_B. rewrite (L0 1%nat l ltac:(lia) U HL), R0. specialize (FN (mget (cA c)) Z (mget (cC c))). lra.
  - intros U. destruct (HC U) as (P1 & ps & K1 & K2 & K3). exists ps. split; [exact K1|]. split; [exact P1|].
    apply perfect_mode; auto; unfold smooth_C; rewrite (L0 2%nat l ltac:(lia) U HL).
    + rewrite R0. lra.
    + intros Z. specialize (FN (mget (cA c)) (entB (cBs c)) Z). lra.
Qed.
(** An exact PARAFAC2 solution is returned with relative error zero throughout. *)
Theorem C96_exact_parafac2_is_kept V IE rnd (a : fitR) rank c v o : sensible V a rank -> ranks_kept IE -> svd_correct (e_ext V) rank -> (forall r, tv_correct (e_ext V) r) ->
  starts_at V IE rnd a c v -> perfect_start_pf2 V a c v -> cmf_aoadmm V IE rnd a = Ok o ->
  returns_start_pf2 a c v o /\ forall d, 0 < data_sumsq (f_data a) -> out_diag o = Some d -> Forall (fun e => e = Fin 0) (d_errors d).
Proof.
  intros HS RK HE HT ST PS H. pose proof (perfect_pf2_rests V IE rnd a rank c v HS RK ST PS) as SR.
  pose proof (rest2_call V IE rnd a rank c v HS RK HE HT ST SR o H) as RR. split; [exact RR|]. intros d D0 HD.
  destruct RR as (_ & _ & RR). destruct (RR d HD) as (_ & K). eapply Forall_impl; [|exact (K D0)]. cbv beta. intros e ->.
  destruct PS as (_ & R0 & _). unfold rel_error. rewrite R0, sqrt_0. f_equal. unfold Rdiv. ring.
Qed.
Print Assumptions C96_exact_parafac2_is_kept.

(** ** The hypotheses are met: X_0 = (3, 4)^T and X_1 = (10), A = (1, 2)^T, B_0 = (3, 4)^T = (3/5, 4/5)^T 5, B_1 = (5) = (1) 5, C = (1);
    everything non-negative, the B_i with the PARAFAC2 constraint, k iterations of its projection; n iterations with tolerances *)
Definition cmf96 : rcmf := Cmf (N:=RNum) None (m21 1 2) [m21 3 4; m11 5] (m11 1).
Definition rA96 : list mregR := [MReg NonNegativity (m21 1 2) (m21 0 0)].
Definition rB96 (k : nat) : list bregR := [BReg NonNegativity (AList [m21 3 4; m11 5]) [m21 0 0; m11 0];
  BReg (Parafac2 k true true) (APf2 [m21 (3 / 5) (4 / 5); m11 1] (m11 5)) [m21 0 0; m11 0]].
Definition rC96 : list mregR := [MReg NonNegativity (m11 1) (m11 0)].
Definition s96 (k : nat) : state (N:=RNum) := St cmf96 rA96 (rB96 k) rC96 None.
Definition argz96 (k : nat) (n : Z) : fitR :=
  FitArgs (N:=RNum) [m21 3 4; m11 10] (PyInt 1) (InitSeq (match py_of_cmf cmf96 with PSeq l => l | _ => [] end)) n (AOne None) no_kw
    (RList [EList (map RPen (map m_obj rA96)); EList (map RPen (map b_obj (rB96 k))); EList (map RPen (map m_obj rC96))]) 1 (CBool false) (IStr RandomUniform) (IStr RandomUniform) true
    (Some (1 / 100)) (Some (1 / 1000)) None None 5 true true true true true.
Lemma shaped96 a b c : list_shaped 2 (rowsB cmf96) 1 [m21 a b; m11 c].
Proof. split; [reflexivity|]. intros i Hi. pattern i; apply (below2 i _ Hi); (split; [apply wf21 || apply wf11|split; reflexivity]). Qed.
Lemma valid96 k : valid_state [m21 3 4; m11 10] (s96 k).
Proof.
  split; [|split; [|split; [|split]]].
  - split; [|split; [reflexivity|]].
    + split; [apply wf21|]. split; [apply wf11|]. split; [reflexivity|]. split; [reflexivity|]. split; [|intros w Hw; discriminate Hw].
      intros i Hi. change (length (cBs (st_cmf (s96 k)))) with 2%nat in Hi. pattern i; apply (below2 i _ Hi); (split; [apply wf21 || apply wf11|reflexivity]).
    + intros i Hi. change (length [m21 3 4; m11 10]) with 2%nat in Hi. pattern i; apply (below2 i _ Hi); (split; [apply wf21 || apply wf11|split; reflexivity]).
  - repeat split; try (cbn; lia). intros i Hi. change (length (cBs (st_cmf (s96 k)))) with 2%nat in Hi. pattern i; apply (below2 i _ Hi); cbn; lia.
  - constructor; [|constructor]. split; [exact (fun H => H)|]. split; [exact Logic.I|]. split; (split; [apply wf21|split; reflexivity]).
  - constructor; [|constructor; [|constructor]]; (split; [apply shaped96|]); cbn [b_pen b_aux]; (split; [apply shaped96|]).
    + intros i Hi. exact Logic.I.
    + split; [split; [apply wf11|split; reflexivity]|]. intros i Hi. change (length (cBs (st_cmf (s96 k)))) with 2%nat in Hi. pattern i; apply (below2 i _ Hi); cbn; lia.
  - constructor; [|constructor]. split; [exact (fun H => H)|]. split; [exact Logic.I|]. split; (split; [apply wf11|split; reflexivity]).
Qed.
Lemma user96 k n m u : (m < 3)%nat -> user_penalties (f_regs (argz96 k n)) m u -> u = pick (map m_obj rA96, map b_obj (rB96 k), map m_obj rC96) m.
Proof. intros Hm H. eapply user_unique; [exact H|]. destruct m as [|[|[|m]]]; [reflexivity|reflexivity|reflexivity|lia]. Qed.
Lemma sensible96 E k n : sensible (Env (N:=RNum) E (fun _ => []) true) (argz96 k n) 1.
Proof.
  unfold sensible. split; [discriminate|].
  split; [repeat (constructor; [split; [apply wf21 || apply wf11|cbn; lia]|]); constructor|]. split; [reflexivity|]. split; [lia|].
  split; [do 5 eexists; reflexivity|]. split; [cbn; lra|]. split.
  { intros m v Hm Mv. cbn in Mv. subst v. cbn. lra. }
  split.
  { intros m r kw Hm _ (M1 & M2 & M3 & M4 & M5 & M6 & M7 & M8 & M9). cbn in M1, M2, M3, M8. split.
    - intros hi E0. congruence.
    - intros M E0. congruence. }
  split.
  { intros m r u Hm _ HU. rewrite (user96 k n m u Hm HU). destruct m as [|[|[|m]]]; [| | |lia]; repeat (constructor; [exact Logic.I|]); constructor. }
  intros _ X [<-|[<-|[]]]; cbn; lia.
Qed.
Example C96_nonvacuous rnd k n : exists V, sensible V (argz96 k n) 1 /\ svd_correct (e_ext V) 1 /\ (forall r, tv_correct (e_ext V) r) /\
  starts_at V no_ext rnd (argz96 k n) cmf96 (vars_of (s96 k)) /\ perfect_start_pf2 V (argz96 k n) cmf96 (vars_of (s96 k)) /\ held V (argz96 k n) /\
  exists o, cmf_aoadmm V no_ext rnd (argz96 k n) = Ok o /\ out_cmf o = cmf96.
Proof.
  destruct ideal_exists as (E & HE & HT). set (V := Env (N:=RNum) E (fun _ => []) true). exists V. pose proof (sensible96 E k n) as HS. fold V in HS.
  split; [exact HS|]. split; [apply HE|]. split; [exact HT|].
  assert (SET : setup V no_ext rnd (argz96 k n) = Ok (noi (s96 k), (None, None, None))).
  { apply (setup_again V no_ext rnd (argz96 k n) (s96 k) (None, None, None) 1 (match py_of_cmf cmf96 with PSeq l => l | _ => [] end) (map m_obj rA96) (map b_obj (rB96 k)) (map m_obj rC96)); try reflexivity; try discriminate; try apply valid96.
    - constructor; [exact Logic.I|]. constructor; [|constructor]. intros i Hi. change (length (cBs (st_cmf (s96 k)))) with 2%nat in Hi.
      destruct i as [|[|i]]; [| |lia]; unfold near_ortho, sumsq, Sum; cbn; vals; lra.
    - repeat constructor.
    - repeat constructor.
    - repeat constructor. }
  assert (ST : starts_at V no_ext rnd (argz96 k n) cmf96 (vars_of (s96 k))).
  { apply (setup_start V no_ext rnd (argz96 k n) 1 (noi (s96 k)) (None, None, None) HS no_ext_ranks); [discriminate|exact SET]. }
  assert (PO : forall m, (m < 3)%nat -> penalties_of V (argz96 k n) m (map o_pen (pick (map m_obj rA96, map b_obj (rB96 k), map m_obj rC96) m))).
  { intros m Hm. apply penalties_of_lists; auto. }
  split; [exact ST|].
  assert (PS : perfect_start_pf2 V (argz96 k n) cmf96 (vars_of (s96 k))).
  { split; [reflexivity|]. split.
    { unfold residual, cmf_entry, dist2, Sum. cbn. vals. ring. }
    split.
    { intros m l Hm _ HL. destruct (HL m Hm) as (x & Mx & ->). cbn in Mx. subst x. reflexivity. }
    split; [|split]; intros _.
    - split.
      { intros i Hi. change (length (f_data (argz96 k n))) with 2%nat in Hi. pattern i; apply (below2 i _ Hi); unfold rho_A, Sum; cbn; vals; lra. }
      eexists. split; [apply (PO 0%nat); lia|]. split; [discriminate|]. constructor; [|constructor].
      split; [exact Logic.I|]. split; [exact Logic.I|]. split; [|split].
      + intros i j Hi Hj. cbn in Hi, Hj. assert (j = 0%nat) as -> by lia. pattern i; apply (below2 i _ Hi); cbn; vals; lra.
      + intros i j Hi Hj. reflexivity.
      + intros i j Hi Hj. cbn in Hi, Hj. assert (j = 0%nat) as -> by lia. pattern i; apply (below2 i _ Hi); reflexivity.
    - split.
      { intros i Hi. change (length (f_data (argz96 k n))) with 2%nat in Hi. pattern i; apply (below2 i _ Hi); unfold rho_B, Sum; cbn; vals; lra. }
      eexists. split; [apply (PO 1%nat); lia|]. split; [discriminate|]. constructor; [|constructor; [|constructor]].
      + left. split; [exact Logic.I|]. split; [exact Logic.I|]. intros i Hi. change (length (f_data (argz96 k n))) with 2%nat in Hi.
        split; [|split].
        * intros j q Hj Hq. cbn in Hq. assert (q = 0%nat) as -> by lia. destruct i as [|[|i]]; [| |lia].
          -- cbn in Hj. pattern j; apply (below2 j _ Hj); unfold entB; cbn; vals; lra.
          -- cbn in Hj. assert (j = 0%nat) as -> by lia. unfold entB; cbn; vals; lra.
        * intros j q Hj Hq. reflexivity.
        * intros j q Hj Hq. cbn in Hq. assert (q = 0%nat) as -> by lia. destruct i as [|[|i]]; [| |lia].
          -- cbn in Hj. pattern j; apply (below2 j _ Hj); reflexivity.
          -- cbn in Hj. assert (j = 0%nat) as -> by lia. reflexivity.
      + right. split; [exact Logic.I|]. split.
        * intros i Hi. change (length (f_data (argz96 k n))) with 2%nat in Hi. intros x y Hx Hy. cbn in Hx, Hy. assert (x = 0%nat) as -> by lia. assert (y = 0%nat) as -> by lia.
          destruct i as [|[|i]]; [| |lia]; unfold Sum, kron; cbn; vals; lra.
        * intros i Hi. change (length (f_data (argz96 k n))) with 2%nat in Hi. split; intros j q Hj Hq; cbn in Hq; assert (q = 0%nat) as -> by lia; (destruct i as [|[|i]]; [| |lia]); cbn in Hj.
          -- pattern j; apply (below2 j _ Hj); unfold entB, baux, Sum; cbn; vals; lra.
          -- assert (j = 0%nat) as -> by lia. unfold entB, baux, Sum; cbn; vals; lra.
          -- pattern j; apply (below2 j _ Hj); reflexivity.
          -- assert (j = 0%nat) as -> by lia. reflexivity.
    - split; [unfold rho_C, Sum; cbn; vals; lra|].
      eexists. split; [apply (PO 2%nat); lia|]. split; [discriminate|]. constructor; [|constructor].
      split; [exact Logic.I|]. split; [exact Logic.I|]. split; [|split].
      + intros i j Hi Hj. cbn in Hi, Hj. assert (i = 0%nat) as -> by lia. assert (j = 0%nat) as -> by lia. cbn. vals. lra.
      + intros i j Hi Hj. reflexivity.
      + intros i j Hi Hj. cbn in Hi, Hj. assert (j = 0%nat) as -> by lia. assert (i = 0%nat) as -> by lia. reflexivity. }
  assert (HH : held V (argz96 k n)).
  { assert (PU : forall m ps, (m < 3)%nat -> penalties_of V (argz96 k n) m ps -> ps = map o_pen (pick (map m_obj rA96, map b_obj (rB96 k), map m_obj rC96) m)).
    { intros m ps Hm (t1 & E1 & ->). destruct (PO m Hm) as (t2 & E2 & E3). rewrite E1 in E2. injection E2 as <-. symmetry. exact E3. }
    split; [|split].
    - intros m ps l Hm _ HP _. right. rewrite (PU m ps Hm HP). destruct m as [|[|[|m]]]; discriminate || lia.
    - intros ps _ _ HP. rewrite (PU 0%nat ps ltac:(lia) HP). repeat constructor.
    - intros _ K. discriminate K. }
  split; [exact PS|]. split; [exact HH|].
  destruct (C96_start_at_rest_succeeds V no_ext rnd (argz96 k n) 1 _ _ HS no_ext_ranks (HE 1%nat) HT ST (perfect_pf2_rests _ _ _ _ _ _ _ HS no_ext_ranks ST PS) HH) as (o & H & R1 & _).
  exists o. split; [exact H|exact R1].
Qed.
