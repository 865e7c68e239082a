(** C95: a start that already solves every mode is returned unchanged. *)
From Coq Require Import Reals Lra Lia List Arith Bool ZArith.
From Verif Require Import Num Numpy RFacts Spec SpecFacts MatFacts ModelSpec Penalties PenaltySpec CoupledMatrices CmfSpec CmfProofs Decomp DecompSpec
  DecompFacts AoRun InitVars InitSpec Parse ParseSpec ParseProofs Fit FitSpec P08_Fit FitProofs OptSpec P11_Total DecompExamples FitExamples Ideal
  ResumeSpec ResumeLoop ResumeProofs P28_Resume SymSpec SymFit StationarySpec RestSpec Rest RestRun RestPerfect.
Import ListNotations.
Local Open Scope R_scope.

(** The call returns exactly the factors it started from, and their auxiliary and dual variables,
    whatever the numbers of outer and inner iterations, and records one error, gap and loss throughout. *)
Theorem C95_start_at_rest_is_returned V IE rnd (a : fitR) rank c v o : sensible V a rank -> ranks_kept IE -> svd_correct (e_ext V) rank -> (forall r, tv_correct (e_ext V) r) ->
  starts_at V IE rnd a c v -> start_rests V a c v -> cmf_aoadmm V IE rnd a = Ok o -> returns_start a c v o.
Proof. exact (rest_call V IE rnd a rank c v o). Qed.
Print Assumptions C95_start_at_rest_is_returned.

(** Such a call does not fail, if a penalty or a ridge term holds every updated mode. *)
Theorem C95_start_at_rest_succeeds V IE rnd (a : fitR) rank c v : sensible V a rank -> ranks_kept IE -> svd_correct (e_ext V) rank -> (forall r, tv_correct (e_ext V) r) ->
  starts_at V IE rnd a c v -> start_rests V a c v -> held V a -> exists o, cmf_aoadmm V IE rnd a = Ok o /\ returns_start a c v o.
Proof.
  intros HS RK HE HT ST SR HH. destruct (rest_total V IE rnd a rank c v HS RK HE HT ST SR HH) as (o & H). exists o. split; [exact H|].
  exact (rest_call V IE rnd a rank c v o HS RK HE HT ST SR H).
Qed.
Print Assumptions C95_start_at_rest_succeeds.

(** A perfect start (exact reconstruction, constraints met) is returned with relative error zero throughout. *)
Theorem C95_perfect_start_is_kept V IE rnd (a : fitR) rank c v o : sensible V a rank -> ranks_kept IE -> svd_correct (e_ext V) rank -> (forall r, tv_correct (e_ext V) r) ->
  starts_at V IE rnd a c v -> perfect_start V a c v -> cmf_aoadmm V IE rnd a = Ok o ->
  returns_start a c v o /\ forall d, 0 < data_sumsq (f_data a) -> out_diag o = Some d -> Forall (fun e => e = Fin 0) (d_errors d).
Proof.
  intros HS RK HE HT ST PS H. pose proof (perfect_rests V IE rnd a rank c v HS RK ST PS) as SR.
  pose proof (rest_call V IE rnd a rank c v o HS RK HE HT ST SR H) as RR. split; [exact RR|]. intros d D0 HD.
  destruct RR as (_ & _ & RR). destruct (RR d HD) as (_ & K). eapply Forall_impl; [|exact (K D0)]. cbv beta. intros e ->.
  destruct PS as (_ & R0 & _). unfold rel_error. rewrite R0, sqrt_0. f_equal. unfold Rdiv. ring.
Qed.
Print Assumptions C95_perfect_start_is_kept.

(** ** The hypotheses are met: X_0 = (1, 2)^T and X_1 = (3), A = (1, 3)^T, B_0 = (1, 2)^T, B_1 = (1), C = (1),
    non-negative A, bounds on the B_i, a norm bound on C; n iterations with tolerances *)
Definition m21 (x y : R) : rmat := Mat (N:=RNum) 2 1 [[x]; [y]].
Definition cmf95 : rcmf := Cmf (N:=RNum) None (m21 1 3) [m21 1 2; m11 1] (m11 1).
Definition rA95 : list mregR := [MReg NonNegativity (m21 1 3) (m21 0 0)].
Definition rB95 : list bregR := [BReg (Box (Some 0) (Some 5)) (AList [m21 1 2; m11 1]) [m21 0 0; m11 0]].
Definition rC95 : list mregR := [MReg (L2Ball 1 false) (m11 1) (m11 0)].
Definition s95 : state (N:=RNum) := St cmf95 rA95 rB95 rC95 None.
Definition args95 (n : Z) : fitR :=
  FitArgs (N:=RNum) [m21 1 2; m11 3] (PyInt 1) (InitSeq (match py_of_cmf cmf95 with PSeq l => l | _ => [] end)) n (AOne None) no_kw
    (RList [EList (map RPen (map m_obj rA95)); EList (map RPen (map b_obj rB95)); EList (map RPen (map m_obj rC95))]) 1 (CBool false) (IStr RandomUniform) (IStr RandomUniform) true
    (Some (1 / 100)) (Some (1 / 1000)) None None 5 true true true true true.
Ltac vals := repeat match goal with
  | |- context[mget (m21 ?x ?y) 0%nat 0%nat] => change (mget (m21 x y) 0%nat 0%nat) with x
  | |- context[mget (m21 ?x ?y) 1%nat 0%nat] => change (mget (m21 x y) 1%nat 0%nat) with y
  | |- context[mget (m11 ?x) 0%nat 0%nat] => change (mget (m11 x) 0%nat 0%nat) with x end.
Lemma wf21 x y : mwf (m21 x y).
Proof. repeat constructor. Qed.
Lemma wf11 x : mwf (m11 x).
Proof. repeat constructor. Qed.
Lemma below2 (i : nat) (Q : nat -> Prop) : (i < 2)%nat -> Q 0%nat -> Q 1%nat -> Q i.
Proof. intros Hi H0 H1. destruct i as [|[|i]]; [exact H0|exact H1|lia]. Qed.
Lemma shaped95 a b c : list_shaped 2 (rowsB cmf95) 1 [m21 a b; m11 c].
Proof. split; [reflexivity|]. intros i Hi. pattern i; apply (below2 i _ Hi); (split; [apply wf21 || apply wf11|split; reflexivity]). Qed.
Lemma box95 : bounds_ok (Some 0) (Some 5).
Proof. intros a b E1 E2. injection E1 as <-. injection E2 as <-. lra. Qed.
Lemma W95 x : 0 <= x <= 5 -> within (Some 0) (Some 5) x.
Proof. intros H. split; intros y E0; injection E0 as <-; lra. Qed.
Lemma valid95 : valid_state [m21 1 2; m11 3] s95.
Proof.
  split; [|split; [|split; [|split]]].
  - split; [|split; [reflexivity|]].
    + split; [apply wf21|]. split; [apply wf11|]. split; [reflexivity|]. split; [reflexivity|]. split; [|intros w Hw; discriminate Hw].
      intros i Hi. change (length (cBs (st_cmf s95))) with 2%nat in Hi. pattern i; apply (below2 i _ Hi); (split; [apply wf21 || apply wf11|reflexivity]).
    + intros i Hi. change (length [m21 1 2; m11 3]) with 2%nat in Hi. pattern i; apply (below2 i _ Hi); (split; [apply wf21 || apply wf11|split; reflexivity]).
  - repeat split; try (cbn; lia). intros i Hi. change (length (cBs (st_cmf s95))) with 2%nat in Hi. pattern i; apply (below2 i _ Hi); cbn; lia.
  - constructor; [|constructor]. split; [exact (fun H => H)|]. split; [exact Logic.I|]. split; (split; [apply wf21|split; reflexivity]).
  - constructor; [|constructor]. split; [apply shaped95|]. cbn [b_pen b_aux rB95]. split; [apply shaped95|]. intros i Hi. split; [|left; discriminate]. apply box95.
  - constructor; [|constructor]. split; [exact (fun H => H)|]. split; [cbn; rn; lra|]. split; (split; [apply wf11|split; reflexivity]).
Qed.
Lemma user95 n m u : (m < 3)%nat -> user_penalties (f_regs (args95 n)) m u -> u = pick (map m_obj rA95, map b_obj rB95, map m_obj rC95) m.
Proof. intros Hm H. eapply user_unique; [exact H|]. destruct m as [|[|[|m]]]; [reflexivity|reflexivity|reflexivity|lia]. Qed.
Lemma sensible95 E n : sensible (Env (N:=RNum) E (fun _ => []) true) (args95 n) 1.
Proof.
  unfold sensible. split; [discriminate|].
  split; [repeat (constructor; [split; [apply wf21 || apply wf11|cbn; lia]|]); constructor|]. split; [reflexivity|]. split; [lia|].
  split; [do 5 eexists; reflexivity|]. split; [cbn; lra|]. split.
  { intros m v Hm Mv. cbn in Mv. subst v. cbn. lra. }
  split.
  { intros m r kw Hm _ (M1 & M2 & M3 & M4 & M5 & M6 & M7 & M8 & M9). cbn in M1, M2, M3, M8. split.
    - intros hi E0. congruence.
    - intros M E0. congruence. }
  split.
  { intros m r u Hm _ HU. rewrite (user95 n m u Hm HU). destruct m as [|[|[|m]]]; [| | |lia]; (constructor; [|constructor]); cbn; rn.
    - exact Logic.I.
    - split; [apply box95|left; discriminate].
    - lra. }
  intros [K|(u & HU & K)]; [discriminate K|]. rewrite (user95 n 1%nat u ltac:(lia) HU) in K. inversion K as [? ? K1|? ? K1]; [destruct K1|inversion K1].
Qed.
Example C95_nonvacuous rnd n : exists V, sensible V (args95 n) 1 /\ svd_correct (e_ext V) 1 /\ (forall r, tv_correct (e_ext V) r) /\
  starts_at V no_ext rnd (args95 n) cmf95 (vars_of s95) /\ perfect_start V (args95 n) cmf95 (vars_of s95) /\ held V (args95 n) /\
  exists o, cmf_aoadmm V no_ext rnd (args95 n) = Ok o /\ out_cmf o = cmf95.
Proof.
  destruct ideal_exists as (E & HE & HT). set (V := Env (N:=RNum) E (fun _ => []) true). exists V. pose proof (sensible95 E n) as HS. fold V in HS.
  split; [exact HS|]. split; [apply HE|]. split; [exact HT|].
  assert (SET : setup V no_ext rnd (args95 n) = Ok (noi s95, (None, None, None))).
  { apply (setup_again V no_ext rnd (args95 n) s95 (None, None, None) 1 (match py_of_cmf cmf95 with PSeq l => l | _ => [] end) (map m_obj rA95) (map b_obj rB95) (map m_obj rC95)); try reflexivity; try discriminate; try apply valid95.
    - repeat constructor.
    - repeat constructor.
    - repeat constructor.
    - repeat constructor. }
  assert (ST : starts_at V no_ext rnd (args95 n) cmf95 (vars_of s95)).
  { apply (setup_start V no_ext rnd (args95 n) 1 (noi s95) (None, None, None) HS no_ext_ranks); [discriminate|exact SET]. }
  assert (PO : forall m, (m < 3)%nat -> penalties_of V (args95 n) m (map o_pen (pick (map m_obj rA95, map b_obj rB95, map m_obj rC95) m))).
  { intros m Hm. apply penalties_of_lists; auto. }
  split; [exact ST|].
  assert (PS : perfect_start V (args95 n) cmf95 (vars_of s95)).
  { split; [reflexivity|]. split.
    { unfold residual, cmf_entry, dist2, Sum. cbn. vals. ring. }
    split.
    { intros m l Hm _ HL. destruct (HL m Hm) as (x & Mx & ->). cbn in Mx. subst x. reflexivity. }
    split; [|split]; intros _.
    - split.
      { intros i Hi. change (length (f_data (args95 n))) with 2%nat in Hi. pattern i; apply (below2 i _ Hi); unfold rho_A, Sum; cbn; vals; lra. }
      eexists. split; [apply (PO 0%nat); lia|]. split; [discriminate|]. constructor; [|constructor].
      split; [exact Logic.I|]. split; [exact Logic.I|]. split; [|split].
      + intros i j Hi Hj. cbn in Hi, Hj. assert (j = 0%nat) as -> by lia. pattern i; apply (below2 i _ Hi); cbn; vals; lra.
      + intros i j Hi Hj. reflexivity.
      + intros i j Hi Hj. cbn in Hi, Hj. assert (j = 0%nat) as -> by lia. pattern i; apply (below2 i _ Hi); reflexivity.
    - split.
      { intros i Hi. change (length (f_data (args95 n))) with 2%nat in Hi. pattern i; apply (below2 i _ Hi); unfold rho_B, Sum; cbn; vals; lra. }
      eexists. split; [apply (PO 1%nat); lia|]. split; [discriminate|]. constructor; [|constructor].
      split; [exact Logic.I|]. split; [exact Logic.I|]. intros i Hi. change (length (f_data (args95 n))) with 2%nat in Hi.
      split; [|split].
      + intros j k Hj Hk. cbn in Hk. assert (k = 0%nat) as -> by lia. destruct i as [|[|i]]; [| |lia].
        * cbn in Hj. pattern j; apply (below2 j _ Hj); cbn; unfold entB; apply W95; unfold entB; cbn; vals; lra.
        * cbn in Hj. assert (j = 0%nat) as -> by lia. apply W95; unfold entB; cbn; vals; lra.
      + intros j k Hj Hk. reflexivity.
      + intros j k Hj Hk. cbn in Hk. assert (k = 0%nat) as -> by lia. destruct i as [|[|i]]; [| |lia].
        * cbn in Hj. pattern j; apply (below2 j _ Hj); reflexivity.
        * cbn in Hj. assert (j = 0%nat) as -> by lia. reflexivity.
    - split; [unfold rho_C, Sum; cbn; vals; lra|].
      eexists. split; [apply (PO 2%nat); lia|]. split; [discriminate|]. constructor; [|constructor].
      split; [exact Logic.I|]. split; [exact Logic.I|]. split; [|split].
      + split; [|intros K; discriminate K]. intros j Hj. cbn in Hj. assert (j = 0%nat) as -> by lia. unfold Sum. cbn. vals. lra.
      + intros i j Hi Hj. reflexivity.
      + intros i j Hi Hj. cbn in Hi, Hj. assert (j = 0%nat) as -> by lia. assert (i = 0%nat) as -> by lia. reflexivity. }
  assert (HH : held V (args95 n)).
  { assert (PU : forall m ps, (m < 3)%nat -> penalties_of V (args95 n) m ps -> ps = map o_pen (pick (map m_obj rA95, map b_obj rB95, map m_obj rC95) m)).
    { intros m ps Hm (t1 & E1 & ->). destruct (PO m Hm) as (t2 & E2 & E3). rewrite E1 in E2. injection E2 as <-. symmetry. exact E3. }
    split; [|split].
    - intros m ps l Hm _ HP _. right. rewrite (PU m ps Hm HP). destruct m as [|[|[|m]]]; discriminate || lia.
    - intros ps _ _ HP. rewrite (PU 0%nat ps ltac:(lia) HP). repeat constructor.
    - intros _ K. discriminate K. }
  split; [exact PS|]. split; [exact HH|].
  destruct (C95_start_at_rest_succeeds V no_ext rnd (args95 n) 1 _ _ HS no_ext_ranks (HE 1%nat) HT ST (perfect_rests _ _ _ _ _ _ _ HS no_ext_ranks ST PS) HH) as (o & H & R1 & _).
  exists o. split; [exact H|exact R1].
Qed.
(** Rest without an exact fit: X = (-1), A = B = (1), C = (0) non-negative; the dual variable is -2. *)
Example C95_multiplier : rests_C [m11 (-1)] (Cmf (N:=RNum) None (m11 1) [m11 1] (m11 0)) 0 1 [MReg NonNegativity (m11 0) (m11 (-2))].
Proof.
  assert (RH : rho_C 1 (Cmf (N:=RNum) None (m11 1) [m11 1] (m11 0)) = 1 / 2) by (unfold rho_C, Sum; cbn; vals; field).
  split; [rewrite RH; lra|]. split; [repeat constructor|]. split.
  { intros q Hq i j Hi Hj. cbn in Hq, Hi, Hj. assert (q = 0%nat) as -> by lia. reflexivity. }
  split; [|discriminate]. rewrite RH. split.
  - intros Z. unfold smooth_C, fit, dist2, wdot, sumsq, Sum, esub, dual_at, entB. cbn. vals. nra.
  - intros q Hq. cbn in Hq. assert (q = 0%nat) as -> by lia. split.
    + intros i j Hi Hj. cbn in Hi, Hj. assert (i = 0%nat) as -> by lia. assert (j = 0%nat) as -> by lia. cbn. vals. lra.
    + intros Z HZ. pose proof (HZ 0%nat 0%nat (Nat.lt_0_succ 0) (Nat.lt_0_succ 0)) as K. unfold wdot, Sum, esub, dual_at. cbn. vals. lra.
Qed.
