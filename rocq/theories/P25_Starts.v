(** C66: a given start is checked against the data. *)
From Coq Require Import Reals Lra Lia List Arith Bool ZArith.
From Verif Require Import Num Numpy RFacts Spec SpecFacts MatFacts ModelSpec Penalties PenaltySpec CoupledMatrices CmfSpec CmfProofs Decomp DecompSpec
  DecompFacts InitVars InitSpec InitProofs Parse ParseSpec ParseProofs P07_Parse Fit FitSpec FitProofs P08_Fit P09_Calls P10_Start P11_Total DecompExamples FitExamples Ideal StartSpec ShortStart.
Import ListNotations.
Local Open Scope R_scope.

(** ** Sizes *)
Lemma products_none (C : matR) : forall (Bs Xs : list matR), first_products Xs Bs C = None ->
  (length Bs <= length Xs)%nat /\ forall i, (i < length Bs)%nat -> mr (nth i Xs no_mat) = mr (nth i Bs no_mat) /\ mc (nth i Xs no_mat) = mr C.
Proof.
  induction Bs as [|B Bs IH]; intros Xs H; [split; [cbn; lia|intros i Hi; cbn in Hi; lia]|].
  destruct Xs as [|X Xs]; [discriminate|]. cbn in H. destruct ((mr X =? mr B)%nat && (mc X =? mr C)%nat)%bool eqn:E; [|discriminate].
  apply andb_prop in E as (E1 & E2). apply Nat.eqb_eq in E1, E2. destruct (IH Xs H) as (L & K). split; [cbn; lia|].
  intros [|i] Hi; [now split|]. apply K. cbn in Hi. lia.
Qed.
Lemma products_value (C : matR) : forall (Bs Xs : list matR) i, (i < length Bs)%nat -> (i < length Xs)%nat ->
  ~ (mr (nth i Xs no_mat) = mr (nth i Bs no_mat) /\ mc (nth i Xs no_mat) = mr C) -> first_products Xs Bs C = Some ValueError.
Proof.
  induction Bs as [|B Bs IH]; intros [|X Xs] i Hi Hx H; cbn in Hi, Hx; try lia. cbn [first_products].
  destruct ((mr X =? mr B)%nat && (mc X =? mr C)%nat)%bool eqn:E; [|reflexivity].
  apply andb_prop in E as (E1 & E2). apply Nat.eqb_eq in E1, E2. destruct i as [|i]; [destruct H; now split|].
  apply (IH Xs i); try lia. exact H.
Qed.
Lemma products_index (C : matR) : forall (Bs Xs : list matR), (length Xs < length Bs)%nat ->
  (forall i, (i < length Xs)%nat -> mr (nth i Xs no_mat) = mr (nth i Bs no_mat) /\ mc (nth i Xs no_mat) = mr C) -> first_products Xs Bs C = Some IndexError.
Proof.
  induction Bs as [|B Bs IH]; intros [|X Xs] HL H; cbn in HL; try lia; [reflexivity|]. cbn [first_products].
  destruct (H 0%nat ltac:(cbn; lia)) as (E1 & E2). cbn in E1, E2. rewrite E1, E2, !Nat.eqb_refl. cbn [andb].
  apply IH; [lia|]. intros i Hi. apply (H (S i)). cbn. lia.
Qed.
Lemma products_ok (C : matR) : forall (Bs Xs : list matR), (length Bs <= length Xs)%nat ->
  (forall i, (i < length Bs)%nat -> mr (nth i Xs no_mat) = mr (nth i Bs no_mat) /\ mc (nth i Xs no_mat) = mr C) -> first_products Xs Bs C = None.
Proof.
  induction Bs as [|B Bs IH]; intros [|X Xs] HL H; cbn in HL; try lia; try reflexivity. cbn [first_products].
  destruct (H 0%nat ltac:(cbn; lia)) as (E1 & E2). cbn in E1, E2. rewrite E1, E2, !Nat.eqb_refl. cbn [andb].
  apply IH; [lia|]. intros i Hi. apply (H (S i)). cbn. lia.
Qed.
Lemma shapes_match_products Xs (c : rcmf) rank b : shapes_match Xs c rank b = true -> first_products Xs (cBs c) (cC c) = None /\ length Xs = length (cBs c).
Proof.
  unfold shapes_match. intros H. apply andb_prop in H as (H & _). apply andb_prop in H as (HL & HF). apply Nat.eqb_eq in HL. split; [|exact HL].
  rewrite forallb_forall in HF. apply products_ok; [lia|]. intros i Hi.
  specialize (HF (nth i Xs no_mat, nth i (cBs c) no_mat)). rewrite <- combine_nth in HF by exact HL.
  assert (Lc : (i < length (combine Xs (cBs c)))%nat) by (rewrite combine_length; lia).
  specialize (HF (nth_In _ _ Lc)). rewrite combine_nth in HF by exact HL. cbn in HF.
  apply andb_prop in HF as (F1 & F2). apply Nat.eqb_eq in F1, F2. now split.
Qed.

(** ** What a penalty raises does not depend on the factors *)
Lemma penalty_mat_any (p : penalty (N:=RNum)) (x y : matR) v : penalty_mat p x = Ok v -> exists w, penalty_mat p y = Ok w.
Proof. destruct p; cbn [penalty_mat]; intros H; try discriminate; eauto. cbv zeta. match goal with |- context [ntruthy ?l] => destruct (ntruthy l) end; eauto. Qed.
Lemma penalty_mats_any (p : penalty (N:=RNum)) (x : matR) v : penalty_mat p x = Ok v -> forall ys, exists w, mapM (penalty_mat p) ys = Ok w.
Proof.
  intros H. induction ys as [|y ys (w & IH)]; [cbn; eauto|]. destruct (penalty_mat_any p x y v H) as (u & E). cbn [mapM]. rewrite E. cbn [bind]. rewrite IH. cbn [bind]. eauto.
Qed.
Lemma penalty_list_any (p : penalty (N:=RNum)) (xs ys : list matR) v : penalty_list p xs = Ok v -> exists w, penalty_list p ys = Ok w.
Proof.
  intros H. destruct p; cbn [penalty_list]; eauto.
  - match goal with |- context [mapM (penalty_mat ?q) _] => destruct (penalty_mats_any q (m11 0) _ eq_refl ys) as (w & ->) end. cbn [bind]. eauto.
  - match goal with |- context [mapM (penalty_mat ?q) _] => assert (K : exists v, penalty_mat q (m11 0) = Ok v) end.
    { cbn [penalty_mat]. cbv zeta. match goal with |- context [ntruthy ?l] => destruct (ntruthy l) end; eauto. }
    destruct K as (u & K). destruct (penalty_mats_any _ _ _ K ys) as (w & ->). cbn [bind]. eauto.
Qed.
Lemma mapM_any {A B C} (f : A -> res B) (g : A -> res C) (l : list A) v :
  (forall x b, f x = Ok b -> exists c, g x = Ok c) -> mapM f l = Ok v -> exists w, mapM g l = Ok w.
Proof.
  intros H. revert v. induction l as [|x l IH]; intros v E; cbn in *; [eauto|].
  destruct (f x) as [b|] eqn:Ef; [|discriminate]. cbn [bind] in E. destruct (mapM f l) as [bs|]; [|discriminate]. destruct (H x b Ef) as (c & ->).
  cbn [bind]. destruct (IH bs eq_refl) as (w & ->). cbn [bind]. eauto.
Qed.
Lemma mapM_map_res {A B C} (h : A -> B) (f : B -> res C) (l : list A) : mapM f (map h l) = mapM (fun x => f (h x)) l.
Proof. induction l as [|x l IH]; cbn; [reflexivity|]. destruct (f (h x)); [|reflexivity]. cbn [bind]. now rewrite IH. Qed.
Lemma make_mregs_pens : forall (l : list (pobj (N:=RNum))) av dv g, make_mregs l av dv = Ok g -> map g_pen g = map o_pen l.
Proof.
  induction l as [|o l IH]; intros [|[M|?] av] [|[D|?] dv] g H; cbn in H; try discriminate; [now injection H as <-|].
  destruct (make_mregs l av dv) as [r|] eqn:E; [|discriminate]. cbn [bind] in H. injection H as <-. cbn. f_equal. eauto.
Qed.
Lemma make_bregs_pens : forall (l : list (pobj (N:=RNum))) av dv g, make_bregs l av dv = Ok g -> map b_pen g = map o_pen l.
Proof.
  induction l as [|o l IH]; intros [|[?|M] av] [|[?|[D|? ?]] dv] g H; cbn in H; try discriminate; [now injection H as <-|].
  destruct (make_bregs l av dv) as [r|] eqn:E; [|discriminate]. cbn [bind] in H. injection H as <-. cbn. f_equal. eauto.
Qed.
(** penalties that can be evaluated for one factorization can be for every other *)
Lemma start_penalty_any (c d : rcmf) (gA gC : list (mreg (N:=RNum))) (gB : list (breg (N:=RNum))) rA rB rC v :
  map g_pen gA = map o_pen rA -> map b_pen gB = map o_pen rB -> map g_pen gC = map o_pen rC ->
  reg_penalty c gA gB gC = Ok v -> start_penalty d rA rB rC = Ok tt.
Proof.
  intros EA EB EC H. unfold reg_penalty in H. unfold start_penalty.
  rewrite <- (mapM_map_res g_pen (fun p => penalty_mat p (cA c))), EA, mapM_map_res in H.
  destruct (mapM (fun x => penalty_mat (o_pen x) (cA c)) rA) as [a|] eqn:E1; [|discriminate]. cbn [bind] in H.
  rewrite <- (mapM_map_res b_pen (fun p => penalty_list p (cBs c))), EB, mapM_map_res in H.
  destruct (mapM (fun x => penalty_list (o_pen x) (cBs c)) rB) as [b|] eqn:E2; [|discriminate]. cbn [bind] in H.
  rewrite <- (mapM_map_res g_pen (fun p => penalty_mat p (cC c))), EC, mapM_map_res in H.
  destruct (mapM (fun x => penalty_mat (o_pen x) (cC c)) rC) as [e|] eqn:E3; [|discriminate].
  destruct (mapM_any _ (fun o => penalty_mat (o_pen o) (cA d)) _ _ (fun o w => penalty_mat_any (o_pen o) _ _ w) E1) as (? & ->). cbn [bind].
  destruct (mapM_any _ (fun o => penalty_list (o_pen o) (cBs d)) _ _ (fun o w => penalty_list_any (o_pen o) _ _ w) E2) as (? & ->). cbn [bind].
  destruct (mapM_any _ (fun o => penalty_mat (o_pen o) (cC d)) _ _ (fun o w => penalty_mat_any (o_pen o) _ _ w) E3) as (? & ->). reflexivity.
Qed.

(** ** C66 *)
(** If a call with some given start returns, then the same call with a start that does not match the data raises:
    ValueError when a matrix has another size, IndexError when there are too many, and ValueError when
    something is imposed and the rank is not the argument [rank] (both different from 1, for otherwise numpy
    broadcasts).  Missing: starts with too few matrices, which are accepted as
    long as neither A nor the B_i are updated, and other ranks when nothing is imposed: see below. *)
Theorem C66_refused_partial V IE rnd (a b : fitR) (ca cb : rcmf) out :
  starts_from b cb -> cmf_aoadmm V IE rnd b = Ok out -> same_but_init a b -> starts_from a ca ->
  (forall i, (i < length (f_data a))%nat -> (i < length (cBs ca))%nat -> ~ same_size (f_data a) ca i -> cmf_aoadmm V IE rnd a = Err ValueError) /\
  ((forall i, (i < length (f_data a))%nat -> same_size (f_data a) ca i) ->
     ((length (f_data a) < length (cBs ca))%nat -> cmf_aoadmm V IE rnd a = Err IndexError) /\
     (length (f_data a) = length (cBs ca) -> f_data a <> [] -> imposes_something a ->
        forall r, f_rank a = PyInt r -> r <> 1%Z -> mc (cA ca) <> 1%nat -> Z.of_nat (mc (cA ca)) <> r -> cmf_aoadmm V IE rnd a = Err ValueError)).
Proof.
  intros (Vb & lb & Ib & Pb) HO HS (Va & la & Ia & Pa).
  destruct HS as (S1 & S2 & S3 & S4 & S5 & S6 & S7 & S8 & S9 & S10 & S11 & S12 & S13 & S14 & S15 & S16 & S17 & S18 & S19 & S20 & S21).
  destruct (C41_given_start_partial (e_ext V) IE rnd (f_data a) (f_rank a) ca la 0 Va Pa) as (c & Ec & Vc & _ & M1 & M2 & M3 & _).
  unfold cmf_aoadmm in HO. destruct (setup V IE rnd b) as [[s l2]|] eqn:ES; [|discriminate HO]. cbn [bind] in HO.
  destruct (init_hist (fit_params b l2 (false, false)) (f_data b) s) as [h|] eqn:EH; [|discriminate HO]. clear HO.
  unfold setup in ES. rewrite S1, S2, S4, S5, S6, S9, S10, S11, S17, S18, S19, Ib in ES.
  destruct (C41_given_start_partial (e_ext V) IE rnd (f_data a) (f_rank a) cb lb 0 Vb Pb) as (d & Ed & _).
  destruct (negb (f_svd a)) eqn:Esv; [discriminate|]. rewrite Ed in ES. cbn [bind] in ES.
  destruct (listify (f_l2 a)) as [l2'|] eqn:EL; [|discriminate]. cbn [bind] in ES.
  destruct (parse_all V (f_kw a) (f_regs a) (f_aux a) (f_dual a)) as [[[rA rB] rC]|] eqn:EP; [|discriminate]. cbn [bind] in ES. cbv zeta in ES.
  set (uA := if f_updA a then rA else []) in *. set (uB := if f_updB a then rB else []) in *. set (uC := if f_updC a then rC else []) in *.
  destruct (initialize_aux rnd (f_data a) (f_rank a) (uA, uB, uC) 0) as [[[[aA aB] aC] pos1]|] eqn:EX; [|discriminate]. cbn [bind] in ES.
  destruct (initialize_dual rnd (f_data a) (f_rank a) (uA, uB, uC) pos1) as [[[[dA dB] dC] pos2]|] eqn:ED; [|discriminate]. cbn [bind] in ES.
  assert (RUN : shapes_match (f_data a) c (f_rank a) (negb (is_nil uA && is_nil uB && is_nil uC)) = false ->
    cmf_aoadmm V IE rnd a = Err (mismatch (f_data a) c (f_rank a) uA uB uC)).
  { intros SM. unfold cmf_aoadmm, setup. rewrite Esv, Ia, Ec. cbn [bind]. rewrite EL. cbn [bind]. rewrite EP. cbn [bind]. cbv zeta. fold uA uB uC.
    rewrite EX. cbn [bind]. rewrite ED. cbn [bind]. rewrite SM. reflexivity. }
  assert (SM : forall e, first_products (f_data a) (cBs ca) (cC ca) = Some e -> cmf_aoadmm V IE rnd a = Err e).
  { intros e He. rewrite RUN; [unfold mismatch; rewrite M2, M3, He; reflexivity|].
    match goal with |- ?x = false => destruct x eqn:E0; [|reflexivity] end. apply shapes_match_products in E0 as (E0 & _). rewrite M2, M3 in E0. congruence. }
  split; [|intros HZ; split].
  - intros i Hi Hi' HN. apply SM. apply (products_value _ _ _ i); auto.
  - intros HL. apply SM. apply products_index; auto.
  - intros HL HNE HI r Hr R1 C1 HR. rewrite RUN.
    + unfold mismatch. rewrite M2, M3. rewrite (products_ok (cC ca) (cBs ca) (f_data a)) by (try lia; intros i Hi; apply HZ; lia).
      assert (T : ((length (cBs ca) <? length (f_data a)) || (length (f_data a) =? 0))%nat%bool = false).
      { apply orb_false_intro; [apply Nat.ltb_ge; lia|]. apply Nat.eqb_neq. destruct (f_data a); [now destruct HNE|discriminate]. }
      rewrite T, Hr. assert (T2 : ((r =? 1)%Z || (mc (cA c) =? 1)%nat)%bool = false) by (apply orb_false_intro; [now apply Z.eqb_neq|rewrite M1; now apply Nat.eqb_neq]).
      rewrite T2. destruct (negb (shapes_match _ d _ _)); [discriminate|].
      destruct (make_mregs uA aA dA) as [gA|] eqn:G1; [|discriminate]. cbn [bind] in ES. destruct (make_bregs uB aB dB) as [gB|] eqn:G2; [|discriminate]. cbn [bind] in ES.
      destruct (make_mregs uC aC dC) as [gC|] eqn:G3; [|discriminate]. cbn [bind] in ES. injection ES as <- <-.
      unfold init_hist, state_loss in EH. cbn [st_cmf st_rA st_rB st_rC] in EH. destruct (reg_penalty d gA gB gC) as [v|] eqn:EV; [|discriminate EH].
      rewrite (start_penalty_any d c gA gC gB uA uB uC v) by eauto using make_mregs_pens, make_bregs_pens. reflexivity.
    + assert (NE : (is_nil uA && is_nil uB && is_nil uC)%bool = false).
      { destruct HI as (m & kw & u & Hm & Um & MV & UP & HQ).
        destruct (C38_penalties_are_those_requested V (f_kw a) (f_regs a) (f_aux a) (f_dual a) (rA, rB, rC) EP m Hm) as (kw' & parsed & u' & MV' & UP' & PK & D1 & D2 & D3 & _).
        assert (kw' = kw).
        { destruct MV as (A1 & A2 & A3 & A4 & A5 & A6 & A7 & A8 & A9), MV' as (N1 & N2 & N3 & N4 & N5 & N6 & N7 & N8 & N9). destruct kw, kw'. cbn in *.
          pose proof (means_fun _ _ _ _ A1 N1). pose proof (means_fun _ _ _ _ A2 N2). pose proof (means_fun _ _ _ _ A3 N3). pose proof (means_fun _ _ _ _ A4 N4).
          pose proof (means_fun _ _ _ _ A5 N5). pose proof (means_fun _ _ _ _ A6 N6). pose proof (means_fun _ _ _ _ A7 N7). pose proof (means_fun _ _ _ _ A8 N8). congruence. }
        subst kw'.
        assert (u' = u).
        { unfold user_penalties in UP, UP'. destruct (f_regs a); [congruence|contradiction|]. rewrite UP in UP'. injection UP' as UP'.
          clear -UP'. revert u' UP'. induction u as [|x u IH]; intros [|y u'] H; try discriminate; [reflexivity|]. injection H as -> H. f_equal. auto. }
        subst u'.
        assert (PK' : pick (rA, rB, rC) m <> []).
        { rewrite PK. intros K. apply app_eq_nil in K as (K1 & K2). subst parsed. destruct HQ as [HQ|[HQ|[(r0 & c0 & X & HQ)|(r0 & c0 & X & HQ)]]].
          - contradiction.
          - cbn in D3. rewrite HQ in D3. discriminate.
          - apply HQ. apply D1. constructor.
          - apply HQ. rewrite <- D2. reflexivity. }
        unfold uA, uB, uC. destruct m as [|[|[|m]]]; [| | |lia]; cbn [updates pick] in Um, PK'; rewrite Um.
        - destruct rA; [contradiction|]. reflexivity.
        - destruct rB; [contradiction|]. cbn. now rewrite andb_false_r.
        - destruct rC; [contradiction|]. cbn. now rewrite andb_false_r. }
      unfold shapes_match. rewrite NE, Hr. cbn [negb orb]. rewrite M1. destruct (Z.eqb_spec (Z.of_nat (mc (cA ca))) r) as [K|K]; [contradiction|]. apply andb_false_r.
Qed.
Print Assumptions C66_refused_partial.

(** ** Starts with too few matrices *)
(** The model of ShortStart.v is the same program: wherever [cmf_aoadmm] covers a call, both agree. *)
Theorem C66_models_agree V IE rnd (a : fitR) : f_data a <> [] ->
  cmf_aoadmm V IE rnd a <> Err NotModelled -> cmf_aoadmm_short V IE rnd a = cmf_aoadmm V IE rnd a.
Proof.
  intros HX HM. revert HM. unfold cmf_aoadmm, cmf_aoadmm_short.
  assert (K : setup V IE rnd a <> Err NotModelled -> setup_short V IE rnd a = setup V IE rnd a /\
    forall s l2, setup V IE rnd a = Ok (s, l2) -> length (cBs (st_cmf s)) = length (f_data a)).
  { unfold setup, setup_short. destruct (negb (f_svd a)); [split; [reflexivity|discriminate]|].
    destruct (initialize_cmf (e_ext V) IE rnd (f_data a) (f_rank a) (f_init a) 0) as [[c pos]|]; [|split; [reflexivity|discriminate]]. cbn [bind].
    destruct (listify (f_l2 a)) as [l2|]; [|split; [reflexivity|discriminate]]. cbn [bind].
    destruct (parse_all V (f_kw a) (f_regs a) (f_aux a) (f_dual a)) as [[[rA rB] rC]|]; [|split; [reflexivity|discriminate]]. cbn [bind]. cbv zeta.
    set (uA := if f_updA a then rA else []). set (uB := if f_updB a then rB else []). set (uC := if f_updC a then rC else []).
    destruct (initialize_aux rnd (f_data a) (f_rank a) (uA, uB, uC) pos) as [[[[aA aB] aC] pos1]|]; [|split; [reflexivity|discriminate]]. cbn [bind].
    destruct (initialize_dual rnd (f_data a) (f_rank a) (uA, uB, uC) pos1) as [[[[dA dB] dC] pos2]|]; [|split; [reflexivity|discriminate]]. cbn [bind].
    set (pen := negb (is_nil uA && is_nil uB && is_nil uC)).
    destruct (shapes_match (f_data a) c (f_rank a) pen) eqn:SM; cbn [negb].
    - intros _. pose proof (shapes_match_products _ _ _ _ SM) as (-> & HL).
      destruct (is_nil (cBs c)) eqn:NB; [destruct (cBs c), (f_data a); try discriminate; now destruct HX|].
      unfold shapes_match in SM. apply andb_prop in SM as (_ & SM).
      assert (R0 : (pen && negb (match f_rank a with PyInt r => (Z.of_nat (mc (cA c)) =? r)%Z | PyNotInt => false end))%bool = false)
        by (destruct pen; [cbn [negb orb] in SM; rewrite SM|]; reflexivity).
      rewrite R0. replace (length (cBs c) <? length (f_data a))%nat with false by (symmetry; apply Nat.ltb_ge; lia). cbn [andb]. split; [reflexivity|].
      intros s l2' E0. destruct (make_mregs uA aA dA); [|discriminate]. cbn [bind] in E0. destruct (make_bregs uB aB dB); [|discriminate]. cbn [bind] in E0.
      destruct (make_mregs uC aC dC); [|discriminate]. cbn [bind] in E0. injection E0 as <- <-. now symmetry.
    - intros K. split; [|discriminate]. revert K. unfold mismatch. destruct (first_products (f_data a) (cBs c) (cC c)) as [e|] eqn:FP; [reflexivity|].
      destruct ((length (cBs c) <? length (f_data a)) || (length (f_data a) =? 0))%nat%bool eqn:T; [intros K; now destruct K|].
      intros K. apply orb_false_elim in T as (T1 & T2). apply Nat.ltb_ge in T1. apply Nat.eqb_neq in T2. pose proof (products_none _ _ _ FP) as (T3 & T4).
      destruct (is_nil (cBs c)) eqn:NB; [destruct (cBs c); [cbn in T1; lia|discriminate]|].
      assert (R0 : (pen && negb (match f_rank a with PyInt r => (Z.of_nat (mc (cA c)) =? r)%Z | PyNotInt => false end))%bool = true).
      { apply andb_true_intro. unfold shapes_match in SM. replace (length (f_data a) =? length (cBs c))%nat with true in SM by (symmetry; apply Nat.eqb_eq; lia).
        cbn [andb] in SM.
        assert (FA : forallb (fun XB => (mr (fst XB) =? mr (snd XB))%nat && (mc (fst XB) =? mr (cC c))%nat) (combine (f_data a) (cBs c)) = true).
        { apply forallb_forall. intros XB HI. destruct (In_nth _ _ (no_mat, no_mat) HI) as (i & Hi & <-). rewrite combine_length in Hi. rewrite combine_nth by lia. cbn [fst snd].
          destruct (T4 i ltac:(lia)) as (-> & ->). now rewrite !Nat.eqb_refl. }
        rewrite FA in SM. cbn [andb] in SM. apply orb_false_elim in SM as (SM1 & SM2). split; [now destruct pen|]. now rewrite SM2. }
      rewrite R0. destruct (f_rank a); reflexivity. }
  intros HM. destruct K as (K & KL); [intros E; apply HM; now rewrite E|]. rewrite K. destruct (setup V IE rnd a) as [[s l2]|] eqn:ES; [|reflexivity]. cbn [bind].
  destruct (init_hist _ _ _); [|reflexivity]. cbn [bind]. destruct (const_flags (f_const a)); [|reflexivity]. cbn [bind]. cbv zeta.
  rewrite (KL s l2 eq_refl). rewrite Nat.ltb_irrefl. reflexivity.
Qed.
Print Assumptions C66_models_agree.

(** A start with too few matrices is never accepted when A or the B_i are updated and there is an iteration to do. *)
Theorem C66_too_few_raises V IE rnd (a : fitR) (c : rcmf) :
  starts_from a c -> (length (cBs c) < length (f_data a))%nat -> f_updA a = true \/ f_updB a = true -> (0 < f_n_iter a)%Z -> (0 < f_inner a)%Z ->
  forall out, cmf_aoadmm_short V IE rnd a <> Ok out.
Proof.
  intros (Vc & l & Il & Pl) HL HU HN HI out H. unfold cmf_aoadmm_short in H.
  destruct (setup_short V IE rnd a) as [[s l2]|] eqn:ES; [|discriminate]. cbn [bind] in H.
  destruct (init_hist _ _ _); [|discriminate]. cbn [bind] in H. destruct (const_flags (f_const a)) as [fl|]; [|discriminate]. cbn [bind] in H. cbv zeta in H.
  assert (EB : cBs (st_cmf s) = cBs c).
  { revert ES. unfold setup_short. rewrite Il. destruct (C41_given_start_partial (e_ext V) IE rnd (f_data a) (f_rank a) c l 0 Vc Pl) as (c' & -> & _ & _ & _ & M2 & _).
    destruct (negb (f_svd a)); [discriminate|]. cbn [bind]. destruct (listify (f_l2 a)) as [l2'|]; [|discriminate]. cbn [bind].
    destruct (parse_all _ _ _ _ _) as [[[rA rB] rC]|]; [|discriminate]. cbn [bind]. cbv zeta.
    destruct (initialize_aux _ _ _ _ _) as [[[[? ?] ?] ?]|]; [|discriminate]. cbn [bind]. destruct (initialize_dual _ _ _ _ _) as [[[[? ?] ?] ?]|]; [|discriminate]. cbn [bind].
    destruct (first_products _ _ _); [discriminate|]. destruct (is_nil (cBs c')); [discriminate|].
    match goal with |- (if ?t then _ else _) = _ -> _ => destruct t; [discriminate|] end.
    match goal with |- (if ?t then _ else _) = _ -> _ => destruct t; [discriminate|] end.
    destruct (make_mregs _ _ _); [|discriminate]. cbn [bind]. destruct (make_bregs _ _ _); [|discriminate]. cbn [bind]. destruct (make_mregs _ _ _); [|discriminate]. cbn [bind].
    intros E0. injection E0 as <- _. exact M2. }
  rewrite EB in H. assert (T : ((length (cBs c) <? length (f_data a))%nat && (f_updA a || f_updB a) && (0 <? f_n_iter a)%Z && (0 <? f_inner a)%Z)%bool = true).
  { rewrite (proj2 (Nat.ltb_lt _ _) HL), (proj2 (Z.ltb_lt _ _) HN), (proj2 (Z.ltb_lt _ _) HI). destruct HU as [-> | ->]; rewrite ?orb_true_r; reflexivity. }
  rewrite T in H. unfold first_iteration_short in H. destruct (p_updB _); [discriminate|]. destruct (upd_C _ _ _ _); discriminate.
Qed.
Print Assumptions C66_too_few_raises.

Lemma sub_any (p : penalty (N:=RNum)) (Z x y : matR) v : subtract_from_aux p Z x = Ok v -> exists w, subtract_from_aux p Z y = Ok w.
Proof. unfold subtract_from_aux. destruct p; intros H; try discriminate; eauto. Qed.
Lemma subs_any (p : penalty (N:=RNum)) Z (xs ys : list matR) v : subtract_from_auxes p Z xs = Ok v -> exists w, subtract_from_auxes p Z ys = Ok w.
Proof. unfold subtract_from_auxes. destruct p, Z; intros H; try discriminate; eauto. Qed.
Lemma init_hist_any P Xs (c d : rcmf) gA gB gC h :
  init_hist P Xs (St d gA gB gC None) = Ok h -> exists h', init_hist P Xs (St c gA gB gC None) = Ok h'.
Proof.
  unfold init_hist, state_loss, state_gaps, compute_gaps, reg_penalty. cbn [st_cmf st_rA st_rB st_rC]. intros H.
  destruct (mapM (fun g => penalty_mat (g_pen g) (cA d)) gA) as [a|] eqn:E1; [|discriminate]. cbn [bind] in H.
  destruct (mapM (fun g => penalty_list (b_pen g) (cBs d)) gB) as [b|] eqn:E2; [|discriminate]. cbn [bind] in H.
  destruct (mapM (fun g => penalty_mat (g_pen g) (cC d)) gC) as [e|] eqn:E3; [|discriminate]. cbn [bind] in H.
  destruct (mapM_any _ (fun g => penalty_mat (g_pen g) (cA c)) _ _ (fun o w => penalty_mat_any (g_pen o) _ _ w) E1) as (? & ->). cbn [bind].
  destruct (mapM_any _ (fun g => penalty_list (b_pen g) (cBs c)) _ _ (fun o w => penalty_list_any (b_pen o) _ _ w) E2) as (? & ->). cbn [bind].
  destruct (mapM_any _ (fun g => penalty_mat (g_pen g) (cC c)) _ _ (fun o w => penalty_mat_any (g_pen o) _ _ w) E3) as (? & ->). cbn [bind].
  assert (GM : forall M M' g v, gap_mat (N:=RNum) M g = Ok v -> exists w, gap_mat M' g = Ok w).
  { intros M M' g v K. unfold gap_mat in *. destruct (subtract_from_aux (g_pen g) (g_aux g) M) as [w|] eqn:E; [|discriminate]. destruct (sub_any _ _ _ M' _ E) as (? & ->). cbn [bind]. eauto. }
  assert (GL : forall M M' g v, gap_list (N:=RNum) M g = Ok v -> exists w, gap_list M' g = Ok w).
  { intros M M' g v K. unfold gap_list in *. destruct (subtract_from_auxes (b_pen g) (b_aux g) M) as [w|] eqn:E; [|discriminate]. destruct (subs_any _ _ _ M' _ E) as (? & ->). cbn [bind]. eauto. }
  assert (HG : exists h0, (let* gA0 := mapM (gap_mat (cA d)) gA in let* gB0 := mapM (gap_list (cBs d)) gB in let* gC0 := mapM (gap_mat (cC d)) gC in Ok (gA0, gB0, gC0)) = Ok h0).
  { destruct (state_error Xs (St d gA gB gC None)); cbn [bind] in H;
    (destruct (let* gA0 := mapM (gap_mat (cA d)) gA in let* gB0 := mapM (gap_list (cBs d)) gB in let* gC0 := mapM (gap_mat (cC d)) gC in Ok (gA0, gB0, gC0)) as [h0|]; [eauto|discriminate]). }
  clear H. destruct HG as (h0 & H).
  destruct (mapM (gap_mat (cA d)) gA) as [g1|] eqn:F1; [|discriminate]. cbn [bind] in H.
  destruct (mapM (gap_list (cBs d)) gB) as [g2|] eqn:F2; [|discriminate]. cbn [bind] in H.
  destruct (mapM (gap_mat (cC d)) gC) as [g3|] eqn:F3; [|discriminate]. clear H.
  destruct (mapM_any _ (gap_mat (cA c)) _ _ (GM _ _) F1) as (? & ->). destruct (mapM_any _ (gap_list (cBs c)) _ _ (GL _ _) F2) as (? & ->).
  destruct (mapM_any _ (gap_mat (cC c)) _ _ (GM _ _) F3) as (? & ->). cbn [bind].
  destruct (state_error Xs (St c gA gB gC None)); cbn [bind]; eauto.
Qed.
(** ... and if the call with some start returns, then with one that has too few matrices, but of the right sizes and rank, it
    raises IndexError; or ValueError, when A is updated and something is imposed on it. *)
Theorem C66_too_few_which V IE rnd (a b : fitR) (ca cb : rcmf) out :
  starts_from b cb -> cmf_aoadmm V IE rnd b = Ok out -> same_but_init a b -> starts_from a ca ->
  cBs ca <> [] -> (length (cBs ca) < length (f_data a))%nat -> (forall i, (i < length (cBs ca))%nat -> same_size (f_data a) ca i) ->
  f_rank a = PyInt (Z.of_nat (mc (cA ca))) -> f_updB a = true -> (0 < f_n_iter a)%Z -> (0 < f_inner a)%Z ->
  cmf_aoadmm_short V IE rnd a = Err IndexError \/ (f_updA a = true /\ cmf_aoadmm_short V IE rnd a = Err ValueError).
Proof.
  intros (Vb & lb & Ib & Pb) HO HS (Va & la & Ia & Pa) HNE HL HZ HR UB HN HI.
  destruct HS as (S1 & S2 & S3 & S4 & S5 & S6 & S7 & S8 & S9 & S10 & S11 & S12 & S13 & S14 & S15 & S16 & S17 & S18 & S19 & S20 & S21).
  destruct (C41_given_start_partial (e_ext V) IE rnd (f_data a) (f_rank a) ca la 0 Va Pa) as (c & Ec & Vc & _ & M1 & M2 & M3 & _).
  unfold cmf_aoadmm in HO. destruct (setup V IE rnd b) as [[s l2]|] eqn:ES; [|discriminate HO]. cbn [bind] in HO.
  destruct (init_hist (fit_params b l2 (false, false)) (f_data b) s) as [h|] eqn:EH; [|discriminate HO]. cbn [bind] in HO.
  destruct (const_flags (f_const b)) as [fl|] eqn:EF; [|discriminate HO]. clear HO.
  unfold setup in ES. rewrite S1, S2, S4, S5, S6, S9, S10, S11, S17, S18, S19, Ib in ES.
  destruct (C41_given_start_partial (e_ext V) IE rnd (f_data a) (f_rank a) cb lb 0 Vb Pb) as (d & Ed & _).
  destruct (negb (f_svd a)) eqn:Esv; [discriminate|]. rewrite Ed in ES. cbn [bind] in ES.
  destruct (listify (f_l2 a)) as [l2'|] eqn:EL; [|discriminate]. cbn [bind] in ES.
  destruct (parse_all V (f_kw a) (f_regs a) (f_aux a) (f_dual a)) as [[[rA rB] rC]|] eqn:EP; [|discriminate]. cbn [bind] in ES. cbv zeta in ES.
  set (uA := if f_updA a then rA else []) in *. set (uB := if f_updB a then rB else []) in *. set (uC := if f_updC a then rC else []) in *.
  destruct (initialize_aux rnd (f_data a) (f_rank a) (uA, uB, uC) 0) as [[[[aA aB] aC] pos1]|] eqn:EX; [|discriminate]. cbn [bind] in ES.
  destruct (initialize_dual rnd (f_data a) (f_rank a) (uA, uB, uC) pos1) as [[[[dA dB] dC] pos2]|] eqn:ED; [|discriminate]. cbn [bind] in ES.
  destruct (negb (shapes_match _ d _ _)); [discriminate|].
  destruct (make_mregs uA aA dA) as [gA|] eqn:G1; [|discriminate]. cbn [bind] in ES. destruct (make_bregs uB aB dB) as [gB|] eqn:G2; [|discriminate]. cbn [bind] in ES.
  destruct (make_mregs uC aC dC) as [gC|] eqn:G3; [|discriminate]. cbn [bind] in ES. injection ES as <- <-.
  assert (SP : start_penalty c uA uB uC = Ok tt).
  { pose proof EH as EH'. unfold init_hist, state_loss in EH'. cbn [st_cmf st_rA st_rB st_rC] in EH'. destruct (reg_penalty d gA gB gC) as [v|] eqn:EV; [|discriminate EH'].
    now rewrite (start_penalty_any d c gA gC gB uA uB uC v) by eauto using make_mregs_pens, make_bregs_pens. }
  assert (PP : fit_params b l2' (false, false) = fit_params a l2' (false, false)).
  { unfold fit_params. destruct l2' as [[? ?] ?]. now rewrite S7, S12, S13, S14, S15, S16, S17, S18, S19, S21. }
  rewrite PP, S1 in EH. rewrite S8 in EF. destruct (init_hist_any _ _ c d gA gB gC h EH) as (h' & EH').
  unfold cmf_aoadmm_short, setup_short. rewrite Esv, Ia, Ec. cbn [bind]. rewrite EL. cbn [bind]. rewrite EP. cbn [bind]. cbv zeta. fold uA uB uC.
  rewrite EX. cbn [bind]. rewrite ED. cbn [bind]. rewrite M1, M2, M3. rewrite (products_ok (cC ca) (cBs ca) (f_data a)) by (try lia; exact HZ).
  destruct (is_nil (cBs ca)) eqn:NB; [destruct (cBs ca); [now destruct HNE|discriminate]|].
  rewrite HR, Z.eqb_refl. cbn [negb]. rewrite andb_false_r. rewrite (proj2 (Nat.ltb_lt _ _) HL). cbn [andb].
  destruct (negb (is_nil uA) && negb (mr (cA c) =? 1)%nat)%bool eqn:EA.
  - right. split; [|rewrite SP; cbn [bind]; reflexivity]. apply andb_prop in EA as (EA & _). unfold uA in EA. now destruct (f_updA a).
  - left. rewrite G1, G2, G3. cbn [bind st_cmf]. rewrite EH'. cbn [bind]. rewrite EF. cbn [bind]. rewrite M2, (proj2 (Nat.ltb_lt _ _) HL), UB, orb_true_r.
    rewrite (proj2 (Z.ltb_lt _ _) HN), (proj2 (Z.ltb_lt _ _) HI). cbn [andb]. unfold first_iteration_short.
    assert (U : p_updB (fit_params a l2' fl) = true) by (unfold fit_params; destruct l2' as [[? ?] ?]; exact UB). now rewrite U.
Qed.
Print Assumptions C66_too_few_which.

Definition same_factors (r1 r2 : res (output (N:=RNum))) : Prop :=
  match r1, r2 with
  | Ok o1, Ok o2 => out_cmf o2 = out_cmf o1 /\ out_vars o2 = out_vars o1
  | Err e1, Err e2 => e2 = e1
  | _, _ => False
  end.

Lemma map2_app {A B C} (f : A -> B -> C) (Ys : list A) : forall (L : list B) (Xs : list A), (length L <= length Xs)%nat -> map2 f (Xs ++ Ys) L = map2 f Xs L.
Proof.
  induction L as [|b L IH]; intros Xs H; [destruct Xs, Ys; reflexivity|]. destruct Xs as [|x Xs]; cbn in H; [lia|]. cbn. f_equal. apply IH. lia.
Qed.
Lemma map2_len_le {A B C} (f : A -> B -> C) : forall (l : list A) (m : list B), (length (map2 f l m) <= length l)%nat.
Proof. induction l as [|a l IH]; intros [|b m]; cbn; try lia. specialize (IH m). lia. Qed.
Lemma products_app (C : matR) (Ys : list matR) : forall (Bs Xs : list matR), (length Bs <= length Xs)%nat -> first_products (Xs ++ Ys) Bs C = first_products Xs Bs C.
Proof.
  induction Bs as [|B Bs IH]; intros Xs H; [destruct Xs, Ys; reflexivity|]. destruct Xs as [|X Xs]; cbn in H; [lia|]. cbn. rewrite IH by lia. reflexivity.
Qed.
Section Ignored.
Variables (E : ext (N:=RNum)) (P : params (N:=RNum)) (Xs Ys : list matR).
Hypothesis (UA : p_updA P = false) (UB : p_updB P = false) (T1 : otruthy (p_tol P) = false) (T2 : otruthy (p_abs_tol P) = false).
Definition short (s : state (N:=RNum)) := (length (cBs (st_cmf s)) <= length Xs)%nat.
Lemma outer_app s : short s -> outer_step E P (Xs ++ Ys) s = outer_step E P Xs s.
Proof.
  intros H. unfold outer_step, upd_B, upd_A. rewrite UA, UB. cbn [bind]. unfold upd_C, admm_update_C. cbn [st_cmf st_rC]. destruct (p_updC P); [|reflexivity].
  unfold C_lhs_terms, C_rhs_terms, BA. rewrite !map2_app; [reflexivity| |]; (etransitivity; [apply map2_len_le|exact H]).
Qed.
Lemma outer_short s s' : short s -> outer_step E P Xs s = Ok s' -> short s'.
Proof.
  unfold outer_step, upd_B, upd_A, short. rewrite UA, UB. cbn [bind]. unfold upd_C, admm_update_C. cbn [st_cmf st_rC]. intros H. destruct (p_updC P); [|cbn [bind]; intros K; injection K as <-; exact H].
  destruct (msum_list _); [|discriminate]. destruct (msum_list _); [|discriminate]. destruct (inner_loop _ _ _ _) as [[? ?]|]; [|discriminate]. cbn [bind]. intros K. injection K as <-. exact H.
Qed.
Lemma loop_app : forall n it s h h', short s ->
  match ao_loop E P Xs n it s h, ao_loop E P (Xs ++ Ys) n it s h' with
  | Ok (s1, _, i1, m1), Ok (s2, _, i2, m2) => s2 = s1 /\ i2 = i1 /\ m2 = m1
  | Err e1, Err e2 => e2 = e1
  | _, _ => False
  end.
Proof.
  induction n as [|n IH]; intros it s h h' HS; cbn [ao_loop]; [auto|].
  rewrite (outer_app s HS). destruct (outer_step E P Xs s) as [s'|e] eqn:EO; [|reflexivity]. cbn [bind]. pose proof (outer_short s s' HS EO) as HS'.
  rewrite T1, T2. cbn [orb andb]. destruct (p_return_errors P); [|apply IH; exact HS'].
  destruct (state_gaps s') as [g|]; [|reflexivity]. cbn [bind]. unfold state_loss.
  destruct (reg_penalty (st_cmf s') (st_rA s') (st_rB s') (st_rC s')) as [pn|]; [|reflexivity]. cbn [bind].
  destruct (state_error Xs s'), (state_error (Xs ++ Ys) s'); cbn [bind];
  (destruct (p_tol P) as [t|]; [cbn [otruthy] in T1; rewrite T1|]; apply IH; exact HS').
Qed.
Lemma run_app n s : short s ->
  match run E P Xs n s, run E P (Xs ++ Ys) n s with
  | Ok (s1, _), Ok (s2, _) => s2 = s1
  | Err e1, Err e2 => e2 = e1
  | _, _ => False
  end.
Proof.
  intros HS. unfold run, init_hist, state_loss. destruct (reg_penalty (st_cmf s) (st_rA s) (st_rB s) (st_rC s)) as [pn|]; [|reflexivity]. cbn [bind].
  assert (K : forall h h', match (let* (s', h, it, msg) := ao_loop E P Xs (Z.to_nat n) 0 s h in
     let stopped := match msg with MaxIter => false | _ => true end in
     let* feas := match p_feas_tol P with Some t => if ntruthy t && p_return_errors P then let* g := state_gaps s' in Ok (Some (check_feasibility g t)) else Ok None | None => Ok None end in
     let* c := revalidate (st_cmf s') in
     let s'' := St c (st_rA s') (st_rB s') (st_rC s') (st_inter s') in
     if p_return_errors P then
       let stop := if negb stopped && negb (otruthy (p_tol P) || otruthy (p_abs_tol P)) then None else Some stopped in
       Ok (s'', Some (Diag (h_errors h) (h_gaps h) (h_losses h) stop feas it msg))
     else Ok (s'', None)), (let* (s', h, it, msg) := ao_loop E P (Xs ++ Ys) (Z.to_nat n) 0 s h' in
     let stopped := match msg with MaxIter => false | _ => true end in
     let* feas := match p_feas_tol P with Some t => if ntruthy t && p_return_errors P then let* g := state_gaps s' in Ok (Some (check_feasibility g t)) else Ok None | None => Ok None end in
     let* c := revalidate (st_cmf s') in
     let s'' := St c (st_rA s') (st_rB s') (st_rC s') (st_inter s') in
     if p_return_errors P then
       let stop := if negb stopped && negb (otruthy (p_tol P) || otruthy (p_abs_tol P)) then None else Some stopped in
       Ok (s'', Some (Diag (h_errors h) (h_gaps h) (h_losses h) stop feas it msg))
     else Ok (s'', None)) with
   | Ok (s1, _), Ok (s2, _) => s2 = s1
   | Err e1, Err e2 => e2 = e1
   | _, _ => False
   end).
  { intros h h'. pose proof (loop_app (Z.to_nat n) 0 s h h' HS) as L.
    destruct (ao_loop E P Xs (Z.to_nat n) 0 s h) as [[[[s1 h1] i1] m1]|], (ao_loop E P (Xs ++ Ys) (Z.to_nat n) 0 s h') as [[[[s2 h2] i2] m2]|]; try contradiction; [|exact L].
    destruct L as (-> & -> & ->). cbn [bind]. cbv zeta.
    match goal with |- context [bind ?f _] => destruct f; [|reflexivity] end. cbn [bind]. destruct (revalidate (st_cmf s1)); [|reflexivity]. cbn [bind].
    destruct (p_return_errors P); reflexivity. }
  destruct (state_error Xs s), (state_error (Xs ++ Ys) s); cbn [bind]; (destruct (state_gaps s); [cbn [bind]; apply K|reflexivity]).
Qed.
End Ignored.

Lemma init_mode2_app rnd (o : pobj (N:=RNum)) (X : matR) Xs Ys rank pos : init_aux rnd true o ((X :: Xs) ++ Ys) rank (PyInt 2) pos = init_aux rnd true o (X :: Xs) rank (PyInt 2) pos.
Proof.
  unfold init_aux. destruct (o_pen o); try (unfold init_common; destruct rank; [|reflexivity]; destruct (o_aux o) as [[]| | | |]; reflexivity).
Qed.
Lemma init_dual2_app rnd (o : pobj (N:=RNum)) (X : matR) Xs Ys rank pos : init_dual rnd o ((X :: Xs) ++ Ys) rank (PyInt 2) pos = init_dual rnd o (X :: Xs) rank (PyInt 2) pos.
Proof. unfold init_dual, init_common. destruct rank; [|reflexivity]; destruct (o_dual o) as [[]| | | |]; reflexivity. Qed.
Lemma mapS_ext {A B} (f g : A -> nat -> res (B * nat)) (l : list A) : (forall x p, f x p = g x p) -> forall pos, mapS f l pos = mapS g l pos.
Proof. intros H. induction l as [|x l IH]; intros pos; cbn; [reflexivity|]. rewrite H. destruct (g x pos) as [[y p]|]; [|reflexivity]. cbn [bind]. now rewrite IH. Qed.

(** With A and the B_i fixed and no tolerance, a start for the first matrices only is accepted, and
    all further data matrices are ignored: the factors, auxiliary and dual variables are those of the fit to the first
    matrices, whatever the others are. *)
Theorem C66_further_matrices_ignored V IE rnd (a b : fitR) (c : rcmf) Ys :
  starts_from a c -> same_but_data a b -> f_data b = f_data a ++ Ys -> length (f_data a) = length (cBs c) -> f_data a <> [] ->
  f_updA a = false -> f_updB a = false -> otruthy (f_tol a) = false -> otruthy (f_abs_tol a) = false ->
  same_factors (cmf_aoadmm_short V IE rnd a) (cmf_aoadmm_short V IE rnd b).
Proof.
  intros (Vc & l & Il & Pl) HS HD HL HX UA UB T1 T2.
  destruct HS as (S1 & S2 & S3 & S4 & S5 & S6 & S7 & S8 & S9 & S10 & S11 & S12 & S13 & S14 & S15 & S16 & S17 & S18 & S19 & S20 & S21).
  assert (K : setup_short V IE rnd b = setup_short V IE rnd a /\ forall s l2, setup_short V IE rnd a = Ok (s, l2) -> cBs (st_cmf s) = cBs c /\ st_rA s = []).
  { unfold setup_short. rewrite HD, S1, S2, S4, S5, S6, S9, S10, S11, S17, S18, S19, UA, UB, Il.
    destruct (negb (f_svd a)); [now split|].
    destruct (C41_given_start_partial (e_ext V) IE rnd (f_data a) (f_rank a) c l 0 Vc Pl) as (c' & Ec & _ & _ & _ & M2 & M3 & _).
    destruct (C41_given_start_partial (e_ext V) IE rnd (f_data a ++ Ys) (f_rank a) c l 0 Vc Pl) as (c'' & Ec' & _).
    assert (c'' = c') as ->.
    { unfold initialize_cmf in Ec, Ec'. rewrite Ec in Ec'. now injection Ec'. }
    rewrite Ec, Ec'. cbn [bind].
    destruct (listify (f_l2 a)) as [l2|]; [|now split]. cbn [bind].
    destruct (parse_all V (f_kw a) (f_regs a) (f_aux a) (f_dual a)) as [[[rA rB] rC]|]; [|now split]. cbn [bind]. cbv zeta. set (uC := if f_updC a then rC else []).
    assert (EA : forall p, initialize_aux rnd (f_data a ++ Ys) (f_rank a) ([], [], uC) p = initialize_aux rnd (f_data a) (f_rank a) ([], [], uC) p).
    { intros p. unfold initialize_aux, initialize. cbn [mapS bind]. destruct (f_data a) as [|X Xs]; [now destruct HX|].
      now rewrite (mapS_ext _ (fun o => init_aux rnd true o (X :: Xs) (f_rank a) (PyInt 2))) by (intros; apply init_mode2_app). }
    assert (ED : forall p, initialize_dual rnd (f_data a ++ Ys) (f_rank a) ([], [], uC) p = initialize_dual rnd (f_data a) (f_rank a) ([], [], uC) p).
    { intros p. unfold initialize_dual, initialize. cbn [mapS bind]. destruct (f_data a) as [|X Xs]; [now destruct HX|].
      now rewrite (mapS_ext _ (fun o => init_dual rnd o (X :: Xs) (f_rank a) (PyInt 2))) by (intros; apply init_dual2_app). }
    rewrite EA. destruct (initialize_aux rnd (f_data a) (f_rank a) ([], [], uC) 0) as [[[[aA aB] aC] p1]|] eqn:EX; [|now split]. cbn [bind].
    rewrite ED. destruct (initialize_dual rnd (f_data a) (f_rank a) ([], [], uC) p1) as [[[[dA dB] dC] p2]|] eqn:EE; [|now split]. cbn [bind].
    assert (AB : aA = [] /\ aB = [] /\ dA = [] /\ dB = []).
    { unfold initialize_aux, initialize_dual, initialize in EX, EE. cbn in EX, EE.
      destruct (mapS _ uC _) as [[? ?]|]; [|discriminate]. destruct (mapS _ uC p1) as [[? ?]|]; [|discriminate]. cbn in EX, EE. injection EX. injection EE. intros. subst. auto. }
    destruct AB as (-> & -> & -> & ->). cbn [is_nil andb negb make_mregs make_bregs bind]. rewrite !andb_false_r. cbn [andb].
    rewrite products_app by (rewrite M2; lia). split; [reflexivity|]. intros s l2'.
    destruct (first_products _ _ _); [discriminate|]. destruct (is_nil (cBs c')); [discriminate|]. destruct (_ && _)%bool; [discriminate|].
    destruct (make_mregs uC aC dC); [|discriminate]. cbn [bind]. intros K. injection K as <- <-. split; [exact M2|reflexivity]. }
  destruct K as (K1 & K2). unfold cmf_aoadmm_short. rewrite K1. destruct (setup_short V IE rnd a) as [[s l2]|] eqn:ES; [|reflexivity]. cbn [bind].
  destruct (K2 s l2 eq_refl) as (K2' & K3). clear K2. rename K2' into K2.
  assert (PP : forall fl, fit_params b l2 fl = fit_params a l2 fl).
  { intros fl. unfold fit_params. destruct l2 as [[? ?] ?]. now rewrite S7, S12, S13, S14, S15, S16, S17, S18, S19, S21. }
  assert (PF : forall fl, p_updA (fit_params a l2 fl) = false /\ p_updB (fit_params a l2 fl) = false /\ otruthy (p_tol (fit_params a l2 fl)) = false /\ otruthy (p_abs_tol (fit_params a l2 fl)) = false).
  { intros fl. unfold fit_params. destruct l2 as [[? ?] ?]. auto. }
  assert (HH : short (f_data a) s) by (unfold short; rewrite K2; lia).
  rewrite PP, S8, S3, HD, S20.
  assert (IH : match init_hist (fit_params a l2 (false, false)) (f_data a) s, init_hist (fit_params a l2 (false, false)) (f_data a ++ Ys) s with
               | Ok _, Ok _ => True | Err e1, Err e2 => e2 = e1 | _, _ => False end).
  { unfold init_hist, state_loss. destruct (reg_penalty _ _ _ _); [|reflexivity]. cbn [bind]. destruct (state_error (f_data a) s), (state_error (f_data a ++ Ys) s); cbn [bind]; (destruct (state_gaps s); cbn [bind]; auto). }
  destruct (init_hist (fit_params a l2 (false, false)) (f_data a) s), (init_hist (fit_params a l2 (false, false)) (f_data a ++ Ys) s); try contradiction; [|exact IH]. cbn [bind].
  destruct (const_flags (f_const a)) as [fl|]; [|reflexivity]. cbn [bind]. cbv zeta. rewrite S16, S17, S18, UA, UB, K3. cbn [orb is_nil negb]. rewrite !andb_false_r. cbn [andb]. rewrite PP. destruct (PF fl) as (F1 & F2 & F3 & F4).
  pose proof (run_app (e_ext V) (fit_params a l2 fl) (f_data a) Ys F1 F2 F3 F4 (f_n_iter a) s HH) as RA.
  destruct (run (e_ext V) (fit_params a l2 fl) (f_data a) (f_n_iter a) s) as [[s1 d1]|], (run (e_ext V) (fit_params a l2 fl) (f_data a ++ Ys) (f_n_iter a) s) as [[s2 d2]|]; try contradiction; [|exact RA].
  subst s2. cbn [bind same_factors out_cmf out_vars]. auto.
Qed.
Print Assumptions C66_further_matrices_ignored.

(** ** Starts of another rank *)
(** When nothing is imposed, the argument [rank] is not used: whatever it is, the fit has the rank of the start. *)
Theorem C66_rank_unused V IE rnd (a b : fitR) (c : rcmf) :
  starts_from a c -> same_but_rank a b -> unpenalised a -> cmf_aoadmm V IE rnd b = cmf_aoadmm V IE rnd a.
Proof.
  intros (Vc & l & Il & Pl) HS HU.
  destruct HS as (S1 & S2 & S3 & S4 & S5 & S6 & S7 & S8 & S9 & S10 & S11 & S12 & S13 & S14 & S15 & S16 & S17 & S18 & S19 & S20 & S21).
  assert (K : setup V IE rnd b = setup V IE rnd a).
  { unfold setup. rewrite S1, S2, S4, S5, S6, S9, S10, S11, S17, S18, S19, Il.
    destruct (negb (f_svd a)); [reflexivity|].
    destruct (C41_given_start_partial (e_ext V) IE rnd (f_data a) (f_rank a) c l 0 Vc Pl) as (c' & Ec & _).
    destruct (C41_given_start_partial (e_ext V) IE rnd (f_data a) (f_rank b) c l 0 Vc Pl) as (c'' & Ec' & _).
    assert (c'' = c') as -> by (unfold initialize_cmf in Ec, Ec'; rewrite Ec in Ec'; now injection Ec').
    rewrite Ec, Ec'. cbn [bind]. destruct (listify (f_l2 a)) as [l2|]; [|reflexivity]. cbn [bind].
    destruct (parse_all V (f_kw a) (f_regs a) (f_aux a) (f_dual a)) as [[[rA rB] rC]|] eqn:EP; [|reflexivity]. cbn [bind]. cbv zeta.
    assert (NIL : forall m, (m < 3)%nat -> (if updates a m then pick (rA, rB, rC) m else []) = []).
    { intros m Hm. destruct (updates a m) eqn:Um; [|reflexivity]. destruct (HU m Hm Um) as (U1 & U2).
      destruct (parse_all_ok _ _ _ _ _ _ EP m Hm) as (kw & pa & u & MV & PM & US & ->). rewrite (asks_nothing_parsed _ _ _ _ _ (U1 kw MV) PM), (U2 u US). reflexivity. }
    pose proof (NIL 0%nat ltac:(lia)) as N0. pose proof (NIL 1%nat ltac:(lia)) as N1. pose proof (NIL 2%nat ltac:(lia)) as N2. cbn [updates pick] in N0, N1, N2. rewrite N0, N1, N2.
    unfold initialize_aux, initialize_dual, initialize. cbn [mapS bind is_nil andb negb].
    assert (SM : shapes_match (f_data a) c' (f_rank b) false = shapes_match (f_data a) c' (f_rank a) false) by reflexivity. rewrite SM.
    destruct (shapes_match (f_data a) c' (f_rank a) false) eqn:E0; [reflexivity|]. cbn [negb]. f_equal. unfold mismatch.
    destruct (first_products (f_data a) (cBs c') (cC c')) eqn:FP; [reflexivity|].
    destruct ((length (cBs c') <? length (f_data a)) || (length (f_data a) =? 0))%nat%bool eqn:T; [reflexivity|]. exfalso.
    apply orb_false_elim in T as (T1 & T2). apply Nat.ltb_ge in T1. pose proof (products_none _ _ _ FP) as (T3 & T4).
    unfold shapes_match in E0. replace (length (f_data a) =? length (cBs c'))%nat with true in E0 by (symmetry; apply Nat.eqb_eq; lia). cbn [andb negb orb] in E0. rewrite andb_true_r in E0.
    assert (FA : forallb (fun XB => (mr (fst XB) =? mr (snd XB))%nat && (mc (fst XB) =? mr (cC c'))%nat) (combine (f_data a) (cBs c')) = true).
    { apply forallb_forall. intros XB HI. destruct (In_nth _ _ (no_mat, no_mat) HI) as (i & Hi & <-). rewrite combine_length in Hi. rewrite combine_nth by lia. cbn [fst snd].
      destruct (T4 i ltac:(lia)) as (-> & ->). now rewrite !Nat.eqb_refl. }
    rewrite FA in E0. discriminate. }
  unfold cmf_aoadmm. rewrite K. destruct (setup V IE rnd a) as [[s l2]|]; [|reflexivity]. cbn [bind].
  assert (PP : forall fl, fit_params b l2 fl = fit_params a l2 fl).
  { intros fl. unfold fit_params. destruct l2 as [[? ?] ?]. now rewrite S7, S12, S13, S14, S15, S16, S17, S18, S19, S21. }
  rewrite PP, S2, S8, S3, S20. destruct (init_hist _ _ _); [|reflexivity]. cbn [bind]. destruct (const_flags (f_const a)) as [fl|]; [|reflexivity]. cbn [bind]. now rewrite PP.
Qed.
Print Assumptions C66_rank_unused.

(** ** Concrete calls *)
Definition ones (r c : nat) : matR := mones (N:=RNum) r c.
Definition start66 (n r k : nat) : rcmf := Cmf (N:=RNum) None (ones n r) (repeat (ones 1 r) n) (ones k r).
Definition seq66 (c : rcmf) : list pyR := match py_of_cmf c with PSeq l => l | _ => [] end.
Lemma start66_valid n r k : valid_cmf (start66 n r k).
Proof.
  split; [apply mwf_mbuild|]. split; [apply mwf_mbuild|]. split; [reflexivity|]. split; [cbn; now rewrite repeat_length|]. split; [|discriminate].
  intros i Hi. cbn in Hi. rewrite repeat_length in Hi. unfold nthB. cbn [cBs start66]. rewrite nth_repeat_lt by exact Hi. split; [apply mwf_mbuild|reflexivity].
Qed.
(** two 1 x 1 matrices, rank 2, ridge terms, non-negativity on all modes; all modes are updated, or with [fr] only C, without tolerances *)
Definition args66 (nn fr : bool) (Xs : list matR) (rank : Z) (c : rcmf) : fitR :=
  FitArgs (N:=RNum) Xs (PyInt rank) (InitSeq (seq66 c)) 3 (AOne (Some (1 / 10)))
    (KwArgs (AOne (Some nn)) (AOne None) (AOne None) (AOne None) (AOne None) false (AOne None) (AOne None) (AOne None)) RNone
    1 (CBool false) (IStr RandomUniform) (IStr RandomUniform) true (if fr then None else Some (1 / 100)) (if fr then None else Some (1 / 1000)) (Some (1 / 10000)) None 5 (negb fr) (negb fr) true true true.
Definition data66 : list matR := [m11 1; m11 3].
Lemma args66_start nn fr Xs rank n r k : starts_from (args66 nn fr Xs rank (start66 n r k)) (start66 n r k).
Proof. split; [apply start66_valid|]. exists (seq66 (start66 n r k)). split; reflexivity. Qed.
Lemma args66_dependable E nn fr : dependable (Env (N:=RNum) E (fun _ => []) true) (args66 nn fr data66 2 (start66 2 2 1)) 2.
Proof.
  assert (UPX : forall m u, user_penalties (f_regs (args66 nn fr data66 2 (start66 2 2 1))) m u -> u = []) by (intros m u H; exact H).
  assert (KWX : forall m kw, mode_values (f_kw (args66 nn fr data66 2 (start66 2 2 1))) m kw -> k_nn kw = Some nn /\ k_lower kw = None /\ k_upper kw = None /\ k_norm kw = None /\
     k_uni kw = None /\ k_l1 kw = None /\ k_tv kw = None /\ k_gl2 kw = None /\ k_pf2 kw = false).
  { intros m kw (M1 & M2 & M3 & M4 & M5 & M6 & M7 & M8 & M9). cbn in *. auto 12. }
  split.
  { unfold sensible. cbn [f_data f_rank f_init f_scale f_l2 args66]. split; [discriminate|]. split; [repeat constructor|].
    split; [reflexivity|]. split; [lia|]. split; [do 5 eexists; reflexivity|]. split; [lra|]. split; [intros m v _ ->; cbn; lra|]. split.
    - intros m r kw Hm _ MV. destruct (KWX m kw MV) as (K1 & K2 & K3 & K4 & K5 & K6 & K7 & K8 & K9). split; [intros hi E0; congruence|intros M E0; congruence].
    - split.
      + intros m r u Hm _ HU. rewrite (UPX m u HU). constructor.
      + intros [K|(u & HU & K)]; [discriminate K|]. rewrite (UPX 1%nat u HU) in K. inversion K. }
  split; [intros X [<-|[<-|[]]]; reflexivity|]. split.
  { exists (start66 2 2 1). split; [reflexivity|]. split; [|reflexivity]. split; [apply start66_valid|]. split; [reflexivity|].
    intros [|[|i]] Hi; [split; [apply m11_wf|split; reflexivity]|split; [apply m11_wf|split; reflexivity]|cbn in Hi; lia]. }
  split; [reflexivity|]. split; [discriminate|].
  split; [eexists; split; [reflexivity|discriminate]|]. split; [eexists; split; [reflexivity|discriminate]|].
  split; [exact Logic.I|]. split; [repeat split; exact Logic.I|]. split; [exact Logic.I|]. split.
  { intros m kw Hm MV. destruct (KWX m kw MV) as (K1 & K2 & K3 & K4 & K5 & K6 & K7 & K8 & K9). unfold acceptable. rewrite K4, K6, K7, K8. cbn.
    split; [lra|]. split; [lra|]. split; [intros K; now destruct K|]. split; [lra|exact Logic.I]. }
  split.
  { intros m Hm _. split; [intros v ->; cbn; lra|]. split.
    - intros kw MV. destruct (KWX m kw MV) as (K1 & K2 & K3 & K4 & K5 & K6 & K7 & K8 & K9). unfold asks_plain. rewrite K6, K7, K8, K9. cbn. auto.
    - intros u HU. rewrite (UPX m u HU). constructor. }
  split.
  { intros _ _ [(kw & MV & K)|(u & HU & K)].
    - destruct (KWX 0%nat kw MV) as (K1 & K2 & K3 & K4 & K5 & K6 & K7 & K8 & K9). unfold asks_matrixwise, wants in K. rewrite K4, K5, K7, K8 in K. cbn in K.
      destruct K as [K|[K|[K|(M & K)]]]; try discriminate K; lra.
    - rewrite (UPX 0%nat u HU) in K. inversion K. }
  intros K. destruct fr; [destruct K as (t & K & _); discriminate K|discriminate].
Qed.
(** The call with a start for two 1 x 1 matrices of rank 2 returns; starts with a wrong size, too many matrices, or rank 3 raise. *)
Example C66_nonvacuous rnd : exists V out, cmf_aoadmm V no_ext rnd (args66 true false data66 2 (start66 2 2 1)) = Ok out /\
  cmf_aoadmm V no_ext rnd (args66 true false data66 2 (start66 2 2 4)) = Err ValueError /\
  cmf_aoadmm V no_ext rnd (args66 true false data66 2 (start66 3 2 1)) = Err IndexError /\
  cmf_aoadmm V no_ext rnd (args66 true false data66 2 (start66 2 3 1)) = Err ValueError.
Proof.
  destruct ideal_exists as (E & HE & _). set (V := Env (N:=RNum) E (fun _ => []) true).
  destruct (C51_fit_total V no_ext rnd _ 2 (args66_dependable E true false) no_ext_ranks (HE 2%nat)) as (out & H). exists V, out. split; [exact H|].
  assert (REF : forall n r k, _) by (intros n r k; exact (C66_refused_partial V no_ext rnd (args66 true false data66 2 (start66 n r k)) _ (start66 n r k) (start66 2 2 1) out
    (args66_start true false data66 2 2 2 1) H ltac:(repeat split) (args66_start true false data66 2 n r k))).
  split; [|split].
  - apply (proj1 (REF 2%nat 2%nat 4%nat) 0%nat); [cbn; lia|cbn; lia|]. intros (_ & K). discriminate K.
  - destruct (REF 3%nat 2%nat 1%nat) as (_ & K). apply K; [|cbn; lia]. intros [|[|i]] Hi; [split; reflexivity|split; reflexivity|cbn in Hi; lia].
  - destruct (REF 2%nat 3%nat 1%nat) as (_ & K). apply K with (r := 2%Z); try reflexivity; try discriminate.
    + intros [|[|i]] Hi; [split; reflexivity|split; reflexivity|cbn in Hi; lia].
    + exists 0%nat, (ModeKw (N:=RNum) (Some true) None None None None false None None None), []. split; [lia|]. split; [reflexivity|]. split; [repeat split|]. split; [reflexivity|].
      right. right. left. exists 1%nat, 1%nat, (fun _ _ => -1). intros (K1 & _). specialize (K1 eq_refl 0%nat 0%nat ltac:(lia) ltac:(lia)). cbn in K1. lra.
Qed.
(** A start for one of the two matrices raises. *)
Example C66_nonvacuous_few rnd : exists V out, cmf_aoadmm V no_ext rnd (args66 true false data66 2 (start66 2 2 1)) = Ok out /\
  (cmf_aoadmm_short V no_ext rnd (args66 true false data66 2 (start66 1 2 1)) = Err IndexError \/
   cmf_aoadmm_short V no_ext rnd (args66 true false data66 2 (start66 1 2 1)) = Err ValueError).
Proof.
  destruct ideal_exists as (E & HE & _). set (V := Env (N:=RNum) E (fun _ => []) true).
  destruct (C51_fit_total V no_ext rnd _ 2 (args66_dependable E true false) no_ext_ranks (HE 2%nat)) as (out & H). exists V, out. split; [exact H|].
  destruct (C66_too_few_which V no_ext rnd (args66 true false data66 2 (start66 1 2 1)) _ (start66 1 2 1) (start66 2 2 1) out
    (args66_start true false data66 2 2 2 1) H ltac:(repeat split) (args66_start true false data66 2 1 2 1)) as [K|(_ & K)]; auto; try reflexivity; try discriminate.
  intros [|i] Hi; [split; reflexivity|cbn in Hi; lia].
Qed.
(** Without penalties the start of rank 3 is accepted although [rank] is 2. *)
Example C66_nonvacuous_rank rnd : exists V out, cmf_aoadmm V no_ext rnd (args66 false false data66 7 (start66 2 2 1)) = Ok out.
Proof.
  destruct ideal_exists as (E & HE & _). set (V := Env (N:=RNum) E (fun _ => []) true).
  destruct (C51_fit_total V no_ext rnd _ 2 (args66_dependable E false false) no_ext_ranks (HE 2%nat)) as (out & H). exists V, out. rewrite <- H.
  apply (C66_rank_unused V no_ext rnd (args66 false false data66 2 (start66 2 2 1)) _ (start66 2 2 1)); [apply args66_start|repeat split|].
  intros m Hm _. split; [|intros u Hu; exact Hu]. intros kw (M1 & M2 & M3 & M4 & M5 & M6 & M7 & M8 & M9). cbn in *.
  unfold asks_nothing, wants. rewrite M1, M2, M3, M4, M5, M6, M7, M8, M9. cbn. repeat split; auto; discriminate.
Qed.

(** A start for two matrices is accepted with any number of data matrices, and only the first two count. *)
Theorem C66_too_few_refuted rnd : exists V out, starts_from (args66 true true data66 2 (start66 2 2 1)) (start66 2 2 1) /\
  cmf_aoadmm V no_ext rnd (args66 true true data66 2 (start66 2 2 1)) = Ok out /\
  forall Ys, exists out', cmf_aoadmm_short V no_ext rnd (args66 true true (data66 ++ Ys) 2 (start66 2 2 1)) = Ok out' /\ out_cmf out' = out_cmf out.
Proof.
  destruct ideal_exists as (E & HE & _). set (V := Env (N:=RNum) E (fun _ => []) true).
  destruct (C51_fit_total V no_ext rnd _ 2 (args66_dependable E true true) no_ext_ranks (HE 2%nat)) as (out & H). exists V, out. split; [apply args66_start|]. split; [exact H|].
  intros Ys. pose proof (C66_further_matrices_ignored V no_ext rnd (args66 true true data66 2 (start66 2 2 1)) (args66 true true (data66 ++ Ys) 2 (start66 2 2 1)) (start66 2 2 1) Ys
    (args66_start true true data66 2 2 2 1) ltac:(repeat split) eq_refl eq_refl ltac:(discriminate) eq_refl eq_refl eq_refl eq_refl) as K.
  rewrite (C66_models_agree V no_ext rnd (args66 true true data66 2 (start66 2 2 1))) in K; [|discriminate|].
  - rewrite H in K. destruct (cmf_aoadmm_short V no_ext rnd (args66 true true (data66 ++ Ys) 2 (start66 2 2 1))) as [out'|]; [|contradiction]. exists out'. split; [reflexivity|apply K].
  - change (f_data _) with data66. rewrite H. discriminate.
Qed.
Print Assumptions C66_too_few_refuted.
