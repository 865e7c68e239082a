(** C71 and C72 with PARAFAC2: units, orders and the choice of the svd routine. *)
From Coq Require Import Reals Lra Lia List Arith Bool ZArith.
From Verif Require Import Num Numpy RFacts Spec SpecFacts MatFacts ModelSpec SvdFacts Penalties PenaltySpec ProxProofs Parafac2Proofs CoupledMatrices CmfSpec CmfProofs Decomp DecompSpec
  DecompFacts AoRun InitVars InitSpec Parse ParseSpec ParseProofs Fit FitSpec FitProofs P10_Start ResumeSpec StartSpec
  SymSpec SymFacts SymPen SymRun SymFit SymCall Ideal FitExamples P25_Starts P29_Symmetry DecompExamples TurnSpec TurnFacts TurnPolar TurnRefuse P39_Turned.
Import ListNotations.
Local Open Scope R_scope.
Local Notation shaped := PenaltySpec.shaped.

(** ** Independent columns and singular values *)
Lemma svd_independent (M U Vh : rmat) (s : list R) k : mwf M -> mc M = k -> has_svd M k (U, s, Vh) -> finite_svd (N:=RNum) (U, s, Vh) = true -> independent M.
Proof.
  intros WM HM H HF v HV j Hj. pose proof (svd_eq _ _ _ _ _ WM H) as E. pose proof (svd_U _ _ _ _ _ H) as OU. pose proof (svd_VhtVh _ _ _ _ _ H HM) as OV.
  destruct H as (W1 & S1 & S2 & L & W2 & S3 & S4 & _).
  assert (NZ : forall a, (a < k)%nat -> vg s a <> 0).
  { intros a Ha. cbn [finite_svd] in HF. rewrite forallb_forall in HF. apply ntruthy_R. apply HF. apply nth_In. rn. lia. }
  set (x := mbuild (N:=RNum) k 1 (fun i _ => v i)). assert (WX : mwf x) by (unfold x; auto with mwf). assert (RX : mr x = k) by reflexivity. assert (CX : mc x = 1%nat) by reflexivity.
  assert (MX : mmul M x = mzeros (N:=RNum) (mr M) 1).
  { apply mat_ext; auto with mwf. mshape. intros i q Hi Hq. rewrite mget_mmul by mlia. rewrite mget_mzeros by mlia. etransitivity; [|apply (HV i Hi)]. etransitivity; [|symmetry; apply Sum_rsum].
    apply rsum_ext. intros l Hl. unfold x. rewrite mget_mbuild by lia. reflexivity. }
  set (y := mmul Vh x).
  assert (DY : mmul (mdiagm (N:=RNum) s) y = mzeros (N:=RNum) k 1).
  { assert (K : mmul (mtrans U) (mmul M x) = mmul (mdiagm (N:=RNum) s) y).
    { rewrite E at 1. unfold y. rewrite !(mmul_assoc U) by mlia. rewrite <- (mmul_assoc (mtrans U)) by mlia. rewrite OU. rewrite !mmul_assoc by mlia. apply mmul_eye_l; [auto with mwf|mlia]. }
    rewrite <- K, MX. apply mat_ext; auto with mwf; mshape; try lia. intros i q Hi Hq. rewrite mget_mmul by mlia. rewrite mget_mzeros by mlia. apply rsum_zero. intros l Hl. rewrite mget_mzeros by mlia. ring. }
  assert (Y0 : forall a, (a < k)%nat -> rget y a 0 = 0).
  { intros a Ha. pose proof (f_equal (fun m : rmat => rget m a 0) DY) as K. cbv beta in K. rewrite mget_mzeros in K by lia. rewrite mget_mmul in K by (unfold y; mlia).
    rewrite (rsum_single _ a) in K by ((unfold y; mlia) || (intros b Hb Hne; rewrite mget_mdiagm by mlia; destruct (Nat.eqb_spec a b); [congruence|rn; ring])).
    rewrite mget_mdiagm, Nat.eqb_refl in K by mlia. change (rget y a 0) with (mget (N:=RNum) y a 0). specialize (NZ a Ha). apply Rmult_integral in K as [K|K]; [contradiction|exact K]. }
  assert (XE : x = mmul (mtrans Vh) y). { unfold y. rewrite <- mmul_assoc by mlia. rewrite OV. symmetry. apply mmul_eye_l; [exact WX|congruence]. }
  pose proof (f_equal (fun m : rmat => rget m j 0) XE) as K. cbv beta in K. rewrite mget_mmul in K by (unfold y; mlia). unfold x in K at 1. rewrite mget_mbuild in K by lia. etransitivity; [exact K|].
  apply rsum_zero. intros a Ha. rewrite Y0 by (revert Ha; mshape; lia). ring.
Qed.
Lemma independent_svd (M : rmat) k d : mwf M -> mc M = k -> has_svd M k d -> (finite_svd (N:=RNum) d = true <-> independent M).
Proof.
  intros WM HM H. destruct d as [[U s] Vh]. split; [now apply (svd_independent M U Vh s k)|]. intros HI. cbn [finite_svd]. apply forallb_forall. intros x Hx. apply ntruthy_R.
  destruct (In_nth _ _ 0 Hx) as (a & Ha & <-). assert (L : length s = k) by apply H. pose proof (svd_pos M U Vh s k WM HM H HI a ltac:(lia)) as Q. unfold vg in Q. cbn in Q |- *. lra.
Qed.
Lemma independent_scale u (M : rmat) : u <> 0 -> (independent (mscale (N:=RNum) u M) <-> independent M).
Proof.
  intros U0. unfold independent. mshape.
  assert (K : forall v i, (i < mr M)%nat -> Sum (mc M) (fun j => rget (mscale (N:=RNum) u M) i j * v j) = u * Sum (mc M) (fun j => rget M i j * v j)).
  { intros v i Hi. etransitivity; [apply Sum_rsum|]. etransitivity; [|apply f_equal; symmetry; apply Sum_rsum]. rewrite <- rsum_scal. apply rsum_ext. intros j Hj. rewrite mget_mscale by assumption. ring. }
  split; intros H v HV; apply H; intros i Hi; specialize (HV i Hi); specialize (K v i Hi); [rewrite <- (Rmult_0_r u), <- HV; exact K|].
  rewrite HV in K. apply Rmult_integral_contrapositive_currified with (r2 := 1) in U0; [|lra]. destruct (Rmult_integral u (Sum (mc M) (fun j => rget M i j * v j))) as [Q|Q]; [symmetry; exact K|lra|exact Q].
Qed.

(** ** A routine that is correct, or refuses *)
Lemma mwfb_iff (M : rmat) : mwfb M = true <-> mwf M.
Proof.
  unfold mwfb, mwf. rewrite andb_true_iff, Nat.eqb_eq, forallb_forall, Forall_forall. split; intros (H1 & H2); (split; [exact H1|]); intros x Hx; specialize (H2 x Hx); now apply Nat.eqb_eq.
Qed.
Definition strict (E : ext (N:=RNum)) (rank : nat) : ext (N:=RNum) :=
  Ext (N:=RNum) (fun M k => let d := x_svd E M k in
    if (k =? rank)%nat && mwfb M && (mc M =? rank)%nat && (rank <=? mr M)%nat && negb (finite_svd d) then (Mat (N:=RNum) 0 1 [], [0], Mat (N:=RNum) 0 0 []) else d) (x_tv E).
Lemma strict_or E rank M k : x_svd (strict E rank) M k = x_svd E M k \/ refused (x_svd (strict E rank) M k).
Proof. unfold strict. cbn [x_svd]. destruct (_ && _); [right; split; [discriminate|now left]|now left]. Qed.
Lemma strict_tall E rank (M : rmat) : mwf M -> mc M = rank -> (rank <= mr M)%nat ->
  (finite_svd (x_svd E M rank) = true /\ x_svd (strict E rank) M rank = x_svd E M rank) \/ (finite_svd (x_svd E M rank) = false /\ refused (x_svd (strict E rank) M rank)).
Proof.
  intros WM HM HR. unfold strict. cbn [x_svd]. rewrite (proj2 (mwfb_iff M) WM), HM, Nat.eqb_refl. rewrite (proj2 (Nat.leb_le rank (mr M)) HR). cbn [andb]. destruct (finite_svd (x_svd E M rank)); [now left|right]. split; [reflexivity|]. split; [discriminate|now left].
Qed.
Lemma strict_agree E E' rank sg : rearranges rank sg -> svd_correct E rank -> svd_correct E' rank -> svds_agree (strict E rank) (strict E' rank) rank sg.
Proof.
  intros Hs HE HE' t M M' MM T0 S1 S2. pose proof MM as ((W & R0 & C0) & (W' & R0' & C0') & _).
  pose proof (HE M W C0 ltac:(lia)) as D1. pose proof (HE' M' W' C0' ltac:(lia)) as D2. pose proof (moved_finite rank t sg M M' _ _ Hs T0 MM S1 S2 D1 D2) as FE.
  destruct (strict_tall E rank M W C0 ltac:(lia)) as [(F1 & X1)|(F1 & X1)], (strict_tall E' rank M' W' C0' ltac:(lia)) as [(F2 & X2)|(F2 & X2)]; try congruence.
  - left. rewrite X1, X2. auto.
  - right. split; now apply refused_infinite.
Qed.
Lemma strict_nearest_shaped E rank : svd_correct E rank -> nearest_shaped (strict E rank) rank.
Proof.
  intros HE M Q W C0 T H. destruct (strict_tall E rank M W C0 T) as [(F1 & X1)|(F1 & X1)].
  - unfold nearest in H. rewrite X1 in H. apply (correct_shaped E rank HE M Q W C0 T H).
  - unfold nearest in H. pose proof (refused_err _ X1) as RE. destruct (x_svd (strict E rank) M rank) as [[U s] Vh]. rewrite RE in H. discriminate H.
Qed.
Lemma svd_scaled (M U Vh : rmat) (s : list R) k u : 0 < u -> has_svd M k (U, s, Vh) -> has_svd (mscale (N:=RNum) u M) k (U, map (Rmult u) s, Vh).
Proof.
  intros U0 (W1 & S1 & S2 & L & W2 & S3 & S4 & O1 & O2 & Sn & EM). unfold has_svd. mshape. split; [exact W1|]. split; [exact S1|]. split; [exact S2|]. split; [now rewrite map_length|]. split; [exact W2|]. split; [exact S3|]. split; [exact S4|].
  assert (AT : forall a, at_ (map (Rmult u) s) a = u * at_ s a).
  { intros a. unfold at_. cbn. rewrite <- (Rmult_0_r u) at 1. apply map_nth. }
  split; [exact O1|]. split; [exact O2|]. split; [intros a Ha; rewrite AT; specialize (Sn a Ha); nra|]. intros i j Hi Hj. etransitivity; [apply mget_mscale; assumption|].
  rewrite (EM i j Hi Hj). etransitivity; [apply f_equal; apply Sum_rsum|]. etransitivity; [|symmetry; apply Sum_rsum]. rewrite <- rsum_scal. apply rsum_ext. intros a Ha. rewrite AT. rn. ring.
Qed.
Lemma strict_nearest E E' rank u : u <> 0 -> svd_correct E rank -> svd_correct E' rank -> same_nearest (strict E rank) (strict E' rank) rank u.
Proof.
  intros U0 HE HE' M W C0 T. assert (UU : 0 < u * u) by nra. set (M' := mscale (N:=RNum) (u * u) M).
  assert (W' : mwf M') by (unfold M'; auto with mwf). assert (C0' : mc M' = rank) by exact C0. assert (T' : (rank <= mr M')%nat) by exact T.
  pose proof (HE M W C0 T) as D1. pose proof (HE' M' W' C0' T') as D2.
  pose proof (independent_svd M rank _ W C0 D1) as I1. pose proof (independent_svd M' rank _ W' C0' D2) as I2. pose proof (independent_scale (u * u) M ltac:(lra)) as I3. fold M' in I3.
  unfold nearest. destruct (strict_tall E rank M W C0 T) as [(F1 & X1)|(F1 & X1)], (strict_tall E' rank M' W' C0' T') as [(F2 & X2)|(F2 & X2)].
  - rewrite X1, X2. destruct (x_svd E M rank) as [[U s] Vh], (x_svd E' M' rank) as [[U' s'] Vh']. pose proof (svd_scaled M U Vh s rank (u * u) UU D1) as D3. fold M' in D3.
    destruct (proc_shape _ _ _ _ _ C0 D1) as (_ & _ & _ & Q4), (proc_shape _ _ _ _ _ C0' D2) as (_ & _ & _ & Q4'). unfold matmul. rewrite Q4, Q4', !Nat.eqb_refl. f_equal.
    apply (polar_unique M' U Vh U' Vh' (map (Rmult (u * u)) s) s' rank W' C0'); [now apply I2|exact D3|exact D2].
  - exfalso. assert (finite_svd (x_svd E' M' rank) = true) by (apply I2, I3, I1, F1). congruence.
  - exfalso. assert (finite_svd (x_svd E M rank) = true) by (apply I1, I3, I2, F2). congruence.
  - pose proof (refused_err _ X1) as R1. pose proof (refused_err _ X2) as R2. destruct (x_svd (strict E rank) M rank) as [[U s] Vh], (x_svd (strict E' rank) M' rank) as [[U' s'] Vh']. rewrite R1, R2. reflexivity.
Qed.
Lemma with_le E Ec (HT : x_tv Ec = x_tv E) (HV : forall M k, x_svd Ec M k = x_svd E M k \/ refused (x_svd Ec M k)) d sl : ok_le (fit_with Ec d sl) (fit_with E d sl).
Proof.
  destruct sl as [s0 l2]. unfold fit_with. apply ok_bind; [apply ok_refl|]. intros _. apply ok_bind; [apply ok_refl|]. intros fl. apply ok_bind; [|intros [s1 dg]; apply ok_refl]. now apply ok_run.
Qed.
(** What [Vc] does not refuse, the strict routine does not refuse. *)
Lemma refusing_strict V Vc rank : svd_correct (e_ext V) rank -> refuses_dependent V Vc rank -> (forall M k, x_svd (e_ext Vc) M k = x_svd (strict (e_ext V) rank) M k \/ refused (x_svd (e_ext Vc) M k)).
Proof.
  intros HE HV M k. destruct (refuses_or V Vc rank HV M k) as [Q|Q]; [|now right]. unfold strict. cbn [x_svd].
  destruct ((k =? rank)%nat && mwfb M && (mc M =? rank)%nat && (rank <=? mr M)%nat && negb (finite_svd (x_svd (e_ext V) M k))) eqn:EB; [|now left]. right.
  apply andb_prop in EB as (EB & F). apply andb_prop in EB as (EB & T). apply andb_prop in EB as (EB & EC). apply andb_prop in EB as (EK & WM). apply mwfb_iff in WM. apply Nat.eqb_eq in EK, EC. apply Nat.leb_le in T. subst k.
  destruct HV as (_ & _ & _ & HV). apply HV; [exact EC|]. intros HI. apply (independent_svd M rank _ WM EC (HE M WM EC T)) in HI. rewrite HI in F. discriminate F.
Qed.

(** ** Units and orders, with PARAFAC2 *)
(** The nearest orthonormal matrix is unique only for matrices whose columns are independent.  If the first
    call returns with a routine that refuses to decompose any other matrix, then both calls return,
    each with its own correct routine, and the results correspond. *)
Theorem C71_parafac2 V V' Vc IE IE' rnd rnd' (a b : fitR) rank h c c' v v' o :
  let z := data_sizes a rank in
  sensible V a rank -> sensible V' b rank -> ranks_kept IE -> ranks_kept IE' -> svd_correct (e_ext V) rank -> svd_correct (e_ext V') rank -> refuses_dependent V Vc rank ->
  proper z h -> moved_data z h (f_data a) (f_data b) -> same_settings a b -> ridge_moved h a b -> requests_moved h V V' a b ->
  starts_at V IE rnd a c v -> starts_at V' IE' rnd' b c' v' -> moved_cmf z h c c' -> moved_vars z h v v' ->
  losses_kept h a \/ ~ tol_set (f_tol a) ->
  start_without_svd a -> norms_independent a rank -> cmf_aoadmm Vc IE rnd a = Ok o ->
  cmf_aoadmm V IE rnd a = Ok o /\ exists o', cmf_aoadmm V' IE' rnd' b = Ok o' /\ moved_output z h (losses_kept h a) o o'.
Proof.
  intros z HS HS' RK RK' HE HE' HV HP HX SS RM RQ ST ST' MC MV HL SW NI HO.
  assert (HL' : losses_equal h V a \/ ~ tol_set (f_tol a)) by (destruct HL as [L|L]; [left; now apply kept_equal|now right]).
  pose proof HP as (_ & B0 & _ & PC & _).
  destruct (fit_moved_with V V' IE IE' rnd rnd' a b rank z h HS HS' RK RK' (strict (e_ext V) rank) (strict (e_ext V') rank) eq_refl eq_refl (strict_agree _ _ rank _ PC HE HE') (strict_nearest_shaped _ _ HE)
    (fun _ _ => strict_nearest _ _ rank (h_B h) (Rgt_not_eq _ _ B0) HE HE') eq_refl HP HX SS RM (requests_penalties z h V V' a b HP RQ) _ _ _ _ ST ST' MC MV HL') as (sl & sl' & F1 & F2 & SO).
  rewrite !fit_is_with in *. rewrite (setup_refusing V Vc rank HV IE rnd a NI SW), F1 in HO. rewrite F1, F2. cbn [bind] in *.
  apply (with_le (strict (e_ext V) rank) (e_ext Vc)) in HO; [|apply HV|now apply refusing_strict].
  destruct (outcome_ok _ _ _ _ SO HO) as (o' & EO & TO).
  split; [revert HO; apply with_le; [reflexivity|apply strict_or]|]. exists o'. split; [revert EO; apply with_le; [reflexivity|apply strict_or]|].
  revert TO. apply output_weaken. apply kept_equal.
Qed.
Print Assumptions C71_parafac2.

(** ** The choice of the routine, with PARAFAC2 *)
(** If the call returns with a routine that refuses matrices with dependent columns, any two correct routines
    make it return the same, to the last entry. *)
Theorem C72_parafac2 V V' Vc IE IE' rnd (a : fitR) rank o :
  same_but_svd V V' -> sensible V a rank -> sensible V' a rank -> accepted V a -> same_columns (f_data a) -> start_ok a rank ->
  svd_correct (e_ext V) rank -> svd_correct (e_ext V') rank -> refuses_dependent V Vc rank -> norms_independent a rank -> cmf_aoadmm Vc IE rnd a = Ok o ->
  cmf_aoadmm V IE rnd a = Ok o /\ cmf_aoadmm V' IE' rnd a = Ok o.
Proof.
  intros SV HS HS' AC SC ST HE HE' HV NI HO. rewrite (start_any_ext V IE rnd a rank ST), (start_any_ext V' IE' rnd a rank ST). rewrite (start_any_ext Vc IE rnd a rank ST) in HO.
  assert (SW : start_without_svd a) by (unfold start_ok in ST; split; intros K; rewrite K in ST; exact ST).
  pose proof (routines_core V V' (strict (e_ext V) rank) (strict (e_ext V') rank) rnd a rank SV HS HS' AC SC ST eq_refl eq_refl (strict_agree _ _ rank _ (id_rearranges rank) HE HE') (strict_nearest_shaped _ _ HE)
    (fun _ _ => strict_nearest _ _ rank 1 R1_neq_R0 HE HE')) as EQ.
  rewrite !fit_is_with in *. rewrite (setup_refusing V Vc rank HV no_ext rnd a NI SW) in HO.
  destruct (setup V no_ext rnd a) as [sl|]; [|discriminate HO]. cbn [bind] in *. apply (with_le (strict (e_ext V) rank) (e_ext Vc)) in HO; [|apply HV|now apply refusing_strict].
  rewrite HO in EQ. split; [revert HO; apply with_le; [reflexivity|apply strict_or]|].
  destruct (setup V' no_ext rnd a) as [sl'|]; [|discriminate EQ]. cbn [bind] in *. revert EQ. apply with_le; [reflexivity|apply strict_or].
Qed.
Print Assumptions C72_parafac2.

(** ** A PARAFAC2 call in other units and with another routine *)
(** The call of [C83_parafac2_nonvacuous]; in the second call the data and B are in units of 2, and the routine
    gives all singular vectors the opposite sign. *)
Definition units40 : change := Change 1 (1 / 2) 1 (fun i => i) (fun _ i => i) (fun i => i).
Definition rnd40 : rand (N:=RNum) := fun _ _ => 1 / 2.
Definition state40 : state (N:=RNum) :=
  St (N:=RNum) (Cmf (N:=RNum) None (m11 1) [col2 (1 / 2) 0] (m11 1)) [] [BReg (N:=RNum) (Parafac2 1 true true) (APf2 [col2 1 0] (m11 (1 / 2))) [col2 0 0]] [] None.
Lemma setup40 V : setup V no_ext rnd40 (args83p (col2 (1 / 2) 0) (col2 (1 / 2) 0)) = Ok (state40, (None, None, None)).
Proof.
  pose proof (parse83 V no_mat no_mat) as PA. cbn [f_kw f_aux f_dual f_regs args83p] in PA.
  unfold setup, args83p; cbn [f_svd f_data f_rank f_init f_l2 f_kw f_regs f_aux f_dual f_updA f_updB f_updC negb].
  match goal with |- _ = Ok (?s, _) => match goal with |- context[initialize_cmf ?a ?b ?c ?d ?e ?f ?g] => assert (E1 : initialize_cmf a b c d e f g = Ok (st_cmf s, 0%nat)) by reflexivity end end.
  rewrite E1; cbn [bind listify]; rewrite PA. reflexivity.
Qed.
Definition other_routine (V : envR) : envR := Env (N:=RNum) (opposite (e_ext V)) (e_eigvals V) (e_has_tv V).
Lemma moved_one n x y k (p q : nat -> nat) : (n = 1)%nat -> (forall i, p i = i) -> (forall i, q i = i) -> y = k * x -> moved n 1 k p q (m11 x) (m11 y).
Proof. intros -> Hp Hq Ey. split; [repeat constructor|]. split; [repeat constructor|]. intros i j Hi Hj. rewrite Hp, Hq. assert (i = 0)%nat by lia. assert (j = 0)%nat by lia. subst. reflexivity. Qed.
Lemma moved_two x x' y y' k (p q : nat -> nat) : (forall i, p i = i) -> (forall i, q i = i) -> x' = k * x -> y' = k * y -> moved 2 1 k p q (col2 x y) (col2 x' y').
Proof. intros Hp Hq Ex Ey. split; [repeat constructor|]. split; [repeat constructor|]. intros i j Hi Hj. rewrite Hp, Hq. assert (j = 0)%nat by lia. subst j. destruct i as [|[|i]]; [subst; reflexivity|subst; reflexivity|lia]. Qed.
Example C71_parafac2_nonvacuous : let a := args83p (col2 1 0) (col2 1 0) in let b := args83p (col2 (1 / 2) 0) (col2 (1 / 2) 0) in
  exists V V' Vc c c' v v' o, let z := data_sizes a 1 in
  sensible V a 1 /\ sensible V' b 1 /\ ranks_kept no_ext /\ svd_correct (e_ext V) 1 /\ svd_correct (e_ext V') 1 /\ refuses_dependent V Vc 1 /\
  proper z units40 /\ moved_data z units40 (f_data a) (f_data b) /\ same_settings a b /\ ridge_moved units40 a b /\ requests_moved units40 V V' a b /\
  starts_at V no_ext rnd83 a c v /\ starts_at V' no_ext rnd40 b c' v' /\ moved_cmf z units40 c c' /\ moved_vars z units40 v v' /\ ~ tol_set (f_tol a) /\
  start_without_svd a /\ norms_independent a 1 /\ cmf_aoadmm Vc no_ext rnd83 a = Ok o /\ wants_parafac2 a /\ x_svd (e_ext V') (m11 1) 1%nat <> x_svd (e_ext V) (m11 1) 1%nat.
Proof.
  intros a b. destruct C83_parafac2_nonvacuous as (V & Vc & _ & _ & _ & _ & o & HS & _ & _ & HE & RD & _ & _ & _ & _ & _ & _ & WP & _ & _ & _ & _ & _ & SW & NI & OK). fold a in HS, WP, SW, NI, OK.
  set (V' := other_routine V). assert (HE' : svd_correct (e_ext V') 1) by (apply opposite_correct; exact HE).
  assert (HS' : sensible V' b 1) by (apply sensible83; [apply col2_wf|cbn; lia|cbn; lia]).
  destruct (setup83 V) as (SA & _). pose proof (setup40 V') as SB. fold a in SA. fold b in SB.
  pose proof (setup_start V no_ext rnd83 a 1 _ _ HS no_ext_ranks ltac:(discriminate) SA) as TA. pose proof (setup_start V' no_ext rnd40 b 1 _ _ HS' no_ext_ranks ltac:(discriminate) SB) as TB.
  exists V, V', Vc. do 4 eexists. exists o. cbv zeta. split; [exact HS|]. split; [exact HS'|]. split; [exact no_ext_ranks|]. split; [exact HE|]. split; [exact HE'|]. split; [exact RD|].
  split. { split; [cbn; lra|]. split; [cbn; lra|]. split; [cbn; lra|]. split; [apply id_rearranges|]. split; [apply id_rearranges|]. intros i _. apply id_rearranges. }
  split. { split; [reflexivity|]. split; [reflexivity|]. intros [|i] Hi; [|cbn in Hi; lia]. apply moved_two; try reflexivity; unfold h_X; cbn; lra. }
  split; [repeat split|]. split. { intros m x y Hm M M'. cbn in M, M'. subst. cbn. lra. }
  split.
  { intros m Hm _. split; [|intros u u' HU HU'; cbn in HU, HU'; rewrite HU, HU'; constructor]. intros kw kw' (K1 & K2 & K3 & K4 & K5 & K6 & K7 & K8 & K9) (J1 & J2 & J3 & J4 & J5 & J6 & J7 & J8 & J9).
    cbn in K1, K2, K3, K4, K5, K6, K7, K8, K9, J1, J2, J3, J4, J5, J6, J7, J8, J9. unfold moved_kw. rewrite K1, K2, K3, K4, K5, K6, K7, K8, K9, J1, J2, J3, J4, J5, J6, J7, J8, J9.
    cbn [option_map strength]. split; [reflexivity|]. split; [reflexivity|]. split; [reflexivity|]. split; [reflexivity|]. split; [reflexivity|]. split; [reflexivity|]. split; [discriminate|]. split; [reflexivity|]. split; [intros K; now destruct K|]. split; [exact Logic.I|]. split; [reflexivity|].
    intros _. destruct m as [|[|m]]; cbn; auto; [intros i j; reflexivity|intros j; reflexivity]. }
  split; [exact TA|]. split; [exact TB|].
  split. { split; [exact Logic.I|]. split; [apply moved_one; cbn; try reflexivity; lra|]. split; [|apply moved_one; cbn; try reflexivity; lra]. split; [reflexivity|]. split; [reflexivity|]. intros [|i] Hi; [|cbn in Hi; lia]. apply moved_two; try reflexivity; cbn; lra. }
  split. { split; [constructor|]. split; [constructor|]. split; [constructor; [|constructor]|].
    - split; [reflexivity|]. split; [split; [reflexivity|intros [|i] Hi; [|cbn in Hi; lia]; repeat constructor]|]. apply moved_one; cbn; try reflexivity; lra.
    - split; [constructor; [|constructor]|split; constructor]. split; [reflexivity|]. split; [reflexivity|]. intros [|i] Hi; [|cbn in Hi; lia]. apply moved_two; try reflexivity; cbn; lra. }
  split; [intros (x & K & _); discriminate K|]. split; [exact SW|]. split; [exact NI|]. split; [exact OK|]. split; [exact WP|]. apply opposite_other. exact HE.
Qed.
Example C72_parafac2_nonvacuous : let a := args83p (col2 1 0) (col2 1 0) in exists V V' Vc o,
  same_but_svd V V' /\ sensible V a 1 /\ sensible V' a 1 /\ accepted V a /\ same_columns (f_data a) /\ start_ok a 1 /\ svd_correct (e_ext V) 1 /\ svd_correct (e_ext V') 1 /\ refuses_dependent V Vc 1 /\
  norms_independent a 1 /\ cmf_aoadmm Vc no_ext rnd83 a = Ok o /\ wants_parafac2 a /\ x_svd (e_ext V') (m11 1) 1%nat <> x_svd (e_ext V) (m11 1) 1%nat.
Proof.
  intros a. destruct C83_parafac2_nonvacuous as (V & Vc & _ & _ & _ & _ & o & HS & _ & _ & HE & RD & _ & _ & _ & _ & _ & _ & WP & _ & _ & _ & _ & _ & SW & NI & OK). fold a in HS, WP, SW, NI, OK.
  exists V, (other_routine V), Vc, o. split; [repeat split|]. split; [exact HS|]. split; [apply sensible83; [apply col2_wf|cbn; lia|cbn; lia]|].
  split. { split; [reflexivity|]. split; [exact Logic.I|]. split; [repeat split|]. split; [exact Logic.I|]. intros m kw Hm (K1 & K2 & K3 & K4 & K5 & K6 & K7 & K8 & K9). cbn in K4, K6, K7, K8. unfold acceptable. rewrite K4, K6, K7, K8. cbn. repeat split; try lra; try (intros K; now destruct K). }
  split. { intros X [<-|[]]. reflexivity. }
  split. { cbn. exists (Cmf (N:=RNum) None (m11 1) [col2 1 0] (m11 1)). split; [reflexivity|]. split; [|reflexivity]. split; [|split; [reflexivity|]].
    - split; [repeat constructor|]. split; [repeat constructor|]. split; [reflexivity|]. split; [reflexivity|]. split; [|discriminate]. intros [|i] Hi; [|cbn in Hi; lia]. split; [repeat constructor|reflexivity].
    - intros [|i] Hi; [|cbn in Hi; lia]. split; [repeat constructor|]. split; reflexivity. }
  split; [exact HE|]. split; [apply opposite_correct; exact HE|]. split; [exact RD|]. split; [exact NI|]. split; [exact OK|]. split; [exact WP|]. apply opposite_other. exact HE.
Qed.
