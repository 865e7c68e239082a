(** The built-in penalties raise nothing but divisions by zero, and, for the unit simplex,
    the error of the root search. *)
From Coq Require Import Reals Lra Lia List Arith Bool ZArith.
From Verif Require Import Num Numpy Unimodal RFacts Spec SpecFacts MatFacts SvdFacts ModelSpec Penalties PenaltySpec
  ProxProofs TVProofs GenL2Proofs SimplexProofs Parafac2Proofs Parafac2Main PenaltyMain CoupledMatrices CmfSpec CmfProofs
  Decomp DecompSpec DecompFacts AdmmProofs AdmmB AdmmA AdmmRegs AdmmLoop AdmmOne AoState AoLoop AoRun AdmmOpt Total TotalRun
  InitVars InitSpec InitProofs Parse ParseSpec ParseProofs Fit FitSpec FitProofs P05_Runs P06_Init P11_Total
  Custom CustomBase CustomSpec CustomFit CustomCalls CustomTotalSpec CustomTotal FailSpec FailRun.
Import ListNotations.
Local Open Scope R_scope.

Lemma fmu_fail (E : ext (N:=RNum)) (p : penalty (N:=RNum)) (V : rmat) rho e :
  mwf V -> (0 < mr V)%nat -> (0 < mc V)%nat -> valid_penalty p (mr V) -> ~ is_parafac2 p -> factor_matrix_update E p V rho = Err e ->
  e = NonFinite \/ (p = UnitSimplex /\ e = RuntimeError).
Proof.
  intros W Hr Hc Hv NP.
  destruct p as [|lo hi|reg nn|M U s|reg l1|b nn| |nn|n ub uc].
  - discriminate.
  - destruct Hv as (Hb & Hn). destruct (box_update E V rho lo hi W Hb Hn) as (X' & H1 & _). rewrite H1. discriminate.
  - cbn [factor_matrix_update]. destruct (negb _); [intros K; injection K as <-; now left|]. destruct nn; discriminate.
  - cbn [factor_matrix_update]. destruct (negb _); [intros K; injection K as <-; now left|]. discriminate.
  - cbn [factor_matrix_update]. destruct (negb _); [intros K; injection K as <-; now left|]. cbv zeta. destruct (ntruthy (N:=RNum) l1); discriminate.
  - discriminate.
  - destruct (simplex_update E V rho W Hr) as [(X' & Q & H1 & _)|(H1 & _)]; rewrite H1; [discriminate|]. intros K. injection K as <-. now right.
  - destruct (unimodality_update E V rho nn W Hr Hc) as (X' & H1 & _). rewrite H1. discriminate.
  - exfalso; apply NP; exact I.
Qed.
Section Pf2.
Variable al : exn -> Prop.
Notation Y := (yields al).
Hypothesis NF : al NonFinite.
Lemma pf2_fail E k (fms : list rmat) (rhos : list R) ub uc :
  (forall i, (i < length fms)%nat -> mwf (nth i fms no_mat) /\ mc (nth i fms no_mat) = k /\ (k <= mr (nth i fms no_mat))%nat) ->
  svd_correct E k -> length rhos = length fms -> fms <> [] ->
  forall n (b : list rmat) (D : rmat), shaped D k k -> basis_shape k fms b ->
  Y (fun r => basis_shape k fms (fst r) /\ shaped (snd r) k k) (pf2_loop E ub uc fms rhos n b D).
Proof.
  intros Hf Hsvd Hl HN n b D HD Hb. destruct (pf2_loop E ub uc fms rhos n b D) as [(b', D')|e] eqn:EL; cbn.
  { destruct (pf2_loop_shape E k fms rhos ub uc Hf Hsvd Hl n b b' D D' HD Hb EL) as (X1 & X2 & _). auto. }
  revert b D HD Hb EL. induction n as [|n IH]; intros b D HD Hb; cbn [pf2_loop]; [discriminate|].
  assert (K1 : exists b', (if ub then pf2_basis E fms D else Ok b) = Ok b').
  { destruct ub; [|eexists; reflexivity]. apply mapM_total. apply (in_nth _ _ no_mat). intros i Hi.
    destruct (Hf i Hi) as (W & C & Hk). destruct HD as (WD & D1 & D2). rewrite D1.
    specialize (Hsvd (mmul (nth i fms no_mat) (mtrans D)) ltac:(auto with mwf) ltac:(mshape; congruence) ltac:(mshape; assumption)).
    destruct (x_svd E _ k) as [[U s] Vh]. destruct Hsvd as (W1 & S1 & S2 & _ & W2 & S3 & _). unfold matmul. rewrite S2, S3, Nat.eqb_refl.
    eexists; reflexivity. }
  destruct K1 as (b' & Hb1). rewrite Hb1. cbn [bind].
  assert (Hb' : basis_shape k fms b').
  { destruct ub; [|injection Hb1 as <-; assumption].
    destruct (pf2_loop_shape E k fms rhos true false Hf Hsvd Hl 1 b b' D D HD Hb) as (_ & X & _); [|exact X].
    cbn [pf2_loop]. rewrite Hb1. reflexivity. }
  destruct (if uc then pf2_coord (N:=RNum) fms b' rhos else Ok D) as [D'|e'] eqn:HD1; cbn [bind].
  2:{ intros K. injection K as <-. destruct uc; [|discriminate]. revert HD1. unfold pf2_coord. destruct (msum_some (pf2_terms (N:=RNum) fms b' rhos)) as (S & ->).
    - destruct Hb' as (Lb & _). unfold pf2_terms. intros X. apply (f_equal (@length _)) in X. rewrite length_map2, combine_length in X.
      rn. destruct fms; [congruence|]. cbn [length] in *. lia.
    - destruct (ntruthy _); [discriminate|]. intros K. injection K as <-. exact NF. }
  destruct (negb uc || negb ub) eqn:UU; [discriminate|].
  apply IH; [|assumption]. destruct (pf2_loop_shape E k fms rhos ub uc Hf Hsvd Hl 1 b b' D D' HD Hb) as (X & _); [|exact X].
  cbn [pf2_loop]. rewrite Hb1. cbn [bind]. rewrite HD1. cbn [bind]. rewrite UU. reflexivity.
Qed.
End Pf2.

Section Templates.
Context {X : Type}.
Variable al : exn -> Prop.
Notation Y := (yields al).
Implicit Types (c : cls (N:=RNum) X).
Lemma y_by_matrices (f : matR -> R -> uaux (N:=RNum) X -> res (uaux X)) k : forall n J (I : nat -> uaux (N:=RNum) X -> Prop) Vs rhos l d,
  (forall i V rho x, (i < n)%nat -> shaped V (J i) k -> 0 <= rho -> I i x -> Y (I i) (f V rho x)) ->
  list_shaped n J k Vs -> length rhos = n -> Forall (fun rho => 0 <= rho) rhos -> length l = n -> (forall i, (i < n)%nat -> I i (nth i l d)) ->
  Y (fun r => length r = n /\ forall i, (i < n)%nat -> I i (nth i r d)) (by_matrices (N:=RNum) f Vs rhos l).
Proof.
  induction n as [|n IH]; intros J I Vs rhos l d H (LV & SV) Lr Fr Ll Hl.
  - destruct Vs; [|discriminate]. cbn [by_matrices]. cbn. split; [reflexivity|]. intros i Hi. lia.
  - destruct Vs as [|V Vs]; [discriminate|]. destruct rhos as [|rho rhos]; [discriminate|]. destruct l as [|x l]; [discriminate|]. cbn [by_matrices].
    inversion Fr as [|? ? F1 F2]; subst. eapply y_bind; [apply (H 0%nat V rho x); [lia|apply (SV 0%nat); lia|exact F1|apply (Hl 0%nat); lia]|]. intros y Iy.
    eapply y_bind; [apply (IH (fun i => J (S i)) (fun i => I (S i)) Vs rhos l d); [intros i; intros; apply (H (S i)); auto; lia| |now injection Lr|exact F2|now injection Ll|intros i Hi; apply (Hl (S i)); lia]|].
    { split; [now injection LV|]. intros i Hi. apply (SV (S i)). lia. }
    intros r (Lr' & Hr). cbn [yields]. split; [cbn; now rewrite Lr'|]. intros [|i] Hi; [exact Iy|]. cbn [nth]. apply Hr. lia.
Qed.
Lemma y_by_pairs (f : uaux (N:=RNum) X -> matR -> res matR) k : forall n J (I : nat -> uaux (N:=RNum) X -> Prop) l Ms d,
  (forall i x M, (i < n)%nat -> I i x -> shaped M (J i) k -> Y (fun D => shaped D (J i) k) (f x M)) ->
  list_shaped n J k Ms -> length l = n -> (forall i, (i < n)%nat -> I i (nth i l d)) ->
  Y (fun r => list_shaped n J k r) (by_pairs (N:=RNum) f l Ms).
Proof.
  induction n as [|n IH]; intros J I l Ms d H (LM & SM) Ll Hl.
  - destruct l; [|discriminate]. cbn [by_pairs]. cbn. split; [reflexivity|]. intros i Hi. lia.
  - destruct l as [|x l]; [discriminate|]. destruct Ms as [|M Ms]; [discriminate|]. cbn [by_pairs].
    eapply y_bind; [apply (H 0%nat x M); [lia|apply (Hl 0%nat); lia|apply (SM 0%nat); lia]|]. intros y Sy.
    eapply y_bind; [apply (IH (fun i => J (S i)) (fun i => I (S i)) l Ms d); [intros i; intros; apply (H (S i)); auto; lia| |now injection Ll|intros i Hi; apply (Hl (S i)); lia]|].
    { split; [now injection LM|]. intros i Hi. apply (SM (S i)). lia. }
    intros r (Lr & Sr). cbn [yields]. split; [cbn; now rewrite Lr|]. intros [|i] Hi; [exact Sy|]. cbn [nth]. apply Sr. lia.
Qed.
Lemma y_matrices n J k (I : nat -> uaux (N:=RNum) X -> Prop) c : u_base c <> BMatrices -> u_mats c = None -> u_subs c = None ->
  (forall i, (i < n)%nat -> reliable_matrix al (J i) k (I i) c) -> (forall Ms, list_shaped n J k Ms -> Y (fun _ => True) (pen_method c (inr Ms))) ->
  reliable_matrices al n J k (each n I) c.
Proof.
  intros HB HM HS H HP. split; [|split; [|exact HP]].
  - intros Vs rhos x SV Lr Fr (l & -> & Ll & Hl). unfold mats_method. rewrite HM.
    assert (K : Y (fun r => length r = n /\ forall i, (i < n)%nat -> I i (nth i r (UMat no_mat))) (by_matrices (mat_method c) Vs rhos l)).
    { apply (y_by_matrices (mat_method c) k n J I Vs rhos l (UMat no_mat)); auto. intros i V rho x Hi. apply (H i Hi). }
    destruct (u_base c); [congruence| |]; (eapply y_bind; [exact K|]; intros r (Lr' & Hr); cbn [yields]; exists r; auto).
  - intros x Ms (l & -> & Ll & Hl) SM. unfold subs_method. rewrite HS. apply (y_by_pairs (sub_method c) k n J I l Ms (UMat no_mat)); auto.
    intros i x M Hi. apply (H i Hi).
Qed.
End Templates.

Section Builtin.
Context {X : Type} (E : ext (N:=RNum)) (rnd : rand (N:=RNum)).
Variable al : exn -> Prop.
Notation Y := (yields al).
Hypothesis NF : al NonFinite.
Implicit Types (p : penalty (N:=RNum)).
Lemma penalty_value p (M : rmat) : ~ is_parafac2 p -> Y (fun _ => True) (penalty_mat (N:=RNum) p M).
Proof.
  destruct p as [|lo hi|reg nn|Q U s|reg l1|b nn| |nn|n ub uc]; intros NP; try exact Logic.I.
  - cbn [penalty_mat]. cbv zeta. destruct (ntruthy l1); exact Logic.I.
  - exfalso. apply NP. exact Logic.I.
Qed.
Lemma penalty_values p (Ms : list rmat) : Y (fun _ => True) (penalty_list (N:=RNum) p Ms).
Proof.
  destruct p as [|lo hi|reg nn|Q U s|reg l1|b nn| |nn|n ub uc]; try exact Logic.I; cbn [penalty_list];
  (eapply y_bind; [apply (y_map_true al _ (fun _ => True)); [intros M _; apply penalty_value; exact (fun x => x)|apply Forall_forall; auto]|]; intros; exact Logic.I).
Qed.
Lemma bmatrix p r k : (p = UnitSimplex -> al RuntimeError) -> (0 < r)%nat -> (0 < k)%nat -> ~ is_parafac2 p -> valid_penalty p r -> reliable_matrix al r k (array r k) (builtin (X:=X) E rnd p).
Proof.
  intros SX Hr Hk NP HV. split; [|split].
  - intros V rho x (WV & V1 & V2) Hrho _. rewrite mat_builtin.
    destruct (factor_matrix_update E p V rho) as [Z|e] eqn:EZ; cbn.
    + eexists. split; [reflexivity|]. rewrite <- V1, <- V2. apply (fmu_ok E p V Z rho WV); [rn; lia|rn; lia|rewrite V1; exact HV|exact EZ].
    + destruct (fmu_fail E p V rho e WV) as [K|(K1 & K2)]; [rn; lia|rn; lia|rewrite V1; exact HV|exact NP|exact EZ|now subst|subst; auto].
  - intros x M (A & -> & SA) SM. rewrite sub_builtin, not_pf2_sub by exact NP. cbn. now apply shaped_sub.
  - intros M SM. rewrite pen_builtin. now apply penalty_value.
Qed.
Lemma brows p r k : (0 < r)%nat -> (0 < k)%nat -> rowwise p -> valid_penalty p r -> reliable_rows al r k (builtin (X:=X) E rnd p).
Proof.
  intros Hr Hk RW HV. destruct (bmatrix p r k) as (_ & S2 & S3); auto; [now intros ->|destruct p; cbn in *; auto|]. split; [|split; assumption].
  intros row rho old L1 L2 Hrho. destruct p as [|lo hi|reg nn|M U s|reg l1|b nn| |nn|n ub uc]; cbn in RW; try contradiction; cbn [builtin row_method u_row on_row row_update].
  - cbn. now rewrite map_length.
  - destruct HV as (_ & Hn). destruct lo, hi; cbn [clip_ok yields]; try now rewrite map_length. destruct Hn; congruence.
  - destruct (negb _); [exact NF|]. destruct nn; cbn [yields]; now rewrite map_length.
Qed.
Lemma bmatrices p n J k : (p = UnitSimplex -> al RuntimeError) -> (0 < k)%nat -> (forall i, (i < n)%nat -> (0 < J i)%nat) -> ~ is_parafac2 p -> (forall i, (i < n)%nat -> valid_penalty p (J i)) ->
  reliable_matrices al n J k (each n (fun i => array (J i) k)) (builtin (X:=X) E rnd p).
Proof.
  intros SX Hk HJ NP HV. apply y_matrices.
  - destruct p; try discriminate. intros _. now apply NP.
  - destruct p; try reflexivity. exfalso. now apply NP.
  - destruct p; try reflexivity. exfalso. now apply NP.
  - intros i Hi. apply bmatrix; auto.
  - intros Ms _. rewrite pens_builtin. apply penalty_values.
Qed.
(** PARAFAC2: the pair keeps its shapes *)
Definition pair_of (n : nat) (J : nat -> nat) (k : nat) (x : uauxes (N:=RNum) X) : Prop := exists Q D, x = UPair Q D /\ list_shaped n J k Q /\ shaped D k k.
Lemma bpf2 m ub uc n J k : svd_correct E k -> (0 < n)%nat -> (forall i, (i < n)%nat -> (k <= J i)%nat) ->
  reliable_matrices al n J k (pair_of n J k) (builtin (X:=X) E rnd (Parafac2 m ub uc)).
Proof.
  intros HE Hn HJ. split; [|split].
  - intros Vs rhos x (LV & SV) Lr Fr (Q & D & -> & (LQ & SQ) & SD). unfold mats_method. cbn [builtin u_mats pf2_mats].
    assert (BS : forall b, basis_shape k Vs b <-> list_shaped n J k b).
    { intros b. unfold basis_shape, list_shaped. rewrite LV. split; intros (L & H); (split; [exact L|]); intros i Hi; specialize (H i Hi); destruct (SV i Hi) as (_ & E1 & _); rewrite E1 in *; exact H. }
    eapply y_bind; [apply (pf2_fail al NF E k Vs rhos ub uc)|].
    + rewrite LV. intros i Hi. destruct (SV i Hi) as (W & S1 & S2). split; [exact W|]. split; [exact S2|]. rewrite S1. auto.
    + exact HE.
    + rn; congruence.
    + intros Z. rewrite Z in LV. cbn in LV. lia.
    + exact SD.
    + apply BS. split; assumption.
    + intros (b', D') (K1 & K2). cbn [yields fst snd] in *. exists b', D'. split; [reflexivity|]. split; [now apply BS|exact K2].
  - intros x Ms (Q & D & -> & (LQ & SQ) & (WD & D1 & D2)) (LM & SM). cbn. split; [rewrite length_map2; rn; lia|].
    intros i Hi. rewrite (nth_map2 _ Q Ms i no_mat no_mat) by (rn; lia). destruct (SQ i Hi) as (W1 & S1 & S2). apply shaped_sub. split; [auto with mwf|]. mshape. split; congruence.
  - intros Ms _. exact Logic.I.
Qed.

(** *** initial values *)
Variables (Xs : list rmat) (rank : nat).
Hypothesis HN : Xs <> [].
Lemma value_fits m v pos : (m < 3)%nat -> initial_value Xs rank m v ->
  exists y q, init_common (N:=RNum) rnd v Xs (PyInt (Z.of_nat rank)) (PyInt (Z.of_nat m)) pos = Ok (y, q) /\ fits_mode Xs rank (Z.of_nat m) y /\ ~ is_pair y.
Proof.
  intros Hm IV.
  assert (K : exists y q, init_common (N:=RNum) rnd v Xs (PyInt (Z.of_nat rank)) (PyInt (Z.of_nat m)) pos = Ok (y, q)).
  { destruct IV as [NI|[(sh & d & -> & G)|(l & -> & G)]].
    - destruct (common_total rnd v Xs rank (Z.of_nat m) pos HN NI ltac:(lia)) as (y & q & K & _). eauto.
    - eexists _, _. apply init_tensor_iff. eauto.
    - eexists _, _. apply init_list_iff. eauto. }
  destruct K as (y & q & K). exists y, q. split; [exact K|]. destruct (init_common_fits _ _ _ _ _ _ _ _ K) as (F & Np). rewrite Nat2Z.id in F. auto.
Qed.
Lemma pair_fits v pos : initial_pair Xs rank v ->
  exists y q, pf2_init_aux (N:=RNum) rnd true v Xs (PyInt (Z.of_nat rank)) (PyInt 1) pos = Ok (y, q) /\ fits_mode Xs rank 1 y /\ is_pair y.
Proof.
  intros IV.
  assert (K : exists y q, pf2_init_aux (N:=RNum) rnd true v Xs (PyInt (Z.of_nat rank)) (PyInt 1) pos = Ok (y, q)).
  { destruct IV as [(s & -> & NS)|(l & -> & G)].
    - destruct (pf2_named rnd s Xs (Z.of_nat rank) pos ltac:(lia) NS) as (Q & D & q & K & _). eauto.
    - pose proof G as (_ & basis & r & d & El & _). eexists _, _. apply init_pair_iff. split; [exact G|]. split; [|reflexivity]. exists basis, (PArr [r; r] d). split; [exact El|reflexivity]. }
  destruct K as (y & q & K). exists y, q. split; [exact K|]. destruct (pf2_init_fits _ _ _ _ _ _ _ _ _ K) as (F & Np). rewrite Nat2Z.id in F. auto.
Qed.
Lemma dual_one (o : pobj (N:=RNum)) m pos : (m = 0 \/ m = 2)%nat -> initial_value Xs rank m (o_dual o) ->
  Y (fun v => one_dual (if (m =? 0)%nat then length Xs else colsX Xs) rank (fst v)) (uinit_dual rnd (uobj_of (X:=X) E rnd o) Xs (PyInt (Z.of_nat rank)) (PyInt (Z.of_nat m)) pos).
Proof.
  intros Hm IV. rewrite uinit_dual_builtin. unfold init_dual. destruct (value_fits m (o_dual o) pos ltac:(lia) IV) as (y & q & -> & F & Np). cbn [yields fst].
  destruct (fits_one Xs rank (Z.of_nat m) y ltac:(lia) F) as (M & -> & SM). exists M. split; [reflexivity|]. destruct Hm; subst m; exact SM.
Qed.
Lemma dual_many (o : pobj (N:=RNum)) pos : initial_value Xs rank 1 (o_dual o) ->
  Y (fun v => many_duals (length Xs) (rowsX Xs) rank (fst v)) (uinit_dual rnd (uobj_of (X:=X) E rnd o) Xs (PyInt (Z.of_nat rank)) (PyInt 1) pos).
Proof.
  intros IV. rewrite uinit_dual_builtin. unfold init_dual. destruct (value_fits 1 (o_dual o) pos ltac:(lia) IV) as (y & q & K & F & Np). change (Z.of_nat 1) with 1%Z in *. rewrite K. cbn [yields fst].
  destruct (fits_many Xs rank y Np F) as (l & -> & SM). exists l. auto.
Qed.
Lemma aux_one (o : pobj (N:=RNum)) m pos : (m = 0 \/ m = 2)%nat -> ~ is_parafac2 (o_pen o) -> initial_value Xs rank m (o_aux o) ->
  Y (fun v => one (array (if (m =? 0)%nat then length Xs else colsX Xs) rank) (fst v)) (uinit_aux rnd (uobj_of (X:=X) E rnd o) Xs (PyInt (Z.of_nat rank)) (PyInt (Z.of_nat m)) pos).
Proof.
  intros Hm NP IV. rewrite uinit_aux_builtin, not_pf2_init_aux by exact NP. destruct (value_fits m (o_aux o) pos ltac:(lia) IV) as (y & q & -> & F & Np). cbn [yields rmap fst snd].
  destruct (fits_one Xs rank (Z.of_nat m) y ltac:(lia) F) as (M & -> & SM). exists (UMat M). split; [reflexivity|]. exists M. split; [reflexivity|]. destruct Hm; subst m; exact SM.
Qed.
Lemma aux_many (o : pobj (N:=RNum)) pos : ~ is_parafac2 (o_pen o) -> initial_value Xs rank 1 (o_aux o) ->
  Y (fun v => many (arrays Xs rank) (fst v)) (uinit_aux rnd (uobj_of (X:=X) E rnd o) Xs (PyInt (Z.of_nat rank)) (PyInt 1) pos).
Proof.
  intros NP IV. rewrite uinit_aux_builtin, not_pf2_init_aux by exact NP. destruct (value_fits 1 (o_aux o) pos ltac:(lia) IV) as (y & q & K & F & Np). change (Z.of_nat 1) with 1%Z in *. rewrite K. cbn [yields rmap fst snd].
  destruct (fits_many Xs rank y Np F) as (l & -> & SM). eexists. split; [reflexivity|]. now apply lift_arrays.
Qed.
Lemma aux_pair (o : pobj (N:=RNum)) pos : is_parafac2 (o_pen o) -> initial_pair Xs rank (o_aux o) ->
  Y (fun v => many (pair_of (length Xs) (rowsX Xs) rank) (fst v)) (uinit_aux rnd (uobj_of (X:=X) E rnd o) Xs (PyInt (Z.of_nat rank)) (PyInt 1) pos).
Proof.
  intros NP IV. rewrite uinit_aux_builtin. unfold init_aux. destruct (pair_fits (o_aux o) pos IV) as (y & q & K & F & Np).
  destruct (o_pen o); try contradiction. rewrite K. cbn [yields rmap fst snd].
  destruct y as [M|[l|Q D]]; try contradiction. destruct F as (_ & F1 & F2). eexists. split; [reflexivity|]. exists Q, D. auto.
Qed.
Hypothesis HX : Forall (fun X => mwf X /\ (0 < mr X)%nat /\ (0 < mc X)%nat) Xs.
Hypothesis HR : (0 < rank)%nat.
Hypothesis HE : svd_correct E rank.
Lemma bobject q m (o : pobj (N:=RNum)) : (m < 3)%nat -> (o_pen o = UnitSimplex -> al RuntimeError) -> object_in_order Xs rank m o ->
  (forall r, mode_rows Xs m r -> valid_penalty (o_pen o) r) -> (m = 0%nat -> q = false -> rowwise (o_pen o)) ->
  (is_parafac2 (o_pen o) -> forall i, (i < length Xs)%nat -> (rank <= rowsX Xs i)%nat) ->
  reliable_object (X:=X) al rnd Xs rank q m (uobj_of E rnd o).
Proof.
  intros Hm SX (OA & OD) HV HW PF. pose proof HX as HX'. rewrite Forall_forall in HX'.
  assert (L0 : (0 < length Xs)%nat) by (destruct Xs; [congruence|cbn; lia]).
  assert (HK : (0 < colsX Xs)%nat) by (apply (HX' (nthX Xs 0)); apply nth_In; exact L0).
  assert (HJ : forall i, (i < length Xs)%nat -> (0 < rowsX Xs i)%nat) by (intros i Hi; apply (HX' (nthX Xs i)); now apply nth_In).
  assert (CASE : is_parafac2 (o_pen o) \/ ~ is_parafac2 (o_pen o)) by (destruct (o_pen o); cbn; tauto).
  destruct CASE as [IP|NP].
  { assert (EM : m = 1%nat /\ initial_pair Xs rank (o_aux o)) by (destruct (o_pen o); try contradiction; exact OA). destruct EM as (-> & IV).
    cbn [reliable_object]. exists (pair_of (length Xs) (rowsX Xs) rank). split.
    - intros pos. split; [now apply aux_pair|now apply dual_many].
    - cbn [uobj_of w_cls]. destruct (o_pen o); try contradiction. apply bpf2; auto. }
  assert (IV : initial_value Xs rank m (o_aux o)) by (destruct (o_pen o); try exact OA; exfalso; now apply NP).
  destruct m as [|[|[|m]]]; [| | |lia]; cbn [reliable_object uobj_of w_cls].
  - exists (array (length Xs) rank). split.
    + intros pos. split; [exact (aux_one o 0 pos (or_introl eq_refl) NP IV)|exact (dual_one o 0 pos (or_introl eq_refl) OD)].
    + destruct q; [apply bmatrix; auto; now apply HV|]. split; [|auto]. apply brows; auto. now apply HV.
  - exists (arrays Xs rank). split.
    + intros pos. split; [now apply aux_many|now apply dual_many].
    + apply bmatrices; auto. intros i Hi. apply HV. exists i. auto.
  - exists (array (colsX Xs) rank). split.
    + intros pos. split; [exact (aux_one o 2 pos (or_intror eq_refl) NP IV)|exact (dual_one o 2 pos (or_intror eq_refl) OD)].
    + apply bmatrix; auto. now apply HV.
Qed.
End Builtin.
