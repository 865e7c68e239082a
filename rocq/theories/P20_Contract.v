(** C61: the contract that [matcouply.testing] prescribes for penalties (testing/admm_penalty.py:
    [test_factor_matrix_update_invariant_point], [..._changes_input], [..._reduces_penalty] and
    [test_penalty] of the hard constraints), for all inputs, and that updates of convex penalties
    are non-expansive. *)
From Coq Require Import Reals Lra Lia List Arith Bool.
From Verif Require Import Num Numpy RFacts Spec SpecFacts ModelSpec Penalties PenaltySpec
  ProxProofs TVProofs GenL2Proofs SimplexProofs Parafac2Proofs Parafac2Main PenaltyMain PenaltyExamples P02_Penalties.
Import ListNotations.
Local Open Scope R_scope.

(** Penalties whose update is exact on single matrices: all but the simplex (bisection) and PARAFAC2. *)
Definition exact_update (p : penaltyR) : Prop := match p with UnitSimplex | Parafac2 _ _ _ => False | _ => True end.
(** Penalties that only constrain. *)
Definition hard (p : penaltyR) : Prop := match p with NonNegativity | Box _ _ | L2Ball _ _ | UnitSimplex | Unimodality _ => True | _ => False end.
Definition minus (X Y : ent) : ent := fun i j => X i j - Y i j.

Lemma dist2_refl r c X : dist2 r c X X = 0.
Proof. apply dist2_same. intros i j _ _. reflexivity. Qed.
Lemma doc_penalty_zero p r c : doc_penalty p r c (fun _ _ => 0) = 0.
Proof.
  assert (A : abs_sum r c (fun _ _ => 0) = 0).
  { unfold abs_sum. rewrite Sum_rsum. apply rsum_zero. intros. rewrite Sum_rsum. apply rsum_zero. intros. apply Rabs_R0. }
  assert (T : total_variation r c (fun _ _ => 0) = 0).
  { unfold total_variation. rewrite Sum_rsum. apply rsum_zero. intros. rewrite Sum_rsum. apply rsum_zero. intros. rewrite Rminus_0_r. apply Rabs_R0. }
  destruct p; cbn; rewrite ?A, ?T; try ring. unfold quad. rewrite Sum_rsum. apply rsum_zero. intros. rewrite Sum_rsum. apply rsum_zero. intros. rewrite Sum_rsum. apply rsum_zero. intros. ring.
Qed.
Lemma convex_cases (p : penaltyR) : exact_update p -> convex_penalty p \/ exists nn, p = Unimodality nn.
Proof. destruct p; cbn; try contradiction; eauto. Qed.
Lemma soft_zero p r c : convex_penalty p -> ~ hard p -> doc_domain p r c (fun _ _ => 0).
Proof. destruct p; cbn; intros H1 H2; try contradiction; try (now destruct H2); auto. intros _ i j _ _. lra. Qed.
Lemma hard_penalty p r c X : hard p -> doc_penalty p r c X = 0.
Proof. destruct p; cbn; intros H; try contradiction; reflexivity. Qed.
Lemma tv_need E (V : matR) rho p : 0 < rho -> valid_penalty p (mr V) -> mwf V -> tv_correct E (mr V) -> forall reg l1, p = TotalVariation (N:=RNum) reg l1 -> forall j, (j < mc V)%nat ->
  tv_minimiser (mcol V j) (reg * 2 / rho) (x_tv E (mcol V j) (reg * 2 / rho)).
Proof.
  intros Hr Hv W HT reg l1 -> j Hj. destruct Hv as (Hv & _). apply HT.
  - unfold mcol. rewrite map_length. apply W.
  - unfold Rdiv. apply Rmult_lt_0_compat; [lra|now apply Rinv_0_lt_compat].
Qed.

(** A matrix is left unchanged exactly if it satisfies the constraint and its penalty is zero:
    updates neither touch acceptable matrices nor leave others as they are. *)
Theorem C61_invariant_points (E : extR) (p : penaltyR) (V : matR) (rho : R) :
  mwf V -> (0 < mr V)%nat -> (0 < mc V)%nat -> 0 < rho -> exact_update p -> valid_penalty p (mr V) -> tv_correct E (mr V) ->
  factor_matrix_update E p V rho = Ok V <-> doc_domain p (mr V) (mc V) (mget V) /\ penalty_mat p V = Ok 0.
Proof.
  intros W R0 C0 Hr Hx Hv HT.
  assert (NP : forall n a b, p <> Parafac2 (N:=RNum) n a b) by (intros n a b ->; exact Hx).
  destruct (C16_penalty_value p V Hv NP) as (PV & _). rewrite PV.
  destruct (convex_cases p Hx) as [Hc|(nn & ->)].
  - destruct (convex_update E p V rho W Hr Hc Hv (tv_need E V rho p Hr Hv W HT)) as (X & H1 & H2 & H3 & H4 & H5 & H6). rewrite H1. split.
    + intros K. injection K as ->. split; [exact H5|]. f_equal. apply Rle_antisym; [|now apply doc_penalty_nonneg].
      assert (D : hard p \/ ~ hard p) by (destruct p; cbn; auto). destruct D as [D|D]; [rewrite hard_penalty by exact D; lra|].
      specialize (H6 _ (soft_zero p (mr V) (mc V) Hc D)). rewrite doc_penalty_zero in H6. rewrite dist2_refl in H6. rewrite (dist2_sym _ _ (fun _ _ => 0)) in H6.
      match type of H6 with ?a + _ + ?b <= 0 + ?b' => assert (EB : b = b') by reflexivity; lra end.
    + intros (K1 & K2). injection K2 as K2. f_equal. apply same_mat; auto. specialize (H6 _ K1). rewrite K2, dist2_refl in H6.
      assert (N0 : 0 <= doc_penalty p (mr V) (mc V) (mget X)) by now apply doc_penalty_nonneg. pose proof (dist2_nonneg (mr V) (mc V) (mget X) (mget V)) as N1.
      apply dist2_zero. apply Rle_antisym; [|exact N1]. nra.
  - destruct (C02_unimodality E V rho nn W R0 C0) as (X & H1 & H2 & (H3 & _) & H4). rewrite H1. split.
    + intros K. injection K as ->. split; [exact H3|]. reflexivity.
    + intros (K1 & _). f_equal. now apply H4.
Qed.
Print Assumptions C61_invariant_points.

(** The update never increases the penalty; for a constraint the value is zero before and after. *)
Theorem C61_reduces_penalty (E : extR) (p : penaltyR) (V X : matR) (rho : R) :
  mwf V -> (0 < mr V)%nat -> (0 < mc V)%nat -> 0 < rho -> exact_update p \/ p = UnitSimplex -> valid_penalty p (mr V) -> tv_correct E (mr V) ->
  factor_matrix_update E p V rho = Ok X ->
  exists before after, penalty_mat p V = Ok before /\ penalty_mat p X = Ok after /\ 0 <= after <= before /\ (hard p -> before = 0 /\ after = 0).
Proof.
  intros W R0 C0 Hr Hx Hv HT HU.
  assert (NP : forall n a b, p <> Parafac2 (N:=RNum) n a b) by (intros n a b ->; destruct Hx as [Hx|Hx]; [exact Hx|discriminate]).
  destruct (C16_penalty_value p V Hv NP) as (PV & PN).
  assert (D : hard p \/ ~ hard p) by (destruct p; cbn; auto). destruct D as [D|D].
  - assert (K : forall Y, penalty_mat p Y = Ok 0) by (intros Y; destruct p; cbn in D; try contradiction; reflexivity).
    exists 0, 0. rewrite !K. split; [reflexivity|]. split; [reflexivity|]. split; [lra|auto].
  - assert (Hc : convex_penalty p) by (destruct Hx as [Hx|Hx]; [|subst; now destruct D]; destruct p; cbn in *; auto).
    destruct (convex_update E p V rho W Hr Hc Hv (tv_need E V rho p Hr Hv W HT)) as (X' & H1 & H2 & H3 & H4 & H5 & H6). rewrite HU in H1. injection H1 as <-.
    assert (Hv' : valid_penalty p (mr X)) by (rewrite H3; exact Hv). destruct (C16_penalty_value p X Hv' NP) as (PX & PXN). rewrite H3, H4 in PX, PXN.
    exists (doc_penalty p (mr V) (mc V) (mget V)), (doc_penalty p (mr V) (mc V) (mget X)). split; [exact PV|]. split; [exact PX|]. split; [|contradiction]. split; [exact PXN|].
    assert (A : doc_domain p (mr V) (mc V) (mget V) -> doc_penalty p (mr V) (mc V) (mget X) <= doc_penalty p (mr V) (mc V) (mget V)).
    { intros K. specialize (H6 _ K). rewrite dist2_refl in H6. pose proof (dist2_nonneg (mr V) (mc V) (mget X) (mget V)). nra. }
    destruct p as [| |reg nn| | | | | |]; try (apply A; exact Logic.I); try (now destruct D); try contradiction.
    destruct nn; [|apply A; discriminate]. clear A. set (Z := fun i j => Rmax (mget V i j) 0).
    assert (DZ : doc_domain (L1Penalty (N:=RNum) reg true) (mr V) (mc V) Z) by (intros _ i j _ _; apply Rmax_r).
    specialize (H6 Z DZ). cbn [doc_penalty valid_penalty doc_domain] in *. specialize (H5 eq_refl).
    assert (AZ : abs_sum (mr V) (mc V) Z <= abs_sum (mr V) (mc V) (mget V)).
    { unfold abs_sum. rewrite !Sum_rsum. apply rsum_le. intros i Hi. rewrite !Sum_rsum. apply rsum_le. intros j Hj. unfold Z.
      unfold Rmax. destruct (Rle_dec (mget V i j) 0); [rewrite Rabs_R0; apply Rabs_pos|apply Rle_refl]. }
    assert (DD : dist2 (mr V) (mc V) Z (mget V) <= dist2 (mr V) (mc V) (mget X) (mget V)).
    { unfold dist2. rewrite !Sum_rsum. apply rsum_le. intros i Hi. rewrite !Sum_rsum. apply rsum_le. intros j Hj. specialize (H5 i j Hi Hj). unfold Z.
      unfold Rmax. destruct (Rle_dec (mget V i j) 0); [|replace (mget V i j - mget V i j) with 0 by ring; pose proof (pow2_ge_0 (mget X i j - mget V i j)); nra].
      assert (0 <= 0 - mget V i j <= mget X i j - mget V i j) by lra. nra. }
    pose proof (dist2_nonneg (mr V) (mc V) (mget X) Z) as N1.
    assert (T : reg * abs_sum (mr V) (mc V) Z <= reg * abs_sum (mr V) (mc V) (mget V)) by (apply Rmult_le_compat_l; assumption). nra.
Qed.
Print Assumptions C61_reduces_penalty.

(** Updates of convex penalties are (firmly) non-expansive. *)
Theorem C61_nonexpansive (E : extR) (p : penaltyR) (V W X Y : matR) (rho : R) :
  mwf V -> mwf W -> mr W = mr V -> mc W = mc V -> 0 < rho ->
  exact_update p -> (forall nn, p <> Unimodality nn) -> valid_penalty p (mr V) -> tv_correct E (mr V) ->
  factor_matrix_update E p V rho = Ok X -> factor_matrix_update E p W rho = Ok Y ->
  dist2 (mr V) (mc V) (mget X) (mget Y) + dist2 (mr V) (mc V) (minus (mget V) (mget X)) (minus (mget W) (mget Y)) <= dist2 (mr V) (mc V) (mget V) (mget W).
Proof.
  intros WV WW ER EC Hr Hx NU Hv HT HX HY. destruct (convex_cases p Hx) as [Hc|(nn & K)]; [|now destruct (NU nn)].
  destruct (convex_update E p V rho WV Hr Hc Hv (tv_need E V rho p Hr Hv WV HT)) as (X' & H1 & _ & _ & _ & D1 & P1). rewrite HX in H1. injection H1 as <-.
  assert (Hv' : valid_penalty p (mr W)) by (rewrite ER; exact Hv). assert (HT' : tv_correct E (mr W)) by (rewrite ER; exact HT).
  destruct (convex_update E p W rho WW Hr Hc Hv' (tv_need E W rho p Hr Hv' WW HT')) as (Y' & H2 & _ & _ & _ & D2 & P2). rewrite HY in H2. injection H2 as <-.
  rewrite ER, EC in *. specialize (P1 _ D2). specialize (P2 _ D1). set (r := mr V) in *. set (c := mc V) in *.
  rewrite (dist2_sym r c (mget Y) (mget X)) in P2.
  assert (S : dist2 r c (mget X) (mget V) + dist2 r c (mget Y) (mget W) + 2 * dist2 r c (mget X) (mget Y) <= dist2 r c (mget Y) (mget V) + dist2 r c (mget X) (mget W)) by nra.
  assert (ID : dist2 r c (mget Y) (mget V) + dist2 r c (mget X) (mget W) - dist2 r c (mget X) (mget V) - dist2 r c (mget Y) (mget W) =
               dist2 r c (mget X) (mget Y) + dist2 r c (mget V) (mget W) - dist2 r c (minus (mget V) (mget X)) (minus (mget W) (mget Y))).
  { rewrite !dist2_rsum. assert (F : forall n (f1 f2 f3 f4 f5 f6 f7 : nat -> R), (forall i, (i < n)%nat -> f1 i + f2 i - f3 i - f4 i = f5 i + f6 i - f7 i) ->
      rsum n f1 + rsum n f2 - rsum n f3 - rsum n f4 = rsum n f5 + rsum n f6 - rsum n f7).
    { intros n f1 f2 f3 f4 f5 f6 f7 HF. assert (K : rsum n (fun i => f1 i + f2 i + f7 i) = rsum n (fun i => f5 i + f6 i + (f3 i + f4 i))) by (apply rsum_ext; intros i Hi; specialize (HF i Hi); lra).
      rewrite !rsum_add in K. lra. }
    apply F. intros i Hi. apply F. intros j Hj. unfold minus. ring. }
  lra.
Qed.
Print Assumptions C61_nonexpansive.

(** The simplex: matrices with columns in the simplex are left within the tolerance of the bisection. *)
Theorem C61_simplex_invariant (E : extR) (V : matR) (rho : R) :
  mwf V -> (0 < mr V)%nat -> cols_in_simplex (mr V) (mc V) (mget V) ->
  exists X, factor_matrix_update E UnitSimplex V rho = Ok X /\ like V X /\
    forall i j, (i < mr V)%nat -> (j < mc V)%nat -> Rabs (mget X i j - mget V i j) <= eps_of 1.
Proof.
  intros W R0 HS.
  assert (B1 : entries (mr V) (mc V) (fun x => Rabs x <= 1) (mget V)).
  { intros i j Hi Hj. destruct (HS j Hj) as (S1 & S2). rewrite Rabs_right by (apply Rle_ge, S1; exact Hi).
    rewrite Sum_rsum in S2. rewrite <- S2. apply (rsum_le_one (mr V) (fun i => mget V i j) i); [exact S1|exact Hi]. }
  destruct (C10_unit_simplex E V rho W R0) as [(X & P & H1 & H2 & H3 & H4 & H5)|(_ & K)].
  - exists X. split; [exact H1|]. split; [exact H2|]. intros i j Hi Hj. destruct (H5 1 B1) as (H6 & _). specialize (H6 i j Hi Hj).
    rewrite (is_proj_fixed _ _ _ _ _ H3 HS i j Hi Hj) in H6. exact H6.
  - exfalso. apply (K 1 B1). assert (1 <= 10 ^ 18) by (apply pow_R1_Rle; lra). exact H.
Qed.
Print Assumptions C61_simplex_invariant.

(** PARAFAC2: factor matrices that already are the product of the basis matrices and the coordinate
    matrix stay the same. *)
Theorem C61_parafac2_invariant (E : extR) (k : nat) (fms : list matR) (rhos : list R) (n : nat) (ub uc : bool) (basis : list matR) (D : matR) :
  parafac2_input k fms rhos -> svd_correct E k -> shaped D k k -> orthonormal_bases k fms basis ->
  let p := Parafac2 (N:=RNum) n ub uc in
  auxes_as_matrices p (APf2 basis D) = Ok fms ->
  exists a Xs, factor_matrices_update E p fms rhos (APf2 basis D) = Ok a /\ auxes_as_matrices p a = Ok Xs /\
    forall i, (i < length fms)%nat -> same (mr (nth i fms no_mat)) k (mget (nth i Xs no_mat)) (mget (nth i fms no_mat)).
Proof.
  intros HI HE HD HB p HA. destruct (C13_parafac2_descent E k fms rhos n ub uc basis D HI HE HD HB) as (X0 & X1 & X2 & a1 & a2 & E0 & E1 & E2 & _ & _ & L1 & _).
  exists a1, X1. split; [exact E1|]. split; [exact E2|]. unfold p in HA. rewrite HA in E0. injection E0 as <-.
  assert (Z : weighted_dist k rhos fms fms = 0). { unfold weighted_dist. rewrite Sum_rsum. apply rsum_zero. intros i Hi. rewrite dist2_refl. ring. }
  rewrite Z in L1. intros i Hi. apply dist2_zero. rewrite dist2_sym.
  destruct HI as (_ & LR & PR & _). rewrite Forall_forall in PR.
  assert (POS : forall q, (q < length fms)%nat -> 0 < at_ rhos q) by (intros q Hq; apply PR; unfold at_; apply nth_In; lia).
  unfold weighted_dist in L1. rewrite Sum_rsum in L1.
  assert (T : at_ rhos i * dist2 (mr (nth i fms no_mat)) k (mget (nth i fms no_mat)) (mget (nth i X1 no_mat)) <= 0).
  { eapply Rle_trans; [|exact L1]. apply (rsum_le_one (length fms) (fun i => at_ rhos i * dist2 (mr (nth i fms no_mat)) k (mget (nth i fms no_mat)) (mget (nth i X1 no_mat))) i); [|exact Hi].
    intros q Hq. apply Rmult_le_pos; [left; now apply POS|apply dist2_nonneg]. }
  pose proof (dist2_nonneg (mr (nth i fms no_mat)) k (mget (nth i fms no_mat)) (mget (nth i X1 no_mat))). specialize (POS i Hi). nra.
Qed.
Print Assumptions C61_parafac2_invariant.

(** ** Concrete cases *)
Example C61_hyps : mwf ex_V /\ (0 < mr ex_V)%nat /\ (0 < mc ex_V)%nat /\ exact_update (GeneralizedL2 ex_M ex_U ex_s) /\ valid_penalty (GeneralizedL2 ex_M ex_U ex_s) (mr ex_V) /\
  exact_update (L1Penalty (N:=RNum) 1 true) /\ ~ hard (L1Penalty (N:=RNum) 1 true) /\ valid_penalty (L1Penalty (N:=RNum) 1 true) (mr ex_V).
Proof. split; [exact ex_V_wf|]. split; [cbn; lia|]. split; [cbn; lia|]. split; [exact Logic.I|]. split; [exact ex_M_valid|]. cbn. repeat split; auto; lra. Qed.
Example C61_simplex_case : cols_in_simplex 2 1 (mget (Mat (N:=RNum) 2 1 [[1 / 4]; [3 / 4]])).
Proof. intros [|j] Hj; [|lia]. split; [|cbn; unfold mget; cbn; lra]. intros [|[|i]] Hi; try lia; unfold mget; cbn; lra. Qed.
Example C61_parafac2_case : exists fms, parafac2_input 1 fms [1; 1 / 2] /\ shaped (Mat (N:=RNum) 1 1 [[3]]) 1 1 /\
  orthonormal_bases 1 fms [Mat (N:=RNum) 2 1 [[3/5]; [4/5]]; Mat (N:=RNum) 3 1 [[0]; [1]; [0]]] /\
  auxes_as_matrices (Parafac2 (N:=RNum) 2 true true) (APf2 [Mat (N:=RNum) 2 1 [[3/5]; [4/5]]; Mat (N:=RNum) 3 1 [[0]; [1]; [0]]] (Mat (N:=RNum) 1 1 [[3]])) = Ok fms.
Proof.
  eexists. split; [|split; [exact ex_coord|split; [|reflexivity]]].
  - split; [discriminate|]. split; [reflexivity|]. split; [repeat constructor; lra|].
    intros [|[|i]] Hi; try (cbn in Hi; lia); (split; [split; [reflexivity|repeat constructor]|split; [reflexivity|cbn; lia]]).
  - destruct ex_bases as (_ & H). split; [reflexivity|]. intros [|[|i]] Hi; try (cbn in Hi; lia); [exact (H 0%nat ltac:(cbn; lia))|exact (H 1%nat ltac:(cbn; lia))].
Qed.
