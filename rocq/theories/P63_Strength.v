(** C106: stronger penalties penalise more. *)
From Coq Require Import Reals Lra Lia List Arith Bool.
From Verif Require Import Num Numpy RFacts Spec SpecFacts ModelSpec Penalties PenaltySpec
  ProxProofs TVProofs GenL2Proofs SimplexProofs Parafac2Proofs Parafac2Main PenaltyMain PenaltyExamples P02_Penalties P20_Contract StrengthSpec.
Import ListNotations.
Local Open Scope R_scope.

(** What an update returns, in the words of Spec.v. *)
Lemma update_prox (E : extR) p (V X : matR) rho : mwf V -> 0 < rho -> convex_penalty p -> valid_penalty p (mr V) -> tv_correct E (mr V) ->
  factor_matrix_update E p V rho = Ok X -> is_prox (mr V) (mc V) (doc_penalty p (mr V) (mc V)) (doc_domain p (mr V) (mc V)) rho (mget V) (mget X).
Proof.
  intros W Hr Hc Hv HT HX. destruct (convex_update E p V rho W Hr Hc Hv (tv_need E V rho p Hr Hv W HT)) as (X' & H1 & _ & _ & _ & D1 & P1). rewrite HX in H1. injection H1 as <-.
  split; assumption.
Qed.

(** A larger feasibility penalty: closer to the input, at the price of a larger penalty. *)
Theorem C106_feasibility_penalty (E : extR) p (V X X' : matR) rho rho' :
  mwf V -> 0 < rho -> rho <= rho' -> convex_penalty p -> valid_penalty p (mr V) -> tv_correct E (mr V) ->
  factor_matrix_update E p V rho = Ok X -> factor_matrix_update E p V rho' = Ok X' ->
  dist2 (mr V) (mc V) (mget X') (mget V) <= dist2 (mr V) (mc V) (mget X) (mget V) /\
  doc_penalty p (mr V) (mc V) (mget X) <= doc_penalty p (mr V) (mc V) (mget X').
Proof.
  intros W Hr HR Hc Hv HT H1 H2.
  destruct (update_prox E p V X rho W Hr Hc Hv HT H1) as (D1 & P1). destruct (update_prox E p V X' rho' W ltac:(lra) Hc Hv HT H2) as (D2 & P2).
  specialize (P1 _ D2). specialize (P2 _ D1). set (r := mr V) in *. set (c := mc V) in *.
  pose proof (dist2_nonneg r c (mget X) (mget X')) as N1. rewrite (dist2_sym r c (mget X') (mget X)) in P2.
  set (a := dist2 r c (mget X) (mget V)) in *. set (b := dist2 r c (mget X') (mget V)) in *. set (d := dist2 r c (mget X) (mget X')) in *.
  set (f := doc_penalty p r c (mget X)) in *. set (f' := doc_penalty p r c (mget X')) in *.
  assert (AB : b <= a).
  { destruct (Req_dec rho rho') as [<-|NE].
    - assert (d <= 0) by nra. assert (d0 : d = 0) by lra. assert (a = b); [|lra]. rewrite H1 in H2. injection H2 as <-. reflexivity.
    - assert ((rho' - rho) * (b - a) <= 0) by nra. nra. }
  split; [exact AB|]. nra.
Qed.
Print Assumptions C106_feasibility_penalty.

Lemma doc_times t p q r c X : times t r p q -> doc_penalty q r c X = t * doc_penalty p r c X.
Proof.
  destruct p, q; cbn; try contradiction.
  - intros (-> & _). ring.
  - intros H. unfold quad. rewrite !Sum_rsum. rewrite <- rsum_scal. apply rsum_ext. intros j _. rewrite !Sum_rsum. rewrite <- rsum_scal. apply rsum_ext. intros i Hi. rewrite !Sum_rsum. rewrite <- rsum_scal.
    apply rsum_ext. intros k Hk. rewrite H by assumption. ring.
  - intros (-> & ->). ring.
Qed.
Lemma times_domain t p q r c X : times t r p q -> doc_domain q r c X <-> doc_domain p r c X.
Proof. destruct p, q; cbn; try contradiction; try tauto. intros (_ & ->). tauto. Qed.
Lemma times_convex t p q r : times t r p q -> convex_penalty p /\ convex_penalty q.
Proof. destruct p, q; cbn; try contradiction; tauto. Qed.

(** All strengths multiplied by t > 1: a smaller penalty (measured with the old strengths), farther from the input. *)
Theorem C106_stronger (E : extR) p q t (V X X' : matR) rho :
  mwf V -> 0 < rho -> 1 < t -> times t (mr V) p q -> valid_penalty p (mr V) -> valid_penalty q (mr V) -> tv_correct E (mr V) ->
  factor_matrix_update E p V rho = Ok X -> factor_matrix_update E q V rho = Ok X' ->
  doc_penalty p (mr V) (mc V) (mget X') <= doc_penalty p (mr V) (mc V) (mget X) /\
  dist2 (mr V) (mc V) (mget X) (mget V) <= dist2 (mr V) (mc V) (mget X') (mget V).
Proof.
  intros W Hr Ht TM Hv Hv' HT H1 H2. destruct (times_convex _ _ _ _ TM) as (Hc & Hc').
  destruct (update_prox E p V X rho W Hr Hc Hv HT H1) as (D1 & P1). destruct (update_prox E q V X' rho W Hr Hc' Hv' HT H2) as (D2 & P2).
  specialize (P1 _ (proj1 (times_domain _ _ _ _ _ _ TM) D2)). specialize (P2 _ (proj2 (times_domain _ _ _ _ _ _ TM) D1)). rewrite !(doc_times _ _ _ _ _ _ TM) in P2.
  set (r := mr V) in *. set (c := mc V) in *. pose proof (dist2_nonneg r c (mget X) (mget X')) as N1. rewrite (dist2_sym r c (mget X') (mget X)) in P2.
  set (a := dist2 r c (mget X) (mget V)) in *. set (b := dist2 r c (mget X') (mget V)) in *. set (d := dist2 r c (mget X) (mget X')) in *.
  set (f := doc_penalty p r c (mget X)) in *. set (f' := doc_penalty p r c (mget X')) in *.
  assert (FF : f' <= f) by (assert ((t - 1) * (f' - f) <= 0) by nra; nra).
  split; [exact FF|]. nra.
Qed.
Print Assumptions C106_stronger.

(** One of the two strengths of a total variation penalty raised: less of what it measures. *)
Theorem C106_total_variation (E : extR) (reg reg' l1 l1' : R) (V X X' : matR) rho :
  mwf V -> 0 < rho -> 0 < reg -> 0 <= l1 -> tv_correct E (mr V) ->
  factor_matrix_update E (TotalVariation (N:=RNum) reg l1) V rho = Ok X -> factor_matrix_update E (TotalVariation (N:=RNum) reg' l1') V rho = Ok X' ->
  (reg < reg' -> l1' = l1 -> total_variation (mr V) (mc V) (mget X') <= total_variation (mr V) (mc V) (mget X)) /\
  (reg' = reg -> l1 < l1' -> abs_sum (mr V) (mc V) (mget X') <= abs_sum (mr V) (mc V) (mget X)).
Proof.
  intros W Hr Hg Hl HT H1 H2.
  assert (K : 0 < reg' -> 0 <= l1' -> (reg' - reg) * (total_variation (mr V) (mc V) (mget X') - total_variation (mr V) (mc V) (mget X)) + (l1' - l1) * (abs_sum (mr V) (mc V) (mget X') - abs_sum (mr V) (mc V) (mget X)) <= 0).
  { intros Hg' Hl'. destruct (update_prox E (TotalVariation (N:=RNum) reg l1) V X rho W Hr Logic.I (conj Hg Hl) HT H1) as (D1 & P1). destruct (update_prox E (TotalVariation (N:=RNum) reg' l1') V X' rho W Hr Logic.I (conj Hg' Hl') HT H2) as (D2 & P2).
    specialize (P1 (mget X') Logic.I). specialize (P2 (mget X) Logic.I). cbn [doc_penalty] in P1, P2. set (r := mr V) in *. set (c := mc V) in *.
    pose proof (dist2_nonneg r c (mget X) (mget X')) as N1. rewrite (dist2_sym r c (mget X') (mget X)) in P2. nra. }
  split; [intros R1 ->|intros -> L1].
  - specialize (K ltac:(lra) Hl). nra.
  - specialize (K Hg ltac:(lra)). nra.
Qed.
Print Assumptions C106_total_variation.

(** A tighter constraint: not closer to the input. *)
Lemma tighter_domain p q r c X : tighter p q -> valid_penalty q r -> doc_domain q r c X -> doc_domain p r c X.
Proof.
  destruct p as [|lo hi| | | |b nn| | |], q as [|lo' hi'| | | |b' nn'| | |]; cbn; try contradiction.
  - intros (l & -> & Hl) _ D i j Hi Hj. destruct (D i j Hi Hj) as (D1 & _). specialize (D1 l eq_refl). lra.
  - intros -> _ (_ & D). exact (D eq_refl).
  - intros (H1 & H2) _ D i j Hi Hj. destruct (D i j Hi Hj) as (D1 & D2). split.
    + intros l ->. destruct (H1 l eq_refl) as (l' & -> & L). specialize (D1 l' eq_refl). lra.
    + intros h ->. destruct (H2 h eq_refl) as (h' & -> & L). specialize (D2 h' eq_refl). lra.
  - intros (H1 & H2) Hb (D1 & D2). split; [|intros K; apply D2; auto]. intros j Hj. specialize (D1 j Hj). cbn in *. nra.
Qed.
Theorem C106_tighter (E : extR) p q (V X X' : matR) rho rho' :
  mwf V -> 0 < rho -> 0 < rho' -> tighter p q -> valid_penalty p (mr V) -> valid_penalty q (mr V) -> tv_correct E (mr V) ->
  factor_matrix_update E p V rho = Ok X -> factor_matrix_update E q V rho' = Ok X' ->
  dist2 (mr V) (mc V) (mget X) (mget V) <= dist2 (mr V) (mc V) (mget X') (mget V).
Proof.
  intros W Hr Hr' TG Hv Hv' HT H1 H2.
  assert (CC : convex_penalty p /\ convex_penalty q /\ hard p) by (destruct p, q; cbn in *; tauto). destruct CC as (Hc & Hc' & Hh).
  destruct (update_prox E p V X rho W Hr Hc Hv HT H1) as (D1 & P1). destruct (update_prox E q V X' rho' W Hr' Hc' Hv' HT H2) as (D2 & P2).
  specialize (P1 _ (tighter_domain _ _ _ _ _ TG Hv' D2)). rewrite !hard_penalty in P1 by exact Hh. pose proof (dist2_nonneg (mr V) (mc V) (mget X) (mget X')). nra.
Qed.
Print Assumptions C106_tighter.

(** Unimodal components that must also be non-negative are not closer to the input than unimodal ones, and not closer than non-negative ones. *)
Theorem C106_unimodality (E : extR) (V X X' Y : matR) rho :
  mwf V -> (0 < mr V)%nat -> (0 < mc V)%nat -> 0 < rho -> tv_correct E (mr V) ->
  factor_matrix_update E (Unimodality (N:=RNum) false) V rho = Ok X -> factor_matrix_update E (Unimodality (N:=RNum) true) V rho = Ok X' ->
  factor_matrix_update E (NonNegativity (N:=RNum)) V rho = Ok Y ->
  dist2 (mr V) (mc V) (mget X) (mget V) <= dist2 (mr V) (mc V) (mget X') (mget V) /\
  dist2 (mr V) (mc V) (mget Y) (mget V) <= dist2 (mr V) (mc V) (mget X') (mget V).
Proof.
  intros W R0 C0 Hr HT H1 H2 H3.
  destruct (C02_unimodality E V rho false W R0 C0) as (X1 & E1 & _ & (D1 & N1) & _). rewrite H1 in E1. injection E1 as <-.
  destruct (C02_unimodality E V rho true W R0 C0) as (X2 & E2 & _ & (D2 & N2) & _). rewrite H2 in E2. injection E2 as <-.
  destruct D2 as (U2 & P2). split.
  - apply N1. split; [exact U2|discriminate].
  - destruct (update_prox E (NonNegativity (N:=RNum)) V Y rho W Hr Logic.I Logic.I HT H3) as (_ & P3). specialize (P3 (mget X') (P2 eq_refl)). cbn [doc_penalty] in P3.
    pose proof (dist2_nonneg (mr V) (mc V) (mget Y) (mget X')). nra.
Qed.
Print Assumptions C106_unimodality.

(** The hypotheses are met: an L1 penalty of strength 1 and 3, with feasibility penalties 2 and 4, a box and a narrower one, on a matrix with
    entries of both signs. *)
Definition V106 : matR := Mat (N:=RNum) 1 2 [[4; -1]].
Example C106_nonvacuous (E : extR) :
  mwf V106 /\ times 3 (mr V106) (L1Penalty (N:=RNum) 1 false) (L1Penalty (N:=RNum) 3 false) /\ valid_penalty (L1Penalty (N:=RNum) 1 false) (mr V106) /\ valid_penalty (L1Penalty (N:=RNum) 3 false) (mr V106) /\
  tighter (Box (N:=RNum) (Some (-1)) (Some 2)) (Box (N:=RNum) (Some 0) (Some 1)) /\
  exists X X' Y Z Z', factor_matrix_update E (L1Penalty (N:=RNum) 1 false) V106 2 = Ok X /\ factor_matrix_update E (L1Penalty (N:=RNum) 3 false) V106 2 = Ok X' /\
    factor_matrix_update E (L1Penalty (N:=RNum) 1 false) V106 4 = Ok Y /\ factor_matrix_update E (Box (N:=RNum) (Some (-1)) (Some 2)) V106 2 = Ok Z /\ factor_matrix_update E (Box (N:=RNum) (Some 0) (Some 1)) V106 2 = Ok Z'.
Proof.
  assert (W : mwf V106) by (repeat constructor).
  split; [exact W|]. split; [split; [lra|reflexivity]|]. split; [cbn; lra|]. split; [cbn; lra|]. split.
  { split; [intros l K|intros h K]; injection K as <-; eexists; (split; [reflexivity|lra]). }
  assert (G : forall p rho, 0 < rho -> convex_penalty p -> valid_penalty p (mr V106) -> (forall reg l1, p <> TotalVariation (N:=RNum) reg l1) -> exists X, factor_matrix_update E p V106 rho = Ok X).
  { intros p rho Hr Hc Hv NT. destruct (convex_update E p V106 rho W Hr Hc Hv) as (X & H & _); [intros reg l1 K; now destruct (NT reg l1)|eauto]. }
  destruct (G (L1Penalty (N:=RNum) 1 false) 2) as (X & HX); [lra|exact Logic.I|cbn; lra|discriminate|].
  destruct (G (L1Penalty (N:=RNum) 3 false) 2) as (X' & HX'); [lra|exact Logic.I|cbn; lra|discriminate|].
  destruct (G (L1Penalty (N:=RNum) 1 false) 4) as (Y & HY); [lra|exact Logic.I|cbn; lra|discriminate|].
  destruct (G (Box (N:=RNum) (Some (-1)) (Some 2)) 2) as (Z & HZ); [lra|exact Logic.I|cbn; split; [intros l h K1 K2; injection K1 as <-; injection K2 as <-; lra|left; discriminate]|discriminate|].
  destruct (G (Box (N:=RNum) (Some 0) (Some 1)) 2) as (Z' & HZ'); [lra|exact Logic.I|cbn; split; [intros l h K1 K2; injection K1 as <-; injection K2 as <-; lra|left; discriminate]|discriminate|].
  exists X, X', Y, Z, Z'. auto.
Qed.
Example C106_unimodality_nonvacuous (E : extR) : exists X X' Y, (0 < mr V106)%nat /\ (0 < mc V106)%nat /\
  factor_matrix_update E (Unimodality (N:=RNum) false) V106 1 = Ok X /\ factor_matrix_update E (Unimodality (N:=RNum) true) V106 1 = Ok X' /\
  factor_matrix_update E (NonNegativity (N:=RNum)) V106 1 = Ok Y.
Proof.
  assert (W : mwf V106) by (repeat constructor). assert (R0 : (0 < mr V106)%nat) by (cbn; lia). assert (C0 : (0 < mc V106)%nat) by (cbn; lia).
  destruct (C02_unimodality E V106 1 false W R0 C0) as (X & E1 & _). destruct (C02_unimodality E V106 1 true W R0 C0) as (X' & E2 & _).
  eexists X, X', _. split; [exact R0|]. split; [exact C0|]. split; [exact E1|]. split; [exact E2|]. reflexivity.
Qed.
