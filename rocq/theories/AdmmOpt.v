(** Fixed points of the inner loops are optimal; inner iterations approach
    certified optima. *)
From Coq Require Import Reals Lra Lia List Arith Bool FunctionalExtensionality.
From Verif Require Import Num Numpy Unimodal RFacts Spec SpecFacts MatFacts SvdFacts ModelSpec Penalties PenaltySpec
  ProxProofs TVProofs GenL2Proofs SimplexProofs Parafac2Proofs PenaltyMain CoupledMatrices CmfSpec CmfProofs
  Decomp DecompSpec DecompFacts AdmmProofs AdmmB AdmmA AdmmRegs AdmmLoop AdmmOne AoState OptSpec AdmmConv AdmmFix AdmmFixB.
Import ListNotations.
Local Open Scope R_scope.
Notation one := (fun _ : nat => 1%nat).

Lemma F2_and {A B} (R S : A -> B -> Prop) l m : Forall2 R l m -> Forall2 S l m -> Forall2 (fun x y => R x y /\ S x y) l m.
Proof. induction 1; intros H'; inversion H'; subst; constructor; auto. Qed.
Lemma F2_left {A B} (R : A -> B -> Prop) (P : A -> Prop) l m : Forall2 R l m -> Forall P l -> Forall2 (fun x y => R x y /\ P x) l m.
Proof. induction 1; intros H'; inversion H'; subst; constructor; auto. Qed.

(** ** Generic consequences *)
Lemma approaches_sum r c rho x us m regs factor : (forall i, (i < r)%nat -> 0 < rho i) ->
  approaches r c rho x us m regs factor -> forall k, (k < m)%nat ->
  energy r c rho x us (regs (S k)) + rsum k (fun i => infeasibility r c rho (regs (S (S i))) (factor (S (S i)))) <= energy r c rho x us (regs 1%nat).
Proof.
  intros Hr H. induction k as [|k IH]; intros Hk; [rewrite rsum_0; lra|]. specialize (IH ltac:(lia)). rewrite rsum_S.
  destruct (H (S k) ltac:(lia) Hk) as (H1 & H2). lra.
Qed.
Lemma energy_nonneg r c rho x us regs : (forall i, (i < r)%nat -> 0 < rho i) -> 0 <= energy r c rho x us regs.
Proof.
  intros Hr. unfold energy. rewrite Sum_rsum. apply rsum_nonneg. intros q Hq.
  pose proof (wsq_nonneg r c rho Hr (aux_at regs q) x). pose proof (wsq_nonneg r c rho Hr (dual_at regs q) (us q)). lra.
Qed.
Lemma energy_l_nonneg n J c rho x us regs : (forall i, (i < n)%nat -> 0 < rho i) -> 0 <= energy_l n J c rho x us regs.
Proof.
  intros Hr. unfold energy_l. rewrite Sum_rsum. apply rsum_nonneg. intros q Hq.
  pose proof (wsq_l_nonneg n J c rho Hr (baux_at regs q) x). pose proof (wsq_l_nonneg n J c rho Hr (bdual_at regs q) (us q)). lra.
Qed.
Lemma least_term k (g : nat -> R) : (0 < k)%nat -> exists i, (i < k)%nat /\ INR k * g i <= rsum k g.
Proof.
  intros Hk.
  assert (H : exists i, (i < k)%nat /\ forall j, (j < k)%nat -> g i <= g j).
  { clear - Hk. induction k as [|k IH]; [lia|]. destruct (Nat.eq_dec k 0) as [->|Hn].
    - exists 0%nat. split; [lia|]. intros j Hj. replace j with 0%nat by lia. lra.
    - destruct IH as (i & Hi & HI); [lia|]. destruct (Rle_lt_dec (g i) (g k)).
      + exists i. split; [lia|]. intros j Hj. destruct (Nat.eq_dec j k) as [->|]; [assumption|apply HI; lia].
      + exists k. split; [lia|]. intros j Hj. destruct (Nat.eq_dec j k) as [->|]; [lra|]. specialize (HI j ltac:(lia)). lra. }
  destruct H as (i & Hi & HI). exists i. split; [assumption|].
  rewrite <- rsum_const. apply rsum_le. assumption.
Qed.
(** among the iterations 2, ..., k+1 one is nearly feasible *)
Lemma approaches_rate r c rho x us m regs factor : (forall i, (i < r)%nat -> 0 < rho i) ->
  approaches r c rho x us m regs factor -> forall k, (0 < k)%nat -> (k < m)%nat ->
  exists i, (2 <= i <= S k)%nat /\ INR k * infeasibility r c rho (regs i) (factor i) <= energy r c rho x us (regs 1%nat).
Proof.
  intros Hr H k Hk Hm. pose proof (approaches_sum _ _ _ _ _ _ _ _ Hr H k Hm) as K.
  destruct (least_term k (fun i => infeasibility r c rho (regs (S (S i))) (factor (S (S i)))) Hk) as (i & Hi & HI).
  exists (S (S i)). split; [lia|]. pose proof (energy_nonneg r c rho x us (regs (S k)) Hr). lra.
Qed.
Lemma approaches_l_rate n J c rho x us m regs factor : (forall i, (i < n)%nat -> 0 < rho i) ->
  approaches_l n J c rho x us m regs factor -> forall k, (0 < k)%nat -> (k < m)%nat ->
  exists i, (2 <= i <= S k)%nat /\ INR k * infeasibility_l n J c rho (regs i) (factor i) <= energy_l n J c rho x us (regs 1%nat).
Proof.
  intros Hr H k Hk Hm.
  assert (K : energy_l n J c rho x us (regs (S k)) + rsum k (fun i => infeasibility_l n J c rho (regs (S (S i))) (factor (S (S i)))) <= energy_l n J c rho x us (regs 1%nat)).
  { clear Hk. induction k as [|k IH]; [rewrite rsum_0; lra|]. specialize (IH ltac:(lia)). rewrite rsum_S.
    destruct (H (S k) ltac:(lia) Hm) as (H1 & H2). lra. }
  destruct (least_term k (fun i => infeasibility_l n J c rho (regs (S (S i))) (factor (S (S i)))) Hk) as (i & Hi & HI).
  exists (S (S i)). split; [lia|]. pose proof (energy_l_nonneg n J c rho x us (regs (S k)) Hr). lra.
Qed.

Lemma loop1 {S} (step : S -> res S) c1 c2 (s s' : S) : inner_loop step c1 1 s = Ok s' -> (forall a b, exists v, c2 a b = Ok v) ->
  inner_loop step c2 1 s = Ok s'.
Proof.
  intros H K. cbn [inner_loop] in *. destruct (step s) as [s1|]; [|discriminate]. cbn [bind] in *. destruct (K s s1) as (v & ->).
  destruct (c1 s s1) as [[|]|]; [| |discriminate]; cbn [bind] in *; destruct v; exact H.
Qed.

Section Modes.
Variables (E : ext (N:=RNum)) (Xs : list rmat) (c : rcmf) (l2 scale : R) (constant : bool).
Hypothesis HF : data_fits Xs c.
Hypothesis HN : nonempty c.
Hypothesis Hl2 : 0 <= l2.
Hypothesis Hsc : 0 <= scale.
Hypothesis Hsvd : svd_correct E (mc (cA c)).

(** ** Mode 2 *)
Notation rC := (fun _ : nat => rho_C scale c).
Notation convexC l := (Forall (fun g => convex_pen (g_pen g)) l).
Notation stepC a b := (astep (mr (cC c)) one (mc (cA c)) rC (length (snd a)) (fun p => smooth_C Xs c l2 (p2e p))
   (rpen (mr (cC c)) (mc (cA c)) (snd a)) (rdom (mr (cC c)) (mc (cA c)) (snd a))
   (fun q => e2p (aux_at (snd a) q)) (fun q => e2p (dual_at (snd a) q)) (e2p (rget (cC (fst b))))
   (fun q => e2p (aux_at (snd b) q)) (fun q => e2p (dual_at (snd b) q))).
Lemma whole_vi (M : rmat) rho (rhof : nat -> R) r k (g g' : mregR) : 0 < rho -> (forall i, (i < r)%nat -> rhof i = rho) ->
  shaped M r k -> mreg_valid r k g -> convex_pen (g_pen g) -> tv_correct E r ->
  factor_matrix_update E (g_pen g) (madd M (g_dual g)) rho = Ok (g_aux g') -> rvi r k rhof (rget M) g g'.
Proof.
  intros Hr Hrf (W1 & R1 & C1) (_ & Hv & _ & (W2 & R2 & C2)) Hc Htv H.
  set (V := madd M (g_dual g)) in *. assert (WV : mwf V) by (unfold V; auto with mwf).
  assert (RV : mr V = r) by (unfold V; mshape; exact R1). assert (CV : mc V = k) by (unfold V; mshape; exact C1).
  destruct (update_vi E (g_pen g) V (g_aux g') rho WV Hr Hc) as (U1 & U2); auto; try (intros; rewrite RV; assumption).
  rewrite RV, CV in U1, U2. split; [exact U1|]. intros Z HZ. specialize (U2 Z HZ).
  eapply Rle_trans; [|exact U2]. right. f_equal. unfold wdot. rewrite <- rsum_scal. apply Sum_rsum_ext. intros i Hi. rewrite Hrf by assumption.
  f_equal. apply Sum_rsum_ext. intros j Hj. unfold V, esub. rewrite mget_madd by (rn; lia). reflexivity.
Qed.
Lemma C_astep a b : C_inv c a -> convexC (snd a) -> 0 < rho_C scale c -> tv_correct E (mr (cC c)) ->
  admm_update_C E Xs (fst a) (snd a) l2 1 None scale = Ok b ->
  C_inv c b /\ map g_pen (snd b) = map g_pen (snd a) /\ convexC (snd b) /\
  Forall2 (mstep (mr (cC c)) (mc (cA c)) (rget (cC (fst b)))) (snd a) (snd b) /\ stepC a b.
Proof.
  intros HI HC Hr Htv H. destruct (C_inv_step E Xs c l2 scale HF HN Hl2 Hsc Hsvd a b HI H) as (B1 & B2 & B3).
  split; [assumption|]. assert (EP : map g_pen (snd b) = map g_pen (snd a)) by (apply (F2_map _ _ _ _ _ B2); intros x y (X & _); exact X).
  split; [assumption|]. split.
  { apply Forall_map. rewrite EP. now apply Forall_map. }
  split; [assumption|].
  destruct a as [ca ra], b as [cb rb]. cbn [fst snd] in *. destruct HI as (I1 & I2 & I3). cbn [fst snd] in I1, I2, I3.
  rewrite I1 in H. assert (HF' := data_fits_C Xs c (cC ca) HF I2). destruct I2 as (W & S1 & S2).
  assert (HN' : nonempty (Cmf None (cA c) (cBs c) (cC ca))).
  { destruct HN as (N1 & N2 & N3 & N4). split; [exact N1|]. split; [cbn [cC]; rn; lia|]. split; assumption. }
  destruct (update_C_one E Xs _ l2 scale HF' HN' Hl2 Hsc Hsvd ra rb cb None) as (K1 & K2 & K3 & K4); cbn [cA cBs cC] in *.
  { rewrite S1. exact I3. } { exact H. }
  rewrite S1 in K2, K4.
  apply rows_astep; [intros; assumption|now apply smooth_C_convex| |].
  - intros Z. specialize (B3 Z). unfold obj_C in B3.
    assert (EQ : forall Y : ent, Sum (length ra) (fun q => Sum (mr (cC c)) (fun i => rho_C scale c / 2 *
       Sum (mc (cA c)) (fun k => (Y i k - (rget (g_aux (nth_reg ra q)) i k - rget (g_dual (nth_reg ra q)) i k)) ^ 2))) =
       Sum (length ra) (fun q => rho_C scale c / 2 * dist2 (mr (cC c)) (mc (cA c)) Y (fun k r => rget (g_aux (nth_reg ra q)) k r - rget (g_dual (nth_reg ra q)) k r))).
    { intros Y. apply Sum_ext. intros q Hq. rewrite ProxProofs.dist2_rsum, <- rsum_scal. apply Sum_rsum_ext. intros i Hi.
      f_equal. }
    rewrite !EQ. exact B3.
  - apply F2_and; [exact B2|]. pose proof (F2_left _ _ _ _ (F2_left _ _ _ _ K4 HC) I3) as K5.
    eapply F2_impl; [|exact K5]. intros g g' (((_ & X) & Y) & V). cbn beta in *.
    apply (whole_vi (cC cb) (rho_C scale c)); auto.
Qed.
Lemma C_fixed regs tol : Forall (mreg_valid (mr (cC c)) (mc (cA c))) regs -> convexC regs -> 0 < rho_C scale c ->
  tv_correct E (mr (cC c)) -> admm_update_C E Xs c regs l2 1 tol scale = Ok (c, regs) ->
  (forall q, (q < length regs)%nat -> same (mr (cC c)) (mc (cA c)) (aux_at regs q) (rget (cC c))) /\
  certified (mr (cC c)) (mc (cA c)) rC (smooth_C Xs c l2) regs (rget (cC c)) (dual_at regs) /\
  optimal (mr (cC c)) (mc (cA c)) (smooth_C Xs c l2) regs (rget (cC c)).
Proof.
  intros Hv HC Hr Htv H.
  assert (H1 : admm_update_C E Xs c regs l2 1 None scale = Ok (c, regs)).
  { revert H. unfold admm_update_C. destruct (msum_list _); [|discriminate]. destruct (msum_list _); [|discriminate]. cbv zeta.
    intros H. destruct (inner_loop _ (conv_mat tol) 1 _) as [s|] eqn:EL; [|discriminate]. rewrite (loop1 _ _ (conv_mat None) _ _ EL) by (intros; eexists; reflexivity).
    exact H. }
  assert (HI : C_inv c (c, regs)).
  { destruct (update_C_one E Xs c l2 scale HF HN Hl2 Hsc Hsvd regs regs c None Hv H1) as (K1 & K2 & _).
    split; [exact K1|]. split; [exact K2|exact Hv]. }
  destruct (C_astep (c, regs) (c, regs) HI HC Hr Htv H1) as (_ & _ & _ & _ & ST). cbn [fst snd] in ST.
  destruct (rows_fixed _ _ _ _ regs (cC c) HC ST) as (F1 & F2). split; [assumption|]. split; [assumption|].
  eapply certified_optimal; eauto.
Qed.
Lemma C_approach regs regs' c' n tol x us : Forall (mreg_valid (mr (cC c)) (mc (cA c))) regs -> convexC regs -> 0 < rho_C scale c ->
  tv_correct E (mr (cC c)) ->
  certified (mr (cC c)) (mc (cA c)) rC (smooth_C Xs c l2) regs x us ->
  admm_update_C E Xs c regs l2 n tol scale = Ok (c', regs') ->
  exists m tr,
    iterates (fun a b => admm_update_C E Xs (fst a) (snd a) l2 1 None scale = Ok b)
             (fun a b => settled tol (mr (cC c)) (mc (cA c)) (rget (cC (fst a))) (rget (cC (fst b))) (snd b))
             n (unweighted c, regs) (c', regs') m tr /\
    approaches (mr (cC c)) (mc (cA c)) rC x us m (fun i => snd (tr i)) (fun i => rget (cC (fst (tr i)))).
Proof.
  intros Hv HC Hr Htv HX H. destruct (update_C_trace E Xs c l2 scale HF HN Hl2 Hsc Hsvd regs regs' c' n tol Hv H) as (m & tr & HI & Hinv).
  exists m, tr. split; [assumption|].
  assert (HP : forall i, (i <= m)%nat -> C_inv c (tr i) /\ map g_pen (snd (tr i)) = map g_pen regs /\ convexC (snd (tr i))).
  { apply (iterates_inv _ _ _ _ _ _ _ (fun s => C_inv c s /\ map g_pen (snd s) = map g_pen regs /\ convexC (snd s)) HI).
    - split; [|split; [reflexivity|exact HC]]. destruct HI as (_ & I2 & _). rewrite <- I2. apply Hinv. lia.
    - intros a b (A1 & A2 & A3) Hs. destruct (C_astep a b A1 A3 Hr Htv Hs) as (B1 & B2 & B3 & _). split; [assumption|]. split; [congruence|assumption]. }
  destruct HI as (_ & I2 & _ & I4 & _).
  intros i Hi Him. destruct (HP i ltac:(lia)) as (A1 & A2 & A3).
  destruct (C_astep _ _ A1 A3 Hr Htv (I4 i ltac:(lia))) as (_ & A4 & _ & A5 & A6).
  destruct i as [|i]; [lia|]. destruct (HP i ltac:(lia)) as (Z1 & Z2 & Z3).
  destruct (C_astep _ _ Z1 Z3 Hr Htv (I4 i ltac:(lia))) as (_ & Z4 & _ & _ & Z6).
  split.
  - apply (rows_fejer _ _ _ _ (snd (tr i)) _ _ _ _ _ _ Z4 (eq_trans A4 Z4) Z6 A6).
    destruct HX as (X1 & X2). assert (LL : length (snd (tr i)) = length regs) by (rewrite <- (map_length g_pen), Z2; apply map_length).
    split; rewrite LL; [exact X1|]. intros q Hq. rewrite (pens_nth _ _ Z2 q). now apply X2.
  - apply infeasible_change; [intros; assumption|]. exact A5.
Qed.

(** ** Mode 0 *)
Notation stepA rho a b := (astep (mr (cA c)) one (mc (cA c)) rho (length (snd a)) (fun p => smooth_A Xs c l2 (p2e p))
   (rpen (mr (cA c)) (mc (cA c)) (snd a)) (rdom (mr (cA c)) (mc (cA c)) (snd a))
   (fun q => e2p (aux_at (snd a) q)) (fun q => e2p (dual_at (snd a) q)) (e2p (rget (cA (fst b))))
   (fun q => e2p (aux_at (snd b) q)) (fun q => e2p (dual_at (snd b) q))).
Lemma rhos_used_unique b n f rho rho' : rhos_used b n f rho -> rhos_used b n f rho' -> forall i, (i < n)%nat -> rho i = rho' i.
Proof.
  destruct b; cbn; intros H H' i Hi.
  - destruct (H i Hi) as ((k & Hk & ->) & M), (H' i Hi) as ((k' & Hk' & ->) & M'). specialize (M k' Hk'). specialize (M' k Hk). lra.
  - rewrite H, H' by assumption. reflexivity.
Qed.
Lemma rhos_used_pos b n f rho : rhos_used b n f rho -> (forall i, (i < n)%nat -> 0 < f i) -> forall i, (i < n)%nat -> 0 < rho i.
Proof.
  destruct b; cbn; intros H P i Hi.
  - destruct (H i Hi) as ((k & Hk & ->) & _). auto.
  - rewrite H by assumption. auto.
Qed.
Lemma row_doc_penalty p r k Z : row_penalty p -> doc_penalty p r k Z = Sum r (fun i => doc_penalty p 1 k (fun _ j => Z i j)).
Proof.
  destruct p as [|lo hi|reg nn|M U s|reg l1|b nn| |nn|m ub uc]; intros H; try contradiction; cbn [doc_penalty].
  - rewrite Sum_rsum. symmetry. now apply rsum_zero.
  - rewrite Sum_rsum. symmetry. now apply rsum_zero.
  - unfold abs_sum. rewrite !Sum_rsum, <- rsum_scal. apply rsum_ext. intros i Hi. rewrite !Sum_rsum, rsum_S, rsum_0. rn. ring.
Qed.
Lemma row_doc_domain p r k Z : row_penalty p -> (doc_domain p r k Z <-> forall i, (i < r)%nat -> doc_domain p 1 k (fun _ j => Z i j)).
Proof.
  destruct p as [|lo hi|reg nn|M U s|reg l1|b nn| |nn|m ub uc]; intros H; try contradiction; cbn [doc_domain]; unfold entries.
  - split; intros K; [intros i Hi _ j _ Hj; auto|]. intros i j Hi Hj. apply (K i Hi 0%nat j); auto.
  - split; intros K; [intros i Hi _ j _ Hj; auto|]. intros i j Hi Hj. apply (K i Hi 0%nat j); auto.
  - split; intros K; [intros i Hi Hn _ j _ Hj; auto|]. intros Hn i j Hi Hj. apply (K i Hi Hn 0%nat j); auto.
Qed.
Lemma rows_vi (M : rmat) (rho : nat -> R) r k (g g' : mregR) : (forall i, (i < r)%nat -> 0 < rho i) ->
  shaped M r k -> mreg_valid r k g -> mreg_valid r k g' -> convex_pen (g_pen g) -> row_penalty (g_pen g) ->
  (forall i, (i < r)%nat -> factor_matrix_update E (g_pen g) (rowm (mrow (madd M (g_dual g)) i)) (rho i) = Ok (rowm (mrow (g_aux g') i))) ->
  rvi r k rho (rget M) g g'.
Proof.
  intros Hr (W1 & R1 & C1) (_ & Hv & _ & (W2 & R2 & C2)) (_ & _ & (W3 & R3 & C3) & _) Hc RP H.
  set (V := madd M (g_dual g)) in *. assert (WV : mwf V) by (unfold V; auto with mwf).
  assert (RV : mr V = r) by (unfold V; mshape; exact R1). assert (CV : mc V = k) by (unfold V; mshape; exact C1).
  assert (K : forall i, (i < r)%nat -> doc_domain (g_pen g) 1 k (fun _ j => rget (g_aux g') i j) /\
     forall Z, doc_domain (g_pen g) 1 k Z -> doc_penalty (g_pen g) 1 k (fun _ j => rget (g_aux g') i j) +
       rho i * rsum 1 (fun i0 => rsum k (fun j => (rget M i j + rget (g_dual g) i j - rget (g_aux g') i j) * (Z i0 j - rget (g_aux g') i j)))
       <= doc_penalty (g_pen g) 1 k Z).
  { intros i Hi.
    assert (SR : shaped (rowm (mrow V i)) 1 k) by (apply rowm_shaped; rewrite length_mrow by (auto; lia); exact CV).
    destruct SR as (WR & SR1 & SR2).
    destruct (update_vi E (g_pen g) _ (rowm (mrow (g_aux g') i)) (rho i) WR (Hr i Hi) Hc) as (U1 & U2); [| |exact (H i Hi)|].
    { rewrite SR1. destruct (g_pen g); try contradiction; exact Hv. } { intros reg l1 EG. rewrite EG in RP. contradiction. }
    rewrite SR1, SR2 in U1, U2.
    assert (SX : same 1 k (rget (rowm (mrow (g_aux g') i))) (fun _ j => rget (g_aux g') i j)).
    { intros i0 j Hi0 Hj. replace i0 with 0%nat by lia. reflexivity. }
    split; [exact (doc_domain_ext _ _ _ _ _ Hc SX U1)|].
    intros Z HZ. specialize (U2 Z HZ). rewrite (doc_penalty_ext _ _ _ _ _ SX) in U2. eapply Rle_trans; [|exact U2]. right. f_equal. f_equal.
    apply rsum_ext. intros i0 Hi0. apply rsum_ext. intros j Hj. rewrite (SX i0 j Hi0 Hj).
    assert (EV : rget (rowm (mrow V i)) i0 j = rget V i j) by (replace i0 with 0%nat by lia; reflexivity).
    rewrite EV. unfold V. rewrite mget_madd by (rn; lia). reflexivity. }
  split.
  - apply (row_doc_domain _ _ _ _ RP). intros i Hi. now apply K.
  - intros Z HZ. rewrite (row_doc_penalty _ r k Z RP), (row_doc_penalty _ r k (rget (g_aux g')) RP).
    unfold wdot. rewrite !Sum_rsum, <- rsum_add. apply rsum_le. intros i Hi.
    pose proof (proj2 (K i Hi) (fun _ j => Z i j) (proj1 (row_doc_domain _ _ _ _ RP) HZ i Hi)) as Q.
    rewrite rsum_S, rsum_0, Rplus_0_l in Q. rewrite Sum_rsum. exact Q.
Qed.
Lemma A_astep rho a b : A_inv c a -> convexC (snd a) -> rhos_used constant (length Xs) (rho_A scale c) rho ->
  (forall i, (i < length Xs)%nat -> 0 < rho_A scale c i) -> tv_correct E (mr (cA c)) ->
  (exists i, admm_update_A E Xs (fst a) (snd a) l2 1 None scale constant = Ok (b, i)) ->
  A_inv c b /\ map g_pen (snd b) = map g_pen (snd a) /\ convexC (snd b) /\
  Forall2 (mstep (mr (cA c)) (mc (cA c)) (rget (cA (fst b)))) (snd a) (snd b) /\ stepA rho a b.
Proof.
  intros HI HC Hu Hp Htv H. destruct (A_inv_step E Xs c l2 scale constant HF HN Hl2 Hsc Hsvd a b HI H) as (B1 & B2 & _).
  split; [assumption|]. assert (EP : map g_pen (snd b) = map g_pen (snd a)) by (apply (F2_map _ _ _ _ _ B2); intros x y (X & _); exact X).
  split; [assumption|]. split.
  { apply Forall_map. rewrite EP. now apply Forall_map. }
  split; [assumption|]. destruct H as (inter & H).
  destruct a as [ca ra], b as [cb rb]. cbn [fst snd] in *. destruct HI as (I1 & I2 & I3). cbn [fst snd] in I1, I2, I3.
  rewrite I1 in H.
  assert (HF' := data_fits_A Xs c (cA ca) HF I2). destruct I2 as (W & S1 & S2).
  assert (HN' : nonempty (Cmf None (cA ca) (cBs c) (cC c))).
  { destruct HN as (N1 & N2 & N3 & N4). split; [exact N1|]. split; [exact N2|]. split; [cbn [cA]; rn; lia|]. exact N4. }
  assert (Hsvd' : svd_correct E (mc (cA ca))) by (rewrite S2; exact Hsvd).
  destruct (update_A_one E Xs _ l2 scale constant HF' HN' Hl2 Hsc Hsvd' ra rb cb None inter) as (_ & K1 & K2 & fps & Kl & Kr & K3 & K4); cbn [cA cBs cC] in *.
  { rewrite S1, S2. exact I3. } { exact H. }
  rewrite S1, S2 in K2, K4.
  assert (RX : mr (cA c) = length Xs) by exact (RX Xs c HF).
  assert (Kr' : rhos_used constant (length Xs) (rho_A scale c) (fun i => vg fps i)).
  { revert Kr. apply rhos_used_ext. intros i Hi. unfold rho_A. cbn [cA cBs cC]. now rewrite S2. }
  assert (ER : forall i, (i < mr (cA c))%nat -> rho i = vg fps i) by (rewrite RX; exact (rhos_used_unique _ _ _ _ _ Hu Kr')).
  assert (PR : forall i, (i < mr (cA c))%nat -> 0 < rho i) by (rewrite RX; exact (rhos_used_pos _ _ _ _ Hu Hp)).
  apply rows_astep; [exact PR|now apply smooth_A_convex| |].
  - intros Z. specialize (K3 Z). unfold obj_A in K3. cbn [cA cBs cC] in K3. rewrite S1, S2 in K3.
    assert (EQ : forall Y : ent, Sum (length ra) (fun q => Sum (mr (cA c)) (fun i => rho i / 2 *
       Sum (mc (cA c)) (fun k => (Y i k - (rget (g_aux (nth_reg ra q)) i k - rget (g_dual (nth_reg ra q)) i k)) ^ 2))) =
       Sum (length ra) (fun q => Sum (mr (cA c)) (fun i => vg fps i / 2 *
       Sum (mc (cA c)) (fun k => (Y i k - (rget (g_aux (nth_reg ra q)) i k - rget (g_dual (nth_reg ra q)) i k)) ^ 2)))).
    { intros Y. apply Sum_ext. intros q Hq. apply Sum_ext. intros i Hi. now rewrite ER. }
    rewrite !EQ. exact K3.
  - apply F2_and; [exact B2|]. pose proof (F2_left _ _ _ _ (F2_left _ _ _ _ (F2_and _ _ _ _ K4 B2) HC) I3) as K5.
    eapply F2_impl; [|exact K5]. intros g g' ((((_ & X) & (_ & V' & _)) & Y) & V). cbn beta in *. destruct X as (X1 & X2).
    destruct HN as (N1 & N2 & N3 & N4).
    destruct constant eqn:EC.
    + apply (whole_vi (cA cb) (vg fps 0)); auto.
      * rewrite <- ER by (rewrite RX; destruct HF as (_ & LL & _); rn; lia). apply PR. rewrite RX; destruct HF as (_ & LL & _); rn; lia.
      * intros i Hi. rewrite ER by assumption. rewrite RX in Hi.
        destruct (Kr' i Hi) as ((k & Hk & E1) & M1).
        assert (H0 : (0 < length Xs)%nat) by lia. destruct (Kr' 0%nat H0) as ((k' & Hk' & E2) & M2).
        pose proof (M1 k' Hk'). pose proof (M2 k Hk). apply Rle_antisym; rewrite ?E1, ?E2; rn; lra.
    + destruct (X2 eq_refl) as (RP & X3). apply (rows_vi (cA cb)); auto.
      intros i Hi. rewrite ER by assumption. apply X3. cbn [cA]. now rewrite S1.
Qed.
Lemma A_fixed regs tol inter rho : Forall (mreg_valid (mr (cA c)) (mc (cA c))) regs -> convexC regs ->
  rhos_used constant (length Xs) (rho_A scale c) rho -> (forall i, (i < length Xs)%nat -> 0 < rho_A scale c i) ->
  tv_correct E (mr (cA c)) -> admm_update_A E Xs c regs l2 1 tol scale constant = Ok (c, regs, inter) ->
  (forall q, (q < length regs)%nat -> same (mr (cA c)) (mc (cA c)) (aux_at regs q) (rget (cA c))) /\
  certified (mr (cA c)) (mc (cA c)) rho (smooth_A Xs c l2) regs (rget (cA c)) (dual_at regs) /\
  optimal (mr (cA c)) (mc (cA c)) (smooth_A Xs c l2) regs (rget (cA c)).
Proof.
  intros Hv HC Hu Hp Htv H.
  assert (H1 : admm_update_A E Xs c regs l2 1 None scale constant = Ok (c, regs, inter)).
  { revert H. unfold admm_update_A. cbv zeta. destruct (feas_penalties _ _ _); [|discriminate]. cbn [bind].
    intros H. destruct (inner_loop _ (conv_mat tol) 1 _) as [s|] eqn:EL; [|discriminate]. rewrite (loop1 _ _ (conv_mat None) _ _ EL) by (intros; eexists; reflexivity).
    exact H. }
  assert (HI : A_inv c (c, regs)).
  { destruct (update_A_one E Xs c l2 scale constant HF HN Hl2 Hsc Hsvd regs regs c None inter Hv H1) as (_ & K1 & K2 & _).
    split; [exact K1|]. split; [exact K2|exact Hv]. }
  destruct (A_astep rho (c, regs) (c, regs) HI HC Hu Hp Htv (ex_intro _ inter H1)) as (_ & _ & _ & _ & ST). cbn [fst snd] in ST.
  destruct (rows_fixed _ _ _ _ regs (cA c) HC ST) as (F1 & F2). split; [assumption|]. split; [assumption|].
  eapply certified_optimal; eauto.
Qed.
Lemma A_approach regs regs' c' n tol inter rho x us : Forall (mreg_valid (mr (cA c)) (mc (cA c))) regs -> convexC regs ->
  rhos_used constant (length Xs) (rho_A scale c) rho -> (forall i, (i < length Xs)%nat -> 0 < rho_A scale c i) ->
  tv_correct E (mr (cA c)) ->
  certified (mr (cA c)) (mc (cA c)) rho (smooth_A Xs c l2) regs x us ->
  admm_update_A E Xs c regs l2 n tol scale constant = Ok (c', regs', inter) ->
  exists m tr,
    iterates (fun a b => exists i, admm_update_A E Xs (fst a) (snd a) l2 1 None scale constant = Ok (b, i))
             (fun a b => settled tol (mr (cA c)) (mc (cA c)) (rget (cA (fst a))) (rget (cA (fst b))) (snd b))
             n (unweighted c, regs) (c', regs') m tr /\
    approaches (mr (cA c)) (mc (cA c)) rho x us m (fun i => snd (tr i)) (fun i => rget (cA (fst (tr i)))).
Proof.
  intros Hv HC Hu Hp Htv HX H.
  destruct (update_A_trace E Xs c l2 scale constant HF HN Hl2 Hsc Hsvd regs regs' c' n tol inter Hv H) as (_ & m & tr & HI & Hinv).
  exists m, tr. split; [assumption|].
  assert (HP : forall i, (i <= m)%nat -> A_inv c (tr i) /\ map g_pen (snd (tr i)) = map g_pen regs /\ convexC (snd (tr i))).
  { apply (iterates_inv _ _ _ _ _ _ _ (fun s => A_inv c s /\ map g_pen (snd s) = map g_pen regs /\ convexC (snd s)) HI).
    - split; [|split; [reflexivity|exact HC]]. destruct HI as (_ & I2 & _). rewrite <- I2. apply Hinv. lia.
    - intros a b (A1 & A2 & A3) Hs. destruct (A_astep rho a b A1 A3 Hu Hp Htv Hs) as (B1 & B2 & B3 & _). split; [assumption|]. split; [congruence|assumption]. }
  destruct HI as (_ & I2 & _ & I4 & _).
  intros i Hi Him. destruct (HP i ltac:(lia)) as (A1 & A2 & A3).
  destruct (A_astep rho _ _ A1 A3 Hu Hp Htv (I4 i ltac:(lia))) as (_ & A4 & _ & A5 & A6).
  destruct i as [|i]; [lia|]. destruct (HP i ltac:(lia)) as (Z1 & Z2 & Z3).
  destruct (A_astep rho _ _ Z1 Z3 Hu Hp Htv (I4 i ltac:(lia))) as (_ & Z4 & _ & _ & Z6).
  split.
  - apply (rows_fejer _ _ _ _ (snd (tr i)) _ _ _ _ _ _ Z4 (eq_trans A4 Z4) Z6 A6).
    destruct HX as (X1 & X2). assert (LL : length (snd (tr i)) = length regs) by (rewrite <- (map_length g_pen), Z2; apply map_length).
    split; rewrite LL; [exact X1|]. intros q Hq. rewrite (pens_nth _ _ Z2 q). now apply X2.
  - apply infeasible_change; [|exact A5]. rewrite (RX Xs c HF). exact (rhos_used_pos _ _ _ _ Hu Hp).
Qed.

(** ** Mode 1 *)
Notation convexB l := (Forall (fun g => convex_pen (b_pen g)) l).
Notation stepB rho a b := (astep (length Xs) (rowsB c) (mc (cA c)) rho (length (snd a)) (smooth_B Xs c l2)
   (lpen (length Xs) (rowsB c) (mc (cA c)) (snd a)) (ldom (length Xs) (rowsB c) (mc (cA c)) (snd a))
   (baux_at (snd a)) (bdual_at (snd a)) (entB (cBs (fst b))) (baux_at (snd b)) (bdual_at (snd b))).
Lemma B_astep rho a b : B_inv Xs c a -> convexB (snd a) -> rhos_used constant (length Xs) (rho_B scale c) rho ->
  (forall i, (i < length Xs)%nat -> 0 < rho_B scale c i) -> (forall i, (i < length Xs)%nat -> tv_correct E (rowsB c i)) ->
  admm_update_B E Xs (fst a) (snd a) l2 1 None scale constant = Ok b ->
  B_inv Xs c b /\ map b_pen (snd b) = map b_pen (snd a) /\ convexB (snd b) /\
  Forall2 (b_dual_updated (length Xs) (rowsB c) (mc (cA c)) (entB (cBs (fst b)))) (snd a) (snd b) /\ stepB rho a b.
Proof.
  intros HI HC Hu Hp Htv H. destruct (B_inv_step E Xs c l2 scale constant HF HN Hl2 Hsc Hsvd a b HI H) as (B1 & B2 & rho' & Hu' & B3).
  split; [assumption|]. assert (EP : map b_pen (snd b) = map b_pen (snd a)) by (apply (F2_map _ _ _ _ _ B2); intros x y (X & _); exact X).
  split; [assumption|]. split.
  { apply Forall_map. rewrite EP. now apply Forall_map. }
  assert (B4 : Forall2 (b_dual_updated (length Xs) (rowsB c) (mc (cA c)) (entB (cBs (fst b)))) (snd a) (snd b)).
  { eapply F2_impl; [|exact B2]. intros x y (_ & _ & _ & _ & X). exact X. }
  split; [assumption|].
  destruct a as [ca ra], b as [cb rb]. cbn [fst snd] in *. destruct HI as (I1 & I2 & I3). cbn [fst snd] in I1, I2, I3.
  rewrite I1 in H. fold (rowsB c) in I2, I3.
  assert (EL : length (cBs c) = length Xs) by (destruct HF as (_ & L & _); now symmetry).
  assert (I2' := I2). rewrite <- EL in I2'.
  assert (HF' := data_fits_B Xs c (cBs ca) HF I2').
  pose proof (rowsB_shaped c (cBs ca) I2' (cA c) (cC c) None) as RB.
  assert (HN' : nonempty (Cmf None (cA c) (cBs ca) (cC c))).
  { destruct HN as (N1 & N2 & N3 & N4). destruct I2' as (L & _). split; [cbn [cBs]; rn; lia|]. split; [exact N2|]. split; [exact N3|].
    cbn [cBs]. intros i Hi. change (0 < rowsB (Cmf None (cA c) (cBs ca) (cC c)) i)%nat. rewrite RB. apply N4. rn; lia. }
  destruct (update_B_one E Xs _ l2 scale constant HF' HN' Hl2 Hsc Hsvd ra rb cb None) as (K1 & K2 & fps & Kl & Kr & K3 & K4).
  { fold (rowsB (Cmf None (cA c) (cBs ca) (cC c))). rewrite RB. exact I3. } { exact H. }
  fold (rowsB (Cmf None (cA c) (cBs ca) (cC c))) in K2, K4. rewrite RB in K2, K4. cbn [cA cBs cC] in *.
  assert (Kr' : rhos_used constant (length Xs) (rho_B scale c) (fun i => vg fps i)) by exact Kr.
  assert (ER : forall i, (i < length Xs)%nat -> rho i = vg fps i) by exact (rhos_used_unique _ _ _ _ _ Hu Kr').
  assert (ER' : forall i, (i < length Xs)%nat -> rho i = rho' i) by exact (rhos_used_unique _ _ _ _ _ Hu Hu').
  assert (PR : forall i, (i < length Xs)%nat -> 0 < rho i) by exact (rhos_used_pos _ _ _ _ Hu Hp).
  apply lists_astep; [exact PR|now apply smooth_B_convex| |].
  - intros Z. specialize (B3 Z). unfold obj_B in B3. rewrite EL in B3.
    assert (EQ : forall Y : nat -> ent, Sum (length ra) (fun q => Sum (length Xs) (fun i => rho i / 2 *
       dist2 (rowsB c i) (mc (cA c)) (Y i) (fun j r => baux (nth_breg ra q) i j r - rget (nth i (b_dual (nth_breg ra q)) no_mat) j r))) =
       Sum (length ra) (fun q => Sum (length Xs) (fun i => rho' i / 2 *
       dist2 (mr (nthB c i)) (mc (cA c)) (Y i) (fun j r => baux (nth_breg ra q) i j r - rget (nth i (b_dual (nth_breg ra q)) no_mat) j r)))).
    { intros Y. apply Sum_ext. intros q Hq. apply Sum_ext. intros i Hi. now rewrite ER'. }
    rewrite !EQ. unfold smooth_B. rewrite EL. exact B3.
  - apply F2_and; [exact B4|]. pose proof (F2_left _ _ _ _ (F2_left _ _ _ _ (F2_and _ _ _ _ K4 B2) HC) I3) as K5.
    eapply F2_impl; [|exact K5]. intros g g' ((((_ & X) & (V1 & V2 & _)) & Y) & V). cbn beta in *.
    apply (breg_vi _ _ _ _ PR E fps); auto.
Qed.
Lemma B_fixed regs tol rho : Forall (breg_valid (length Xs) (rowsB c) (mc (cA c))) regs -> convexB regs ->
  rhos_used constant (length Xs) (rho_B scale c) rho -> (forall i, (i < length Xs)%nat -> 0 < rho_B scale c i) ->
  (forall i, (i < length Xs)%nat -> tv_correct E (rowsB c i)) ->
  admm_update_B E Xs c regs l2 1 tol scale constant = Ok (c, regs) ->
  (forall q i, (q < length regs)%nat -> (i < length Xs)%nat -> same (rowsB c i) (mc (cA c)) (baux_at regs q i) (entB (cBs c) i)) /\
  certified_l (length Xs) (rowsB c) (mc (cA c)) rho (smooth_B Xs c l2) regs (entB (cBs c)) (bdual_at regs) /\
  optimal_l (length Xs) (rowsB c) (mc (cA c)) (smooth_B Xs c l2) regs (entB (cBs c)).
Proof.
  intros Hv HC Hu Hp Htv H.
  assert (H1 : admm_update_B E Xs c regs l2 1 None scale constant = Ok (c, regs)).
  { revert H. unfold admm_update_B. cbv zeta. destruct (feas_penalties _ _ _); [|discriminate]. cbn [bind].
    intros H. destruct (inner_loop _ (conv_list tol) 1 _) as [s|] eqn:EL; [|discriminate]. rewrite (loop1 _ _ (conv_list None) _ _ EL) by (intros; eexists; reflexivity).
    exact H. }
  assert (HI : B_inv Xs c (c, regs)).
  { destruct (update_B_one E Xs c l2 scale constant HF HN Hl2 Hsc Hsvd regs regs c None Hv H1) as (K1 & K2 & _).
    split; [exact K1|]. split; [exact K2|exact Hv]. }
  destruct (B_astep rho (c, regs) (c, regs) HI HC Hu Hp Htv H1) as (_ & _ & _ & _ & ST). cbn [fst snd] in ST.
  destruct (lists_fixed _ _ _ _ _ regs (entB (cBs c)) HC ST) as (F1 & F2). split; [assumption|]. split; [assumption|].
  eapply certified_optimal_l; eauto.
Qed.
Lemma B_approach regs regs' c' n tol rho x us : Forall (breg_valid (length Xs) (rowsB c) (mc (cA c))) regs -> convexB regs ->
  rhos_used constant (length Xs) (rho_B scale c) rho -> (forall i, (i < length Xs)%nat -> 0 < rho_B scale c i) ->
  (forall i, (i < length Xs)%nat -> tv_correct E (rowsB c i)) ->
  certified_l (length Xs) (rowsB c) (mc (cA c)) rho (smooth_B Xs c l2) regs x us ->
  admm_update_B E Xs c regs l2 n tol scale constant = Ok (c', regs') ->
  exists m tr,
    iterates (fun a b => admm_update_B E Xs (fst a) (snd a) l2 1 None scale constant = Ok b)
             (fun a b => b_settled tol (length Xs) (rowsB c) (mc (cA c)) (entB (cBs (fst a))) (entB (cBs (fst b))) (snd b))
             n (unweighted c, regs) (c', regs') m tr /\
    approaches_l (length Xs) (rowsB c) (mc (cA c)) rho x us m (fun i => snd (tr i)) (fun i => entB (cBs (fst (tr i)))).
Proof.
  intros Hv HC Hu Hp Htv HX H.
  destruct (update_B_trace E Xs c l2 scale constant HF HN Hl2 Hsc Hsvd regs regs' c' n tol Hv H) as (m & tr & HI & Hinv).
  exists m, tr. split; [assumption|].
  assert (HP : forall i, (i <= m)%nat -> B_inv Xs c (tr i) /\ map b_pen (snd (tr i)) = map b_pen regs /\ convexB (snd (tr i))).
  { apply (iterates_inv _ _ _ _ _ _ _ (fun s => B_inv Xs c s /\ map b_pen (snd s) = map b_pen regs /\ convexB (snd s)) HI).
    - split; [|split; [reflexivity|exact HC]]. destruct HI as (_ & I2 & _). rewrite <- I2. apply Hinv. lia.
    - intros a b (A1 & A2 & A3) Hs. destruct (B_astep rho a b A1 A3 Hu Hp Htv Hs) as (B1 & B2 & B3 & _). split; [assumption|]. split; [congruence|assumption]. }
  destruct HI as (_ & I2 & _ & I4 & _).
  intros i Hi Him. destruct (HP i ltac:(lia)) as (A1 & A2 & A3).
  destruct (B_astep rho _ _ A1 A3 Hu Hp Htv (I4 i ltac:(lia))) as (_ & A4 & _ & A5 & A6).
  destruct i as [|i]; [lia|]. destruct (HP i ltac:(lia)) as (Z1 & Z2 & Z3).
  destruct (B_astep rho _ _ Z1 Z3 Hu Hp Htv (I4 i ltac:(lia))) as (_ & Z4 & _ & _ & Z6).
  split.
  - apply (lists_fejer _ _ _ _ _ (snd (tr i)) _ _ _ _ _ _ Z4 (eq_trans A4 Z4) Z6 A6).
    destruct HX as (X1 & X2). assert (LL : length (snd (tr i)) = length regs) by (rewrite <- (map_length b_pen), Z2; apply map_length).
    split; rewrite LL; [exact X1|]. intros q Hq. rewrite (bpens_nth _ _ Z2 q). now apply X2.
  - apply infeasible_change_l; [|exact A5]. exact (rhos_used_pos _ _ _ _ Hu Hp).
Qed.
End Modes.
