(** Matrices whose rows are moved and to which rows of zeros are added. *)
From Coq Require Import Reals Lra Lia List Arith Bool ZArith.
From Verif Require Import Num Numpy RFacts Spec SpecFacts MatFacts ModelSpec SvdFacts Penalties PenaltySpec ProxProofs CoupledMatrices CmfSpec Decomp DecompSpec
  DecompFacts Parafac2Proofs OrderProofs ReorderFacts ReorderPen SymSpec SymFacts SymPen SymStep SymRun TurnSpec TurnFacts PadSpec.
Import ListNotations.
Local Open Scope R_scope.
Local Notation shaped := PenaltySpec.shaped.

Lemma map2_In {A B C} (f : A -> B -> C) : forall l k x, In x (map2 f l k) -> exists a b, In a l /\ In b k /\ x = f a b.
Proof.
  induction l as [|a l IH]; intros [|b k] x H; cbn [map2] in H; try contradiction. destruct H as [<-|H]; [exists a, b; cbn; auto|]. destruct (IH _ _ H) as (a0 & b0 & H1 & H2 & H3). exists a0, b0. cbn; auto.
Qed.
(** ** The weights of the penalties in the updates are non-negative *)
Lemma feas_nonneg scale (G : rmat) : 0 <= scale -> 0 <= mtrace G -> 0 <= feas_penalty (N:=RNum) scale G.
Proof. intros Hs HG. unfold feas_penalty, nhalf. assert (0 <= mtrace G * scale) by now apply Rmult_le_pos. rn. lra. Qed.
Lemma feas_list_nonneg scale constant (ls : list rmat) fps : 0 <= scale -> Forall (fun G : rmat => 0 <= mtrace G) ls -> feas_penalties (N:=RNum) scale constant ls = Ok fps -> Forall (Rle 0) fps.
Proof.
  intros Hs H E. assert (HM : Forall (Rle 0) (map (feas_penalty (N:=RNum) scale) ls)) by (rewrite Forall_map; eapply Forall_impl; [|exact H]; cbv beta; intros G; now apply feas_nonneg).
  unfold feas_penalties in E. destruct constant; [|injection E as <-; exact HM].
  destruct (map (feas_penalty (N:=RNum) scale) ls) as [|x l] eqn:EM; [discriminate|]. injection E as <-. inversion HM as [|? ? Hx Hl]; subst.
  assert (HX : forall l x, 0 <= x -> 0 <= fold_left (@nmax RNum) l x).
  { clear. induction l as [|y l IH]; intros x Hx; [exact Hx|]. cbn [fold_left]. apply IH. unfold nmax. rn. destruct (Rleb_spec x y); [lra|exact Hx]. }
  specialize (HX l x Hx). change (Forall (Rle 0) (map (fun _ : R => fold_left (@nmax RNum) l x) (x :: l))). rewrite Forall_map. apply Forall_forall. intros _ _. exact HX.
Qed.
Lemma B_lhs_trace (C : rmat) (a : list R) : 0 <= mtrace (B_lhs (N:=RNum) C a).
Proof.
  unfold mtrace, B_lhs. rewrite nsum_rsum. mshape. apply rsum_nonneg. intros k Hk. rewrite mget_mtrans by mlia. rewrite mget_mcolscale by mlia. rewrite mget_mtrans by mlia. rewrite mget_mcolscale by mlia.
  pose proof (gram_diag C k Hk). pose proof (Rle_0_sqr (vg a k)) as Q. unfold Rsqr in Q. rn. nra.
Qed.
Lemma trace_sum r (l : list rmat) (G : rmat) : (forall x, In x l -> shaped x r r /\ 0 <= mtrace x) -> msum_list l = Some G -> 0 <= mtrace G.
Proof.
  intros HL EM. destruct l as [|x l]; [discriminate|]. cbn [msum_list] in EM. injection EM as <-. destruct (HL x ltac:(now left)) as (Sx & Ex). assert (HL' : forall y, In y l -> shaped y r r /\ 0 <= mtrace y) by (intros y Hy; apply HL; now right). clear HL.
  revert x Sx Ex. induction l as [|y l IH]; intros x Sx Ex; cbn [fold_left]; [exact Ex|]. destruct (HL' y ltac:(now left)) as ((Wy & Ry & Cy) & Ey). destruct Sx as (Wx & Rx & Cx). apply IH; [intros w Hw; apply HL'; now right| |].
  - split; [auto with mwf|mshape; split; assumption].
  - unfold mtrace in *. mshape. rewrite Rx in *. rewrite Ry in *. rewrite nsum_rsum in *. rewrite (rsum_ext r _ (fun i => rget x i i + rget y i i)) by (intros i Hi; unfold madd; rewrite mget_mmap2 by lia; reflexivity).
    rewrite rsum_add. rn. lra.
Qed.

(** ** Placing rows *)
Definition placed (Q : rmat) (r : nat) (f : nat -> nat) : Prop :=
  into f r (mr Q) /\ forall i k, (i < mr Q)%nat -> (k < r)%nat -> rget Q i k = kron i (f k).
Lemma hit_or (f : nat -> nat) i : forall r, (exists k, (k < r)%nat /\ f k = i) \/ (forall k, (k < r)%nat -> f k <> i).
Proof.
  induction r as [|r [(k & Hk & E)|H]]; [right; intros; lia|left; exists k; split; [lia|exact E]|].
  destruct (Nat.eq_dec (f r) i) as [E|E]; [left; exists r; split; [lia|exact E]|]. right. intros k Hk. destruct (Nat.eq_dec k r) as [->|]; [exact E|apply H; lia].
Qed.
Section Place.
Variables (r c : nat) (Q : rmat).
Hypothesis HQ : frame Q r.
Variable f : nat -> nat.
Hypothesis HF : placed Q r f.
Local Notation T := (tm r c Q).
Lemma placed_hit M M' k j : T M M' -> (k < r)%nat -> (j < c)%nat -> rget M' (f k) j = rget M k j.
Proof.
  intros ((W & R0 & C0) & ->) Hk Hj. destruct HQ as (WQ & CQ & _). destruct HF as ((I1 & I2) & HG). rewrite mget_mmul by (try apply I1; mlia). rewrite CQ.
  rewrite (rsum_single r k).
  - rewrite HG by auto. unfold kron. rewrite Nat.eqb_refl. (rn; ring).
  - exact Hk.
  - intros l Hl NE. rewrite HG by auto. unfold kron. destruct (Nat.eqb_spec (f k) (f l)) as [E|E]; [|rn; ring]. exfalso. apply NE. symmetry. now apply I2.
Qed.
Lemma placed_miss M M' i j : T M M' -> (i < mr Q)%nat -> (j < c)%nat -> (forall k, (k < r)%nat -> f k <> i) -> rget M' i j = 0.
Proof.
  intros ((W & R0 & C0) & ->) Hi Hj NH. destruct HQ as (WQ & CQ & _). destruct HF as ((I1 & I2) & HG). rewrite mget_mmul by mlia. rewrite CQ. apply rsum_zero. intros k Hk.
  rewrite HG by auto. unfold kron. destruct (Nat.eqb_spec i (f k)) as [E|E]; [|rn; ring]. exfalso. exact (NH k Hk (eq_sym E)).
Qed.
Lemma placed_intro M M' : shaped M r c -> shaped M' (mr Q) c -> (forall k j, (k < r)%nat -> (j < c)%nat -> rget M' (f k) j = rget M k j) ->
  (forall i j, (i < mr Q)%nat -> (j < c)%nat -> (forall k, (k < r)%nat -> f k <> i) -> rget M' i j = 0) -> T M M'.
Proof.
  intros S1 S2 H1 H2. split; [exact S1|]. assert (TT : T M (mmul Q M)) by (split; [exact S1|reflexivity]). pose proof (tm_shape r Q c _ _ TT) as (W3 & R3 & C3). destruct S2 as (W2 & R2 & C2).
  apply mat_ext; [assumption|assumption|congruence|congruence|]. rewrite R2, C2. intros i j Hi Hj. destruct (hit_or f i r) as [(k & Hk & <-)|NH].
  - rewrite H1 by assumption. symmetry. now apply placed_hit.
  - rewrite H2 by assumption. symmetry. eapply placed_miss; eauto.
Qed.
Lemma placed_map (g : R -> R) M M' : g 0 = 0 -> T M M' -> T (mmap g M) (mmap g M').
Proof.
  intros G0 HM. pose proof (tm_shape r Q c _ _ HM) as (W' & R' & C'). pose proof HM as ((W & R0 & C0) & _). apply placed_intro.
  - split; [auto with mwf|mshape; auto].
  - split; [auto with mwf|mshape; auto].
  - intros k j Hk Hj. assert (f k < mr Q)%nat by (apply HF; exact Hk). rewrite !mget_mmap by mlia. f_equal. now apply placed_hit.
  - intros i j Hi Hj NH. rewrite mget_mmap by mlia. rewrite (placed_miss M M' i j HM Hi Hj NH). exact G0.
Qed.
Lemma placed_sum M M' : T M M' -> msum M' = msum M.
Proof.
  intros HM. pose proof (tm_shape r Q c _ _ HM) as (W' & R' & C'). pose proof HM as ((W & R0 & C0) & E). unfold msum. rewrite R', R0, C', C0. rewrite !nsum_rsum.
  transitivity (rsum (mr Q) (fun i => rsum c (fun j => rsum r (fun k => kron i (f k) * rget M k j)))).
  { apply rsum_ext. intros i Hi. rewrite nsum_rsum. apply rsum_ext. intros j Hj. rewrite E. destruct HQ as (WQ & CQ & _). rewrite mget_mmul by mlia. rewrite CQ. apply rsum_ext. intros k Hk. now rewrite (proj2 HF). }
  transitivity (rsum r (fun k => rsum (mr Q) (fun i => rsum c (fun j => kron i (f k) * rget M k j)))).
  { rewrite (rsum_swap r (mr Q)). apply rsum_ext. intros i Hi. apply rsum_swap. }
  apply rsum_ext. intros k Hk. rewrite (rsum_single (mr Q) (f k)).
  - etransitivity; [|symmetry; apply nsum_rsum]. apply rsum_ext. intros j Hj. unfold kron. rewrite Nat.eqb_refl. (rn; ring).
  - apply HF. exact Hk.
  - intros i Hi NE. apply rsum_zero. intros j Hj. unfold kron. destruct (Nat.eqb_spec i (f k)); [contradiction|rn; ring].
Qed.
Lemma placed_abs_sum M M' : T M M' -> mabs_sum (N:=RNum) M' = mabs_sum (N:=RNum) M.
Proof. intros HM. unfold mabs_sum. apply placed_sum. apply placed_map; [|exact HM]. rewrite nabs_R. apply Rabs_R0. Qed.
Lemma placed_update E p M M' rho : 0 <= rho -> keeps_zero p -> valid_penalty p r -> T M M' -> res_rel T (factor_matrix_update E p M rho) (factor_matrix_update E p M' rho).
Proof.
  intros HR KZ VP HM. destruct p as [|lo hi|reg nn|G U s|reg l1|b nn| |nn|it ub uc]; cbn [keeps_zero] in KZ; try contradiction; cbn [factor_matrix_update].
  - cbn [res_rel]. apply placed_map; [|exact HM]. rewrite relu_R. apply Rmax_left. lra.
  - destruct (clip_ok lo hi); [|reflexivity]. cbn [res_rel]. apply placed_map; [|exact HM]. destruct KZ as (K1 & K2). unfold clip1, nmax, nmin.
    destruct lo as [x|], hi as [y|]; try specialize (K1 _ eq_refl); try specialize (K2 _ eq_refl); rn; unfold n0 in *; cbn [num RNum] in *; repeat match goal with |- context [Rleb ?u ?v] => destruct (Rleb_spec u v) end; rn; repeat match goal with H : context [Rleb ?u ?v] |- _ => destruct (Rleb_spec u v) end; lra.
  - destruct (ntruthy (N:=RNum) rho) eqn:TR; [|reflexivity]. cbn [negb]. cbn [valid_penalty] in VP. destruct nn; cbn [res_rel]; (apply placed_map; [|exact HM]).
    + rewrite relu_R. apply Rmax_right. apply ntruthy_R in TR. assert (0 <= reg / rho) by (apply Rmult_le_pos; [exact VP|apply Rlt_le, Rinv_0_lt_compat; lra]). rn. lra.
    + unfold soft, nsign. rn. destruct (nltb_spec 0 0); [lra|]. (rn; ring).
  - cbn [res_rel]. cbv zeta. assert (HM' : T (if nn then mmap relu M else M) (if nn then mmap relu M' else M')) by (destruct nn; [apply placed_map; [rewrite relu_R; apply Rmax_left; lra|exact HM]|exact HM]).
    rewrite (tm_col_norms r Q HQ c _ _ HM'). apply tm_mcoldiv; [exact HQ|]. now apply tm_mscale.
  - reflexivity.
Qed.
Lemma placed_penalty p M M' : keeps_zero p -> T M M' -> penalty_mat (N:=RNum) p M' = penalty_mat (N:=RNum) p M.
Proof.
  intros KZ HM. destruct p as [|lo hi|reg nn|G U s|reg l1|b nn| |nn|it ub uc]; cbn [keeps_zero] in KZ; try contradiction; try reflexivity. cbn [penalty_mat]. now rewrite (placed_abs_sum M M' HM).
Qed.
End Place.
