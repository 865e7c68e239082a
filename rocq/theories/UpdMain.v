(** The inner iterations of the three updates, put together for the property files. *)
From Coq Require Import Reals Lra Lia List Arith Bool ZArith.
From Verif Require Import Num Numpy Unimodal RFacts Spec SpecFacts MatFacts SvdFacts ModelSpec Penalties PenaltySpec
  ProxProofs TVProofs GenL2Proofs SimplexProofs Parafac2Proofs PenaltyMain CoupledMatrices CmfSpec CmfProofs
  Decomp DecompSpec DecompFacts AdmmProofs AdmmB AdmmA AdmmRegs AdmmLoop AdmmOne AoState AoLoop AoRun OptSpec AdmmOpt Total TotalRun.
Import ListNotations.
Local Open Scope R_scope.

Section Modes.
Variables (E : ext (N:=RNum)) (Xs : list rmat) (c : rcmf) (l2 scale : R) (constant : bool).
Hypotheses (HF : data_fits Xs c) (HN : nonempty c) (Hl2 : 0 <= l2) (Hsc : 0 <= scale) (Hsvd : svd_correct E (mc (cA c))).

Lemma C_iters regs regs' c' n tol : Forall (mreg_valid (mr (cC c)) (mc (cA c))) regs ->
  admm_update_C E Xs c regs l2 n tol scale = Ok (c', regs') ->
  exists m tr,
    iterates (fun a b => admm_update_C E Xs (fst a) (snd a) l2 1 None scale = Ok b)
             (fun a b => settled tol (mr (cC c)) (mc (cA c)) (rget (cC (fst a))) (rget (cC (fst b))) (snd b))
             n (unweighted c, regs) (c', regs') m tr /\
    forall i, (i < m)%nat ->
      fst (tr (S i)) = Cmf None (cA c) (cBs c) (cC (fst (tr (S i)))) /\
      shaped (cC (fst (tr (S i)))) (mr (cC c)) (mc (cA c)) /\
      (forall Z, obj_C Xs c l2 (rho_C scale c) (snd (tr i)) (rget (cC (fst (tr (S i))))) <= obj_C Xs c l2 (rho_C scale c) (snd (tr i)) Z) /\
      Forall2 (mstep (mr (cC c)) (mc (cA c)) (rget (cC (fst (tr (S i)))))) (snd (tr i)) (snd (tr (S i))).
Proof.
  intros Hv H. destruct (update_C_trace E Xs c l2 scale HF HN Hl2 Hsc Hsvd regs regs' c' n tol Hv H) as (m & tr & HI & Hinv).
  exists m, tr. split; [exact HI|]. intros i Hi. destruct HI as (_ & _ & _ & H1 & _).
  destruct (C_inv_step E Xs c l2 scale HF HN Hl2 Hsc Hsvd _ _ (Hinv i ltac:(lia)) (H1 i Hi)) as ((I1 & I2 & _) & B2 & B3). auto.
Qed.
Lemma A_iters regs regs' c' n tol inter rho : Forall (mreg_valid (mr (cA c)) (mc (cA c))) regs ->
  rhos_used constant (length Xs) (rho_A scale c) rho ->
  admm_update_A E Xs c regs l2 n tol scale constant = Ok (c', regs', inter) ->
  exists m tr,
    iterates (fun a b => exists i, admm_update_A E Xs (fst a) (snd a) l2 1 None scale constant = Ok (b, i))
             (fun a b => settled tol (mr (cA c)) (mc (cA c)) (rget (cA (fst a))) (rget (cA (fst b))) (snd b))
             n (unweighted c, regs) (c', regs') m tr /\
    forall i, (i < m)%nat ->
      fst (tr (S i)) = Cmf None (cA (fst (tr (S i)))) (cBs c) (cC c) /\
      shaped (cA (fst (tr (S i)))) (mr (cA c)) (mc (cA c)) /\
      (forall Z, obj_A Xs c l2 rho (snd (tr i)) (rget (cA (fst (tr (S i))))) <= obj_A Xs c l2 rho (snd (tr i)) Z) /\
      Forall2 (mstep (mr (cA c)) (mc (cA c)) (rget (cA (fst (tr (S i)))))) (snd (tr i)) (snd (tr (S i))).
Proof.
  intros Hv Hr H. destruct (update_A_trace E Xs c l2 scale constant HF HN Hl2 Hsc Hsvd regs regs' c' n tol inter Hv H) as (_ & m & tr & HI & Hinv).
  exists m, tr. split; [exact HI|]. intros i Hi. destruct HI as (_ & _ & _ & H1 & _).
  destruct (A_inv_step E Xs c l2 scale constant HF HN Hl2 Hsc Hsvd _ _ (Hinv i ltac:(lia)) (H1 i Hi)) as ((I1 & I2 & _) & B2 & rho' & Hr' & B3).
  split; [assumption|]. split; [assumption|]. split; [|assumption]. intros Z. specialize (B3 Z).
  assert (EQ : forall Y, obj_A Xs c l2 rho (snd (tr i)) Y = obj_A Xs c l2 rho' (snd (tr i)) Y).
  { intros Y. unfold obj_A. f_equal. apply Sum_ext. intros q Hq. apply Sum_ext. intros k Hk.
    rewrite (rhos_used_unique _ _ _ _ _ Hr Hr' k); [reflexivity|]. now rewrite <- (RX Xs c HF). }
  rewrite !EQ. exact B3.
Qed.
Lemma B_iters regs regs' c' n tol rho : Forall (breg_valid (length Xs) (rowsB c) (mc (cA c))) regs ->
  rhos_used constant (length Xs) (rho_B scale c) rho ->
  admm_update_B E Xs c regs l2 n tol scale constant = Ok (c', regs') ->
  exists m tr,
    iterates (fun a b => admm_update_B E Xs (fst a) (snd a) l2 1 None scale constant = Ok b)
             (fun a b => b_settled tol (length Xs) (rowsB c) (mc (cA c)) (entB (cBs (fst a))) (entB (cBs (fst b))) (snd b))
             n (unweighted c, regs) (c', regs') m tr /\
    forall i, (i < m)%nat ->
      fst (tr (S i)) = Cmf None (cA c) (cBs (fst (tr (S i)))) (cC c) /\
      list_shaped (length Xs) (rowsB c) (mc (cA c)) (cBs (fst (tr (S i)))) /\
      (forall Z, obj_B Xs c l2 rho (snd (tr i)) (entB (cBs (fst (tr (S i))))) <= obj_B Xs c l2 rho (snd (tr i)) Z) /\
      Forall2 (bstep (length Xs) (rowsB c) (mc (cA c)) (entB (cBs (fst (tr (S i)))))) (snd (tr i)) (snd (tr (S i))).
Proof.
  intros Hv Hr H. destruct (update_B_trace E Xs c l2 scale constant HF HN Hl2 Hsc Hsvd regs regs' c' n tol Hv H) as (m & tr & HI & Hinv).
  exists m, tr. split; [exact HI|]. intros i Hi. destruct HI as (_ & _ & _ & H1 & _).
  destruct (B_inv_step E Xs c l2 scale constant HF HN Hl2 Hsc Hsvd _ _ (Hinv i ltac:(lia)) (H1 i Hi)) as ((I1 & I2 & _) & B2 & rho' & Hr' & B3).
  split; [assumption|]. split; [assumption|]. split; [|assumption]. intros Z. specialize (B3 Z).
  assert (EQ : forall Y, obj_B Xs c l2 rho (snd (tr i)) Y = obj_B Xs c l2 rho' (snd (tr i)) Y).
  { intros Y. unfold obj_B. f_equal. apply Sum_ext. intros q Hq. apply Sum_ext. intros k Hk.
    rewrite (rhos_used_unique _ _ _ _ _ Hr Hr' k); [reflexivity|]. now rewrite <- (LX Xs c HF). }
  rewrite !EQ. exact B3.
Qed.
(** C23 with the intermediate results of the A update *)
Lemma error_inter regs regs' c' n tol inter : Forall (mreg_valid (mr (cA c)) (mc (cA c))) regs ->
  admm_update_A E Xs c regs l2 n tol scale constant = Ok (c', regs', inter) ->
  rec_error Xs c' (root_sum_squared Xs) (Some inter) = sqrt (residual Xs c').
Proof.
  intros Hv H. destruct (update_A_trace E Xs c l2 scale constant HF HN Hl2 Hsc Hsvd regs regs' c' n tol inter Hv H) as (-> & m & tr & HI & Hinv).
  destruct HI as (_ & _ & E1 & _). destruct (Hinv m (le_n m)) as (I1 & I2 & _). rewrite E1 in I1, I2. cbn [fst] in I1, I2.
  pose proof (data_fits_A Xs c (cA c') HF I2) as HF'. rewrite I1.
  exact (rec_error_inter Xs (Cmf None (cA c') (cBs c) (cC c)) HF' eq_refl).
Qed.
End Modes.

(** C24 *)
Lemma fdist_zero r k X Y : fdist r k X Y = 0 <-> same r k X Y.
Proof.
  unfold fdist. rewrite ProxProofs.dist2_rsum. split.
  - intros H i j Hi Hj. apply sqrt_eq_0 in H; [|apply rsum_nonneg; intros; apply rsum_nonneg; intros; apply pow2_ge_0].
    pose proof (rsum_nonneg_zero _ _ (fun i _ => rsum_nonneg _ _ (fun j _ => pow2_ge_0 (X i j - Y i j))) H i Hi) as H1. cbv beta in H1.
    pose proof (rsum_nonneg_zero _ _ (fun j _ => pow2_ge_0 (X i j - Y i j)) H1 j Hj) as H2. cbv beta in H2. nra.
  - intros H. rewrite rsum_zero; [apply sqrt_0|]. intros i Hi. apply rsum_zero. intros j Hj. rewrite (H i j Hi Hj). ring.
Qed.
Lemma ldist_zero n J k X Y : ldist n J k X Y = 0 <-> forall i, (i < n)%nat -> same (J i) k (X i) (Y i).
Proof.
  unfold ldist. rewrite Sum_rsum.
  assert (N : forall i, (i < n)%nat -> 0 <= dist2 (J i) k (X i) (Y i)).
  { intros i Hi. rewrite ProxProofs.dist2_rsum. apply rsum_nonneg; intros; apply rsum_nonneg; intros; apply pow2_ge_0. }
  split.
  - intros H i Hi. apply fdist_zero. unfold fdist. apply sqrt_eq_0 in H; [|apply rsum_nonneg; exact N].
    rewrite (rsum_nonneg_zero _ _ N H i Hi). apply sqrt_0.
  - intros H. rewrite rsum_zero; [apply sqrt_0|]. intros i Hi. specialize (H i Hi). apply fdist_zero in H. unfold fdist in H.
    apply sqrt_eq_0 in H; auto.
Qed.
Lemma ratio_zero x a b : is_ratio x a b -> b <> 0 -> (x = Fin 0 <-> a = 0).
Proof.
  intros (H & _) Hb. rewrite (H Hb). split.
  - intros X. injection X as X. apply (Rmult_eq_compat_r b) in X. unfold Rdiv in X. rewrite Rmult_assoc, Rinv_l, Rmult_0_l in X by assumption. lra.
  - intros ->. f_equal. unfold Rdiv. apply Rmult_0_l.
Qed.
