(** Matrices in other orthonormal coordinates. *)
From Coq Require Import Reals Lra Lia List Arith Bool ZArith.
From Verif Require Import Num Numpy RFacts Spec SpecFacts MatFacts ModelSpec SvdFacts Penalties PenaltySpec ProxProofs CoupledMatrices CmfSpec Decomp DecompSpec
  DecompFacts Parafac2Proofs OrderProofs ReorderFacts ReorderPen SymSpec SymFacts SymPen SymStep TurnSpec.
Import ListNotations.
Local Open Scope R_scope.

Ltac shp := match goal with H : shaped ?M _ _ |- _ => let w := fresh "W" in let a := fresh "Sr" in let b := fresh "Sc" in destruct H as (w & a & b) end.

(** [M' = Q M] as an equation between matrices *)
Definition tm (r c : nat) (Q M M' : rmat) : Prop := shaped M r c /\ M' = mmul Q M.
Lemma frame_orth (Q : rmat) r : frame Q r -> orthocols Q.
Proof. intros (W & E & H). apply ortho_cols_mat. now rewrite E. Qed.
Lemma tm_turned r c (Q M M' : rmat) : mc Q = r -> (turned r c Q M M' <-> tm r c Q M M').
Proof.
  intros EQ. split.
  - intros (S1 & (W2 & R2 & C2) & H). split; [exact S1|]. destruct S1 as (W1 & R1 & C1). apply mat_ext; [assumption|auto with mwf|mlia|mlia|]. intros i j Hi Hj. etransitivity; [apply H; congruence|].
    rewrite mget_mmul by mlia. rewrite EQ. apply Sum_rsum.
  - intros (S1 & ->). split; [exact S1|]. destruct S1 as (W1 & R1 & C1). split; [split; [auto with mwf|mshape; split; congruence]|]. intros i j Hi Hj. etransitivity; [apply mget_mmul; [assumption|congruence]|]. rewrite EQ. symmetry. apply Sum_rsum.
Qed.
Lemma straight_eye (Q : rmat) r : frame Q r -> straight Q r -> Q = meye (N:=RNum) r.
Proof.
  intros (W & E & _) (E2 & H). apply mat_ext; [assumption|auto with mwf|mshape; congruence|mshape; congruence|]. rewrite E2, E. intros i j Hi Hj. rewrite H, mget_meye by assumption. reflexivity.
Qed.

Section Frame.
Variables (r : nat) (Q : rmat).
Hypothesis HQ : frame Q r.
Local Notation q := (mr Q).
Lemma fQ : mwf Q. Proof. apply HQ. Qed.
Lemma cQ : mc Q = r. Proof. apply HQ. Qed.
Lemma oQ : mmul (mtrans Q) Q = meye (N:=RNum) r.
Proof. rewrite <- cQ. apply (frame_orth Q r HQ). Qed.
Lemma tm_shape c M M' : tm r c Q M M' -> shaped M' q c.
Proof. intros (S & ->). repeat shp. split; [auto with mwf|mshape; auto]. Qed.
(** inner products are kept *)
Lemma tm_gram c d M M' L L' : tm r c Q M M' -> tm r d Q L L' -> mmul (mtrans M') L' = mmul (mtrans M) L.
Proof.
  intros (S1 & ->) (S2 & ->). pose proof cQ as CQ. repeat shp. rewrite mtrans_mmul by mlia. rewrite mmul_assoc by mlia. rewrite <- (mmul_assoc (mtrans Q)) by mlia. rewrite oQ, mmul_eye_l by (auto; mlia). reflexivity.
Qed.
Lemma tm_nsq c M M' : tm r c Q M M' -> nsq M' = nsq M.
Proof. intros (S & ->). pose proof cQ. repeat shp. apply orthocols_nsq; [apply (frame_orth Q r HQ)|assumption|congruence]. Qed.
Lemma tm_msumsq c M M' : tm r c Q M M' -> msumsq M' = msumsq M.
Proof. intros H. rewrite !msumsq_nsq. now apply (tm_nsq c). Qed.
Lemma tm_mnorm c M M' : tm r c Q M M' -> mnorm M' = mnorm M.
Proof. intros H. unfold mnorm. now rewrite (tm_msumsq c M M' H). Qed.
Lemma tm_madd c M M' L L' : tm r c Q M M' -> tm r c Q L L' -> tm r c Q (madd M L) (madd M' L').
Proof. intros (S1 & ->) (S2 & ->). pose proof cQ. repeat shp. split; [split; [auto with mwf|mshape; auto]|]. symmetry. apply mmul_madd_r; congruence. Qed.
Lemma tm_msub c M M' L L' : tm r c Q M M' -> tm r c Q L L' -> tm r c Q (msub M L) (msub M' L').
Proof. intros (S1 & ->) (S2 & ->). pose proof cQ. repeat shp. split; [split; [auto with mwf|mshape; auto]|]. symmetry. apply mmul_msub_r; congruence. Qed.
Lemma tm_mscale c x M M' : tm r c Q M M' -> tm r c Q (mscale (N:=RNum) x M) (mscale (N:=RNum) x M').
Proof. intros (S1 & ->). pose proof cQ. repeat shp. split; [split; [auto with mwf|mshape; auto]|]. symmetry. apply mmul_mscale_r; congruence. Qed.
Lemma tm_mmul c d M M' (G : rmat) : mc G = d -> tm r c Q M M' -> tm r d Q (mmul M G) (mmul M' G).
Proof. intros HG (S1 & ->). pose proof cQ. repeat shp. split; [split; [auto with mwf|mshape; auto]|]. apply mmul_assoc. congruence. Qed.
Lemma tm_mzeros c : tm r c Q (mzeros (N:=RNum) r c) (mzeros (N:=RNum) q c).
Proof.
  pose proof cQ as CQ. split; [split; [auto with mwf|mshape; auto]|]. apply mat_ext; [auto with mwf|auto with mwf|mshape; auto|mshape; auto|]. mshape. intros i j Hi Hj. rewrite mget_mzeros, mget_mmul by mlia.
  symmetry. apply rsum_zero. intros k Hk. rewrite mget_mzeros by lia. ring.
Qed.
Lemma tm_colmap c (f : nat -> R) M M' (T : rmat -> rmat) : (forall L, mwf (T L) /\ mr (T L) = mr L /\ mc (T L) = mc L /\ forall i j, (i < mr L)%nat -> (j < mc L)%nat -> rget (T L) i j = rget L i j * f j) ->
  tm r c Q M M' -> tm r c Q (T M) (T M').
Proof.
  intros HT (S1 & ->). pose proof cQ as CQ. repeat shp. destruct (HT M) as (T1 & T2 & T3 & T4). destruct (HT (mmul Q M)) as (U1 & U2 & U3 & U4). split; [split; [assumption|split; congruence]|].
  apply mat_ext; [assumption|auto with mwf|mshape; congruence|mshape; congruence|]. rewrite U2, U3. mshape. intros i j Hi Hj. rewrite U4 by mlia. rewrite !mget_mmul by mlia. rewrite Rmult_comm, <- rsum_scal. apply rsum_ext. intros k Hk. rewrite T4 by lia. ring.
Qed.
Lemma tm_mcolscale c (v : list R) M M' : tm r c Q M M' -> tm r c Q (mcolscale (N:=RNum) M v) (mcolscale (N:=RNum) M' v).
Proof. apply (tm_colmap c (fun j => vg v j) M M' (fun L => mcolscale (N:=RNum) L v)). intros L. split; [auto with mwf|]. mshape. split; [reflexivity|]. split; [reflexivity|]. intros. now rewrite mget_mcolscale. Qed.
Lemma tm_mcoldiv c (v : list R) M M' : tm r c Q M M' -> tm r c Q (mcoldiv (N:=RNum) M v) (mcoldiv (N:=RNum) M' v).
Proof. apply (tm_colmap c (fun j => / vg v j) M M' (fun L => mcoldiv (N:=RNum) L v)). intros L. split; [auto with mwf|]. mshape. split; [reflexivity|]. split; [reflexivity|]. intros. now rewrite mget_mcoldiv. Qed.
(** sums, systems *)
Lemma tm_sum_mats c : forall l l' A A', Forall2 (tm r c Q) l l' -> tm r c Q A A' -> tm r c Q (fold_left (@madd RNum) l A) (fold_left (@madd RNum) l' A').
Proof. intros l l' A A' F. revert A A'. induction F as [|x y l l' H F IH]; intros A A' HA; [exact HA|]. cbn [fold_left]. apply IH. now apply tm_madd. Qed.
Lemma tm_solve c d M M' : (finite_svd d = true -> mc (snd d) = c) -> tm r c Q M M' -> res_rel (tm r c Q) (solve_mat (N:=RNum) d M) (solve_mat (N:=RNum) d M').
Proof.
  intros HD HM. destruct d as [[U s] Vh]. unfold solve_mat. destruct (finite_svd (U, s, Vh)); [|reflexivity]. cbn [res_rel]. apply (tm_mmul (mc U)); [exact (HD eq_refl)|]. apply (tm_mmul c); [reflexivity|exact HM].
Qed.
(** the norms of the columns *)
Lemma tm_col_norms c M M' : tm r c Q M M' -> col_norms (N:=RNum) M' = col_norms (N:=RNum) M.
Proof.
  intros HM. pose proof (tm_gram c c _ _ _ _ HM HM) as EG. pose proof (tm_shape _ _ _ HM) as (W' & R' & C'). destruct HM as ((W & R0 & C0) & _). unfold col_norms. rewrite C', C0. unfold vbuild. apply map_ext_in. intros j Hj. apply in_seq in Hj. f_equal.
  assert (E0 : forall L : rmat, (j < mc L)%nat -> rget (mmul (mtrans L) L) j j = nsum (N:=RNum) (mr L) (fun i => rget L i j * rget L i j)).
  { intros L HL. etransitivity; [apply mget_mmul; mlia|]. symmetry. etransitivity; [apply nsum_rsum|]. mshape. apply rsum_ext. intros i Hi. now rewrite mget_mtrans by lia. }
  rewrite <- !E0 by (rewrite ?C'; lia || congruence). now rewrite EG.
Qed.
End Frame.
