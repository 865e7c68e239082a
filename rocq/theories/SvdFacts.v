(** Consequences of the SVD specification. *)
From Coq Require Import Reals Lra Lia List Arith Bool ZArith.
From Verif Require Import Num Numpy RFacts MatFacts Spec SpecFacts ModelSpec.
Import ListNotations.
Local Open Scope R_scope.

Lemma ortho_cols_mat (U : rmat) : ortho_cols (mr U) (mc U) (rget U) <-> orthocols U.
Proof.
  unfold ortho_cols, orthocols. split.
  - intros H. apply mat_ext; auto with mwf. intros a b Ha Hb. mshape.
    rewrite mget_mmul, mget_meye by mlia. mshape. transitivity (kron a b); [|reflexivity]. rewrite <- (H a b Ha Hb).
    apply rsum_Sum_ext. intros i Hi. rewrite mget_mtrans by assumption. reflexivity.
  - intros H a b Ha Hb. pose proof (f_equal (fun A => rget A a b) H) as E. cbv beta in E.
    rewrite mget_mmul, mget_meye in E by mlia. mshape. transitivity (rsum (mr U) (fun k => rget (mtrans U) a k * rget U k b)); [|exact E].
    apply Sum_rsum_ext. intros i Hi. rewrite mget_mtrans by assumption. reflexivity.
Qed.
Lemma meye_nsq n : nsq (meye (N:=RNum) n) = INR n.
Proof.
  unfold nsq, mip. mshape. rewrite (rsum_ext n _ (fun _ => 1)).
  - rewrite rsum_const. lra.
  - intros i Hi. rewrite (rsum_single n i); [|assumption|].
    + rewrite mget_meye, Nat.eqb_refl by assumption. ring.
    + intros k Hk Hne. rewrite mget_meye by assumption. destruct (Nat.eqb_spec i k); [lia|ring].
Qed.
(** A square matrix with orthonormal columns has orthonormal rows (trace argument:
    ||I - U U^T||^2 = n - 2n + n = 0). *)
Lemma ortho_square (U : rmat) : mwf U -> orthocols U -> mr U = mc U -> mmul U (mtrans U) = meye (mr U).
Proof.
  intros W H S. symmetry. apply msub_eq_zero; auto with mwf.
  rewrite nsq_msub by mlia. rewrite meye_nsq.
  assert (E1 : mip (meye (N:=RNum) (mr U)) (mmul U (mtrans U)) = INR (mr U)).
  { rewrite mip_sym by mlia. rewrite mip_mmul_l by mlia.
    rewrite mtrans_involutive by assumption.
    rewrite mmul_meye_l by assumption. fold (nsq U).
    assert (E : nsq U = nsq (mmul U (meye (N:=RNum) (mc U)))) by now rewrite mmul_meye_r.
    rewrite E, orthocols_nsq by auto with mwf. now rewrite meye_nsq, S. }
  rewrite E1.
  assert (E2 : nsq (mmul U (mtrans U)) = INR (mr U)).
  { rewrite orthocols_nsq by auto with mwf. rewrite nsq_mtrans.
    assert (E : nsq U = nsq (mmul U (meye (N:=RNum) (mc U)))) by now rewrite mmul_meye_r.
    rewrite E, orthocols_nsq by auto with mwf. now rewrite meye_nsq, S. }
  rewrite E2. ring.
Qed.

Section Svd.
Variables (M U Vh : rmat) (s : list R) (k : nat).
Hypothesis WM : mwf M.
Hypothesis H : has_svd M k (U, s, Vh).
Lemma svd_U : orthocols U.
Proof.
  destruct H as (W1 & S1 & S2 & L & W2 & S3 & S4 & O1 & O2 & P & Q).
  apply ortho_cols_mat. rewrite S1, S2. exact O1.
Qed.
Lemma svd_Vh : orthocols (mtrans Vh).
Proof.
  destruct H as (W1 & S1 & S2 & L & W2 & S3 & S4 & O1 & O2 & P & Q).
  apply ortho_cols_mat. mshape. rewrite S3, S4. intros a b Ha Hb. rewrite <- (O2 a b Ha Hb).
  apply Sum_ext. intros i Hi. rewrite !mget_mtrans by mlia. reflexivity.
Qed.
Lemma svd_Vh_rows : mmul Vh (mtrans Vh) = meye k.
Proof.
  pose proof svd_Vh as O. unfold orthocols in O.
  destruct H as (W1 & S1 & S2 & L & W2 & S3 & S4 & _).
  rewrite mtrans_involutive in O by assumption. mshape. rewrite S3 in O. exact O.
Qed.
Lemma svd_eq : M = mmul (mmul U (mdiagm (N:=RNum) s)) Vh.
Proof.
  destruct H as (W1 & S1 & S2 & L & W2 & S3 & S4 & O1 & O2 & P & Q).
  apply mat_ext; auto with mwf; try (mshape; congruence). intros i j Hi Hj.
  rewrite (Q i j Hi Hj). rewrite <- mcolscale_mdiag by mlia.
  rewrite mget_mmul by mlia. mshape. rewrite Sum_rsum, S2. apply rsum_ext. intros a Ha.
  rewrite mget_mcolscale by mlia. reflexivity.
Qed.
Lemma svd_UUt : mr M = k -> mmul U (mtrans U) = meye (mr M).
Proof.
  intros E. pose proof svd_U. destruct H as (W1 & S1 & S2 & L & W2 & S3 & S4 & _).
  rewrite <- S1. apply ortho_square; auto. congruence.
Qed.
Lemma svd_VhtVh : mc M = k -> mmul (mtrans Vh) Vh = meye (mc M).
Proof.
  intros E. pose proof svd_Vh as O. destruct H as (W1 & S1 & S2 & L & W2 & S3 & S4 & _).
  pose proof (ortho_square (mtrans Vh) ltac:(auto with mwf) O ltac:(mlia)) as Q.
  rewrite mtrans_involutive in Q by assumption. mshape. rewrite S4 in Q. exact Q.
Qed.
End Svd.
