(** Concrete data meeting the hypotheses of the theorems of P02_Penalties.v. *)
From Coq Require Import Reals Lra Lia List Arith Bool ZArith.
From Verif Require Import Num Numpy RFacts MatFacts Spec SpecFacts ModelSpec Penalties PenaltySpec Parafac2Proofs Parafac2Main.
Import ListNotations.
Local Open Scope R_scope.

Definition ex_V : rmat := Mat (N:=RNum) 2 2 [[1; -2]; [3; 1/2]].
Lemma ex_V_wf : mwf ex_V.
Proof. split; [reflexivity|]. repeat constructor. Qed.

Definition ex_M : rmat := Mat (N:=RNum) 2 2 [[34/25; 12/25]; [12/25; 41/25]].
Definition ex_U : rmat := Mat (N:=RNum) 2 2 [[3/5; 4/5]; [4/5; -3/5]].
Definition ex_s : list R := [2; 1].

Lemma ex_M_valid : valid_penalty (GeneralizedL2 ex_M ex_U ex_s) 2.
Proof.
  split; [split; [reflexivity|repeat constructor]|]. split; [reflexivity|]. split; [reflexivity|].
  split; [intros [|[|i]] [|[|j]] Hi Hj; try lia; reflexivity|].
  split.
  { intros x. cbn. unfold mget; cbn. generalize (x 0%nat) (x 1%nat); intros a b.
    enough (0 <= 34/25 * (a*a) + 24/25*(a*b) + 41/25*(b*b)) by lra.
    assert (0 <= (a + b) * (a + b)) by apply Rle_0_sqr. assert (0 <= a * a) by apply Rle_0_sqr. assert (0 <= b * b) by apply Rle_0_sqr. nra. }
  exists ex_U. repeat split; try reflexivity; try (repeat constructor; fail).
  - intros [|[|a]] [|[|b]] Ha Hb; try lia; cbn; unfold mget, kron; cbn; lra.
  - intros [|[|a]] [|[|b]] Ha Hb; try lia; cbn; unfold mget, kron; cbn; lra.
  - intros [|[|a]] Ha; try lia; cbn; unfold mget, at_; cbn; lra.
  - intros [|[|i]] [|[|j]] Hi Hj; cbn in Hi, Hj; try lia; cbn; unfold mget, at_; cbn; lra.
Qed.

(** a TV problem with its solution *)
Definition ex_tvV : rmat := Mat (N:=RNum) 2 1 [[0]; [3]].
Definition ex_tvE : ext (N:=RNum) := Ext (N:=RNum) svd1 (fun _ _ => [1; 2]).
Lemma ex_tv : mwf ex_tvV /\ forall j, (j < mc ex_tvV)%nat ->
  tv_minimiser (mcol ex_tvV j) (1 * 2 / 1) (x_tv ex_tvE (mcol ex_tvV j) (1 * 2 / 1)).
Proof.
  split; [split; [reflexivity|repeat constructor]|]. intros [|j] Hj; [|cbn in Hj; lia]. split; [reflexivity|].
  intros z Lz. destruct z as [|a [|b [|c z]]]; try discriminate. unfold sqdist, vtv, at_. cbn.
  pose proof (pow2_ge_0 (a - 1)). pose proof (pow2_ge_0 (b - 2)). pose proof (Rle_abs (b - a)).
  replace (Rabs (2 - 1)) with 1 by (rewrite Rabs_right; lra). nra.
Qed.

(** two factor matrices of different sizes for PARAFAC2 *)
Definition ex_fms : list rmat := [Mat (N:=RNum) 2 1 [[1]; [2]]; Mat (N:=RNum) 3 1 [[0]; [-1]; [5]]].
Lemma ex_pf2 : parafac2_input 1 ex_fms [1; 1/2].
Proof.
  split; [discriminate|]. split; [reflexivity|]. split; [repeat constructor; lra|].
  intros [|[|i]] Hi; try (cbn in Hi; lia); (split; [split; [reflexivity|repeat constructor]|split; [reflexivity|cbn; lia]]).
Qed.
Lemma ex_coord : shaped (Mat (N:=RNum) 1 1 [[3]]) 1 1.
Proof. split; [split; [reflexivity|repeat constructor]|split; reflexivity]. Qed.
Lemma ex_bases : orthonormal_bases 1 ex_fms [Mat (N:=RNum) 2 1 [[3/5]; [4/5]]; Mat (N:=RNum) 3 1 [[0]; [1]; [0]]].
Proof.
  split; [reflexivity|]. intros [|[|i]] Hi; try (cbn in Hi; lia).
  - split; [split; [split; [reflexivity|repeat constructor]|split; reflexivity]|].
    intros [|a] [|b] Ha Hb; try lia. cbn. unfold mget, kron; cbn. lra.
  - split; [split; [split; [reflexivity|repeat constructor]|split; reflexivity]|].
    intros [|a] [|b] Ha Hb; try lia. cbn. unfold mget, kron; cbn. lra.
Qed.
