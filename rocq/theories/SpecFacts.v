(** Links between Spec.v and the notions used in the proofs. *)
From Coq Require Import Reals Lra Lia List Arith Bool ZArith.
From Verif Require Import Num Numpy RFacts Spec.
Import ListNotations.
Local Open Scope R_scope.

Lemma Sum_rsum n f : Sum n f = rsum n f.
Proof. induction n as [|n IH]; [reflexivity|]. rewrite rsum_S, <- IH. reflexivity. Qed.
Lemma at_vget (v : list R) i : at_ v i = vget (N:=RNum) v i.
Proof. reflexivity. Qed.

(** step-wise monotonicity is monotonicity *)
Lemma mono_steps (z : nat -> R) a b :
  (forall i, (a <= i)%nat -> (S i <= b)%nat -> z i <= z (S i)) ->
  forall i j, (a <= i)%nat -> (i <= j)%nat -> (j <= b)%nat -> z i <= z j.
Proof.
  intros H i j Ha Hij Hb. induction Hij as [|j Hij IH]; [lra|].
  pose proof (IH ltac:(lia)). pose proof (H j ltac:(lia) ltac:(lia)). lra.
Qed.
Lemma anti_steps (z : nat -> R) a b :
  (forall i, (a <= i)%nat -> (S i <= b)%nat -> z (S i) <= z i) ->
  forall i j, (a <= i)%nat -> (i <= j)%nat -> (j <= b)%nat -> z j <= z i.
Proof.
  intros H i j Ha Hij Hb. induction Hij as [|j Hij IH]; [lra|].
  pose proof (IH ltac:(lia)). pose proof (H j ltac:(lia) ltac:(lia)). lra.
Qed.

Lemma nonneg_at v : nonneg v <-> forall i, (i < length v)%nat -> 0 <= at_ v i.
Proof.
  unfold nonneg, at_. rewrite Forall_forall. split.
  - intros H i Hi. apply H. now apply nth_In.
  - intros H x Hx. apply (In_nth _ _ 0) in Hx. destruct Hx as (i & Hi & <-). now apply H.
Qed.
Lemma at_map_seq (f : nat -> R) n i : (i < n)%nat -> at_ (map f (seq 0 n)) i = f i.
Proof. intros; unfold at_. now apply nth_seq_map. Qed.
Lemma sqdist_rsum u v : sqdist u v = rsum (length v) (fun i => (at_ u i - at_ v i) ^ 2).
Proof. apply Sum_rsum. Qed.
Lemma rsum_Sum_ext n f g : (forall i, (i < n)%nat -> f i = g i) -> rsum n f = Sum n g.
Proof. intros H. transitivity (rsum n g); [now apply rsum_ext|]. symmetry. apply Sum_rsum. Qed.
Lemma Sum_rsum_ext n f g : (forall i, (i < n)%nat -> f i = g i) -> Sum n f = rsum n g.
Proof. intros H. transitivity (rsum n f); [apply Sum_rsum|]. now apply rsum_ext. Qed.
Lemma Sum_ext n f g : (forall i, (i < n)%nat -> f i = g i) -> Sum n f = Sum n g.
Proof. intros H. rewrite (Sum_rsum_ext n f g) by assumption. symmetry. apply Sum_rsum. Qed.
