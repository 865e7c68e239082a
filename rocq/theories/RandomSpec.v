(** Specification vocabulary for C43. *)
From Coq Require Import Reals List Arith.
From Verif Require Import Num Numpy Spec PenaltySpec CmfSpec DecompSpec InitVars InitSpec.
Import ListNotations.
Local Open Scope R_scope.

(** Every column of the r x c matrix has Euclidean norm one. *)
Definition unit_columns (r c : nat) (X : ent) : Prop := forall j, (j < c)%nat -> Sum r (fun i => X i j ^ 2) = 1.
(** No column of the r x c matrix is zero. *)
Definition nonzero_columns (r c : nat) (X : ent) : Prop := forall j, (j < c)%nat -> exists i, (i < r)%nat /\ X i j <> 0.
(** All shapes have the same number of columns. *)
Definition equal_columns (shapes : list (nat * nat)) : Prop := forall s t, In s shapes -> In t shapes -> snd s = snd t.
(** The matrices drawn by a call: A, then the B_i, then C. *)
Definition draws (rnd : rand (N:=RNum)) (shapes : list (nat * nat)) (rank pos : nat) (A : matR) (Bs : list matR) (C : matR) (pos' : nat) : Prop :=
  exists p1 p2, drawn rnd RandomUniform (length shapes) rank pos A p1 /\ drawn_list rnd RandomUniform (map fst shapes) rank p1 Bs p2 /\
    drawn rnd RandomUniform (snd (nth 0 shapes (0, 0)%nat)) rank p2 C pos'.
