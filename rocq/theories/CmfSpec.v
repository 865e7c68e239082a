(** What a coupled matrix factorization means: consistency of its parts and the
    entries of the matrices it represents.  Independent of the conversion code. *)
From Coq Require Import Reals List Arith.
From Verif Require Import Num Numpy Spec PenaltySpec CoupledMatrices.
Import ListNotations.
Local Open Scope R_scope.

Notation rcmf := (cmf (N:=RNum)).

(** The weight of component [r]; missing weights are all one. *)
Definition weight (c : rcmf) (r : nat) : R :=
  match cw c with None => 1 | Some w => at_ w r end.
Definition nthB (c : rcmf) (i : nat) : mat (N:=RNum) := nth i (cBs c) no_mat.

(** A, C and every B_i have the same number of columns (the rank), A has one row
    per B_i, and the weights, if any, are one per component. *)
Definition valid_cmf (c : rcmf) : Prop :=
  mwf (cA c) /\ mwf (cC c) /\ mc (cC c) = mc (cA c) /\ mr (cA c) = length (cBs c) /\
  (forall i, (i < length (cBs c))%nat -> mwf (nthB c i) /\ mc (nthB c i) = mc (cA c)) /\
  (forall w, cw c = Some w -> length w = mc (cA c)).

(** Entry (j, k) of the i-th represented matrix, B_i diag(a_i * w) C^T. *)
Definition cmf_entry (c : rcmf) (i j k : nat) : R :=
  Sum (mc (cA c)) (fun r => mget (nthB c i) j r * (mget (cA c) i r * weight c r) * mget (cC c) k r).

(** [X] is the i-th represented matrix. *)
Definition is_matrix_of (c : rcmf) (i : nat) (X : mat (N:=RNum)) : Prop :=
  shaped X (mr (nthB c i)) (mr (cC c)) /\
  forall j k, (j < mr (nthB c i))%nat -> (k < mr (cC c))%nat -> mget X j k = cmf_entry c i j k.

(** The longest of the matrices. *)
Definition is_max_rows (c : rcmf) (J : nat) : Prop :=
  (forall i, (i < length (cBs c))%nat -> (mr (nthB c i) <= J)%nat) /\
  exists i, (i < length (cBs c))%nat /\ mr (nthB c i) = J.

(** Entry (i, j, k) of the zero-padded tensor. *)
Definition padded_entry (c : rcmf) (i j k : nat) : R :=
  if (j <? mr (nthB c i))%nat then cmf_entry c i j k else 0.

(** Number of rows before matrix [i] when the matrices are stacked. *)
Fixpoint rows_before (c : rcmf) (i : nat) : nat :=
  match i with O => 0%nat | S k => (rows_before c k + mr (nthB c k))%nat end.

(** Entry (i, j, k) of the tensor of a CP decomposition with weights [w]. *)
Definition cp_entry (n : nat) (w : nat -> R) (A B C : ent) (i j k : nat) : R :=
  Sum n (fun r => w r * A i r * B j r * C k r).
(** Entry (j, k) of slice i of a PARAFAC2 tensor with projection matrix P_i. *)
Definition pf2_entry (n : nat) (w : nat -> R) (A B C P : ent) (i j k : nat) : R :=
  Sum n (fun r => Sum n (fun q => P j q * B q r) * (A i r * w r) * C k r).

(** The parts given to the constructor fit together: weights missing or one per
    component, A with one row per B_i, C with K rows, all with [rank] columns;
    [shape] lists the sizes J_i x K of the represented matrices. *)
Definition consistent_parts (w A C : pyobj (N:=RNum)) (Bs : list (pyobj (N:=RNum)))
  (rank K : nat) (shape : list (nat * nat)) : Prop :=
  (w = PNone \/ exists d, w = PArr [rank] d) /\
  (exists d, A = PArr [length Bs; rank] d) /\ (exists d, C = PArr [K; rank] d) /\
  Forall2 (fun B s => exists J d, B = PArr [J; rank] d /\ s = (J, K)) Bs shape.

(** Position of tensor entry (i, j, k) in the unfolding along a mode (tensorly's
    convention: the remaining modes in order, the last one fastest). *)
Definition unfold_pos (mode J K i j k : nat) : nat * nat :=
  match mode with
  | O => (i, (j * K + k)%nat)
  | 1%nat => (j, (i * K + k)%nat)
  | _ => (k, (i * J + j)%nat)
  end.
Definition unfold_rows (mode I J K : nat) : nat := match mode with O => I | 1%nat => J | _ => K end.
Definition unfold_cols (mode I J K : nat) : nat :=
  match mode with O => (J * K)%nat | 1%nat => (I * K)%nat | _ => (I * J)%nat end.

(** A CP tensor with three factor matrices of equal rank. *)
Definition valid_cp3 (w : list R) (A B C : mat (N:=RNum)) : Prop :=
  mwf A /\ mwf B /\ mwf C /\ mc B = mc A /\ mc C = mc A /\ length w = mc A.
(** Slice sizes that fit into the CP tensor. *)
Definition shapes_fit (A B C : mat (N:=RNum)) (shapes : list (nat * nat)) : Prop :=
  length shapes = mr A /\ forall J K, In (J, K) shapes -> (J <= mr B)%nat /\ K = mr C.
(** A PARAFAC2 tensor: rank x rank B, one projection matrix per row of A. *)
Definition valid_pf2 (t : pf2t (N:=RNum)) : Prop :=
  mwf (pfA t) /\ mwf (pfB t) /\ mwf (pfC t) /\ mc (pfC t) = mc (pfA t) /\
  mr (pfB t) = mc (pfA t) /\ mc (pfB t) = mc (pfA t) /\ length (pfw t) = mc (pfA t) /\
  length (pfP t) = mr (pfA t) /\
  forall i, (i < length (pfP t))%nat ->
    mwf (nth i (pfP t) no_mat) /\ mc (nth i (pfP t) no_mat) = mc (pfA t).
