(** Shapes of auxiliary and dual variables, and which given ones are acceptable. *)
From Coq Require Import Reals List Arith Bool ZArith.
From Verif Require Import Num Numpy Spec ModelSpec Penalties PenaltySpec CoupledMatrices CmfSpec Decomp DecompSpec InitVars.
Import ListNotations.
Local Open Scope R_scope.

(** Rows of the i-th data matrix, and the number of columns of the first. *)
Definition rowsX (Xs : list matR) (i : nat) : nat := mr (nthX Xs i).
Definition colsX (Xs : list matR) : nat := mc (nthX Xs 0).
(** A variable of the right shape for a mode: I x R, J_i x R, K x R; for PARAFAC2's
    auxiliary variable J_i x R bases and R x R coordinates. *)
Definition fits_mode (Xs : list matR) (rank : nat) (mode : Z) (v : auxval (N:=RNum)) : Prop :=
  match v with
  | VMat M => (mode = 0%Z /\ shaped M (length Xs) rank) \/ (mode = 2%Z /\ shaped M (colsX Xs) rank)
  | VMats (AList l) => mode = 1%Z /\ list_shaped (length Xs) (rowsX Xs) rank l
  | VMats (APf2 P D) => mode = 1%Z /\ list_shaped (length Xs) (rowsX Xs) rank P /\ shaped D rank rank
  end.
Definition is_pair (v : auxval (N:=RNum)) : Prop := match v with VMats (APf2 _ _) => True | _ => False end.

(** Given initial values that have the right kind and shape for a mode. *)
Definition good_tensor (Xs : list matR) (rank mode : Z) (sh : list nat) : Prop :=
  Xs <> [] /\ exists a b, sh = [a; b] /\ Z.of_nat b = rank /\
    ((mode = 0%Z /\ a = length Xs) \/ (mode = 2%Z /\ a = colsX Xs)).
Definition good_list (Xs : list matR) (rank mode : Z) (l : list (pyobj (N:=RNum))) : Prop :=
  mode = 1%Z /\ length l = length Xs /\
  forall i, (i < length Xs)%nat -> exists b d, nth i l PNone = PArr [rowsX Xs i; b] d /\ Z.of_nat b = rank.
(** PARAFAC2: a pair of basis matrices, orthonormal up to 1e-8, and coordinates *)
Definition near_ortho (J rank : nat) (P : ent) : Prop :=
  sumsq rank rank (fun p q => Sum J (fun j => P j p * P j q) - (if (p =? q)%nat then 1 else 0)) < 1 / 100000000.
Definition good_pair (Xs : list matR) (rank mode : Z) (l : list (pyobj (N:=RNum))) : Prop :=
  mode = 1%Z /\ exists basis r d, l = [PSeq basis; PArr [r; r] d] /\ Z.of_nat r = rank /\ length basis = length Xs /\
  forall i, (i < length Xs)%nat -> exists e, nth i basis PNone = PArr [rowsX Xs i; r] e /\
    near_ortho (rowsX Xs i) r (fun j q => vget (N:=RNum) e (j * r + q)).
(** The entries of a given tensor, row by row. *)
Definition entries_of (M : matR) (r c : nat) (d : list R) : Prop :=
  forall i j, (i < r)%nat -> (j < c)%nat -> mget M i j = vget (N:=RNum) d (i * c + j).

(** Generated values: zeros, or consecutive draws in row-major order starting at [pos]. *)
Definition name_dist (s : initname) : dist := match s with RandomUniform => Uniform | _ => StdNormal end.
Definition drawn (rnd : rand (N:=RNum)) (s : initname) (r c : nat) (pos : nat) (M : matR) (pos' : nat) : Prop :=
  shaped M r c /\
  match s with
  | Zeros => pos' = pos /\ forall i j, (i < r)%nat -> (j < c)%nat -> mget M i j = 0
  | _ => pos' = (pos + r * c)%nat /\
         forall i j, (i < r)%nat -> (j < c)%nat -> mget M i j = rnd (name_dist s) (pos + (i * c + j))%nat
  end.
Fixpoint drawn_list (rnd : rand (N:=RNum)) (s : initname) (rows : list nat) (c : nat) (pos : nat) (l : list matR) (pos' : nat) : Prop :=
  match rows, l with
  | [], [] => pos' = pos
  | r :: rows', M :: l' => exists q, drawn rnd s r c pos M q /\ drawn_list rnd s rows' c q l' pos'
  | _, _ => False
  end.
(** The first columns of an identity matrix. *)
Definition is_eye (r c : nat) (M : matR) : Prop :=
  shaped M r c /\ forall i j, (i < r)%nat -> (j < c)%nat -> mget M i j = if (i =? j)%nat then 1 else 0.
