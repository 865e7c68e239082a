(** Small specification for C105. *)
From Coq Require Import Reals List Arith ZArith.
From Verif Require Import Num Numpy Spec PenaltySpec CmfSpec CoupledMatrices DecompSpec InitVars InitSpec RandomGen RandomSpec Fixtures.
Import ListNotations.
Local Open Scope R_scope.

(** Poisson variates are not negative, integers lie in the range asked for, uniform numbers are positive
    (a generator may return 0, with probability about 1e-16; see C43 for what happens then). *)
Definition sound_source (g : source (N:=RNum)) : Prop :=
  (forall lam p, (0 <= s_poisson g lam p)%Z) /\ (forall lo hi p, (lo < hi)%Z -> (lo <= s_randint g lo hi p < hi)%Z) /\
  (forall p, 0 < s_num g Uniform p).
(** At least two matrices with as many columns, at least two, and at least [rows] rows each. *)
Definition good_shapes (rows : nat) (shapes : list (nat * nat)) : Prop :=
  (2 <= length shapes)%nat /\ equal_columns shapes /\ forall s, In s shapes -> (rows <= fst s)%nat /\ (2 <= snd s)%nat.
(** A factorization of matrices of these shapes, with normalised components, and no more components than any matrix has rows. *)
Definition good_factorization (shapes : list (nat * nat)) (rank : nat) (c : rcmf) : Prop :=
  (1 <= rank)%nat /\ (forall s, In s shapes -> (rank <= fst s)%nat) /\
  valid_cmf c /\ shaped (cA c) (length shapes) rank /\ length (cBs c) = length shapes /\
  (forall i, (i < length shapes)%nat -> shaped (nthB c i) (fst (nth i shapes (0, 0)%nat)) rank /\ shaped (cC c) (snd (nth i shapes (0, 0)%nat)) rank) /\
  unit_columns (length shapes) rank (mget (cA c)) /\ unit_columns (mr (cC c)) rank (mget (cC c)) /\
  (forall i, (i < length shapes)%nat -> unit_columns (fst (nth i shapes (0, 0)%nat)) rank (mget (nthB c i))).
