(** Model of src/matcouply/testing/utils.py and of the fixtures of src/matcouply/testing/fixtures.py:23-73
    that make random shapes and factorizations. *)
From Coq Require Import List Arith Bool ZArith.
From Verif Require Import Num Numpy Penalties CoupledMatrices InitVars RandomGen.
Import ListNotations.
Local Open Scope nat_scope.

Section Fixtures.
Context {N : Num}.
(** The generator: besides real numbers it gives Poisson variates and integers in a range; the position
    in its stream is a number. *)
Record source := Source { s_num : rand; s_poisson : Z -> nat -> Z; s_randint : Z -> Z -> nat -> Z }.

(** [random_length], utils.py:5-12; [min] and [mean] are ints, so that [round] changes nothing *)
Definition random_length (g : source) (mn mean : Z) (pos : nat) : res (Z * nat) :=
  if (mean <=? mn)%Z then Err ValueError else Ok ((mn + s_poisson g (mean - mn) pos)%Z, S pos).
(** [rng.randint(low, high)]: ValueError for an empty range *)
Definition randint (g : source) (low high : Z) (pos : nat) : res (Z * nat) :=
  if (high <=? low)%Z then Err ValueError else Ok (s_randint g low high pos, S pos).
(** [tuple((random_length(rng, ...), K) for i in range(I))], fixtures.py:28 and 59 *)
Definition ragged (g : source) (mn mean nI K : Z) (pos : nat) : res (list (nat * nat) * nat) :=
  mapS (fun _ p => let* (J, q) := random_length g mn mean p in Ok ((Z.to_nat J, Z.to_nat K), q)) (seq 0 (Z.to_nat nI)) pos.
(** [random_ragged_shapes], fixtures.py:23-29 *)
Definition random_ragged_shapes (g : source) (pos : nat) : res (list (nat * nat) * nat) :=
  let* (nI, p) := random_length g 2 5 pos in
  let* (K, p) := random_length g 2 5 p in
  ragged g 2 5 nI K p.
(** [random_regular_shapes], fixtures.py:32-38 *)
Definition random_regular_shapes (g : source) (pos : nat) : res (list (nat * nat) * nat) :=
  let* (nI, p) := random_length g 2 5 pos in
  let* (J, p) := random_length g 2 5 p in
  let* (K, p) := random_length g 2 5 p in
  Ok (map (fun _ => (Z.to_nat J, Z.to_nat K)) (seq 0 (Z.to_nat nI)), p).
(** [random_coupled_matrices(shapes, rank, random_state=rng)] with the factorization, the shapes and the rank returned *)
Definition cmf_of_shapes (g : source) (shapes : list (nat * nat)) (rank : Z) (pos : nat) : res (random_result * list (nat * nat) * Z) :=
  let* (c, _) := random_coupled_matrices (s_num g) shapes rank false true false pos in Ok (c, shapes, rank).
(** [random_ragged_cmf], fixtures.py:41-50; [min] of no shapes is a ValueError *)
Definition random_ragged_cmf (g : source) (pos : nat) : res (random_result * list (nat * nat) * Z) :=
  let* (shapes, p) := random_ragged_shapes g pos in
  let* smallest_J := match map fst shapes with [] => Err ValueError | J :: l => Ok (fold_left Nat.min l J) end in
  let* (rank, p) := randint g 1 (Z.of_nat smallest_J + 1) p in
  cmf_of_shapes g shapes rank p.
(** [random_rank5_ragged_cmf], fixtures.py:53-62 *)
Definition random_rank5_ragged_cmf (g : source) (pos : nat) : res (random_result * list (nat * nat) * Z) :=
  let* (nI, p) := random_length g 2 5 pos in
  let* (K, p) := random_length g 2 5 p in
  let* (shapes, p) := ragged g 5 7 nI K p in
  cmf_of_shapes g shapes 5 p.
(** [random_regular_cmf], fixtures.py:65-73; [random_regular_shapes[0]] of no shapes is an IndexError *)
Definition random_regular_cmf (g : source) (pos : nat) : res (random_result * list (nat * nat) * Z) :=
  let* (shapes, p) := random_regular_shapes g pos in
  let* J := match shapes with [] => Err IndexError | s :: _ => Ok (fst s) end in
  let* (rank, p) := randint g 1 (Z.of_nat J + 1) p in
  cmf_of_shapes g shapes rank p.
End Fixtures.
