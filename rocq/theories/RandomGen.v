(** Model of src/matcouply/random.py. *)
From Coq Require Import List Arith Bool ZArith.
From Verif Require Import Num Numpy Penalties CoupledMatrices InitVars.
Import ListNotations.
Local Open Scope num_scope.

Section RandomGen.
Context {N : Num}.

(** [M / v], random.py:50, 56, 59: a zero in v gives nan or inf unless M has no rows; the model
    then stops with NonFinite *)
Definition div_columns (M : mat) (v : list num) : res mat :=
  if (mr M =? 0)%nat || forallb ntruthy v then Ok (mcoldiv M v) else Err NonFinite.
(** [tl.stack] of vectors of length c *)
Definition stack_rows (c : nat) (l : list (list num)) : mat := mbuild (length l) c (fun i j => vget (nth i l []) j).

Inductive random_result := Factorization (c : cmf) | Dense (Xs : list mat).

(** [random_coupled_matrices], random.py:9-66.  [shapes] is a sequence of pairs, [rank] an int;
    [pos] and the returned number are the state of the generator.  Simplified: the [context]
    (dtype) arguments are empty. *)
Definition random_coupled_matrices (rnd : rand) (shapes : list (nat * nat)) (rank : Z) (full normalise_factors normalise_B : bool)
    (pos : nat) : res (random_result * nat) :=
  (* line 38; shapes[0] is only looked at when there is a shape *)
  if negb (forallb (fun s => (snd s =? snd (nth 0 shapes (0, 0)))%nat) shapes) then Err ValueError else
  let* (A, p) := draw_mat rnd Uniform (length shapes) rank pos in (* line 41 *)
  let* (Bs, p) := mapS (fun s => draw_mat rnd Uniform (fst s) rank) shapes p in (* line 42 *)
  let* K := match shapes with s :: _ => Ok (snd s) | [] => Err IndexError end in (* line 43 *)
  let* (C, p) := draw_mat rnd Uniform K rank p in (* line 44 *)
  let r := Z.to_nat rank in
  let weights := repeat n1 r in (* line 46 *)
  let* (A, Bs) :=
    if normalise_factors || normalise_B then (* lines 48-53 *)
      let norms := map col_norms Bs in
      let* Bs' := mapM (fun Bn => div_columns (fst Bn) (snd Bn)) (combine Bs norms) in
      Ok (mhad A (stack_rows r norms), Bs')
    else Ok (A, Bs) in
  let* (weights, A, C) :=
    if normalise_factors then (* lines 54-60 *)
      let A_norm := col_norms A in
      let* A' := div_columns A A_norm in
      let C_norm := col_norms C in
      let* C' := div_columns C C_norm in
      Ok (vmul A_norm C_norm, A', C')
    else Ok (weights, A, C) in
  let* c := revalidate (Cmf (Some weights) A Bs C) in (* line 62 *)
  if full then let* Xs := cmf_to_matrices c true in Ok (Dense Xs, p) (* lines 63-64 *)
  else Ok (Factorization c, p).

End RandomGen.
