(** Model of get_simple_simulated_data, src/matcouply/data.py:28-95. *)
From Coq Require Import List Arith Bool ZArith.
From Verif Require Import Num Numpy Penalties CoupledMatrices InitVars.
Import ListNotations.
Local Open Scope num_scope.

Section DataSim.
Context {N : Num}.

(** [np.roll(M, i, axis=0)], data.py:79: row j moves to row (j + i) mod the number of rows *)
Definition roll_rows (M : mat) (i : nat) : mat :=
  mbuild (mr M) (mc M) (fun j r => mget M ((j + mr M - i mod mr M) mod mr M)%nat r).
(** [np.linspace(-10, 10, 50)], line 77: entry j is -10 + 20 j / 49 *)
Definition time_point (j : nat) : num := nlit (20 * Z.of_nat j - 490) 49.
(** line 78; [pdf t loc] is [stats.norm.pdf(t, loc=loc)] *)
Definition B_blueprint (pdf : num -> num -> num) : mat :=
  of_cols 50 [vbuild 50 (fun j => pdf (time_point j) (nlit (-5) 1));
              vbuild 50 (fun j => pdf (time_point j) (nlit 0 1));
              vbuild 50 (fun j => pdf (time_point j) (nlit 2 1))].
(** [tl.norm(tl.stack(l))], line 93 *)
Definition stack_norm (l : list mat) : num := nsqrt (lsum (map msumsq l)).

(** lines 72-95 for [nI] matrices, [K] columns and the given blueprint: the noisy matrices and the
    factorization; [pos] and the returned number are the state of the generator *)
Definition simulate (nI rank K : nat) (blueprint : mat) (rnd : rand) (noise_level : num) (pos : nat)
  : res (list mat * cmf * nat) :=
  let* (U, p) := draw_mat rnd Uniform nI (Z.of_nat rank) pos in
  let A := mmap (fun x => x + nlit 1 10) U in (* line 73 *)
  let Bs := map (roll_rows blueprint) (seq 0 nI) in (* lines 79-80 *)
  let* (G, p) := draw_mat rnd StdNormal K (Z.of_nat rank) p in (* line 83 *)
  let C := mmap (fun x => if x <? n0 then n0 else x) G in (* line 84 *)
  let* c := revalidate (Cmf None A Bs C) in (* line 88 *)
  let* Ms := cmf_to_matrices c true in (* line 89 *)
  let* (noise, p) := mapS (fun M => draw_mat rnd StdNormal (mr M) (Z.of_nat (mc M))) Ms p in (* line 92 *)
  if negb (ntruthy (stack_norm noise)) then Err NonFinite (* line 93: division by zero *)
  else
    let scale_factor := stack_norm Ms / stack_norm noise in
    Ok (map2 (fun M W => madd M (mscale (noise_level * scale_factor) W)) Ms noise, c, p). (* lines 93-94 *)
(** lines 67-95 *)
Definition get_simple_simulated_data (pdf : num -> num -> num) (rnd : rand) (noise_level : num) (pos : nat)
  : res (list mat * cmf * nat) :=
  simulate 15 3 20 (B_blueprint pdf) rnd noise_level pos. (* lines 67-68, 77-78 *)

End DataSim.
