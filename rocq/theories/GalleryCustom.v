(** The simulated data of examples/plot_custom_penalty.py.

    Simplification: [stats.norm.pdf] is a parameter; [pdf t mu sigma] is [stats.norm.pdf(t, loc=mu, scale=sigma)]. *)
From Coq Require Import List Arith Bool ZArith.
From Verif Require Import Num Numpy Penalties CoupledMatrices Decomp InitVars DataSim Gallery.
Import ListNotations.
Local Open Scope num_scope.

Section GalleryCustom.
Context {N : Num}.

(** [np.linspace(-10, 10, J)[j]], plot_custom_penalty.py:50; a single point is the first *)
Definition linspace_point (J j : nat) : num :=
  if (J =? 1)%nat then nlit (-10) 1 else nlit (-10) 1 + nlit (Z.of_nat j) 1 * (nlit 20 1 / nlit (Z.of_nat (J - 1)) 1).
(** [rng.uniform(low, high)] *)
Definition draw_between (rnd : rand) (low high : num) (pos : nat) : num * nat := (low + (high - low) * rnd Uniform pos, S pos).
(** lines 52-54: one column; [sigma] is drawn before [mu] *)
Definition bump_column (pdf : num -> num -> num -> num) (J : nat) (rnd : rand) (pos : nat) : res (list num * nat) :=
  let '(sigma, p) := draw_between rnd (nlit 1 2) (nlit 3 2) pos in
  let '(mu, p) := draw_between rnd (nlit (-10) 1) n0 p in
  Ok (vbuild J (fun j => pdf (linspace_point J j) mu sigma), p).
(** lines 48-56: [B_0]; without components there is no last column *)
Definition custom_B0 (pdf : num -> num -> num -> num) (J rank : nat) (rnd : rand) (pos : nat) : res (mat * nat) :=
  match rank with
  | O => Err IndexError
  | S m =>
      let* (cols, p) := mapS (fun _ => bump_column pdf J rnd) (seq 0 m) pos in
      Ok (of_cols J (cols ++ [vbuild J (fun j => rnd Uniform (p + j)%nat)])%list, (p + J)%nat)
  end.
(** lines 45-65, 101-104: the factorization, its matrices with noise, and the state of the generator *)
Definition custom_data (pdf : num -> num -> num -> num) (nI J K rank : nat) (noise_level : num) (rnd : rand) (pos : nat) : res (cmf * list mat * nat) :=
  let* (U, p) := draw_mat rnd Uniform nI (Z.of_nat rank) pos in (* line 45 *)
  let A := mmap (fun x => x + nlit 1 10) U in
  let* (B0, p) := custom_B0 pdf J rank rnd p in
  let Bs := map (roll_rows B0) (seq 0 nI) in (* lines 59-60 *)
  let* (C, p) := draw_mat rnd Uniform K (Z.of_nat rank) p in (* lines 64-65 *)
  let* c := revalidate (Cmf None A Bs C) in (* line 101 *)
  let* Ms := cmf_to_matrices c true in (* line 102 *)
  let* (noise, p) := mapS (fun M => draw_mat rnd Uniform (mr M) (Z.of_nat (mc M))) Ms p in (* line 103 *)
  let* Xs := mapM (fun MW => add_noise noise_level (fst MW) (snd MW)) (combine Ms noise) in (* line 104 *)
  Ok (c, Xs, p).

End GalleryCustom.
