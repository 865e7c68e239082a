(** Specification vocabulary for the simulated data (C44). *)
From Coq Require Import Reals List Arith.
From Verif Require Import Num Numpy Spec PenaltySpec CoupledMatrices CmfSpec DecompSpec InitVars InitSpec.
Import ListNotations.
Local Open Scope R_scope.

(** The density of the normal distribution with mean [m] and variance one. *)
Definition gauss (t m : R) : R := exp (- ((t - m) ^ 2 / 2)) / sqrt (2 * PI).
(** The three component vectors of the documentation: densities with means -5, 0 and 2 at fifty
    equidistant points from -10 to 10. *)
Definition mean_of (r : nat) : R := nth r [-5; 0; 2] 0.
Definition bump (j r : nat) : R := gauss (-10 + 20 * INR j / 49) (mean_of r).

(** The noisy matrices of the documentation: M + eta |M| / |N| N, for n matrices with J rows and K
    columns; [M] and [W] give the entries of the clean matrices and of the noise. *)
Definition noisy (n J K : nat) (eta : R) (M W : nat -> ent) : nat -> ent := fun i j k =>
  M i j k + eta * (lnorm n (fun _ => J) K M / lnorm n (fun _ => J) K W) * W i j k.
