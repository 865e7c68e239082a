(** Specification vocabulary for the simulated data of plot_custom_penalty.py (C92). *)
From Coq Require Import Reals List Arith.
From Verif Require Import Num Numpy Spec.
Local Open Scope R_scope.

(** The density of the normal distribution with mean [mu] and standard deviation [sigma]. *)
Definition normal_density (t mu sigma : R) : R := exp (- (((t - mu) / sigma) ^ 2 / 2)) / (sigma * sqrt (2 * PI)).
(** The j-th of J equidistant points from -10 to 10. *)
Definition grid (J j : nat) : R := -10 + INR j * (20 / INR (J - 1)).
(** Column r of a matrix, its J entries as a vector. *)
Definition component_vector (J : nat) (X : ent) (r : nat) : list R := column J X r.
