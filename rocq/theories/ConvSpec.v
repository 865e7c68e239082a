(** How close the result of an update with many inner iterations is to a solution of
    the penalised subproblem.  Real entries only; nothing of the update code. *)
From Coq Require Import Reals List Arith Bool.
From Verif Require Import Num Numpy Spec ModelSpec Penalties PenaltySpec CoupledMatrices CmfSpec Decomp DecompSpec OptSpec.
Import ListNotations.
Local Open Scope R_scope.

(** Squared entries of the matrices B_i diag(a_i) C^T (of the sizes of the data). *)
Definition represented_sq (Xs : list matR) (K n : nat) (A : ent) (B : nat -> ent) (C : ent) : R :=
  Sum (length Xs) (fun i => sumsq (mr (nthX Xs i)) K (fun j k => Sum n (fun r => B i j r * A i r * C k r))).
(** The change D of one factor: half the squared change of the represented matrices,
    plus the ridge term of D. *)
Definition spread_A (Xs : list matR) (c : rcmf) (l2 : R) (D : ent) : R :=
  1 / 2 * represented_sq Xs (mr (cC c)) (mc (cA c)) D (entB (cBs c)) (mget (cC c)) + l2 / 2 * sumsq (mr (cA c)) (mc (cA c)) D.
Definition spread_B (Xs : list matR) (c : rcmf) (l2 : R) (D : nat -> ent) : R :=
  1 / 2 * represented_sq Xs (mr (cC c)) (mc (cA c)) (mget (cA c)) D (mget (cC c)) +
  l2 / 2 * Sum (length (cBs c)) (fun i => sumsq (mr (nthB c i)) (mc (cA c)) (D i)).
Definition spread_C (Xs : list matR) (c : rcmf) (l2 : R) (D : ent) : R :=
  1 / 2 * represented_sq Xs (mr (cC c)) (mc (cA c)) (mget (cA c)) (entB (cBs c)) D + l2 / 2 * sumsq (mr (cC c)) (mc (cA c)) D.

(** ** One r x c factor matrix *)
(** size of the multipliers *)
Definition multipliers_sq (r c : nat) (rho : nat -> R) (Q : nat) (us : nat -> ent) : R :=
  Sum Q (fun q => wdot r c rho (us q) (us q)).
(** The value of a factor and its auxiliary variables: the smooth part of the factor
    plus each penalty of its own auxiliary variable. *)
Definition split_value (r c : nat) (f : ent -> R) (regs : list mregR) (X : ent) : R :=
  f X + Sum (length regs) (fun q => doc_penalty (pen_at regs q) r c (aux_at regs q)).
(** After k + 1 iterations from [regs]: auxiliary and dual variables are no further from
    the optimum x and its multipliers than they were; the squared infeasibility has
    dropped to 1/k, the error of the objective value and the squared error of the
    factor to 1/sqrt k of constants given by the start. *)
Definition nearly_solved (r c : nat) (rho : nat -> R) (f spread : ent -> R) (regs : list mregR) (x : ent) (us : nat -> ent)
    (k : nat) (X : ent) (regs' : list mregR) : Prop :=
  let e := energy r c rho x us regs in
  let u := multipliers_sq r c rho (length regs) us in
  energy r c rho x us regs' <= e /\
  INR k * infeasibility r c rho regs' X <= e /\
  sqrt (INR k) * Rabs (split_value r c f regs' X - penalised r c f regs x) <= u + 6 * e /\
  sqrt (INR k) * spread (esub X x) <= 2 * u + 7 * e.
(** All entries of two matrices differ by at most eps. *)
Definition close (r c : nat) (eps : R) (X Y : ent) : Prop :=
  forall i j, (i < r)%nat -> (j < c)%nat -> Rabs (X i j - Y i j) <= eps.
(** The constraints go together: some matrix meets them all, and all but at most one
    of them with room to spare.  (For a single penalty: it can be met at all.) *)
Definition compatible (r c : nat) (regs : list mregR) : Prop :=
  exists x0 q0 delta, 0 < delta /\ meets r c regs x0 /\
    forall q Z, (q < length regs)%nat -> q <> q0 -> close r c delta Z x0 -> doc_domain (pen_at regs q) r c Z.

(** ** n factor matrices with J i rows *)
Definition close_l (n : nat) (J : nat -> nat) (c : nat) (eps : R) (X Y : nat -> ent) : Prop :=
  forall i, (i < n)%nat -> close (J i) c eps (X i) (Y i).
Definition compatible_l (n : nat) (J : nat -> nat) (c : nat) (regs : list bregR) : Prop :=
  exists x0 q0 delta, 0 < delta /\ meets_l n J c regs x0 /\
    forall q Z, (q < length regs)%nat -> q <> q0 -> close_l n J c delta Z x0 -> dom_l n J c (bpen_at regs q) Z.
Definition multipliers_sq_l (n : nat) (J : nat -> nat) (c : nat) (rho : nat -> R) (Q : nat) (us : nat -> nat -> ent) : R :=
  Sum Q (fun q => wdot_l n J c rho (us q) (us q)).
Definition split_value_l (n : nat) (J : nat -> nat) (c : nat) (f : (nat -> ent) -> R) (regs : list bregR) (X : nat -> ent) : R :=
  f X + Sum (length regs) (fun q => pen_l n J c (bpen_at regs q) (baux_at regs q)).
Definition nearly_solved_l (n : nat) (J : nat -> nat) (c : nat) (rho : nat -> R) (f spread : (nat -> ent) -> R) (regs : list bregR)
    (x : nat -> ent) (us : nat -> nat -> ent) (k : nat) (X : nat -> ent) (regs' : list bregR) : Prop :=
  let e := energy_l n J c rho x us regs in
  let u := multipliers_sq_l n J c rho (length regs) us in
  energy_l n J c rho x us regs' <= e /\
  INR k * infeasibility_l n J c rho regs' X <= e /\
  sqrt (INR k) * Rabs (split_value_l n J c f regs' X - penalised_l n J c f regs x) <= u + 6 * e /\
  sqrt (INR k) * spread (lsub X x) <= 2 * u + 7 * e.
