(** What the inner loops converge to: the penalised subproblem of one factor
    matrix, optimal points, multipliers, and the distance to them.  Real entries
    only; nothing of the update code. *)
From Coq Require Import Reals List Arith Bool.
From Verif Require Import Num Numpy Spec ModelSpec Penalties PenaltySpec CoupledMatrices CmfSpec Decomp DecompSpec.
Import ListNotations.
Local Open Scope R_scope.

(** Half the squared residual plus the ridge term, as a function of one factor. *)
Definition smooth_A (Xs : list matR) (c : rcmf) (l2 : R) (Z : ent) : R :=
  1 / 2 * fit Xs (mr (cC c)) (mc (cA c)) Z (entB (cBs c)) (mget (cC c)) + l2 / 2 * sumsq (mr (cA c)) (mc (cA c)) Z.
Definition smooth_B (Xs : list matR) (c : rcmf) (l2 : R) (Z : nat -> ent) : R :=
  1 / 2 * fit Xs (mr (cC c)) (mc (cA c)) (mget (cA c)) Z (mget (cC c)) +
  l2 / 2 * Sum (length (cBs c)) (fun i => sumsq (mr (nthB c i)) (mc (cA c)) (Z i)).
Definition smooth_C (Xs : list matR) (c : rcmf) (l2 : R) (Z : ent) : R :=
  1 / 2 * fit Xs (mr (cC c)) (mc (cA c)) (mget (cA c)) (entB (cBs c)) Z + l2 / 2 * sumsq (mr (cC c)) (mc (cA c)) Z.

(** Penalties whose function and feasible set are convex. *)
Definition convex_pen (p : penalty (N:=RNum)) : Prop :=
  match p with UnitSimplex | Unimodality _ | Parafac2 _ _ _ => False | _ => True end.

(** ** One r x c factor matrix (modes 0 and 2) *)
(** inner product, row i weighted with rho i *)
Definition wdot (r c : nat) (rho : nat -> R) (U V : ent) : R :=
  Sum r (fun i => rho i * Sum c (fun k => U i k * V i k)).
Definition esub (X Y : ent) : ent := fun i k => X i k - Y i k.
Definition pen_at (regs : list mregR) (q : nat) : penalty (N:=RNum) := g_pen (nth_reg regs q).
Definition aux_at (regs : list mregR) (q : nat) : ent := mget (g_aux (nth_reg regs q)).
Definition dual_at (regs : list mregR) (q : nat) : ent := mget (g_dual (nth_reg regs q)).
(** [x] meets every constraint and minimises [f] plus all penalties among such matrices. *)
Definition meets (r c : nat) (regs : list mregR) (x : ent) : Prop :=
  forall q, (q < length regs)%nat -> doc_domain (pen_at regs q) r c x.
Definition penalised (r c : nat) (f : ent -> R) (regs : list mregR) (x : ent) : R :=
  f x + Sum (length regs) (fun q => doc_penalty (pen_at regs q) r c x).
Definition optimal (r c : nat) (f : ent -> R) (regs : list mregR) (x : ent) : Prop :=
  meets r c regs x /\ forall Z, meets r c regs Z -> penalised r c f regs x <= penalised r c f regs Z.
(** [us] are Lagrange multipliers (scaled duals) that certify that [x] is optimal. *)
Definition certified (r c : nat) (rho : nat -> R) (f : ent -> R) (regs : list mregR) (x : ent) (us : nat -> ent) : Prop :=
  (forall Z, f x <= f Z + Sum (length regs) (fun q => wdot r c rho (us q) (esub Z x))) /\
  (forall q, (q < length regs)%nat -> doc_domain (pen_at regs q) r c x /\
     forall Z, doc_domain (pen_at regs q) r c Z ->
       doc_penalty (pen_at regs q) r c x + wdot r c rho (us q) (esub Z x) <= doc_penalty (pen_at regs q) r c Z).
(** squared distance of auxiliary and dual variables to x and us, between two
    states, and between auxiliary variables and the factor *)
Definition wsq (r c : nat) (rho : nat -> R) (X Y : ent) : R := wdot r c rho (esub X Y) (esub X Y).
Definition energy (r c : nat) (rho : nat -> R) (x : ent) (us : nat -> ent) (regs : list mregR) : R :=
  Sum (length regs) (fun q => wsq r c rho (aux_at regs q) x + wsq r c rho (dual_at regs q) (us q)).
Definition change (r c : nat) (rho : nat -> R) (regs regs' : list mregR) : R :=
  Sum (length regs) (fun q => wsq r c rho (aux_at regs' q) (aux_at regs q) + wsq r c rho (dual_at regs' q) (dual_at regs q)).
Definition infeasibility (r c : nat) (rho : nat -> R) (regs : list mregR) (x : ent) : R :=
  Sum (length regs) (fun q => wsq r c rho x (aux_at regs q)).

(** ** n factor matrices with J i rows (mode 1) *)
Definition wdot_l (n : nat) (J : nat -> nat) (c : nat) (rho : nat -> R) (U V : nat -> ent) : R :=
  Sum n (fun i => rho i * Sum (J i) (fun j => Sum c (fun k => U i j k * V i j k))).
Definition lsub (X Y : nat -> ent) : nat -> ent := fun i j k => X i j k - Y i j k.
Definition bpen_at (regs : list bregR) (q : nat) : penalty (N:=RNum) := b_pen (nth_breg regs q).
Definition baux_at (regs : list bregR) (q : nat) : nat -> ent := baux (nth_breg regs q).
Definition bdual_at (regs : list bregR) (q : nat) : nat -> ent := fun i => mget (nth i (b_dual (nth_breg regs q)) no_mat).
Definition dom_l (n : nat) (J : nat -> nat) (c : nat) (p : penalty (N:=RNum)) (x : nat -> ent) : Prop :=
  forall i, (i < n)%nat -> doc_domain p (J i) c (x i).
Definition pen_l (n : nat) (J : nat -> nat) (c : nat) (p : penalty (N:=RNum)) (x : nat -> ent) : R :=
  Sum n (fun i => doc_penalty p (J i) c (x i)).
Definition meets_l (n : nat) (J : nat -> nat) (c : nat) (regs : list bregR) (x : nat -> ent) : Prop :=
  forall q, (q < length regs)%nat -> dom_l n J c (bpen_at regs q) x.
Definition penalised_l (n : nat) (J : nat -> nat) (c : nat) (f : (nat -> ent) -> R) (regs : list bregR) (x : nat -> ent) : R :=
  f x + Sum (length regs) (fun q => pen_l n J c (bpen_at regs q) x).
Definition optimal_l (n : nat) (J : nat -> nat) (c : nat) (f : (nat -> ent) -> R) (regs : list bregR) (x : nat -> ent) : Prop :=
  meets_l n J c regs x /\ forall Z, meets_l n J c regs Z -> penalised_l n J c f regs x <= penalised_l n J c f regs Z.
Definition certified_l (n : nat) (J : nat -> nat) (c : nat) (rho : nat -> R) (f : (nat -> ent) -> R) (regs : list bregR)
  (x : nat -> ent) (us : nat -> nat -> ent) : Prop :=
  (forall Z, f x <= f Z + Sum (length regs) (fun q => wdot_l n J c rho (us q) (lsub Z x))) /\
  (forall q, (q < length regs)%nat -> dom_l n J c (bpen_at regs q) x /\
     forall Z, dom_l n J c (bpen_at regs q) Z ->
       pen_l n J c (bpen_at regs q) x + wdot_l n J c rho (us q) (lsub Z x) <= pen_l n J c (bpen_at regs q) Z).
Definition wsq_l (n : nat) (J : nat -> nat) (c : nat) (rho : nat -> R) (X Y : nat -> ent) : R :=
  wdot_l n J c rho (lsub X Y) (lsub X Y).
Definition energy_l (n : nat) (J : nat -> nat) (c : nat) (rho : nat -> R) (x : nat -> ent) (us : nat -> nat -> ent) (regs : list bregR) : R :=
  Sum (length regs) (fun q => wsq_l n J c rho (baux_at regs q) x + wsq_l n J c rho (bdual_at regs q) (us q)).
Definition change_l (n : nat) (J : nat -> nat) (c : nat) (rho : nat -> R) (regs regs' : list bregR) : R :=
  Sum (length regs) (fun q => wsq_l n J c rho (baux_at regs' q) (baux_at regs q) +
                              wsq_l n J c rho (bdual_at regs' q) (bdual_at regs q)).
Definition infeasibility_l (n : nat) (J : nat -> nat) (c : nat) (rho : nat -> R) (regs : list bregR) (x : nat -> ent) : R :=
  Sum (length regs) (fun q => wsq_l n J c rho x (baux_at regs q)).

(** Inner iterations 1, ..., m approach the certified optimum: the squared distance
    drops by at least the squared movement, which bounds the infeasibility. *)
Definition approaches (r c : nat) (rho : nat -> R) (x : ent) (us : nat -> ent) (m : nat)
  (regs : nat -> list mregR) (factor : nat -> ent) : Prop :=
  forall i, (0 < i)%nat -> (i < m)%nat ->
    energy r c rho x us (regs (S i)) + change r c rho (regs i) (regs (S i)) <= energy r c rho x us (regs i) /\
    infeasibility r c rho (regs (S i)) (factor (S i)) <= change r c rho (regs i) (regs (S i)).
Definition approaches_l (n : nat) (J : nat -> nat) (c : nat) (rho : nat -> R) (x : nat -> ent) (us : nat -> nat -> ent) (m : nat)
  (regs : nat -> list bregR) (factor : nat -> nat -> ent) : Prop :=
  forall i, (0 < i)%nat -> (i < m)%nat ->
    energy_l n J c rho x us (regs (S i)) + change_l n J c rho (regs i) (regs (S i)) <= energy_l n J c rho x us (regs i) /\
    infeasibility_l n J c rho (regs (S i)) (factor (S i)) <= change_l n J c rho (regs i) (regs (S i)).
