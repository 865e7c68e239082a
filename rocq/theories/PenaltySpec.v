(** What the documentation says about every penalty: its value, its feasible
    set, and the parameters its constructor is meant to accept.  Real entries
    only; nothing of the update code. *)
From Coq Require Import Reals List Arith.
From Verif Require Import Num Numpy Spec ModelSpec Penalties.
Import ListNotations.
Local Open Scope R_scope.

(** The regularisation function (without the indicator of the feasible set) of
    an r x c factor matrix. *)
Definition doc_penalty (p : penalty (N:=RNum)) (r c : nat) (X : ent) : R :=
  match p with
  | L1Penalty reg _ => reg * abs_sum r c X
  | GeneralizedL2 M _ _ => quad r c (mget M) X
  | TotalVariation reg l1 => reg * total_variation r c X + l1 * abs_sum r c X
  | _ => 0
  end.

(** The feasible set. *)
Definition doc_domain (p : penalty (N:=RNum)) (r c : nat) (X : ent) : Prop :=
  match p with
  | NonNegativity => entries r c (fun x => 0 <= x) X
  | Box lo hi => entries r c (within lo hi) X
  | L1Penalty _ nn => nn = true -> entries r c (fun x => 0 <= x) X
  | L2Ball b nn => cols_in_ball r c b X /\ (nn = true -> entries r c (fun x => 0 <= x) X)
  | UnitSimplex => cols_in_simplex r c X
  | Unimodality nn => cols_unimodal r c X /\ (nn = true -> entries r c (fun x => 0 <= x) X)
  | GeneralizedL2 _ _ _ | TotalVariation _ _ | Parafac2 _ _ _ => True
  end.

(** Sensible parameters, for factor matrices with r rows. *)
Definition valid_penalty (p : penalty (N:=RNum)) (r : nat) : Prop :=
  match p with
  | Box lo hi => bounds_ok lo hi /\ (lo <> None \/ hi <> None)
  | L1Penalty reg _ => 0 <= reg
  | GeneralizedL2 M U s =>
      mwf M /\ mr M = r /\ mc M = r /\ symmetric r (mget M) /\ psd r (mget M) /\
      exists Vh, has_svd M r (U, s, Vh)
  | TotalVariation reg l1 => 0 < reg /\ 0 <= l1
  | L2Ball b _ => 0 < b
  | _ => True
  end.

(** The TV denoiser does its job on vectors of length r. *)
Definition tv_correct (E : ext (N:=RNum)) (r : nat) : Prop :=
  forall v lam, length v = r -> 0 < lam -> tv_minimiser v lam (x_tv E v lam).
(** The SVD routine does its job on matrices with k columns and at least k rows. *)
Definition svd_correct (E : ext (N:=RNum)) (k : nat) : Prop :=
  forall M : mat (N:=RNum), mwf M -> mc M = k -> (k <= mr M)%nat -> has_svd M k (x_svd E M k).

(** ** PARAFAC2 *)
Definition no_mat : mat (N:=RNum) := Mat (N:=RNum) 0 0 [].
(** Well-formed r x c matrix. *)
Definition shaped (M : mat (N:=RNum)) (r c : nat) : Prop := mwf M /\ mr M = r /\ mc M = c.
(** Basis matrices with orthonormal columns, one for each factor matrix. *)
Definition orthonormal_bases (k : nat) (fms basis : list (mat (N:=RNum))) : Prop :=
  length basis = length fms /\
  forall i, (i < length fms)%nat ->
    shaped (nth i basis no_mat) (mr (nth i fms no_mat)) k /\
    ortho_cols (mr (nth i fms no_mat)) k (mget (nth i basis no_mat)).
(** Sum over i of rho_i ||F_i - X_i||^2. *)
Definition weighted_dist (k : nat) (rhos : list R) (fms Xs : list (mat (N:=RNum))) : R :=
  Sum (length fms) (fun i =>
    at_ rhos i * dist2 (mr (nth i fms no_mat)) k (mget (nth i fms no_mat)) (mget (nth i Xs no_mat))).
(** Factor matrices and feasibility penalties PARAFAC2 can handle: k columns and
    at least k rows each, positive penalties. *)
Definition parafac2_input (k : nat) (fms : list (mat (N:=RNum))) (rhos : list R) : Prop :=
  fms <> [] /\ length rhos = length fms /\ Forall (fun x => 0 < x) rhos /\
  forall i, (i < length fms)%nat ->
    mwf (nth i fms no_mat) /\ mc (nth i fms no_mat) = k /\ (k <= mr (nth i fms no_mat))%nat.
