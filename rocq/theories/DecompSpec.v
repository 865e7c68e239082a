(** What the AO-ADMM steps are meant to do, on plain entries: data fit, feasibility
    penalties, subproblem objectives, gaps.  Independent of the algorithm. *)
From Coq Require Import Reals List Arith Bool.
From Verif Require Import Num Numpy Spec ModelSpec Penalties PenaltySpec CoupledMatrices CmfSpec Decomp.
Import ListNotations.
Local Open Scope R_scope.

Notation matR := (mat (N:=RNum)).
Notation mregR := (mreg (N:=RNum)).
Notation bregR := (breg (N:=RNum)).
Notation xnumR := (xnum (N:=RNum)).

Definition nthX (Xs : list matR) (i : nat) : matR := nth i Xs no_mat.
(** The data matrices have the sizes of the represented matrices. *)
Definition data_fits (Xs : list matR) (c : rcmf) : Prop :=
  valid_cmf c /\ length Xs = length (cBs c) /\
  forall i, (i < length Xs)%nat -> shaped (nthX Xs i) (mr (nthB c i)) (mr (cC c)).

(** Squared distance between the data and the matrices B_i diag(a_i) C^T. *)
Definition fit (Xs : list matR) (K n : nat) (A : ent) (B : nat -> ent) (C : ent) : R :=
  Sum (length Xs) (fun i =>
    dist2 (mr (nthX Xs i)) K (mget (nthX Xs i))
          (fun j k => Sum n (fun r => B i j r * A i r * C k r))).
(** Squared distance between the data and the matrices of a factorization. *)
Definition residual (Xs : list matR) (c : rcmf) : R :=
  Sum (length Xs) (fun i =>
    dist2 (mr (nthX Xs i)) (mr (cC c)) (mget (nthX Xs i)) (cmf_entry c i)).
Definition sumsq (r c : nat) (X : ent) : R := Sum r (fun i => Sum c (fun j => X i j ^ 2)).
(** Squared norm of the data. *)
Definition data_sumsq (Xs : list matR) : R :=
  Sum (length Xs) (fun i => sumsq (mr (nthX Xs i)) (mc (nthX Xs i)) (mget (nthX Xs i))).

Definition entB (Bs : list matR) (i : nat) : ent := mget (nth i Bs no_mat).

(** ** Feasibility penalties: half the trace of the Gram matrix, scaled *)
Definition rho_A (scale : R) (c : rcmf) (i : nat) : R :=
  1 / 2 * Sum (mc (cA c)) (fun r =>
    Sum (mr (nthB c i)) (fun j => mget (nthB c i) j r ^ 2) * Sum (mr (cC c)) (fun k => mget (cC c) k r ^ 2)) * scale.
Definition rho_B (scale : R) (c : rcmf) (i : nat) : R :=
  1 / 2 * Sum (mc (cA c)) (fun r => Sum (mr (cC c)) (fun k => (mget (cC c) k r * mget (cA c) i r) ^ 2)) * scale.
Definition rho_C (scale : R) (c : rcmf) : R :=
  1 / 2 * Sum (length (cBs c)) (fun i => Sum (mc (cA c)) (fun r =>
    Sum (mr (nthB c i)) (fun j => (mget (nthB c i) j r * mget (cA c) i r) ^ 2))) * scale.
(** [v] is the largest of f 0, ..., f (n-1). *)
Definition is_max (n : nat) (f : nat -> R) (v : R) : Prop :=
  (exists i, (i < n)%nat /\ v = f i) /\ forall i, (i < n)%nat -> f i <= v.
(** The penalties in use: each row's own, or the largest for all. *)
Definition rhos_used (constant : bool) (n : nat) (f : nat -> R) (rho : nat -> R) : Prop :=
  if constant then forall i, (i < n)%nat -> is_max n f (rho i)
  else forall i, (i < n)%nat -> rho i = f i.

(** ** Auxiliary and dual variables *)
Definition nth_reg (l : list mregR) (q : nat) : mregR := nth q l (MReg NonNegativity no_mat no_mat).
Definition nth_breg (l : list bregR) (q : nat) : bregR := nth q l (BReg NonNegativity (AList []) []).
(** One r x c auxiliary and dual matrix per penalty. *)
Definition vars_shaped (r c : nat) (l : list mregR) : Prop :=
  Forall (fun g => shaped (g_aux g) r c /\ shaped (g_dual g) r c) l.
(** Auxiliary matrices of mode 1; for PARAFAC2 basis times coordinates. *)
Definition baux (g : bregR) (i : nat) : ent :=
  match b_aux g with
  | AList l => mget (nth i l no_mat)
  | APf2 P D => fun j r => Sum (mr D) (fun q => mget (nth i P no_mat) j q * mget D q r)
  end.
(** Matrices with the row counts [J i] and [c] columns. *)
Definition list_shaped (n : nat) (J : nat -> nat) (c : nat) (l : list matR) : Prop :=
  length l = n /\ forall i, (i < n)%nat -> shaped (nth i l no_mat) (J i) c.
Definition baux_shaped (n : nat) (J : nat -> nat) (c : nat) (a : auxes (N:=RNum)) : Prop :=
  match a with
  | AList l => list_shaped n J c l
  | APf2 P D => list_shaped n J (mr D) P /\ mwf D /\ mc D = c
  end.
Definition bvars_shaped (n : nat) (J : nat -> nat) (c : nat) (l : list bregR) : Prop :=
  Forall (fun g => baux_shaped n J c (b_aux g) /\ list_shaped n J c (b_dual g)) l.

(** ** The least-squares subproblems (scaled-form ADMM)
    data fit/2 + l2/2 ||Z||^2 + sum over the penalties of rho/2 ||Z - (aux - dual)||^2 *)
Definition obj_A (Xs : list matR) (c : rcmf) (l2 : R) (rho : nat -> R) (regs : list mregR) (Z : ent) : R :=
  1 / 2 * fit Xs (mr (cC c)) (mc (cA c)) Z (entB (cBs c)) (mget (cC c)) +
  l2 / 2 * sumsq (mr (cA c)) (mc (cA c)) Z +
  Sum (length regs) (fun q => Sum (mr (cA c)) (fun i => rho i / 2 *
    Sum (mc (cA c)) (fun r => (Z i r - (mget (g_aux (nth_reg regs q)) i r - mget (g_dual (nth_reg regs q)) i r)) ^ 2))).
Definition obj_B (Xs : list matR) (c : rcmf) (l2 : R) (rho : nat -> R) (regs : list bregR) (Z : nat -> ent) : R :=
  1 / 2 * fit Xs (mr (cC c)) (mc (cA c)) (mget (cA c)) Z (mget (cC c)) +
  l2 / 2 * Sum (length (cBs c)) (fun i => sumsq (mr (nthB c i)) (mc (cA c)) (Z i)) +
  Sum (length regs) (fun q => Sum (length (cBs c)) (fun i => rho i / 2 *
    dist2 (mr (nthB c i)) (mc (cA c)) (Z i)
      (fun j r => baux (nth_breg regs q) i j r - mget (nth i (b_dual (nth_breg regs q)) no_mat) j r))).
Definition obj_C (Xs : list matR) (c : rcmf) (l2 rho : R) (regs : list mregR) (Z : ent) : R :=
  1 / 2 * fit Xs (mr (cC c)) (mc (cA c)) (mget (cA c)) (entB (cBs c)) Z +
  l2 / 2 * sumsq (mr (cC c)) (mc (cA c)) Z +
  Sum (length regs) (fun q => rho / 2 *
    dist2 (mr (cC c)) (mc (cA c)) Z
      (fun k r => mget (g_aux (nth_reg regs q)) k r - mget (g_dual (nth_reg regs q)) k r)).

(** ** Valid states *)
(** Constraints that the auxiliary variable must satisfy exactly.  The unit
    simplex is met up to the accuracy of bisection (C10), its non-negativity exactly. *)
Definition exact_domain (p : penalty (N:=RNum)) (r c : nat) (X : ent) : Prop :=
  match p with
  | UnitSimplex => entries r c (fun x => 0 <= x) X
  | _ => doc_domain p r c X
  end.
Definition is_parafac2 (p : penalty (N:=RNum)) : Prop := match p with Parafac2 _ _ _ => True | _ => False end.
(** Sensible parameters, and variables of the shape of the r x c factor. *)
Definition mreg_valid (r c : nat) (g : mregR) : Prop :=
  ~ is_parafac2 (g_pen g) /\ valid_penalty (g_pen g) r /\ shaped (g_aux g) r c /\ shaped (g_dual g) r c.
(** The same for n matrices with J i rows.  PARAFAC2 needs at least as many rows as columns. *)
Definition breg_valid (n : nat) (J : nat -> nat) (c : nat) (g : bregR) : Prop :=
  list_shaped n J c (b_dual g) /\
  match b_pen g, b_aux g with
  | Parafac2 _ _ _, APf2 P D => list_shaped n J c P /\ shaped D c c /\ forall i, (i < n)%nat -> (c <= J i)%nat
  | Parafac2 _ _ _, AList _ => False
  | p, AList l => list_shaped n J c l /\ forall i, (i < n)%nat -> valid_penalty p (J i)
  | _, APf2 _ _ => False
  end.
(** At least one matrix, no empty matrix, a positive rank. *)
Definition nonempty (c : rcmf) : Prop :=
  (0 < length (cBs c))%nat /\ (0 < mr (cC c))%nat /\ (0 < mc (cA c))%nat /\
  forall i, (i < length (cBs c))%nat -> (0 < mr (nthB c i))%nat.
(** Number of rows of each B_i. *)
Definition rowsB (c : rcmf) (i : nat) : nat := mr (nthB c i).
Definition valid_state (Xs : list matR) (s : state (N:=RNum)) : Prop :=
  let c := st_cmf s in
  data_fits Xs c /\ nonempty c /\
  Forall (mreg_valid (mr (cA c)) (mc (cA c))) (st_rA s) /\
  Forall (breg_valid (length (cBs c)) (rowsB c) (mc (cA c))) (st_rB s) /\
  Forall (mreg_valid (mr (cC c)) (mc (cA c))) (st_rC s).
(** The constraints of a mode-1 penalty hold for its auxiliary matrices: for
    PARAFAC2 orthonormal bases (hence one common cross product), for the others
    each matrix separately. *)
Definition b_exact (n : nat) (J : nat -> nat) (c : nat) (g : bregR) : Prop :=
  match b_pen g with
  | Parafac2 _ _ _ =>
      exists Phi, forall i, (i < n)%nat -> same c c (cross (J i) (baux g i)) Phi
  | p => forall i, (i < n)%nat -> exact_domain p (J i) c (baux g i)
  end.
(** New dual = factor - new auxiliary + old dual. *)
Definition dual_updated (r c : nat) (M : ent) (g g' : mregR) : Prop :=
  same r c (mget (g_dual g')) (fun i j => M i j - mget (g_aux g') i j + mget (g_dual g) i j).
Definition b_dual_updated (n : nat) (J : nat -> nat) (c : nat) (M : nat -> ent) (g g' : bregR) : Prop :=
  forall i, (i < n)%nat ->
    same (J i) c (mget (nth i (b_dual g') no_mat))
         (fun j r => M i j r - baux g' i j r + mget (nth i (b_dual g) no_mat) j r).
(** PARAFAC2 with its basis update switched off keeps whatever bases it was given. *)
Definition updates_basis (p : penalty (N:=RNum)) : Prop :=
  match p with Parafac2 n ub _ => n <> 0%nat /\ ub = true | _ => True end.
(** The PARAFAC2 basis matrices have orthonormal columns. *)
Definition b_ortho (n : nat) (J : nat -> nat) (c : nat) (g : bregR) : Prop :=
  match b_pen g, b_aux g with
  | Parafac2 _ _ _, APf2 P _ => forall i, (i < n)%nat -> ortho_cols (J i) c (mget (nth i P no_mat))
  | _, _ => True
  end.

(** ** Norms, gaps and inner convergence *)
Definition fnorm (r c : nat) (X : ent) : R := sqrt (sumsq r c X).
Definition fdist (r c : nat) (X Y : ent) : R := sqrt (dist2 r c X Y).
(** the same for n matrices with J i rows *)
Definition lnorm (n : nat) (J : nat -> nat) (c : nat) (X : nat -> ent) : R :=
  sqrt (Sum n (fun i => sumsq (J i) c (X i))).
Definition ldist (n : nat) (J : nat -> nat) (c : nat) (X Y : nat -> ent) : R :=
  sqrt (Sum n (fun i => dist2 (J i) c (X i) (Y i))).
(** Documented inner stopping criterion: the tolerance is set and positive, the
    relative change of the factor is at most the tolerance and every relative
    feasibility gap is below it. *)
Definition settled (tol : option R) (r c : nat) (old new : ent) (regs : list mregR) : Prop :=
  exists t, tol = Some t /\ 0 < t /\ fdist r c new old <= t * fnorm r c new /\
    Forall (fun g => fdist r c (mget (g_aux g)) new < t * fnorm r c new) regs.
Definition b_settled (tol : option R) (n : nat) (J : nat -> nat) (c : nat) (old new : nat -> ent) (regs : list bregR) : Prop :=
  exists t, tol = Some t /\ 0 < t /\ ldist n J c new old <= t * lnorm n J c new /\
    Forall (fun g => ldist n J c (baux g) new < t * lnorm n J c new) regs.
(** The states of a factor update: one-iteration updates [one] from [s] to [s'],
    at most [n], stopping early exactly after the first one that is [done]. *)
Definition iterates {S : Type} (one : S -> S -> Prop) (done : S -> S -> Prop) (n : nat) (s s' : S) (m : nat) (tr : nat -> S) : Prop :=
  (m <= n)%nat /\ tr 0%nat = s /\ tr m = s' /\
  (forall i, (i < m)%nat -> one (tr i) (tr (Datatypes.S i))) /\
  (forall i, (Datatypes.S i < m)%nat -> ~ done (tr i) (tr (Datatypes.S i))) /\
  ((m < n)%nat -> (0 < m)%nat /\ done (tr (m - 1)%nat) (tr m)).
(** The factorization without its weights. *)
Definition unweighted (c : rcmf) : rcmf := Cmf None (cA c) (cBs c) (cC c).

(** ** Whole runs *)
Definition params_ok (P : params (N:=RNum)) : Prop :=
  0 <= p_l2A P /\ 0 <= p_l2B P /\ 0 <= p_l2C P /\ 0 <= p_scale P.
(** Mode-1 penalties whose constraint holds after one update: PARAFAC2 must update
    its bases or start from orthonormal ones. *)
Definition b_ready (n : nat) (J : nat -> nat) (c : nat) (g : bregR) : Prop :=
  updates_basis (b_pen g) \/ b_ortho n J c g.
Definition ready_state (s : state (N:=RNum)) : Prop :=
  let c := st_cmf s in Forall (b_ready (length (cBs c)) (rowsB c) (mc (cA c))) (st_rB s).
(** Every auxiliary variable of every updated mode satisfies its hard constraint. *)
Definition exact_state (P : params (N:=RNum)) (s : state (N:=RNum)) : Prop :=
  let c := st_cmf s in
  (p_updA P = true -> Forall (fun g => exact_domain (g_pen g) (mr (cA c)) (mc (cA c)) (mget (g_aux g))) (st_rA s)) /\
  (p_updB P = true -> Forall (b_exact (length (cBs c)) (rowsB c) (mc (cA c))) (st_rB s)) /\
  (p_updC P = true -> Forall (fun g => exact_domain (g_pen g) (mr (cC c)) (mc (cA c)) (mget (g_aux g))) (st_rC s)).
(** The same sizes everywhere. *)
Definition same_sizes (c c' : rcmf) : Prop :=
  mr (cA c') = mr (cA c) /\ mc (cA c') = mc (cA c) /\ mr (cC c') = mr (cC c) /\
  length (cBs c') = length (cBs c) /\ forall i, rowsB c' i = rowsB c i.
Definition same_penalties (s s' : state (N:=RNum)) : Prop :=
  map g_pen (st_rA s') = map g_pen (st_rA s) /\ map b_pen (st_rB s') = map b_pen (st_rB s) /\
  map g_pen (st_rC s') = map g_pen (st_rC s).
(** What is left alone when a mode is not updated. *)
Definition frozen (P : params (N:=RNum)) (s s' : state (N:=RNum)) : Prop :=
  (p_updA P = false -> cA (st_cmf s') = cA (st_cmf s) /\ st_rA s' = st_rA s) /\
  (p_updB P = false -> cBs (st_cmf s') = cBs (st_cmf s) /\ st_rB s' = st_rB s) /\
  (p_updC P = false -> cC (st_cmf s') = cC (st_cmf s) /\ st_rC s' = st_rC s).
(** [tr 0, tr 1, ..., tr n] are successive outer iterations. *)
Definition trajectory (E : ext (N:=RNum)) (P : params (N:=RNum)) (Xs : list matR) (n : nat) (tr : nat -> state (N:=RNum)) : Prop :=
  forall j, (j < n)%nat -> outer_step E P Xs (tr j) = Ok (tr (S j)).
(** Recorded quantities of a state: relative reconstruction error, gaps, loss. *)
Definition rel_error (Xs : list matR) (c : rcmf) : R := sqrt (residual Xs c) / sqrt (data_sumsq Xs).
Definition penalty_sum (s : state (N:=RNum)) : R :=
  let c := st_cmf s in
  Sum (length (st_rA s)) (fun q => doc_penalty (g_pen (nth_reg (st_rA s) q)) (mr (cA c)) (mc (cA c)) (mget (cA c))) +
  Sum (length (st_rB s)) (fun q => Sum (length (cBs c)) (fun i =>
    doc_penalty (b_pen (nth_breg (st_rB s) q)) (mr (nthB c i)) (mc (nthB c i)) (mget (nthB c i)))) +
  Sum (length (st_rC s)) (fun q => doc_penalty (g_pen (nth_reg (st_rC s) q)) (mr (cC c)) (mc (cC c)) (mget (cC c))).
Definition l2_sum (P : params (N:=RNum)) (c : rcmf) : R :=
  p_l2A P / 2 * sumsq (mr (cA c)) (mc (cA c)) (mget (cA c)) +
  p_l2B P / 2 * Sum (length (cBs c)) (fun i => sumsq (mr (nthB c i)) (mc (nthB c i)) (mget (nthB c i))) +
  p_l2C P / 2 * sumsq (mr (cC c)) (mc (cC c)) (mget (cC c)).
(** half the squared relative error, plus ridge terms, plus penalties *)
Definition loss (P : params (N:=RNum)) (Xs : list matR) (s : state (N:=RNum)) : R :=
  1 / 2 * rel_error Xs (st_cmf s) ^ 2 + l2_sum P (st_cmf s) + penalty_sum s.

(** ** Feasibility gaps *)
(** [x] is the floating-point quotient a/b of two non-negative numbers. *)
Definition is_ratio (x : xnumR) (a b : R) : Prop :=
  (b <> 0 -> x = Fin (a / b)) /\ (b = 0 -> a <> 0 -> x = PInf) /\ (b = 0 -> a = 0 -> x = NaN).
(** distance of auxiliary variable q from its factor, and the norm of the factor *)
Definition dist_A (s : state (N:=RNum)) (q : nat) : R :=
  fdist (mr (cA (st_cmf s))) (mc (cA (st_cmf s))) (mget (g_aux (nth_reg (st_rA s) q))) (mget (cA (st_cmf s))).
Definition dist_B (s : state (N:=RNum)) (q : nat) : R :=
  ldist (length (cBs (st_cmf s))) (rowsB (st_cmf s)) (mc (cA (st_cmf s))) (baux (nth_breg (st_rB s) q)) (entB (cBs (st_cmf s))).
Definition dist_C (s : state (N:=RNum)) (q : nat) : R :=
  fdist (mr (cC (st_cmf s))) (mc (cC (st_cmf s))) (mget (g_aux (nth_reg (st_rC s) q))) (mget (cC (st_cmf s))).
Definition norm_A (c : rcmf) : R := fnorm (mr (cA c)) (mc (cA c)) (mget (cA c)).
Definition norm_B (c : rcmf) : R := lnorm (length (cBs c)) (rowsB c) (mc (cA c)) (entB (cBs c)).
Definition norm_C (c : rcmf) : R := fnorm (mr (cC c)) (mc (cC c)) (mget (cC c)).
(** One gap for each penalty: the relative distance between factor and auxiliary variable. *)
Definition gaps_of (s : state (N:=RNum)) (g : gaps (N:=RNum)) : Prop :=
  let '(gA, gB, gC) := g in let c := st_cmf s in
  (length gA = length (st_rA s) /\ forall q, (q < length gA)%nat -> is_ratio (nth q gA NaN) (dist_A s q) (norm_A c)) /\
  (length gB = length (st_rB s) /\ forall q, (q < length gB)%nat -> is_ratio (nth q gB NaN) (dist_B s q) (norm_B c)) /\
  (length gC = length (st_rC s) /\ forall q, (q < length gC)%nat -> is_ratio (nth q gC NaN) (dist_C s q) (norm_C c)).
(** All gaps are below t. *)
Definition feasible_state (t : R) (s : state (N:=RNum)) : Prop :=
  (forall q, (q < length (st_rA s))%nat -> dist_A s q < t * norm_A (st_cmf s)) /\
  (forall q, (q < length (st_rB s))%nat -> dist_B s q < t * norm_B (st_cmf s)) /\
  (forall q, (q < length (st_rC s))%nat -> dist_C s q < t * norm_C (st_cmf s)).
(** No gap is nan: no penalised factor is zero together with its auxiliary variable. *)
Definition no_nan (s : state (N:=RNum)) : Prop :=
  (forall q, (q < length (st_rA s))%nat -> norm_A (st_cmf s) = 0 -> dist_A s q <> 0) /\
  (forall q, (q < length (st_rB s))%nat -> norm_B (st_cmf s) = 0 -> dist_B s q <> 0) /\
  (forall q, (q < length (st_rC s))%nat -> norm_C (st_cmf s) = 0 -> dist_C s q <> 0).

(** ** Outer stopping criteria *)
Definition feasible_by (P : params (N:=RNum)) (s : state (N:=RNum)) : Prop :=
  exists t, p_feas_tol P = Some t /\ t <> 0 /\ feasible_state t s.
(** relative decrease of the loss from [prev] to [cur] below the tolerance *)
Definition rel_stop (P : params (N:=RNum)) (prev cur : R) : Prop :=
  exists t, p_tol P = Some t /\ t <> 0 /\ Rabs (prev - cur) < t * prev.
(** loss below the absolute tolerance; only looked at when the relative one is set *)
Definition abs_stop (P : params (N:=RNum)) (cur : R) : Prop :=
  (exists t, p_tol P = Some t /\ t <> 0) /\ exists a, p_abs_tol P = Some a /\ cur < a.
Definition stops (P : params (N:=RNum)) (Xs : list matR) (prev cur : state (N:=RNum)) : Prop :=
  feasible_by P cur /\ (rel_stop P (loss P Xs prev) (loss P Xs cur) \/ abs_stop P (loss P Xs cur)).
(** What the message says about the last two states. *)
Definition message_ok (P : params (N:=RNum)) (Xs : list matR) (msg : message) (prev cur : state (N:=RNum)) : Prop :=
  match msg with
  | MaxIter => ~ stops P Xs prev cur
  | RelLoss => feasible_by P cur /\ rel_stop P (loss P Xs prev) (loss P Xs cur)
  | AbsLoss => feasible_by P cur /\ ~ rel_stop P (loss P Xs prev) (loss P Xs cur) /\ abs_stop P (loss P Xs cur)
  end.
(** The states [tr 0, ..., tr m] of a run of at most n iterations; [pv j] is the
    state to whose loss iteration j+1 is compared. *)
Definition stopping_rule (P : params (N:=RNum)) (Xs : list matR) (n m : nat) (msg : message)
  (tr pv : nat -> state (N:=RNum)) : Prop :=
  (forall j, (S j < m)%nat -> ~ stops P Xs (pv j) (tr (S j))) /\
  ((m < n)%nat -> msg <> MaxIter) /\
  (m = 0%nat -> msg = MaxIter) /\
  (forall j, m = S j -> message_ok P Xs msg (pv j) (tr m)).
(** The state to whose loss iteration j+1 is compared: with diagnostics the previous
    one; without, the last feasible one (or the initial one). *)
Definition compared (P : params (N:=RNum)) (m : nat) (tr pv : nat -> state (N:=RNum)) : Prop :=
  pv 0%nat = tr 0%nat /\
  forall j, (j < m)%nat ->
    (p_return_errors P = true \/ feasible_by P (tr (S j)) -> pv (S j) = tr (S j)) /\
    (p_return_errors P = false -> ~ feasible_by P (tr (S j)) -> pv (S j) = pv j).
(** Diagnostics of a run through the states [tr 0, ..., tr m]: one entry for each. *)
Definition history (P : params (N:=RNum)) (Xs : list matR) (m : nat) (tr : nat -> state (N:=RNum)) (d : diagnostics (N:=RNum)) : Prop :=
  d_errors d = map (fun j => Fin (N:=RNum) (rel_error Xs (st_cmf (tr j)))) (seq 0 (S m)) /\
  d_losses d = map (fun j => Fin (N:=RNum) (loss P Xs (tr j))) (seq 0 (S m)) /\
  length (d_gaps d) = S m /\ (forall j, (j <= m)%nat -> gaps_of (tr j) (nth j (d_gaps d) ([], [], []))) /\
  d_n_iter d = m.
(** The flags. *)
Definition tol_set (t : option R) : Prop := exists x, t = Some x /\ x <> 0.
(** The flag "satisfied the stopping condition": absent when there is none. *)
Definition stopped_flag (tol abs_tol : option R) (msg : message) (f : option bool) : Prop :=
  match msg with
  | MaxIter => (tol_set tol \/ tol_set abs_tol -> f = Some false) /\ (~ tol_set tol -> ~ tol_set abs_tol -> f = None)
  | _ => f = Some true
  end.
Definition flags_ok (P : params (N:=RNum)) (last : state (N:=RNum)) (d : diagnostics (N:=RNum)) : Prop :=
  stopped_flag (p_tol P) (p_abs_tol P) (d_message d) (d_stopped d) /\
  (forall b, d_feasible d = Some b -> (b = true <-> feasible_by P last)) /\
  (tol_set (p_feas_tol P) <-> d_feasible d <> None).

(** ** What the block updates minimise when there are no penalties *)
Definition objective (P : params (N:=RNum)) (Xs : list matR) (c : rcmf) : R :=
  1 / 2 * residual Xs c + l2_sum P c.
Definition no_penalties (s : state (N:=RNum)) : Prop := st_rA s = [] /\ st_rB s = [] /\ st_rC s = [].
(** The same call with return_errors set to b. *)
Definition with_errors (b : bool) (P : params (N:=RNum)) : params (N:=RNum) :=
  Params (N:=RNum) (p_l2A P) (p_l2B P) (p_l2C P) (p_scale P) (p_constA P) (p_constB P) (p_inner P) (p_inner_tol P)
    (p_updA P) (p_updB P) (p_updC P) (p_tol P) (p_abs_tol P) (p_feas_tol P) b.

(** ** When no update can fail *)
(** Penalties whose update does not depend on the feasibility penalty. *)
Definition rho_free (p : penalty (N:=RNum)) : Prop :=
  match p with NonNegativity | Box _ _ | L2Ball _ _ | Unimodality _ => True | _ => False end.
(** The update is defined for feasibility penalty rho.  The unit simplex is left
    out: its root search may fail (C10). *)
Definition usable (p : penalty (N:=RNum)) (rho : R) : Prop :=
  p <> UnitSimplex /\ (rho_free p \/ 0 < rho).
(** The least-squares system is positive definite whatever the factors are. *)
Definition well_posed {A : Type} (l2 rho : R) (regs : list A) : Prop := 0 < l2 \/ (0 < rho /\ regs <> []).
(** Penalties that can be applied row by row. *)
Definition rowwise (p : penalty (N:=RNum)) : Prop :=
  match p with NonNegativity | Box _ _ | L1Penalty _ _ => True | _ => False end.
(** Penalties and parameters for which no iteration can fail: a positive ridge
    penalty on every updated mode, no penalty that divides by the feasibility
    penalty, and on mode 0 without a common feasibility penalty only row-wise ones. *)
Definition robust (P : params (N:=RNum)) (s : state (N:=RNum)) : Prop :=
  (p_updA P = true -> 0 < p_l2A P /\ Forall (fun g => rho_free (g_pen g)) (st_rA s) /\
     (p_constA P = false -> Forall (fun g => rowwise (g_pen g)) (st_rA s))) /\
  (p_updB P = true -> 0 < p_l2B P /\ Forall (fun g => rho_free (b_pen g)) (st_rB s)) /\
  (p_updC P = true -> 0 < p_l2C P /\ Forall (fun g => rho_free (g_pen g)) (st_rC s)).
(** A relative tolerance comes with an absolute one (else comparing with None raises TypeError). *)
Definition tols_ok (P : params (N:=RNum)) : Prop := tol_set (p_tol P) -> p_abs_tol P <> None.
