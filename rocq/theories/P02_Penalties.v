(** Properties C06-C16: the update rules and values of the penalties.

    [factor_matrix_update E p V rho] models
    [p.factor_matrix_update(V, feasibility_penalty=rho, aux)], [E] supplies the
    external SVD and TV-denoising routines.  The specifications are in Spec.v
    (proximal points and projections on plain entries) and PenaltySpec.v. *)
From Coq Require Import Reals Lra Lia List Arith Bool.
From Verif Require Import Num Numpy Spec ModelSpec Penalties PenaltySpec
  ProxProofs TVProofs GenL2Proofs SimplexProofs Parafac2Proofs Parafac2Main PenaltyMain PenaltyExamples.
Import ListNotations.
Local Open Scope R_scope.

Notation matR := (mat (N:=RNum)).
Notation extR := (ext (N:=RNum)).
Notation penaltyR := (penalty (N:=RNum)).

(** [X] is a well-formed matrix of the shape of [V]. *)
Definition like (V X : matR) : Prop := mwf X /\ mr X = mr V /\ mc X = mc V.

(** Being the proximal point determines every entry. *)
Theorem prox_unique (r c : nat) (f : ent -> R) (dom : ent -> Prop) (rho : R) (V X Y : ent) :
  0 < rho -> is_prox r c f dom rho V X -> is_prox r c f dom rho V Y -> same r c X Y.
Proof. exact (is_prox_unique r c f dom rho V X Y). Qed.

(** C06 *)
Theorem C06_nonneg_projection (E : extR) (V : matR) (rho : R) :
  mwf V ->
  exists X, factor_matrix_update E NonNegativity V rho = Ok X /\ like V X /\
    is_proj (mr V) (mc V) (entries (mr V) (mc V) (fun x => 0 <= x)) (mget V) (mget X) /\
    (entries (mr V) (mc V) (fun x => 0 <= x) (mget V) -> X = V).
Proof. exact (C06_nonneg E V rho). Qed.
Print Assumptions C06_nonneg_projection.

Theorem C06_box_projection (E : extR) (V : matR) (rho : R) (lo hi : option R) :
  mwf V -> bounds_ok lo hi -> (lo <> None \/ hi <> None) ->
  exists X, factor_matrix_update E (Box (N:=RNum) lo hi) V rho = Ok X /\ like V X /\
    is_proj (mr V) (mc V) (entries (mr V) (mc V) (within lo hi)) (mget V) (mget X) /\
    (entries (mr V) (mc V) (within lo hi) (mget V) -> X = V).
Proof. exact (C06_box E V rho lo hi). Qed.
Print Assumptions C06_box_projection.

(** C07 *)
Theorem C07_l1_prox (E : extR) (V : matR) (rho reg : R) (nn : bool) :
  mwf V -> 0 <= reg -> 0 < rho ->
  exists X, factor_matrix_update E (L1Penalty (N:=RNum) reg nn) V rho = Ok X /\ like V X /\
    is_prox (mr V) (mc V) (fun Z => reg * abs_sum (mr V) (mc V) Z)
      (if nn then entries (mr V) (mc V) (fun x => 0 <= x) else anywhere) rho (mget V) (mget X) /\
    penalty_mat (L1Penalty (N:=RNum) reg nn) X = Ok (reg * abs_sum (mr X) (mc X) (mget X)).
Proof. exact (C07_l1 E V rho reg nn). Qed.
Print Assumptions C07_l1_prox.

(** C08 *)
Theorem C08_generalized_l2_prox (E : extR) (M U Vh : matR) (s : list R) (n : nat) (V : matR) (rho : R) :
  mwf M -> mr M = n -> mc M = n -> symmetric n (mget M) -> psd n (mget M) -> has_svd M n (U, s, Vh) ->
  mwf V -> mr V = n -> 0 < rho ->
  exists X, factor_matrix_update E (GeneralizedL2 (N:=RNum) M U s) V rho = Ok X /\ like V X /\
    is_prox (mr V) (mc V) (quad (mr V) (mc V) (mget M)) anywhere rho (mget V) (mget X).
Proof. exact (C08_genl2 E M U Vh s n V rho). Qed.
Print Assumptions C08_generalized_l2_prox.

(** C09 *)
Theorem C09_l2ball_projection (E : extR) (V : matR) (rho b : R) (nn : bool) :
  mwf V -> 0 < b ->
  exists X, factor_matrix_update E (L2Ball (N:=RNum) b nn) V rho = Ok X /\ like V X /\
    let feasible := fun Z => cols_in_ball (mr V) (mc V) b Z /\
                             (nn = true -> entries (mr V) (mc V) (fun x => 0 <= x) Z) in
    is_proj (mr V) (mc V) feasible (mget V) (mget X) /\ (feasible (mget V) -> X = V).
Proof. exact (C09_l2ball E V rho b nn). Qed.
Print Assumptions C09_l2ball_projection.

(** C10: either the update succeeds and every entry is within [eps_of B] of the
    exact projection [P], or bisection fails to converge, which only happens for
    entries larger than 10^18. *)
Theorem C10_unit_simplex (E : extR) (V : matR) (rho : R) :
  mwf V -> (0 < mr V)%nat ->
  (exists X P, factor_matrix_update E UnitSimplex V rho = Ok X /\ like V X /\
     is_proj (mr V) (mc V) (cols_in_simplex (mr V) (mc V)) (mget V) P /\
     entries (mr V) (mc V) (fun x => 0 <= x) (mget X) /\
     (forall B, entries (mr V) (mc V) (fun x => Rabs x <= B) (mget V) ->
        (forall i j, (i < mr V)%nat -> (j < mc V)%nat -> Rabs (mget X i j - P i j) <= eps_of B) /\
        (forall j, (j < mc V)%nat -> Rabs (Sum (mr V) (fun i => mget X i j) - 1) <= INR (mr V) * eps_of B))) \/
  (factor_matrix_update E UnitSimplex V rho = Err RuntimeError /\
     forall B, entries (mr V) (mc V) (fun x => Rabs x <= B) (mget V) -> ~ B <= 10 ^ 18).
Proof. exact (C10_simplex E V rho). Qed.
Print Assumptions C10_unit_simplex.

(** C11: conditional on what the external denoiser returns for the columns of V *)
Theorem C11_tv_l1_prox (E : extR) (V : matR) (rho reg l1 : R) :
  mwf V -> 0 < reg -> 0 <= l1 -> 0 < rho ->
  (forall j, (j < mc V)%nat ->
     tv_minimiser (mcol V j) (reg * 2 / rho) (x_tv E (mcol V j) (reg * 2 / rho))) ->
  exists X, factor_matrix_update E (TotalVariation (N:=RNum) reg l1) V rho = Ok X /\ like V X /\
    is_prox (mr V) (mc V)
      (fun Z => reg * total_variation (mr V) (mc V) Z + l1 * abs_sum (mr V) (mc V) Z)
      anywhere rho (mget V) (mget X).
Proof. exact (C11_tv E V rho reg l1). Qed.
Print Assumptions C11_tv_l1_prox.

(** The unimodality update: nearest matrix with (non-negative) unimodal columns *)
Theorem C02_unimodality_update (E : extR) (V : matR) (rho : R) (nn : bool) :
  mwf V -> (0 < mr V)%nat -> (0 < mc V)%nat ->
  exists X, factor_matrix_update E (Unimodality (N:=RNum) nn) V rho = Ok X /\ like V X /\
    let feasible := fun Z => cols_unimodal (mr V) (mc V) Z /\
                             (nn = true -> entries (mr V) (mc V) (fun x => 0 <= x) Z) in
    is_nearest (mr V) (mc V) feasible (mget V) (mget X) /\ (feasible (mget V) -> X = V).
Proof. exact (C02_unimodality E V rho nn). Qed.
Print Assumptions C02_unimodality_update.

(** C12 *)
Theorem C12_parafac2_cross_products (E : extR) (k : nat) (fms : list matR) (rhos : list R)
    (n : nat) (ub uc : bool) (basis : list matR) (D : matR) :
  parafac2_input k fms rhos -> svd_correct E k -> shaped D k k ->
  ((ub = true /\ n <> 0%nat) \/ orthonormal_bases k fms basis) ->
  exists a' Xs Phi,
    factor_matrices_update E (Parafac2 (N:=RNum) n ub uc) fms rhos (APf2 basis D) = Ok a' /\
    auxes_as_matrices (Parafac2 n ub uc) a' = Ok Xs /\
    all_nth (length fms) Xs (fun i X =>
      shaped X (mr (nth i fms no_mat)) k /\ same k k (cross (mr X) (mget X)) Phi).
Proof. exact (C12_main E k fms rhos n ub uc basis D). Qed.
Print Assumptions C12_parafac2_cross_products.

(** C12: with fewer rows than components numpy's reduced SVD does not fit, and
    the update raises. *)
Theorem C12_too_few_rows (E : extR) (fms : list matR) (rhos : list R) (n : nat) (uc : bool)
    (basis : list matR) (D : matR) (i : nat) :
  (0 < n)%nat -> (i < length fms)%nat ->
  (forall fm, In fm fms -> let '(U, _, Vh) := x_svd E (mmul fm (mtrans D)) (mr D) in
      mc U = Nat.min (mr fm) (mr D) /\ mr Vh = mr D) ->
  (mr (nth i fms no_mat) < mr D)%nat ->
  factor_matrices_update E (Parafac2 (N:=RNum) n true uc) fms rhos (APf2 basis D) = Err ValueError.
Proof. exact (C12_few E fms rhos n uc basis D i). Qed.
Print Assumptions C12_too_few_rows.

(** C13 *)
Theorem C13_parafac2_descent (E : extR) (k : nat) (fms : list matR) (rhos : list R)
    (n : nat) (ub uc : bool) (basis : list matR) (D : matR) :
  parafac2_input k fms rhos -> svd_correct E k -> shaped D k k -> orthonormal_bases k fms basis ->
  let p := fun m => Parafac2 (N:=RNum) m ub uc in
  exists X0 X1 X2 a1 a2,
    auxes_as_matrices (p n) (APf2 basis D) = Ok X0 /\
    factor_matrices_update E (p n) fms rhos (APf2 basis D) = Ok a1 /\ auxes_as_matrices (p n) a1 = Ok X1 /\
    factor_matrices_update E (p (S n)) fms rhos (APf2 basis D) = Ok a2 /\ auxes_as_matrices (p (S n)) a2 = Ok X2 /\
    weighted_dist k rhos fms X1 <= weighted_dist k rhos fms X0 /\
    weighted_dist k rhos fms X2 <= weighted_dist k rhos fms X1.
Proof. exact (C13_main E k fms rhos n ub uc basis D). Qed.
Print Assumptions C13_parafac2_descent.

(** C13: the two half steps are exact minimisations *)
Theorem C13_basis_step_optimal (E : extR) (k : nat) (fms : list matR) (rhos : list R)
    (n : nat) (basis : list matR) (D : matR) :
  parafac2_input k fms rhos -> svd_correct E k -> shaped D k k ->
  exists basis', factor_matrices_update E (Parafac2 (N:=RNum) (S n) true false) fms rhos (APf2 basis D) = Ok (APf2 basis' D) /\
    orthonormal_bases k fms basis' /\
    forall other, orthonormal_bases k fms other -> forall i, (i < length fms)%nat ->
      dist2 (mr (nth i fms no_mat)) k (mget (nth i fms no_mat)) (mget (mmul (nth i basis' no_mat) D)) <=
      dist2 (mr (nth i fms no_mat)) k (mget (nth i fms no_mat)) (mget (mmul (nth i other no_mat) D)).
Proof. exact (fun H1 H2 => pf2_basis_only E k fms rhos H1 H2 n basis D). Qed.
Print Assumptions C13_basis_step_optimal.

Theorem C13_coordinate_step_optimal (E : extR) (k : nat) (fms : list matR) (rhos : list R)
    (n : nat) (basis : list matR) (D : matR) :
  parafac2_input k fms rhos -> shaped D k k -> orthonormal_bases k fms basis ->
  exists D', factor_matrices_update E (Parafac2 (N:=RNum) (S n) false true) fms rhos (APf2 basis D) = Ok (APf2 basis D') /\
    shaped D' k k /\
    forall other, shaped other k k ->
      weighted_dist k rhos fms (map (fun P => mmul P D') basis) + Sum (length rhos) (at_ rhos) * dist2 k k (mget D') (mget other) =
      weighted_dist k rhos fms (map (fun P => mmul P other) basis).
Proof. exact (fun H1 => pf2_coord_only E k fms rhos H1 n basis D). Qed.
Print Assumptions C13_coordinate_step_optimal.

(** C14: [rowwise_update] is the default row-by-row implementation. *)
Theorem C14_rowwise_equals_matrixwise (E : extR) (p : penaltyR) (V : matR) (rho : R) :
  mwf V -> (0 < mr V)%nat ->
  match p with NonNegativity | Box _ _ | L1Penalty _ _ => True | _ => False end ->
  rowwise_update p V rho = factor_matrix_update E p V rho /\
  forall X, factor_matrix_update E p V rho = Ok X ->
    forall i, (i < mr V)%nat -> row_update p (mrow V i) rho = Ok (mrow X i).
Proof. exact (C14_main E p V rho). Qed.
Print Assumptions C14_rowwise_equals_matrixwise.

(** C15 *)
Theorem C15_subtract_consistent (p : penaltyR) (a : auxes (N:=RNum)) (duals l : list matR) :
  auxes_as_matrices p a = Ok l ->
  subtract_from_auxes p a duals = Ok (map2 msub l duals).
Proof. exact (subtract_consistent p a duals l). Qed.
Print Assumptions C15_subtract_consistent.

(** C16 *)
Theorem C16_penalty_value (p : penaltyR) (X : matR) :
  valid_penalty p (mr X) -> (forall n a b, p <> Parafac2 (N:=RNum) n a b) ->
  penalty_mat p X = Ok (doc_penalty p (mr X) (mc X) (mget X)) /\
  0 <= doc_penalty p (mr X) (mc X) (mget X).
Proof. exact (C16_value p X). Qed.
Print Assumptions C16_penalty_value.

Theorem C16_penalty_of_list (p : penaltyR) (Xs : list matR) :
  (forall X, In X Xs -> valid_penalty p (mr X)) ->
  exists v, penalty_list p Xs = Ok v /\ 0 <= v /\
    v = Sum (length Xs) (fun i => doc_penalty p (mr (nth i Xs no_mat)) (mc (nth i Xs no_mat)) (mget (nth i Xs no_mat))).
Proof. exact (C16_list p Xs). Qed.
Print Assumptions C16_penalty_of_list.

(** C16: only a list has a PARAFAC2 penalty *)
Theorem C16_parafac2_matrix_rejected (n : nat) (ub uc : bool) (X : matR) :
  penalty_mat (Parafac2 n ub uc) X = Err TypeError.
Proof. exact (C16_pf2 n ub uc X). Qed.
Print Assumptions C16_parafac2_matrix_rejected.

(** The constructors accept exactly the documented strengths. *)
Theorem C16_constructors (reg l1 b : R) (nn : bool) :
  (mk_L1 (N:=RNum) reg nn = (if Rlt_dec reg 0 then Err ValueError else Ok (L1Penalty reg nn))) /\
  (mk_L2Ball (N:=RNum) b nn = (if Rle_dec b 0 then Err ValueError else Ok (L2Ball b nn))) /\
  (mk_TV (N:=RNum) true reg l1 =
     (if Rle_dec reg 0 then Err ValueError else if Rlt_dec l1 0 then Err ValueError else Ok (TotalVariation reg l1))) /\
  mk_TV (N:=RNum) false reg l1 = Err ModuleNotFoundError.
Proof. exact (C16_mk reg l1 b nn). Qed.
Print Assumptions C16_constructors.

(** ** Non-vacuity: concrete data for the hypotheses above *)
Example C06_hyps : mwf ex_V /\ (0 < mr ex_V)%nat /\ (0 < mc ex_V)%nat /\ bounds_ok (Some (-1)) (Some 2) /\ Some (-1) <> None.
Proof. split; [exact ex_V_wf|]. cbn. repeat split; try lia; try discriminate. intros l h Hl Hh. injection Hl as <-. injection Hh as <-. lra. Qed.
Example C08_hyps : valid_penalty (GeneralizedL2 ex_M ex_U ex_s) (mr ex_V).
Proof. exact ex_M_valid. Qed.
Example C11_hyps : mwf ex_tvV /\ forall j, (j < mc ex_tvV)%nat ->
  tv_minimiser (mcol ex_tvV j) (1 * 2 / 1) (x_tv ex_tvE (mcol ex_tvV j) (1 * 2 / 1)).
Proof. exact ex_tv. Qed.
Example C12_hyps : exists basis D,
  parafac2_input 1 ex_fms [1; 1/2] /\ svd_correct ex_tvE 1 /\ shaped D 1 1 /\ orthonormal_bases 1 ex_fms basis.
Proof. exact (ex_intro _ _ (ex_intro _ _ (conj ex_pf2 (conj (svd1_correct _) (conj ex_coord ex_bases))))). Qed.
