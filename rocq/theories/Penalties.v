(** Model of src/matcouply/penalties.py (numerical part; initialisation of the
    auxiliary and dual variables is in InitVars.v). *)
From Coq Require Import List Arith Bool ZArith.
From Verif Require Import Num Numpy Unimodal.
Import ListNotations.
Local Open Scope num_scope.

Section Penalties.
Context {N : Num}.

(** External routines, given as functions of their arguments.
    [x_svd M k] is [svd_fun(M, n_eigenvecs=k)] = (U, s, Vh) (_utils.py:15-27),
    [x_tv x a] is one column of [condat_tv.tv_denoise_matrix] with parameter a
    (penalties.py:822-824). *)
Record ext := Ext {
  x_svd : mat -> nat -> (mat * list num * mat);
  x_tv : list num -> num -> list num
}.

(** Penalty objects that [cmf_aoadmm] can build or receive in [regs].
    The arguments are the attributes set by the constructors:
    NonNegativity (penalties.py:488), Box (511, 531-534), L1Penalty (545),
    GeneralizedL2Penalty (595; [norm_matrix], [_U], [_s]), TotalVariationPenalty
    (750), L2Ball (844), UnitSimplex (928), Unimodality (983), Parafac2
    (1018, 1091-1105; [n_iter], [update_basis_matrices], [update_coordinate_matrix]). *)
Inductive penalty :=
| NonNegativity
| Box (min_val max_val : option num)
| L1Penalty (reg_strength : num) (non_negativity : bool)
| GeneralizedL2 (norm_matrix U : mat) (s : list num)
| TotalVariation (reg_strength l1_strength : num)
| L2Ball (norm_bound : num) (non_negativity : bool)
| UnitSimplex
| Unimodality (non_negativity : bool)
| Parafac2 (n_iter : nat) (update_basis update_coord : bool).

(** Auxiliary variables of mode 1: a list of matrices, or PARAFAC2's pair of
    basis matrices and coordinate matrix (penalties.py:1226). *)
Inductive auxes :=
| AList (l : list mat)
| APf2 (basis : list mat) (coord : mat).

(** *** Constructors that validate their arguments *)
(** [L1Penalty.__init__], penalties.py:565-571 *)
Definition mk_L1 (reg : num) (nn : bool) : res penalty :=
  if reg <? n0 then Err ValueError else Ok (L1Penalty reg nn).
(** [L2Ball.__init__], penalties.py:911-917 *)
Definition mk_L2Ball (bound : num) (nn : bool) : res penalty :=
  if bound <=? n0 then Err ValueError else Ok (L2Ball bound nn).
(** [TotalVariationPenalty.__init__], penalties.py:804-818; [has_tv] is the
    module constant HAS_TV (lines 6-11) *)
Definition mk_TV (has_tv : bool) (reg l1 : num) : res penalty :=
  if negb has_tv then Err ModuleNotFoundError
  else if reg <=? n0 then Err ValueError
  else if l1 <? n0 then Err ValueError
  else Ok (TotalVariation reg l1).
(** [GeneralizedL2Penalty.__init__], penalties.py:705-725, for a two-dimensional
    norm matrix, numpy backend.  [eigvals] is [np.linalg.eigvals].  A non-square
    matrix fails at line 714 (broadcasting of the identity); simplified: a
    one-row or one-column array would get as far as [eigvals] (line 721). *)
Definition mk_GenL2 (E : ext) (eigvals : mat -> list num) (M : mat) (validate : bool) : res penalty :=
  if negb (mr M =? mc M)%nat then Err ValueError
  else if validate &&
          negb (forallb (fun i => forallb (fun j => neqb (mget (mtrans M) i j) (mget M i j))
                                          (seq 0 (mc M))) (seq 0 (mr M)))
  then Err ValueError
  else if validate && existsb (fun e => e <? nlit (-1) 100000000000000) (eigvals M)
  then Err ValueError
  else let '(U, s, _) := x_svd E M (mr M) in Ok (GeneralizedL2 M U s).

(** *** Elementwise helpers *)
(** [tl.clip(x, 0, inf)] *)
Definition relu (x : num) : num := clip1 (Some n0) None x.
(** [sign(x) * clip(abs(x) - t, 0, inf)], penalties.py:577-578, 585-586 and 826 *)
Definition soft (t x : num) : num := nsign x * relu (nabs x - t).

(** *** Row updates *)
(** [np.clip] with both bounds missing raises ValueError. *)
Definition clip_ok (lo hi : option num) : bool :=
  match lo, hi with None, None => false | _, _ => true end.

(** A zero feasibility penalty makes the code divide by zero in the penalties
    that use it; the model then stops with [NonFinite] (simplified: where numpy
    would still give finite entries, too).  *)
(** [factor_matrix_row_update]: penalties.py:503-504, 537-538, 573-578.  The other
    classes have no such method (AttributeError). *)
Definition row_update (p : penalty) (row : list num) (rho : num) : res (list num) :=
  match p with
  | NonNegativity => Ok (map relu row)
  | Box lo hi => if clip_ok lo hi then Ok (map (clip1 lo hi) row) else Err ValueError
  | L1Penalty reg nn =>
      if negb (ntruthy rho) then Err NonFinite
      else if nn then Ok (map (fun x => relu (x - reg / rho)) row)
      else Ok (map (soft (reg / rho)) row)
  | _ => Err AttributeError
  end.

(** [RowVectorPenalty.factor_matrix_update], penalties.py:429-446: the default
    implementation, row by row. *)
Definition rowwise_update (p : penalty) (fm : mat) (rho : num) : res mat :=
  let* rows := mapM (fun row => row_update p row rho) (me fm) in
  Ok (Mat (mr fm) (mc fm) rows).

(** *** UnitSimplex *)
Definition lmin (l : list num) : num := match l with [] => n0 | x :: t => fold_left nmin t x end.
Definition lmax (l : list num) : num := match l with [] => n0 | x :: t => fold_left nmax t x end.

(** [scipy.optimize.bisect] with its default xtol = 2e-12, rtol = 4 * 2^-52 and
    maxiter = 100 (scipy/optimize/Zeros/bisect.c).  Sign error: ValueError,
    no convergence: RuntimeError. *)
Definition bisect_xtol : num := nlit 2 1000000000000.
Definition bisect_rtol : num := nlit 1 1125899906842624.
Definition signbit (x : num) : bool := x <? n0.
Fixpoint bisect_loop (f : num -> num) (fa_neg : bool) (iter : nat) (xa dm : num) : res num :=
  match iter with
  | O => Err RuntimeError
  | S k =>
      let dm' := dm * nhalf in
      let xm := xa + dm' in
      let fm := f xm in
      let xa' := if Bool.eqb (signbit fm) fa_neg then xm else xa in
      if neqb fm n0 || (nabs dm' <? bisect_xtol + bisect_rtol * nabs xm)
      then Ok xm
      else bisect_loop f fa_neg k xa' dm'
  end.
Definition bisect (f : num -> num) (a b : num) : res num :=
  let fa := f a in
  let fb := f b in
  if neqb fa n0 then Ok a
  else if neqb fb n0 then Ok b
  else if Bool.eqb (signbit fa) (signbit fb) then Err ValueError
  else bisect_loop f (signbit fa) 100 a (b - a).

(** The bracket of [_compute_lagrange_multiplier], penalties.py:958-966 *)
Definition simplex_lo (col : list num) : num :=
  let m := lmin col - n1 - nlit 1 100000 in
  nmin (nlit 9 10 * m) (nlit 11 10 * m).
Definition simplex_hi (col : list num) : num :=
  let m := lmax col + nlit 1 100000 in
  nmax (nlit 9 10 * m) (nlit 11 10 * m).
(** [f], penalties.py:968-969 *)
Definition simplex_f (col : list num) (mu : num) : num :=
  lsum (map (fun x => relu (x - mu)) col) - n1.
(** [_compute_lagrange_multiplier], penalties.py:942-971.  [tl.min] of an empty
    column raises ValueError. *)
Definition lagrange_multiplier (col : list num) : res num :=
  match col with
  | [] => Err ValueError
  | _ => bisect (simplex_f col) (simplex_lo col) (simplex_hi col)
  end.
(** one column of [UnitSimplex.factor_matrix_update], penalties.py:977-978 *)
Definition simplex_col (col : list num) : res (list num) :=
  let* mu := lagrange_multiplier col in
  Ok (map (fun x => relu (x - mu)) col).

(** *** Whole-matrix updates *)
(** [tl.sqrt(tl.sum(fm ** 2, axis=0))], penalties.py:923 *)
Definition col_norms (M : mat) : list num :=
  vbuild (mc M) (fun j => nsqrt (nsum (mr M) (fun i => mget M i j * mget M i j))).

Definition opt_get (x : option num) : num := match x with Some v => v | None => n0 end.
(** A matrix of floats out of columns of possibly-NaN entries: [None] when a NaN is left. *)
Fixpoint all_some (l : list (option num)) : option (list num) :=
  match l with
  | [] => Some []
  | Some x :: t => match all_some t with Some t' => Some (x :: t') | None => None end
  | None :: _ => None
  end.

(** [factor_matrix_update]: NonNegativity 507-508, Box 541-542, L1Penalty
    581-586, GeneralizedL2Penalty 732-737, TotalVariationPenalty 821-828, L2Ball
    920-925, UnitSimplex 974-980, Unimodality 1014-1015 (penalties.py).  Parafac2 has no such method. *)
Definition factor_matrix_update (E : ext) (p : penalty) (fm : mat) (rho : num) : res mat :=
  match p with
  | NonNegativity => Ok (mmap relu fm)
  | Box lo hi => if clip_ok lo hi then Ok (mmap (clip1 lo hi) fm) else Err ValueError
  | L1Penalty reg nn =>
      if negb (ntruthy rho) then Err NonFinite
      else if nn then Ok (mmap (fun x => relu (x - reg / rho)) fm)
      else Ok (mmap (soft (reg / rho)) fm)
  | GeneralizedL2 M U s =>
      if negb (ntruthy rho) then Err NonFinite else
      let s_aug := map (fun x => x + nhalf * rho) s in
      let tmp := mscale (nhalf * rho) fm in
      let tmp := mmul (mtrans U) tmp in
      Ok (mmul (mcolscale U (map (fun x => n1 / x) s_aug)) tmp)
  | TotalVariation reg l1 =>
      if negb (ntruthy rho) then Err NonFinite else
      let a := reg * nlit 2 1 / rho in
      let X := of_cols (mr fm) (map (fun j => x_tv E (mcol fm j) a) (seq 0 (mc fm))) in
      if ntruthy l1 then Ok (mmap (soft (l1 / rho)) X) else Ok X
  | L2Ball bound nn =>
      let fm := if nn then mmap relu fm else fm in
      let norms := map (clip1 (Some bound) None) (col_norms fm) in
      Ok (mcoldiv (mscale bound fm) norms)
  | UnitSimplex =>
      let* cols := mapM (fun j => simplex_col (mcol fm j)) (seq 0 (mc fm)) in
      Ok (of_cols (mr fm) cols)
  | Unimodality nn =>
      let* cols := unimodal_regression_cols store_float fm nn in
      match all_some (concat cols) with
      | None => Err ValueError (* NaN left in the output; excluded by C01 *)
      | Some _ => Ok (of_cols (mr fm) (map (map opt_get) cols))
      end
  | Parafac2 _ _ _ => Err AttributeError
  end.

(** *** PARAFAC2, penalties.py:1225-1250 *)
(** basis update, 1231-1235.  [tl.matmul(U, Vh)] raises ValueError when the inner
    dimensions differ (fewer rows than the rank: U is J x J and Vh is R x R). *)
Definition matmul (A B : mat) : res mat :=
  if (mc A =? mr B)%nat then Ok (mmul A B) else Err ValueError.
Definition pf2_basis (E : ext) (fms : list mat) (coord : mat) : res (list mat) :=
  mapM (fun fm => let '(U, _, Vh) := x_svd E (mmul fm (mtrans coord)) (mr coord) in matmul U Vh) fms.
(** coordinate update, 1237-1245: weighted mean of basis^T fm.  Python starts
    the sum from the integer 0; for empty lists it would divide 0 by 0. *)
Definition pf2_terms (fms basis : list mat) (rhos : list num) : list mat :=
  map2 (fun P_fm rho => mmul (mscale rho (mtrans (fst P_fm))) (snd P_fm)) (combine basis fms) rhos.
Definition msum_list (l : list mat) : option mat :=
  match l with [] => None | t :: ts => Some (fold_left madd ts t) end.
Definition pf2_coord (fms basis : list mat) (rhos : list num) : res mat :=
  match msum_list (pf2_terms fms basis rhos) with
  | None => Err ValueError (* ZeroDivisionError in Python *)
  | Some m => if ntruthy (lsum rhos) then Ok (mmap (fun x => x / lsum rhos) m) else Err NonFinite
  end.
(** the loop, 1229-1250 *)
Fixpoint pf2_loop (E : ext) (ub uc : bool) (fms : list mat) (rhos : list num) (it : nat)
         (basis : list mat) (coord : mat) : res (list mat * mat) :=
  match it with
  | O => Ok (basis, coord)
  | S k =>
      let* basis' := if ub then pf2_basis E fms coord else Ok basis in
      let* coord' := if uc then pf2_coord fms basis' rhos else Ok coord in
      if negb uc || negb ub then Ok (basis', coord')
      else pf2_loop E ub uc fms rhos k basis' coord'
  end.

(** [factor_matrices_update]: Parafac2 (1225-1250); the other classes inherit
    MatrixPenalty's (penalties.py:392-408), which maps over the three zipped
    lists.  A wrong kind of auxiliary variable raises. *)
Fixpoint matrices_update_list (E : ext) (p : penalty) (fms : list mat) (rhos : list num) (n : nat)
  : res (list mat) :=
  match fms, rhos, n with
  | fm :: fms', rho :: rhos', S n' =>
      let* x := factor_matrix_update E p fm rho in
      let* xs := matrices_update_list E p fms' rhos' n' in Ok (x :: xs)
  | _, _, _ => Ok []
  end.
Definition factor_matrices_update (E : ext) (p : penalty) (fms : list mat) (rhos : list num) (a : auxes)
  : res auxes :=
  match p, a with
  | Parafac2 n ub uc, APf2 basis coord =>
      let* (b, c) := pf2_loop E ub uc fms rhos n basis coord in Ok (APf2 b c)
  | Parafac2 _ _ _, AList _ => Err ValueError
  | _, AList l => let* r := matrices_update_list E p fms rhos (length l) in Ok (AList r)
  | _, APf2 _ _ => Err TypeError
  end.

(** [subtract_from_auxes] (penalties.py:268-288, Parafac2 1256-1281) and
    [auxes_as_matrices] (penalties.py:328-343, Parafac2 1287-1304). *)
Definition subtract_from_auxes (p : penalty) (a : auxes) (duals : list mat) : res (list mat) :=
  match p, a with
  | Parafac2 _ _ _, APf2 basis coord => Ok (map2 (fun P d => msub (mmul P coord) d) basis duals)
  | Parafac2 _ _ _, AList _ => Err ValueError
  | _, AList l => Ok (map2 msub l duals)
  | _, APf2 _ _ => Err TypeError
  end.
Definition auxes_as_matrices (p : penalty) (a : auxes) : res (list mat) :=
  match p, a with
  | Parafac2 _ _ _, APf2 basis coord => Ok (map (fun P => mmul P coord) basis)
  | Parafac2 _ _ _, AList _ => Err ValueError
  | _, AList l => Ok l
  | _, APf2 _ _ => Err TypeError
  end.
(** [subtract_from_aux] (290-309), [aux_as_matrix] (311-326); PARAFAC2 raises
    TypeError (1252-1254, 1283-1285). *)
Definition subtract_from_aux (p : penalty) (aux dual : mat) : res mat :=
  match p with Parafac2 _ _ _ => Err TypeError | _ => Ok (msub aux dual) end.
Definition aux_as_matrix (p : penalty) (aux : mat) : res mat :=
  match p with Parafac2 _ _ _ => Err TypeError | _ => Ok aux end.

(** *** Penalty values *)
(** [tl.sum(tl.abs(x))], penalties.py:591-592, 833 *)
Definition mabs_sum (M : mat) : num := msum (mmap nabs M).
(** [tl.sum(tl.abs(np.diff(x, axis=0)))], penalties.py:831 *)
Definition mtv (M : mat) : num :=
  nsum (mr M - 1) (fun i => nsum (mc M) (fun j => nabs (mget M (S i) j - mget M i j))).
(** [penalty] of one matrix: HardConstraintMixin 469-485, L1Penalty 589-592,
    GeneralizedL2Penalty 739-747, TotalVariationPenalty 830-841; Parafac2
    rejects anything but a list (1306-1324). *)
Definition penalty_mat (p : penalty) (x : mat) : res num :=
  match p with
  | L1Penalty reg _ => Ok (mabs_sum x * reg)
  | GeneralizedL2 M _ _ => Ok (mtrace (mmul (mmul (mtrans x) M) x))
  | TotalVariation reg l1 =>
      let v := reg * mtv x in
      if ntruthy l1 then Ok (v + l1 * mabs_sum x) else Ok v
  | Parafac2 _ _ _ => Err TypeError
  | _ => Ok n0
  end.
(** [penalty] of a list of matrices: same lines *)
Definition penalty_list (p : penalty) (xs : list mat) : res num :=
  match p with
  | L1Penalty reg _ => Ok (lsum (map mabs_sum xs) * reg)
  | Parafac2 _ _ _ => Ok n0
  | NonNegativity | Box _ _ | L2Ball _ _ | UnitSimplex | Unimodality _ => Ok n0
  | _ => let* vs := mapM (penalty_mat p) xs in Ok (lsum vs)
  end.

End Penalties.
