(** Penalties written by the user: classes that extend the base classes of
    src/matcouply/penalties.py (lines 19-485) and are passed in [regs], as in
    examples/plot_custom_penalty.py, and the fit (src/matcouply/decomposition.py) with such
    objects.

    Simplifications.
    - Methods are functions of their arguments and of the attributes of the object: an object
      that changes its own attributes, its arguments or anything else is not modelled.
    - As in Decomp.v, arrays have the shapes that the code expects: a row update returns a row
      of the length of its argument, auxiliary variables have the shape of the factor matrix.
    - A class has one of the three base classes, and possibly HardConstraintMixin before it.
      Subclasses of the built-in penalties are classes of the same kind (their methods are
      the inherited ones, see [builtin]). *)
From Coq Require Import List Arith Bool ZArith.
From Verif Require Import Num Numpy Unimodal Penalties CoupledMatrices Decomp InitVars Parse Fit.
Import ListNotations.
Local Open Scope num_scope.

Section Custom.
Context {N : Num}.
(** Objects other than arrays and lists that an auxiliary variable may be. *)
Context {X : Type}.

(** ** Auxiliary variables
    The base classes let a penalty choose its own parametrisation of the auxiliary variables
    (penalties.py:268-343).  One matrix: an array or another object. *)
Inductive uaux := UMat (M : mat) | UOther (x : X).
(** All matrices of mode 1: a list of such, PARAFAC2's pair, or another object. *)
Inductive uauxes := UList (l : list uaux) | UPair (basis : list mat) (coord : mat) | UWhole (x : X).

(** ** Classes *)
(** [MatricesPenalty] (369-386), [MatrixPenalty] (389-423), [RowVectorPenalty] (426-463) *)
Inductive baseclass := BMatrices | BMatrix | BRow.
(** the values [init_aux] may return *)
Inductive uauxval := WMat (a : uaux) | WMats (a : uauxes).
(** The body of a class: its base classes and the methods it defines itself ([None]: not
    defined).  [u_hard]: HardConstraintMixin (466-485) comes before the base class. *)
Record cls := Cls {
  u_base : baseclass;
  u_hard : bool;
  u_row : option (list num -> num -> list num -> res (list num));   (* factor_matrix_row_update *)
  u_mat : option (mat -> num -> uaux -> res uaux);                  (* factor_matrix_update *)
  u_mats : option (list mat -> list num -> uauxes -> res uauxes);   (* factor_matrices_update *)
  u_pen : option (mat + list mat -> res num);                       (* penalty *)
  u_sub : option (uaux -> mat -> res mat);                          (* subtract_from_aux *)
  u_subs : option (uauxes -> list mat -> res (list mat));           (* subtract_from_auxes *)
  u_as : option (uaux -> res mat);                                  (* aux_as_matrix *)
  u_ass : option (uauxes -> res (list mat));                        (* auxes_as_matrices *)
  u_init : option (initval -> list mat -> pyint -> pyint -> nat -> res (uauxval * nat));  (* init_aux *)
  u_initd : option (initval -> list mat -> pyint -> pyint -> nat -> res (auxval * nat))   (* init_dual *)
}.
Definition defined {A} (o : option A) : bool := match o with Some _ => true | None => false end.
(** The abstract methods (264-266, 372-386, 410-423, 448-463) that a class leaves undefined:
    creating an instance of a class with an abstract method raises TypeError (abc.ABCMeta,
    the base of the metaclass, _doc_utils.py:72).  The mixin's [penalty] (469-485) counts when
    the mixin comes first. *)
Definition abstract (c : cls) : bool :=
  negb (u_hard c || defined (u_pen c)) ||
  match u_base c with
  | BMatrices => negb (defined (u_mats c))
  | BMatrix => negb (defined (u_mat c))
  | BRow => negb (defined (u_row c))
  end.
Definition instantiate (c : cls) : res cls := if abstract c then Err TypeError else Ok c.

(** ** Methods of an instance: its own or the inherited ones, which call the object's methods.
    The bodies of abstract methods raise NotImplementedError, a RuntimeError. *)
(** [factor_matrix_row_update]: only [RowVectorPenalty] declares one *)
Definition row_method (c : cls) : list num -> num -> list num -> res (list num) :=
  match u_row c with
  | Some f => f
  | None => fun _ _ _ => Err AttributeError
  end.
(** [RowVectorPenalty.factor_matrix_update], penalties.py:429-446: row by row, with the rows of
    the auxiliary variable.  Rows of anything but an array are not modelled. *)
Fixpoint by_rows (f : list num -> num -> list num -> res (list num)) (rho : num) (rows aux : list (list num)) : res (list (list num)) :=
  match rows with
  | [] => Ok []
  | r :: rows' =>
      match aux with
      | [] => Err IndexError
      | a :: aux' => let* x := f r rho a in let* xs := by_rows f rho rows' aux' in Ok (x :: xs)
      end
  end.
Definition mat_method (c : cls) : mat -> num -> uaux -> res uaux :=
  match u_mat c with
  | Some f => f
  | None =>
      match u_base c with
      | BRow => fun fm rho a =>
          match a with
          | UMat A => let* rows := by_rows (row_method c) rho (me fm) (me A) in Ok (UMat (Mat (mr fm) (mc fm) rows))
          | UOther _ => Err NotModelled
          end
      | _ => fun _ _ _ => Err AttributeError
      end
  end.
(** [MatrixPenalty.factor_matrices_update], penalties.py:392-408: over three zipped lists.
    Iterating over another object is not modelled (a pair: TypeError, as in Penalties.v). *)
Fixpoint by_matrices (f : mat -> num -> uaux -> res uaux) (fms : list mat) (rhos : list num) (l : list uaux) : res (list uaux) :=
  match fms, rhos, l with
  | fm :: fms', rho :: rhos', a :: l' =>
      let* x := f fm rho a in let* xs := by_matrices f fms' rhos' l' in Ok (x :: xs)
  | _, _, _ => Ok []
  end.
Definition mats_method (c : cls) : list mat -> list num -> uauxes -> res uauxes :=
  match u_mats c with
  | Some f => f
  | None =>
      match u_base c with
      | BMatrices => fun _ _ _ => Err RuntimeError
      | _ => fun fms rhos a =>
          match a with
          | UList l => let* xs := by_matrices (mat_method c) fms rhos l in Ok (UList xs)
          | UPair _ _ => Err TypeError
          | UWhole _ => Err NotModelled
          end
      end
  end.
(** [penalty], 264-266; the mixin's, 469-485 *)
Definition pen_method (c : cls) : mat + list mat -> res num :=
  match u_pen c with
  | Some f => f
  | None => if u_hard c then fun _ => Ok n0 else fun _ => Err RuntimeError
  end.
(** [subtract_from_aux], 290-309: [aux - dual]; subtracting from another object is not modelled *)
Definition sub_method (c : cls) : uaux -> mat -> res mat :=
  match u_sub c with
  | Some f => f
  | None => fun a d => match a with UMat A => Ok (msub A d) | UOther _ => Err NotModelled end
  end.
(** [subtract_from_auxes], 268-288: over two zipped lists *)
Fixpoint by_pairs (f : uaux -> mat -> res mat) (l : list uaux) (ds : list mat) : res (list mat) :=
  match l, ds with
  | a :: l', d :: ds' => let* x := f a d in let* xs := by_pairs f l' ds' in Ok (x :: xs)
  | _, _ => Ok []
  end.
Definition subs_method (c : cls) : uauxes -> list mat -> res (list mat) :=
  match u_subs c with
  | Some f => f
  | None => fun a ds => match a with UList l => by_pairs (sub_method c) l ds | UPair _ _ => Err TypeError | UWhole _ => Err NotModelled end
  end.
(** [aux_as_matrix], 311-326, and [auxes_as_matrices], 328-343 *)
Definition as_method (c : cls) : uaux -> res mat :=
  match u_as c with
  | Some f => f
  | None => fun a => match a with UMat A => Ok A | UOther _ => Err NotModelled end
  end.
Definition ass_method (c : cls) : uauxes -> res (list mat) :=
  match u_ass c with
  | Some f => f
  | None => fun a => match a with UList l => mapM (as_method c) l | UPair _ _ => Err TypeError | UWhole _ => Err NotModelled end
  end.

(** An instance of a class with its attributes [aux_init] and [dual_init] (30-34) *)
Record uobj := UObj { w_cls : cls; w_aux : initval; w_dual : initval }.
(** values of [init_common] as auxiliary variables *)
Definition lift_aux (a : auxes) : uauxes :=
  match a with AList l => UList (map UMat l) | APf2 b c => UPair b c end.
Definition lift_val (v : auxval) : uauxval :=
  match v with VMat M => WMat (UMat M) | VMats a => WMats (lift_aux a) end.
(** [init_aux] and [init_dual], 36-262 *)
Definition uinit_aux (rnd : rand) (o : uobj) (Xs : list mat) (rank mode : pyint) (pos : nat) : res (uauxval * nat) :=
  match u_init (w_cls o) with
  | Some f => f (w_aux o) Xs rank mode pos
  | None => let* (v, p) := init_common rnd (w_aux o) Xs rank mode pos in Ok (lift_val v, p)
  end.
Definition uinit_dual (rnd : rand) (o : uobj) (Xs : list mat) (rank mode : pyint) (pos : nat) : res (auxval * nat) :=
  match u_initd (w_cls o) with
  | Some f => f (w_dual o) Xs rank mode pos
  | None => init_common rnd (w_dual o) Xs rank mode pos
  end.

(** ** The built-in classes as classes of this kind
    NonNegativity 488-508, Box 511-542, L1Penalty 545-592, GeneralizedL2Penalty 595-747,
    TotalVariationPenalty 750-841, L2Ball 844-925, UnitSimplex 928-980, Unimodality 983-1015,
    Parafac2 1018-1324: their base classes and which methods they define. *)
Definition on_array (f : mat -> num -> res mat) (fm : mat) (rho : num) (_ : uaux) : res uaux :=
  let* M := f fm rho in Ok (UMat M).
Definition on_row (f : list num -> num -> res (list num)) (r : list num) (rho : num) (_ : list num) := f r rho.
Definition value_of (p : penalty) (x : mat + list mat) : res num :=
  match x with inl M => penalty_mat p M | inr l => penalty_list p l end.
Definition no_aux {A B} (_ : A) (_ : B) : res mat := Err TypeError.
(** Parafac2's update and subtraction unpack a pair (1226, 1272, 1300): of an other object,
    unpacking is not modelled *)
Definition pf2_mats (E : ext) (n : nat) (ub uc : bool) (fms : list mat) (rhos : list num) (a : uauxes) : res uauxes :=
  match a with
  | UPair basis coord => let* (b, c) := pf2_loop E ub uc fms rhos n basis coord in Ok (UPair b c)
  | UList _ => Err ValueError
  | UWhole _ => Err NotModelled
  end.
Definition pf2_subs (a : uauxes) (ds : list mat) : res (list mat) :=
  match a with
  | UPair basis coord => Ok (map2 (fun P d => msub (mmul P coord) d) basis ds)
  | UList _ => Err ValueError
  | UWhole _ => Err NotModelled
  end.
Definition pf2_ass (a : uauxes) : res (list mat) :=
  match a with
  | UPair basis coord => Ok (map (fun P => mmul P coord) basis)
  | UList _ => Err ValueError
  | UWhole _ => Err NotModelled
  end.
Definition builtin (E : ext) (rnd : rand) (p : penalty) : cls :=
  match p with
  | NonNegativity | Box _ _ =>
      Cls BRow true (Some (on_row (row_update p))) (Some (on_array (factor_matrix_update E p))) None None None None None None None None
  | L1Penalty _ _ =>
      Cls BRow false (Some (on_row (row_update p))) (Some (on_array (factor_matrix_update E p))) None (Some (value_of p)) None None None None None None
  | GeneralizedL2 _ _ _ | TotalVariation _ _ =>
      Cls BMatrix false None (Some (on_array (factor_matrix_update E p))) None (Some (value_of p)) None None None None None None
  | L2Ball _ _ | UnitSimplex | Unimodality _ =>
      Cls BMatrix true None (Some (on_array (factor_matrix_update E p))) None None None None None None None None
  | Parafac2 n ub uc =>
      Cls BMatrices false None None (Some (pf2_mats E n ub uc)) (Some (value_of p)) (Some no_aux) (Some pf2_subs)
        (Some (fun _ => Err TypeError)) (Some pf2_ass)
        (Some (fun i Xs rank mode pos => let* (v, q) := pf2_init_aux rnd true i Xs rank mode pos in Ok (lift_val v, q))) None
  end.

(** ** The fit with such objects, decomposition.py: the same code as in Decomp.v, where the
    penalties are objects and their methods are called *)
Record ureg := UReg { ug_cls : cls; ug_aux : uaux; ug_dual : mat }.
Record uregs := URegs { ub_cls : cls; ub_aux : uauxes; ub_dual : list mat }.

(** [compute_feasibility_gaps], 351-417 *)
Definition ugap (M : mat) (g : ureg) : res xnum :=
  let* d := sub_method (ug_cls g) (ug_aux g) M in Ok (xdiv (mnorm d) (mnorm M)).
Definition ugaps (Bs : list mat) (g : uregs) : res xnum :=
  let* d := subs_method (ub_cls g) (ub_aux g) Bs in Ok (xdiv (root_sum_squared d) (root_sum_squared Bs)).
Definition ucompute_gaps (c : cmf) (rA : list ureg) (rB : list uregs) (rC : list ureg) : res gaps :=
  let* gA := mapM (ugap (cA c)) rA in
  let* gB := mapM (ugaps (cBs c)) rB in
  let* gC := mapM (ugap (cC c)) rC in
  Ok (gA, gB, gC).
(** [_check_inner_convergence], 92-116 *)
Definition uconv (inner_tol : option num) (old new : mat * list ureg) : res bool :=
  inner_conv inner_tol (mnorm (fst new)) (mnorm (msub (fst new) (fst old))) (mapM (ugap (fst new)) (snd new)).
Definition uconvs (inner_tol : option num) (old new : list mat * list uregs) : res bool :=
  inner_conv inner_tol (root_sum_squared (fst new)) (root_sum_squared (map2 msub (fst new) (fst old)))
             (mapM (ugaps (fst new)) (snd new)).

(** [admm_update_A], 120-219 *)
Definition ushifted (regs : list ureg) : res (list mat) :=
  mapM (fun g => sub_method (ug_cls g) (ug_aux g) (ug_dual g)) regs.
(** lines 197-213; without a constant feasibility penalty the rows of the array [A_aux] are
    overwritten one by one *)
Definition urows_update (c : cls) (V : mat) (fps : list num) (a : uaux) : res uaux :=
  match a with
  | UMat A =>
      let* rows := mapM (fun i => row_method c (mrow V i) (nth i fps n0) (mrow A i)) (seq 0 (length fps)) in
      Ok (UMat (Mat (mr V) (mc V) rows))
  | UOther _ => Err NotModelled
  end.
Definition uA_reg_step (constant : bool) (fps : list num) (A : mat) (g : ureg) : res ureg :=
  let V := madd A (ug_dual g) in
  let* aux := if constant then mat_method (ug_cls g) V (nth 0 fps n0) (ug_aux g)
              else urows_update (ug_cls g) V fps (ug_aux g) in
  let* sh := sub_method (ug_cls g) aux (ug_dual g) in
  Ok (UReg (ug_cls g) aux (msub A sh)).
Definition uA_step (constant : bool) (svds : list svd3) (fps : list num)
  (rhses : list (list num)) (s : mat * list ureg) : res (mat * list ureg) :=
  let '(A, regs) := s in
  let* shifted := ushifted regs in
  let* rows := mapM (fun i =>
      solve_row (nth i svds (Mat 0 0 [], [], Mat 0 0 []))
        (vadd (vscale (nth i fps n0) (sum_rows (mc A) shifted i)) (nth i rhses [])))
    (seq 0 (mr A)) in
  let A' := Mat (mr A) (mc A) rows in
  let* regs' := mapM (uA_reg_step constant fps A') regs in
  Ok (A', regs').
Definition uupdate_A (E : ext) (Xs : list mat) (c : cmf) (regs : list ureg) (l2 : num)
  (n : nat) (inner_tol : option num) (scale : num) (constant : bool)
  : res (cmf * list ureg * (list (list num) * list mat)) :=
  let cross := A_cross (cBs c) (cC c) Xs in
  let rhses := A_rhses (cBs c) (cC c) Xs in
  let* fps := feas_penalties scale constant cross in
  let svds := lhs_svds E cross fps (length regs) l2 in
  let* (A, regs') := inner_loop (uA_step constant svds fps rhses) (uconv inner_tol) n (cA c, regs) in
  Ok (Cmf None A (cBs c) (cC c), regs', (rhses, cross)).

(** [admm_update_B], 222-292 *)
Definition ushifteds (regs : list uregs) : res (list (list mat)) :=
  mapM (fun g => subs_method (ub_cls g) (ub_aux g) (ub_dual g)) regs.
Definition uB_reg_step (fps : list num) (Bs : list mat) (g : uregs) : res uregs :=
  let V := map2 madd Bs (ub_dual g) in
  let* aux := mats_method (ub_cls g) V fps (ub_aux g) in
  let* sh := subs_method (ub_cls g) aux (ub_dual g) in
  Ok (URegs (ub_cls g) aux (map2 msub Bs sh)).
Definition uB_step (svds : list svd3) (fps : list num) (rhses : list mat)
  (s : list mat * list uregs) : res (list mat * list uregs) :=
  let '(Bs, regs) := s in
  let* shifted := ushifteds regs in
  let* Bs' := mapM (fun i =>
      let H := nth i rhses (Mat 0 0 []) in
      solve_mat (nth i svds (Mat 0 0 [], [], Mat 0 0 []))
        (madd (mscale (nth i fps n0)
                 (sum_mats (mr H) (mc H) (map (fun l => nth i l (Mat 0 0 [])) shifted))) H))
    (seq 0 (length Bs)) in
  let* regs' := mapM (uB_reg_step fps Bs') regs in
  Ok (Bs', regs').
Definition uupdate_B (E : ext) (Xs : list mat) (c : cmf) (regs : list uregs) (l2 : num)
  (n : nat) (inner_tol : option num) (scale : num) (constant : bool)
  : res (cmf * list uregs) :=
  let rhses := map2 (fun X a => B_rhs X (cC c) a) Xs (me (cA c)) in
  let lhses := map2 (fun _ a => B_lhs (cC c) a) Xs (me (cA c)) in
  let* fps := feas_penalties scale constant lhses in
  let svds := lhs_svds E lhses fps (length regs) l2 in
  let* (Bs, regs') := inner_loop (uB_step svds fps rhses) (uconvs inner_tol) n (cBs c, regs) in
  Ok (Cmf None (cA c) Bs (cC c), regs').

(** [admm_update_C], 295-344 *)
Definition uC_reg_step (fp : num) (C : mat) (g : ureg) : res ureg :=
  let* aux := mat_method (ug_cls g) (madd C (ug_dual g)) fp (ug_aux g) in
  let* sh := sub_method (ug_cls g) aux (ug_dual g) in
  Ok (UReg (ug_cls g) aux (msub C sh)).
Definition uC_step (d : svd3) (fp : num) (rhs : mat) (s : mat * list ureg) : res (mat * list ureg) :=
  let '(C, regs) := s in
  let* shifted := ushifted regs in
  let* C' := solve_mat d (madd (mscale fp (sum_mats (mr rhs) (mc rhs) shifted)) rhs) in
  let* regs' := mapM (uC_reg_step fp C') regs in
  Ok (C', regs').
Definition uupdate_C (E : ext) (Xs : list mat) (c : cmf) (regs : list ureg) (l2 : num)
  (n : nat) (inner_tol : option num) (scale : num) : res (cmf * list ureg) :=
  match msum_list (C_lhs_terms Xs (cBs c) (cA c)), msum_list (C_rhs_terms Xs (cBs c) (cA c)) with
  | Some lhs, Some rhs =>
      let fp := feas_penalty scale lhs in
      let d := lhs_svd E (ridge lhs fp (length regs) l2) in
      let* (C, regs') := inner_loop (uC_step d fp rhs) (uconv inner_tol) n (cC c, regs) in
      Ok (Cmf None (cA c) (cBs c) C, regs')
  | _, _ => Err ValueError
  end.

(** The outer loop, 903-1100 *)
Record ustate := USt {
  us_cmf : cmf; us_rA : list ureg; us_rB : list uregs; us_rC : list ureg;
  us_inter : option (list (list num) * list mat)
}.
(** 915-919, 1016-1020 *)
Definition ureg_penalty (c : cmf) (rA : list ureg) (rB : list uregs) (rC : list ureg) : res num :=
  let* a := mapM (fun g => pen_method (ug_cls g) (inl (cA c))) rA in
  let* b := mapM (fun g => pen_method (ub_cls g) (inr (cBs c))) rB in
  let* d := mapM (fun g => pen_method (ug_cls g) (inl (cC c))) rC in
  Ok (lsum a + lsum b + lsum d).
Definition uupd_B (E : ext) (P : params) (Xs : list mat) (s : ustate) : res ustate :=
  if p_updB P then
    let* (c, r) := uupdate_B E Xs (us_cmf s) (us_rB s) (p_l2B P) (p_inner P) (p_inner_tol P)
                             (p_scale P) (p_constB P) in
    Ok (USt c (us_rA s) r (us_rC s) None)
  else Ok (USt (us_cmf s) (us_rA s) (us_rB s) (us_rC s) None).
Definition uupd_C (E : ext) (P : params) (Xs : list mat) (s : ustate) : res ustate :=
  if p_updC P then
    let* (c, r) := uupdate_C E Xs (us_cmf s) (us_rC s) (p_l2C P) (p_inner P) (p_inner_tol P) (p_scale P) in
    Ok (USt c (us_rA s) (us_rB s) r (us_inter s))
  else Ok s.
Definition uupd_A (E : ext) (P : params) (Xs : list mat) (s : ustate) : res ustate :=
  if p_updA P then
    let* (c, r, i) := uupdate_A E Xs (us_cmf s) (us_rA s) (p_l2A P) (p_inner P) (p_inner_tol P)
                                (p_scale P) (p_constA P) in
    Ok (USt c r (us_rB s) (us_rC s) (Some i))
  else Ok s.
Definition uouter_step (E : ext) (P : params) (Xs : list mat) (s : ustate) : res ustate :=
  let* s := uupd_B E P Xs s in
  let* s := uupd_C E P Xs s in
  uupd_A E P Xs s.
Definition ustate_gaps (s : ustate) : res gaps :=
  ucompute_gaps (us_cmf s) (us_rA s) (us_rB s) (us_rC s).
Definition ustate_error (Xs : list mat) (s : ustate) : xnum :=
  let n := root_sum_squared Xs in xdiv (rec_error Xs (us_cmf s) n (us_inter s)) n.
Definition ustate_loss (P : params) (Xs : list mat) (s : ustate) : res xnum :=
  let* pen := ureg_penalty (us_cmf s) (us_rA s) (us_rB s) (us_rC s) in
  match ustate_error Xs s with
  | Fin e => Ok (Fin (nhalf * (e * e) + l2_reg (us_cmf s) (p_l2A P) (p_l2B P) (p_l2C P) + pen))
  | x => Ok x
  end.
Definition uinit_hist (P : params) (Xs : list mat) (s : ustate) : res hist :=
  let e := ustate_error Xs s in
  let* l := ustate_loss P Xs s in
  let* g := ustate_gaps s in
  Ok (Hist [e] [g] [l]).
Fixpoint uloop (E : ext) (P : params) (Xs : list mat) (n it : nat) (s : ustate) (h : hist)
  : res (ustate * hist * nat * message) :=
  match n with
  | O => Ok (s, h, it, MaxIter)
  | S k =>
      let* s' := uouter_step E P Xs s in
      let tols := otruthy (p_tol P) || otruthy (p_abs_tol P) in
      if tols || p_return_errors P then
        let* g := ustate_gaps s' in
        let h1 := Hist (h_errors h) (h_gaps h ++ [g]) (h_losses h) in
        let feasible := match p_feas_tol P with
                        | Some t => ntruthy t && check_feasibility g t
                        | None => false
                        end in
        if tols && negb feasible && negb (p_return_errors P)
        then uloop E P Xs k (S it) s' h1
        else
          let* l := ustate_loss P Xs s' in
          let h2 := Hist (h_errors h ++ [ustate_error Xs s']) (h_gaps h1) (h_losses h ++ [l]) in
          match p_tol P with
          | Some tol =>
              if ntruthy tol then
                match p_abs_tol P with
                | None => Err TypeError
                | Some ab =>
                    if feasible && rel_crit tol (last_x (h_losses h)) l then Ok (s', h2, S it, RelLoss)
                    else if feasible && xlt l ab then Ok (s', h2, S it, AbsLoss)
                    else uloop E P Xs k (S it) s' h2
                end
              else uloop E P Xs k (S it) s' h2
          | None => uloop E P Xs k (S it) s' h2
          end
      else uloop E P Xs k (S it) s' h
  end.
Definition urun (E : ext) (P : params) (Xs : list mat) (n_iter_max : Z) (s : ustate)
  : res (ustate * option diagnostics) :=
  let* h0 := uinit_hist P Xs s in
  let* (s', h, it, msg) := uloop E P Xs (Z.to_nat n_iter_max) 0 s h0 in
  let stopped := match msg with MaxIter => false | _ => true end in
  let* feas :=
    match p_feas_tol P with
    | Some t =>
        if ntruthy t && p_return_errors P
        then let* g := ustate_gaps s' in Ok (Some (check_feasibility g t))
        else Ok None
    | None => Ok None
    end in
  let* c := revalidate (us_cmf s') in
  let s'' := USt c (us_rA s') (us_rB s') (us_rC s') (us_inter s') in
  if p_return_errors P then
    let stop := if negb stopped && negb (otruthy (p_tol P) || otruthy (p_abs_tol P))
                then None else Some stopped in
    Ok (s'', Some (Diag (h_errors h) (h_gaps h) (h_losses h) stop feas it msg))
  else Ok (s'', None).

(** ** The call, decomposition.py:18-89, 470-546 and 662-945 *)
(** The argument [regs] with instances of any classes; the structure is that of Parse.v *)
Inductive uelem := UPen (o : uobj) | UNotPen.
Inductive uent := UENotIter | UEList (l : list uelem) | UETuple (l : list uelem).
Inductive uregsarg := URNone | URNotIter | URList (l : list uent).
Definition uall_pens (l : list uelem) : bool := forallb (fun e => match e with UPen _ => true | UNotPen => false end) l.
Definition uent_ok (e : uent) : bool := match e with UENotIter => false | UEList l | UETuple l => uall_pens l end.
Definition upens (l : list uelem) : list uobj := flat_map (fun e => match e with UPen o => [o] | UNotPen => [] end) l.
(** 487-506 *)
Definition ucheck_regs (r : uregsarg) : res (list uent) :=
  match r with
  | URNone => Ok [UEList []; UEList []; UEList []]
  | URNotIter => Err TypeError
  | URList l => if forallb uent_ok l then Ok l else Err TypeError
  end.
(** 538 *)
Definition uadd_user (parsed : list uobj) (l : list uent) (mode : nat) : res (list uobj) :=
  match nth_error l mode with
  | None => Err IndexError
  | Some (UEList u) => Ok (parsed ++ upens u)
  | Some _ => Err TypeError
  end.
(** A built-in penalty as an object *)
Definition uobj_of (E : ext) (rnd : rand) (o : pobj) : uobj := UObj (builtin E rnd (o_pen o)) (o_aux o) (o_dual o).
(** [_parse_all_penalties], 470-546: the keywords build built-in penalties (549-614) *)
Definition uparse_all (V : env) (rnd : rand) (k : kwargs) (regs : uregsarg) (aux_init dual_init : initval)
  : res (three (list uobj)) :=
  let* user := ucheck_regs regs in
  let* (nn0, nn1, nn2) := listify (a_nn k) in
  let* (up0, up1, up2) := listify (a_upper k) in
  let* (lo0, lo1, lo2) := listify (a_lower k) in
  let* (nb0, nb1, nb2) := listify (a_norm k) in
  let* (un0, un1, un2) := listify (a_uni k) in
  let* (l10, l11, l12) := listify (a_l1 k) in
  let* (gl0, gl1, gl2) := listify (a_gl2 k) in
  let* (tv0, tv1, tv2) := listify (a_tv k) in
  let* p0 := parse_mode V (ModeKw nn0 lo0 up0 nb0 un0 false l10 tv0 gl0) aux_init dual_init in
  let* r0 := uadd_user (map (uobj_of (e_ext V) rnd) p0) user 0 in
  let* p1 := parse_mode V (ModeKw nn1 lo1 up1 nb1 un1 (a_pf2 k) l11 tv1 gl1) aux_init dual_init in
  let* r1 := uadd_user (map (uobj_of (e_ext V) rnd) p1) user 1 in
  let* p2 := parse_mode V (ModeKw nn2 lo2 up2 nb2 un2 false l12 tv2 gl2) aux_init dual_init in
  let* r2 := uadd_user (map (uobj_of (e_ext V) rnd) p2) user 2 in
  Ok (r0, r1, r2).
(** [initialize_aux] and [initialize_dual], 78-89 *)
Definition uinitialize {A} (f : uobj -> list mat -> pyint -> pyint -> nat -> res (A * nat))
  (Xs : list mat) (rank : pyint) (regs : three (list uobj)) (pos : nat)
  : res (list A * list A * list A * nat) :=
  let '(rA, rB, rC) := regs in
  let* (a, p) := mapS (fun o => f o Xs rank (PyInt 0)) rA pos in
  let* (b, p) := mapS (fun o => f o Xs rank (PyInt 1)) rB p in
  let* (c, p) := mapS (fun o => f o Xs rank (PyInt 2)) rC p in
  Ok (a, b, c, p).
Fixpoint umake (l : list uobj) (a : list uauxval) (d : list auxval) : res (list ureg) :=
  match l, a, d with
  | [], [], [] => Ok []
  | o :: l', WMat M :: a', VMat D :: d' => let* r := umake l' a' d' in Ok (UReg (w_cls o) M D :: r)
  | _, _, _ => Err NotModelled
  end.
Fixpoint umakes (l : list uobj) (a : list uauxval) (d : list auxval) : res (list uregs) :=
  match l, a, d with
  | [], [], [] => Ok []
  | o :: l', WMats M :: a', VMats (AList D) :: d' => let* r := umakes l' a' d' in Ok (URegs (w_cls o) M D :: r)
  | _, _, _ => Err NotModelled
  end.
(** 871-906.  With data, start and rank of differing shapes the call is not modelled here,
    except for the products of the first reconstruction error. *)
Definition usetup (V : env) (IE : initext) (rnd : rand) (regs : uregsarg) (a : fitargs) : res (ustate * three (option num)) :=
  let Xs := f_data a in
  if negb (f_svd a) then Err ValueError else
  let* (c, pos) := initialize_cmf (e_ext V) IE rnd Xs (f_rank a) (f_init a) 0 in
  let* l2 := listify (f_l2 a) in
  let* (rA, rB, rC) := uparse_all V rnd (f_kw a) regs (f_aux a) (f_dual a) in
  let rA := if f_updA a then rA else [] in
  let rB := if f_updB a then rB else [] in
  let rC := if f_updC a then rC else [] in
  let* (aA, aB, aC, pos) := uinitialize (uinit_aux rnd) Xs (f_rank a) (rA, rB, rC) pos in
  let* (dA, dB, dC, _) := uinitialize (uinit_dual rnd) Xs (f_rank a) (rA, rB, rC) pos in
  if negb (shapes_match Xs c (f_rank a) (negb (is_nil rA && is_nil rB && is_nil rC)))
  then Err (match first_products Xs (cBs c) (cC c) with Some e => e | None => NotModelled end) else
  let* gA := umake rA aA dA in
  let* gB := umakes rB aB dB in
  let* gC := umake rC aC dC in
  Ok (USt c gA gB gC None, l2).
(** [ADMMVars] and the returned tuple *)
Record uvars := UVars {
  uv_auxA : list uaux; uv_auxB : list uauxes; uv_auxC : list uaux;
  uv_dualA : list mat; uv_dualB : list (list mat); uv_dualC : list mat
}.
Record uoutput := UOutput { uo_cmf : cmf; uo_vars : option uvars; uo_diag : option diagnostics }.
Definition uvars_of (s : ustate) : uvars :=
  UVars (map ug_aux (us_rA s)) (map ub_aux (us_rB s)) (map ug_aux (us_rC s))
        (map ug_dual (us_rA s)) (map ub_dual (us_rB s)) (map ug_dual (us_rC s)).
(** [cmf_aoadmm] whose argument [regs] is [regs]; [f_regs] of the record is not used *)
Definition user_fit (V : env) (IE : initext) (rnd : rand) (regs : uregsarg) (a : fitargs) : res uoutput :=
  let* (s, l2) := usetup V IE rnd regs a in
  let* _ := uinit_hist (fit_params a l2 (false, false)) (f_data a) s in
  let* flags := const_flags (f_const a) in
  let* (s', d) := urun (e_ext V) (fit_params a l2 flags) (f_data a) (f_n_iter a) s in
  Ok (UOutput (us_cmf s') (if f_return_vars a then Some (uvars_of s') else None) d).

End Custom.
Arguments uaux {N} X.
Arguments uauxes {N} X.
Arguments uauxval {N} X.
Arguments cls {N} X.
Arguments uobj {N} X.
Arguments ureg {N} X.
Arguments uregs {N} X.
Arguments ustate {N} X.
Arguments uelem {N} X.
Arguments uent {N} X.
Arguments uregsarg {N} X.
Arguments uvars {N} X.
Arguments uoutput {N} X.
