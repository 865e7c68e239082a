(** The front ends [cmf_aoadmm] and [parafac2_aoadmm], src/matcouply/decomposition.py:18-75, 662-945,
    1061-1100 and 1103-1179, and the padding helpers of src/matcouply/_utils.py:29-54. *)
From Coq Require Import List Arith Bool ZArith.
From Verif Require Import Num Numpy Penalties CoupledMatrices Decomp InitVars Parse.
Import ListNotations.
Local Open Scope num_scope.

Section Fit.
Context {N : Num}.

(** ** Padding, _utils.py:29-54 *)
(** [get_shapes] *)
Definition get_shapes (Xs : list mat) : list (nat * nat) := map (fun X => (mr X, mc X)) Xs.
(** [get_padded_tensor_shape]: IndexError without matrices, ValueError for differing
    numbers of columns *)
Definition get_padded_tensor_shape (Xs : list mat) : res (nat * nat * nat) :=
  let* K := first_cols Xs in
  if forallb (fun X => (mc X =? K)%nat) Xs then Ok (length Xs, fold_left Nat.max (map mr Xs) 0%nat, K)
  else Err ValueError.
(** [create_padded_tensor] *)
Definition create_padded_tensor (Xs : list mat) : res ten :=
  let* (nI, J, K) := get_padded_tensor_shape Xs in
  Ok (fill (tzeros nI J K) 0 (combine Xs (map mr Xs))).

(** ** [initialize_cmf], decomposition.py:18-75 *)
(** The argument [init]: a tuple, list or CoupledMatrixFactorization (as the
    sequence it unpacks to), or the name of a method; anything else takes the path of an
    unknown name. *)
Inductive method := MRandom | MSvd | MThresholdSvd | MParafac2 | MParafac | MHals | MUnknown.
Inductive initarg := InitSeq (l : list pyobj) | InitName (m : method).
(** tensorly's decompositions, called with [init_params]: arbitrary functions of data,
    rank and position in the random stream *)
Record initext := InitExt {
  i_parafac2 : list mat -> pyint -> nat -> res (pf2t * nat);
  i_parafac : ten -> pyint -> nat -> res (cpt * nat);
  i_hals : ten -> pyint -> nat -> res (cpt * nat)
}.
(** [weights * A], line 25.  Only a vector times a matrix is modelled, and numpy's
    broadcasting of arrays of length one is not. *)
Definition times_weights (w A : pyobj) : res pyobj :=
  match w, A with
  | PArr [n] d, PArr [r; c] e =>
      if (n =? c)%nat then Ok (py_of_mat (mcolscale (arr_mat A) d))
      else if (n =? 1)%nat || (c =? 1)%nat then Err NotModelled
      else Err ValueError
  | _, _ => Err NotModelled
  end.
(** [tl.ones((I, rank))]; a rank that is not an int is a TypeError, a negative one a ValueError *)
Definition as_rank (rank : pyint) : res nat :=
  match rank with
  | PyNotInt => Err TypeError
  | PyInt r => if (r <? 0)%Z then Err ValueError else Ok (Z.to_nat r)
  end.
Definition initialize_cmf (E : ext) (IE : initext) (rnd : rand) (Xs : list mat) (rank : pyint) (init : initarg) (pos : nat)
  : res (cmf * nat) :=
  match init with
  | InitSeq l =>                                                                             (* 22-28 *)
      let* (w, fs) := unpack2 (PSeq l) in
      let* (A, B_is, C) := unpack3 fs in
      match w with
      | PNone => let* (_, _, c) := cmf_init (PSeq l) in Ok (c, pos)
      | _ => let* A' := times_weights w A in
             let* (_, _, c) := cmf_init (PSeq [PNone; PSeq [A'; B_is; C]]) in Ok (c, pos)
      end
  | InitName MRandom =>                                                                      (* 31-39 *)
      let* K := first_cols Xs in
      let* r := as_rank rank in
      let* (A, p) := draw_mat rnd Uniform (length Xs) (Z.of_nat r) pos in
      let* (C, p) := draw_mat rnd Uniform K (Z.of_nat r) p in
      let* (Bs, p) := mapS (fun X => draw_mat rnd Uniform (mr X) (Z.of_nat r)) Xs p in
      let* c := revalidate (Cmf None A Bs C) in Ok (c, p)
  | InitName MSvd | InitName MThresholdSvd =>                                                (* 42-53 *)
      let* r := as_rank rank in
      let A := mones (length Xs) r in
      let Bs := map (fun X => let '(U, _, _) := x_svd E X r in U) Xs in
      let* K := match Xs with [] => Err ValueError | X :: _ => Ok (mc X) end in
      if negb (forallb (fun X => (mc X =? K)%nat) Xs) then Err ValueError else
      let C := let '(_, _, Vh) := x_svd E (mconcat Xs) r in mtrans Vh in
      let c := match init with
               | InitName MSvd => Cmf None A Bs C
               | _ => Cmf None A (map (mmap relu) Bs) (mmap relu C)
               end in
      let* c := revalidate c in Ok (c, pos)
  | InitName MParafac2 =>                                                                    (* 61-63 *)
      let* (t, p) := i_parafac2 IE Xs rank pos in
      let* c := from_Parafac2Tensor t in Ok (c, p)
  | InitName m =>                                                                            (* 66-75 *)
      let* T := create_padded_tensor Xs in
      match m with
      | MParafac => let* (t, p) := i_parafac IE T rank pos in
                    let* c := from_CPTensor t (Some (get_shapes Xs)) in Ok (c, p)
      | MHals => let* (t, p) := i_hals IE T rank pos in
                 let* c := from_CPTensor t (Some (get_shapes Xs)) in Ok (c, p)
      | _ => Err ValueError
      end
  end.

(** ** [cmf_aoadmm], decomposition.py:662-1100 *)
(** [constant_feasibility_penalty]: a truth value, "A", "B", or another string *)
Inductive constarg := CBool (b : bool) | CA | CB | COther.
(** Arguments.  [f_svd] says whether [svd] names a routine that exists; [random_state]
    is the stream [rnd]; [verbose] is not modelled. *)
Record fitargs := FitArgs {
  f_data : list mat; f_rank : pyint; f_init : initarg; f_n_iter : Z;
  f_l2 : arg num; f_kw : kwargs; f_regs : regsarg;
  f_scale : num; f_const : constarg; f_aux : initval; f_dual : initval; f_svd : bool;
  f_tol : option num; f_abs_tol : option num; f_feas_tol : option num;
  f_inner_tol : option num; f_inner : Z;
  f_updA : bool; f_updB : bool; f_updC : bool; f_return_vars : bool; f_return_errors : bool
}.
(** [ADMMVars], lines 643-645: auxiliary and dual variables of the three modes *)
Record admmvars := AdmmVars {
  v_auxA : list mat; v_auxB : list auxes; v_auxC : list mat;
  v_dualA : list mat; v_dualB : list (list mat); v_dualC : list mat
}.
(** The returned tuple *)
Record output := Output { out_cmf : cmf; out_vars : option admmvars; out_diag : option diagnostics }.

(** lines 933-942 *)
Definition const_flags (c : constarg) : res (bool * bool) :=
  match c with
  | COther => Err ValueError
  | CBool b => Ok (b, b)
  | CA => Ok (true, false)
  | CB => Ok (false, true)
  end.
Definition l2_value (x : option num) : num := match x with Some v => v | None => n0 end.
(** A penalty with its variables *)
Fixpoint make_mregs (l : list pobj) (a d : list auxval) : res (list mreg) :=
  match l, a, d with
  | [], [], [] => Ok []
  | o :: l', VMat M :: a', VMat D :: d' => let* r := make_mregs l' a' d' in Ok (MReg (o_pen o) M D :: r)
  | _, _, _ => Err NotModelled
  end.
Fixpoint make_bregs (l : list pobj) (a d : list auxval) : res (list breg) :=
  match l, a, d with
  | [], [], [] => Ok []
  | o :: l', VMats M :: a', VMats (AList D) :: d' => let* r := make_bregs l' a' d' in Ok (BReg (o_pen o) M D :: r)
  | _, _, _ => Err NotModelled
  end.
(** Data, factors and variables of matching shapes: otherwise the first diagnostics
    (lines 910-923) raise, see [mismatch]. *)
Definition shapes_match (Xs : list mat) (c : cmf) (rank : pyint) (penalised : bool) : bool :=
  (length Xs =? length (cBs c))%nat &&
  forallb (fun XB => (mr (fst XB) =? mr (snd XB))%nat && (mc (fst XB) =? mr (cC c))%nat) (combine Xs (cBs c)) &&
  (negb penalised || match rank with PyInt r => (Z.of_nat (mc (cA c)) =? r)%Z | PyNotInt => false end).
Definition is_nil {A} (l : list A) : bool := match l with [] => true | _ => false end.
(** The products of the initial reconstruction error, lines 434-446: [matrices[i]] for every
    B_i, then the products of B_i^T, X_i and C in either order *)
Fixpoint first_products (Xs Bs : list mat) (C : mat) : option exn :=
  match Bs, Xs with
  | [], _ => None
  | _ :: _, [] => Some IndexError
  | B :: Bs', X :: Xs' =>
      if (mr X =? mr B)%nat && (mc X =? mr C)%nat then first_products Xs' Bs' C else Some ValueError
  end.
(** the penalties of the start, lines 915-919 *)
Definition start_penalty (c : cmf) (rA rB rC : list pobj) : res unit :=
  let* _ := mapM (fun o => penalty_mat (o_pen o) (cA c)) rA in
  let* _ := mapM (fun o => penalty_list (o_pen o) (cBs c)) rB in
  let* _ := mapM (fun o => penalty_mat (o_pen o) (cC c)) rC in
  Ok tt.
(** The exception raised by the first diagnostics when shapes do not match.  With fewer
    factor matrices than data matrices nothing may raise (ShortStart.v).  A start of another
    rank than [rank] makes the gaps (line 923) subtract arrays with different numbers of
    columns; numpy broadcasts if one of them is 1. *)
Definition mismatch (Xs : list mat) (c : cmf) (rank : pyint) (rA rB rC : list pobj) : exn :=
  match first_products Xs (cBs c) (cC c) with
  | Some e => e
  | None =>
      if (length (cBs c) <? length Xs)%nat || (length Xs =? 0)%nat then NotModelled
      else match rank with
           | PyNotInt => NotModelled
           | PyInt r => if (r =? 1)%Z || (mc (cA c) =? 1)%nat then NotModelled
                        else match start_penalty c rA rB rC with Err e => e | Ok _ => ValueError end
           end
  end.
Definition fit_params (a : fitargs) (l2 : three (option num)) (flags : bool * bool) : params :=
  let '(l2A, l2B, l2C) := l2 in
  Params (l2_value l2A) (l2_value l2B) (l2_value l2C) (f_scale a) (fst flags) (snd flags)
         (Z.to_nat (f_inner a)) (f_inner_tol a) (f_updA a) (f_updB a) (f_updC a)
         (f_tol a) (f_abs_tol a) (f_feas_tol a) (f_return_errors a).
(** lines 871-906: everything before the first diagnostics.  The penalties of modes that
    are not updated are dropped (lines 894-899). *)
Definition setup (V : env) (IE : initext) (rnd : rand) (a : fitargs) : res (state * three (option num)) :=
  let Xs := f_data a in
  if negb (f_svd a) then Err ValueError else
  let* (c, pos) := initialize_cmf (e_ext V) IE rnd Xs (f_rank a) (f_init a) 0 in
  let* l2 := listify (f_l2 a) in
  let* (rA, rB, rC) := parse_all V (f_kw a) (f_regs a) (f_aux a) (f_dual a) in
  let rA := if f_updA a then rA else [] in
  let rB := if f_updB a then rB else [] in
  let rC := if f_updC a then rC else [] in
  let* (aA, aB, aC, pos) := initialize_aux rnd Xs (f_rank a) (rA, rB, rC) pos in
  let* (dA, dB, dC, _) := initialize_dual rnd Xs (f_rank a) (rA, rB, rC) pos in
  if negb (shapes_match Xs c (f_rank a) (negb (is_nil rA && is_nil rB && is_nil rC)))
  then Err (mismatch Xs c (f_rank a) rA rB rC) else
  let* gA := make_mregs rA aA dA in
  let* gB := make_bregs rB aB dB in
  let* gC := make_mregs rC aC dC in
  Ok (St c gA gB gC None, l2).
Definition vars_of (s : state) : admmvars :=
  AdmmVars (map g_aux (st_rA s)) (map b_aux (st_rB s)) (map g_aux (st_rC s))
           (map g_dual (st_rA s)) (map b_dual (st_rB s)) (map g_dual (st_rC s)).
(** The check of [constant_feasibility_penalty] comes after the initial diagnostics. *)
Definition cmf_aoadmm (V : env) (IE : initext) (rnd : rand) (a : fitargs) : res output :=
  let* (s, l2) := setup V IE rnd a in
  let* _ := init_hist (fit_params a l2 (false, false)) (f_data a) s in
  let* flags := const_flags (f_const a) in
  let* (s', d) := run (e_ext V) (fit_params a l2 flags) (f_data a) (f_n_iter a) s in
  Ok (Output (st_cmf s') (if f_return_vars a then Some (vars_of s') else None) d).

(** ** [parafac2_aoadmm], decomposition.py:1103-1179
    Its own arguments are all of those of [cmf_aoadmm] except [parafac2], which it sets;
    the defaults are in the two records below. *)
Definition with_pf2 (b : bool) (k : kwargs) : kwargs :=
  KwArgs (a_nn k) (a_lower k) (a_upper k) (a_norm k) (a_uni k) b (a_l1 k) (a_tv k) (a_gl2 k).
Definition with_parafac2 (a : fitargs) : fitargs :=
  FitArgs (f_data a) (f_rank a) (f_init a) (f_n_iter a) (f_l2 a) (with_pf2 true (f_kw a)) (f_regs a)
    (f_scale a) (f_const a) (f_aux a) (f_dual a) (f_svd a) (f_tol a) (f_abs_tol a) (f_feas_tol a)
    (f_inner_tol a) (f_inner a) (f_updA a) (f_updB a) (f_updC a) (f_return_vars a) (f_return_errors a).
Definition parafac2_aoadmm (V : env) (IE : initext) (rnd : rand) (a : fitargs) : res output :=
  cmf_aoadmm V IE rnd (with_parafac2 a).

(** Default arguments, lines 662-696 and 1103-1136 *)
Definition no_kw : kwargs :=
  KwArgs (AOne None) (AOne None) (AOne None) (AOne None) (AOne None) false (AOne None) (AOne None) (AOne None).
Definition default_args (l2 : arg num) (Xs : list mat) (rank : pyint) : fitargs :=
  FitArgs Xs rank (InitName MRandom) 1000 l2 no_kw RNone n1 (CBool false) (IStr RandomUniform) (IStr RandomUniform) true
    (Some (nlit 1 100000000)) (Some (nlit 1 10000000000)) (Some (nlit 1 10000)) None 5 true true true false false.
Definition cmf_defaults := default_args (AOne None).
Definition parafac2_defaults := default_args (AOne (Some n0)).

End Fit.
