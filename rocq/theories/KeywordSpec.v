(** The penalty objects that the keywords of [cmf_aoadmm] stand for, as documented
    (decomposition.py:697-790).  Nothing of the parsing code. *)
From Coq Require Import List Arith Bool ZArith.
From Verif Require Import Num Numpy Penalties CoupledMatrices Decomp InitVars Parse ParseSpec Fit.
Import ListNotations.

Section Keywords.
Context {N : Num}.
(** A flag is on; a number is given and not zero; its value. *)
Definition on (b : option bool) : bool := match b with Some x => x | None => false end.
Definition given (x : option num) : bool := match x with Some v => ntruthy v | None => false end.
Definition amount (x : option num) : num := match x with Some v => v | None => n0 end.
(** [l] is the object that the constructor returns, or nothing if it is not asked for. *)
Definition made (asked : bool) (call : res penalty) (l : list penalty) : Prop :=
  if asked then exists p, call = Ok p /\ l = [p] else l = [].

(** The l1 penalty is left to the total variation penalty when there is one. *)
Definition l1_amount (k : modekw) : num := if given (k_tv k) then n0 else amount (k_l1 k).
Definition own_l1 (k : modekw) : bool := ntruthy (l1_amount k).
(** Bounds, the lower one raised to zero with non-negativity. *)
Definition bounds_object (k : modekw) : list penalty :=
  match k_lower k, k_upper k with
  | None, None => []
  | lo, hi => [Box (if on (k_nn k) then Some (match lo with None => n0 | Some x => nmax x n0 end) else lo) hi]
  end.
(** Non-negativity is an object of its own unless another penalty takes care of it. *)
Definition sign_object (k : modekw) : list penalty :=
  if on (k_nn k) && negb (on (k_uni k) || given (k_norm k) || own_l1 k || match bounds_object k with [] => false | _ => true end) then [NonNegativity] else [].
(** The objects for the keywords of a mode, with the common starting values [ai] and [di]. *)
Definition stands_for (V : env) (k : modekw) (ai di : initval) (l : list pobj) : Prop :=
  exists quadratic ball variation one,
    match k_gl2 k with
    | Some (GMat M) => made true (mk_GenL2 (e_ext V) (e_eigvals V) M true) quadratic
    | Some GNoMat => False
    | _ => quadratic = []
    end /\
    made (given (k_norm k)) (mk_L2Ball (amount (k_norm k)) (on (k_nn k))) ball /\
    made (given (k_tv k)) (mk_TV (e_has_tv V) (amount (k_tv k)) (amount (k_l1 k))) variation /\
    made (own_l1 k) (mk_L1 (l1_amount k) (on (k_nn k))) one /\
    l = map (fun p => PObj p ai di)
          ((if k_pf2 k then [Parafac2 1 true true] else []) ++ (if on (k_uni k) then [Unimodality (on (k_nn k))] else []) ++
           quadratic ++ ball ++ variation ++ one ++ bounds_object k ++ sign_object k).

(** [regs] is None or a list of three lists of penalty objects. *)
Definition regs_give (regs : regsarg) (u : nat -> list pobj) : Prop :=
  match regs with
  | RNone => forall m, u m = []
  | RNotIter => False
  | RList es => es = [EList (map RPen (u 0%nat)); EList (map RPen (u 1%nat)); EList (map RPen (u 2%nat))]
  end.
(** The same call with other ridge weights, keywords and objects, and with no keywords but objects. *)
Definition with_requests (l2 : arg num) (k : kwargs) (r : regsarg) (a : fitargs) : fitargs :=
  FitArgs (f_data a) (f_rank a) (f_init a) (f_n_iter a) l2 k r (f_scale a) (f_const a) (f_aux a) (f_dual a) (f_svd a) (f_tol a) (f_abs_tol a)
    (f_feas_tol a) (f_inner_tol a) (f_inner a) (f_updA a) (f_updB a) (f_updC a) (f_return_vars a) (f_return_errors a).
Definition no_keywords : kwargs := KwArgs (AOne None) (AOne None) (AOne None) (AOne None) (AOne None) false (AOne None) (AOne None) (AOne None).
Definition with_objects (l : nat -> list pobj) (a : fitargs) : fitargs :=
  with_requests (f_l2 a) no_keywords (RList [EList (map RPen (l 0%nat)); EList (map RPen (l 1%nat)); EList (map RPen (l 2%nat))]) a.

(** [k] asks for non-negativity by the keyword of that name, [k'] by the lower bound zero; everything else agrees, and nothing else makes use of
    non-negativity. *)
Definition sign_as_bound (k k' : modekw) : Prop :=
  k_nn k = Some true /\ k_lower k = None /\ on (k_uni k) = false /\ given (k_norm k) = false /\ own_l1 k = false /\
  k' = ModeKw None (Some n0) (k_upper k) (k_norm k) (k_uni k) (k_pf2 k) (k_l1 k) (k_tv k) (k_gl2 k).
(** Objects of the same class with the same settings, or one a non-negativity constraint and the other a lower bound of zero. *)
Definition same_request (o o' : pobj) : Prop :=
  o_aux o' = o_aux o /\ o_dual o' = o_dual o /\
  (o_pen o' = o_pen o \/ (o_pen o = NonNegativity /\ o_pen o' = Box (Some n0) None) \/ (o_pen o = Box (Some n0) None /\ o_pen o' = NonNegativity)).
End Keywords.
