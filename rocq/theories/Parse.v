(** Parsing of the regularisation arguments of [cmf_aoadmm],
    src/matcouply/decomposition.py:455-614. *)
From Coq Require Import List Arith Bool ZArith.
From Verif Require Import Num Numpy Penalties CoupledMatrices Decomp InitVars.
Import ListNotations.
Local Open Scope num_scope.

(** A regularisation argument: something with a [get] method (a dictionary, given by
    the values of the keys 0, 1 and 2), an iterable (list, tuple, array along its first
    axis), or anything else.  [None] inside is Python's None.  Strings, generators and
    dictionaries with non-integer keys equal to 0, 1, 2 are not modelled. *)
Inductive arg (A : Type) :=
| AOne (x : option A)
| ADict (d : nat -> option (option A))
| AIter (l : list (option A)).
Arguments AOne {A}.
Arguments ADict {A}.
Arguments AIter {A}.
(** one value for each mode *)
Definition three (A : Type) := (A * A * A)%type.

(** [_listify], decomposition.py:455-467 *)
Definition dict_get {A} (d : nat -> option (option A)) (i : nat) : option A :=
  match d i with Some v => v | None => None end.
Definition listify {A} (a : arg A) : res (three (option A)) :=
  match a with
  | ADict d => Ok (dict_get d 0, dict_get d 1, dict_get d 2)
  | AOne x => Ok (x, x, x)
  | AIter [x; y; z] => Ok (x, y, z)
  | AIter _ => Err ValueError
  end.

Section Parse.
Context {N : Num}.

(** [generalized_l2_penalty] of one mode: False, a matrix, or something that is not a
    matrix (e.g. one row of a 3 x 3 matrix that [_listify] took apart), for which the
    constructor raises one of several exceptions. *)
Inductive gl2 := GFalse | GMat (M : mat) | GNoMat.

(** The surroundings: external routines, eigenvalues, availability of condat_tv *)
Record env := Env { e_ext : ext; e_eigvals : mat -> list num; e_has_tv : bool }.

(** keyword regularisers of one mode; booleans stand for truthiness *)
Record modekw := ModeKw {
  k_nn : option bool; k_lower : option num; k_upper : option num; k_norm : option num;
  k_uni : option bool; k_pf2 : bool; k_l1 : option num; k_tv : option num; k_gl2 : option gl2
}.
Definition btruthy (b : option bool) : bool := match b with Some x => x | None => false end.

(** [_parse_mode_penalties], decomposition.py:549-614.  Every penalty is given
    [aux_init] and [dual_init]; a list of penalties is built in the order of the code,
    and the first constructor to raise ends it. *)
Definition parse_mode (V : env) (k : modekw) (aux_init dual_init : initval) : res (list pobj) :=
  let obj p := PObj p aux_init dual_init in
  let nn := btruthy (k_nn k) in
  let l1 := match k_l1 k with Some x => x | None => n0 end in                               (* 564-565 *)
  let pf2 := if k_pf2 k then [obj (Parafac2 1 true true)] else [] in                         (* 571-572 *)
  let uni := if btruthy (k_uni k) then [obj (Unimodality nn)] else [] in                     (* 574-576 *)
  let* gl := match k_gl2 k with                                                              (* 578-583 *)
             | None | Some GFalse => Ok []
             | Some (GMat M) => let* p := mk_GenL2 (e_ext V) (e_eigvals V) M true in Ok [obj p]
             | Some GNoMat => Err NotModelled
             end in
  let* ball := match k_norm k with                                                           (* 585-589 *)
               | Some b => if ntruthy b then let* p := mk_L2Ball b nn in Ok [obj p] else Ok []
               | None => Ok []
               end in
  let has_tv := otruthy (k_tv k) in
  let* tv := match k_tv k with                                                               (* 591-595 *)
             | Some t => if ntruthy t then let* p := mk_TV (e_has_tv V) t l1 in Ok [obj p] else Ok []
             | None => Ok []
             end in
  let l1 := if has_tv then n0 else l1 in
  let* lone := if ntruthy l1 then let* p := mk_L1 l1 nn in Ok [obj p] else Ok [] in          (* 597-601 *)
  let box := match k_lower k, k_upper k with                                                 (* 603-609 *)
             | None, None => []
             | lo, hi =>
                 let lo := if nn then Some (match lo with None => n0 | Some x => nmax x n0 end) else lo in
                 [obj (Box lo hi)]
             end in
  let skip := btruthy (k_uni k)
              || match k_norm k with Some b => ntruthy b | None => false end
              || ntruthy l1
              || match box with [] => false | _ => true end in
  let non := if nn && negb skip then [obj NonNegativity] else [] in                          (* 611-612 *)
  Ok (pf2 ++ uni ++ gl ++ ball ++ tv ++ lone ++ box ++ non).

(** The [regs] argument: None, not iterable, or an iterable of mode entries.  A mode
    entry is not iterable, a list, or another iterable (tuple), with elements that are
    penalties or not. *)
Inductive regelem := RPen (o : pobj) | RNotPen.
Inductive modeent := ENotIter | EList (l : list regelem) | ETuple (l : list regelem).
Inductive regsarg := RNone | RNotIter | RList (l : list modeent).

Definition all_pens (l : list regelem) : bool := forallb (fun e => match e with RPen _ => true | RNotPen => false end) l.
Definition ent_ok (e : modeent) : bool :=
  match e with ENotIter => false | EList l | ETuple l => all_pens l end.
Definition pens (l : list regelem) : list pobj :=
  flat_map (fun e => match e with RPen o => [o] | RNotPen => [] end) l.
(** lines 487-506: TypeError unless everything is an iterable of penalties *)
Definition check_regs (r : regsarg) : res (list modeent) :=
  match r with
  | RNone => Ok [EList []; EList []; EList []]
  | RNotIter => Err TypeError
  | RList l => if forallb ent_ok l then Ok l else Err TypeError
  end.
(** [parsed_regs + regs[mode]], line 538: IndexError without such a mode, TypeError for
    list + tuple *)
Definition add_user (parsed : list pobj) (l : list modeent) (mode : nat) : res (list pobj) :=
  match nth_error l mode with
  | None => Err IndexError
  | Some (EList u) => Ok (parsed ++ pens u)
  | Some _ => Err TypeError
  end.

(** keyword regularisers of [cmf_aoadmm]; [a_pf2] is the truthiness of [parafac2] *)
Record kwargs := KwArgs {
  a_nn : arg bool; a_lower : arg num; a_upper : arg num; a_norm : arg num;
  a_uni : arg bool; a_pf2 : bool; a_l1 : arg num; a_tv : arg num; a_gl2 : arg gl2
}.

(** [_parse_all_penalties], decomposition.py:470-546, without the printing *)
Definition parse_all (V : env) (k : kwargs) (regs : regsarg) (aux_init dual_init : initval)
  : res (three (list pobj)) :=
  let* user := check_regs regs in
  let* (nn0, nn1, nn2) := listify (a_nn k) in
  let* (up0, up1, up2) := listify (a_upper k) in
  let* (lo0, lo1, lo2) := listify (a_lower k) in
  let* (nb0, nb1, nb2) := listify (a_norm k) in
  let* (un0, un1, un2) := listify (a_uni k) in
  let* (l10, l11, l12) := listify (a_l1 k) in
  let* (gl0, gl1, gl2) := listify (a_gl2 k) in
  let* (tv0, tv1, tv2) := listify (a_tv k) in
  let* p0 := parse_mode V (ModeKw nn0 lo0 up0 nb0 un0 false l10 tv0 gl0) aux_init dual_init in
  let* r0 := add_user p0 user 0 in
  let* p1 := parse_mode V (ModeKw nn1 lo1 up1 nb1 un1 (a_pf2 k) l11 tv1 gl1) aux_init dual_init in
  let* r1 := add_user p1 user 1 in
  let* p2 := parse_mode V (ModeKw nn2 lo2 up2 nb2 un2 false l12 tv2 gl2) aux_init dual_init in
  let* r2 := add_user p2 user 2 in
  Ok (r0, r1, r2).

End Parse.
