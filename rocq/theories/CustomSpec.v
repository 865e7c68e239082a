(** What it means for two penalty objects to behave alike, and for a class to be complete.
    Only the methods of the objects are mentioned, nothing of the fitting code. *)
From Coq Require Import List Arith Bool ZArith.
From Verif Require Import Num Numpy Penalties CoupledMatrices InitVars Parse Fit Custom.
Import ListNotations.

(** Both raise the same exception, or both return values related by [Q]. *)
Definition both {A B} (Q : A -> B -> Prop) (x : res A) (y : res B) : Prop :=
  match x, y with
  | Ok a, Ok b => Q a b
  | Err e, Err f => e = f
  | _, _ => False
  end.
(** Three lists of the same length whose entries satisfy [P] position by position. *)
Inductive linked {K A B} (P : K -> A -> B -> Prop) : list K -> list A -> list B -> Prop :=
| linked_nil : linked P [] [] []
| linked_cons k a b ks xs ys : P k a b -> linked P ks xs ys -> linked P (k :: ks) (a :: xs) (b :: ys).

Section Alike.
Context {N : Num} {X Y : Type}.

(** The same factor matrices given to related auxiliary variables lead to related auxiliary
    variables; what is subtracted from them and the value of the penalty are the same. *)
Definition alike_matrix (R : uaux X -> uaux Y -> Prop) (c : cls X) (d : cls Y) : Prop :=
  (forall V rho a b, R a b -> both R (mat_method c V rho a) (mat_method d V rho b)) /\
  (forall a b M, R a b -> sub_method c a M = sub_method d b M) /\
  (forall M, pen_method c (inl M) = pen_method d (inl M)).
(** The same for penalties that are applied row by row to arrays. *)
Definition alike_rows (c : cls X) (d : cls Y) : Prop :=
  (forall row rho old, row_method c row rho old = row_method d row rho old) /\
  (forall A M, sub_method c (UMat A) M = sub_method d (UMat A) M) /\
  (forall M, pen_method c (inl M) = pen_method d (inl M)).
(** The same for a list of factor matrices. *)
Definition alike_matrices (Q : uauxes X -> uauxes Y -> Prop) (c : cls X) (d : cls Y) : Prop :=
  (forall Vs rhos a b, Q a b -> both Q (mats_method c Vs rhos a) (mats_method d Vs rhos b)) /\
  (forall a b Ms, Q a b -> subs_method c a Ms = subs_method d b Ms) /\
  (forall Ms, pen_method c (inr Ms) = pen_method d (inr Ms)).
(** The same array. *)
Definition same_array (a : uaux X) (b : uaux Y) : Prop := exists A, a = UMat A /\ b = UMat A.

(** Two objects and the relation between their auxiliary variables, in modes 0 and 2 and in
    mode 1. *)
Record link := Link {
  k_1 : uobj X; k_2 : uobj Y;
  k_R : uaux X -> uaux Y -> Prop;
  k_Q : uauxes X -> uauxes Y -> Prop
}.
Definition related_value (k : link) (v : uauxval X) (w : uauxval Y) : Prop :=
  match v, w with
  | WMat a, WMat b => k_R k a b
  | WMats a, WMats b => k_Q k a b
  | _, _ => False
  end.
(** Both objects start alike. *)
Definition alike_start (rnd : rand) (mode : Z) (k : link) : Prop :=
  (forall Xs rank pos, both (fun v w => related_value k (fst v) (fst w) /\ snd v = snd w)
     (uinit_aux rnd (k_1 k) Xs rank (PyInt mode) pos) (uinit_aux rnd (k_2 k) Xs rank (PyInt mode) pos)) /\
  (forall Xs rank pos, uinit_dual rnd (k_1 k) Xs rank (PyInt mode) pos = uinit_dual rnd (k_2 k) Xs rank (PyInt mode) pos).
(** Whether all rows of A are given the same feasibility penalty. *)
Definition constant_for_A (a : fitargs (N:=N)) : bool := match f_const a with CBool b => b | CA => true | _ => false end.
(** Alike as penalties of a mode: of A (row by row unless the feasibility penalty is
    constant), of the B_i, of C. *)
Definition alike (rnd : rand) (constant : bool) (mode : nat) (k : link) : Prop :=
  alike_start rnd (Z.of_nat mode) k /\
  match mode with
  | O => if constant then alike_matrix (k_R k) (w_cls (k_1 k)) (w_cls (k_2 k))
         else alike_rows (w_cls (k_1 k)) (w_cls (k_2 k)) /\ forall a b, k_R k a b <-> same_array a b
  | S O => alike_matrices (k_Q k) (w_cls (k_1 k)) (w_cls (k_2 k))
  | _ => alike_matrix (k_R k) (w_cls (k_1 k)) (w_cls (k_2 k))
  end.
(** Two outputs that differ at most in how the auxiliary variables are stored: the same
    factorization, the same diagnostics, the same dual variables, and auxiliary variables
    that are related, those of penalties requested by keywords being equal. *)
Definition equal_values (a : uauxes X) (b : uauxes Y) : Prop := exists v, a = lift_aux v /\ b = lift_aux v.
Definition same_output (upd : nat -> bool) (LA LB LC : list link) (o : uoutput X) (o' : uoutput Y) : Prop :=
  uo_cmf o = uo_cmf o' /\ uo_diag o = uo_diag o' /\
  match uo_vars o, uo_vars o' with
  | None, None => True
  | Some v, Some v' =>
      uv_dualA v = uv_dualA v' /\ uv_dualB v = uv_dualB v' /\ uv_dualC v = uv_dualC v' /\
      (exists p p' q q', uv_auxA v = p ++ q /\ uv_auxA v' = p' ++ q' /\ Forall2 same_array p p' /\ linked k_R (if upd 0%nat then LA else []) q q') /\
      (exists p p' q q', uv_auxB v = p ++ q /\ uv_auxB v' = p' ++ q' /\ Forall2 equal_values p p' /\ linked k_Q (if upd 1%nat then LB else []) q q') /\
      (exists p p' q q', uv_auxC v = p ++ q /\ uv_auxC v' = p' ++ q' /\ Forall2 same_array p p' /\ linked k_R (if upd 2%nat then LC else []) q q')
  | _, _ => False
  end.
End Alike.
Arguments link {N} X Y.

(** The argument [regs]: three lists of objects. *)
Definition objects {N : Num} {X} (rA rB rC : list (uobj (N:=N) X)) : uregsarg X :=
  URList [UEList (map UPen rA); UEList (map UPen rB); UEList (map UPen rC)].
(** Which modes the call updates. *)
Definition updated_modes {N : Num} (a : fitargs (N:=N)) (m : nat) : bool :=
  match m with O => f_updA a | S O => f_updB a | _ => f_updC a end.

(** [k] consecutive calls that lead from one auxiliary variable to another, each call given
    the result of the one before. *)
Inductive calls {A} (call : A -> A -> Prop) : nat -> A -> A -> Prop :=
| calls_none x : calls call 0 x x
| calls_more k x y z : calls call k x y -> call y z -> calls call (S k) x z.

Section Origin.
Context {N : Num} {X : Type}.
(** One call of the methods of an object of class [c]. *)
Definition matrix_call (c : cls (N:=N) X) (x y : uaux X) : Prop :=
  exists V rho, mat_method c V rho x = Ok y.
Definition matrices_call (c : cls X) (x y : uauxes X) : Prop :=
  exists Vs rhos, mats_method c Vs rhos x = Ok y.
(** One call of [factor_matrix_row_update] for every one of the [n] rows of an array. *)
Definition rows_call (n : nat) (c : cls X) (x y : uaux X) : Prop :=
  exists A B rows rhos, x = UMat A /\ y = UMat B /\ length (me B) = n /\
    forall i, (i < n)%nat -> row_method c (nth i rows []) (nth i rhos n0) (nth i (me A) []) = Ok (nth i (me B) []).
(** In mode 0: row by row, one row for every matrix, unless the feasibility penalty of A is
    constant. *)
Definition one_row_call (constant : bool) (n : nat) (c : cls X) : uaux X -> uaux X -> Prop :=
  if constant then matrix_call c else rows_call n c.
Definition first_mode_call (a : fitargs) : cls X -> uaux X -> uaux X -> Prop :=
  one_row_call (constant_for_A a) (length (f_data a)).
(** The auxiliary variable [x] that a fit returns for the object [o] in mode [m]: the
    object's own start, then [k] calls of its own method; [k] is at most the number of outer
    times inner iterations, and positive if both are. *)
Definition own_variable {A} (wrap : A -> uauxval X) (call : cls X -> A -> A -> Prop)
  (rnd : rand) (m : Z) (a : fitargs) (o : uobj X) (x : A) : Prop :=
  exists x0 pos pos' k,
    uinit_aux rnd o (f_data a) (f_rank a) (PyInt m) pos = Ok (wrap x0, pos') /\ calls (call (w_cls o)) k x0 x /\
    (k <= Z.to_nat (f_n_iter a) * Z.to_nat (f_inner a))%nat /\
    ((1 <= f_n_iter a)%Z -> (1 <= f_inner a)%Z -> (1 <= k)%nat).
End Origin.
