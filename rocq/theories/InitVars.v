(** Initialisation of the auxiliary and dual variables, src/matcouply/penalties.py:32-262 and
    1111-1222, and src/matcouply/decomposition.py:78-89. *)
From Coq Require Import List Arith Bool ZArith.
From Verif Require Import Num Numpy Penalties CoupledMatrices Decomp.
Import ListNotations.
Local Open Scope num_scope.

Section InitVars.
Context {N : Num}.

(** ** Random numbers
    A random state is an arbitrary stream for each distribution, read from a
    common position that every draw advances. *)
Inductive dist := Uniform | StdNormal.
Definition rand := dist -> nat -> num.
(** [random_state.uniform(size=(r, c))], [random_state.standard_normal(size=(r, c))] for
    a possibly negative c (ValueError) *)
Definition draw_mat (rnd : rand) (d : dist) (r : nat) (c : Z) (pos : nat) : res (mat * nat) :=
  if (c <? 0)%Z then Err ValueError
  else let c := Z.to_nat c in
       Ok (mbuild r c (fun i j => rnd d (pos + (i * c + j))%nat), (pos + r * c)%nat).
(** [tl.zeros((r, c))] and [tl.eye(r, c)] *)
Definition zeros (r : nat) (c : Z) : res mat :=
  if (c <? 0)%Z then Err ValueError else Ok (mzeros r (Z.to_nat c)).
Definition eye (r : nat) (c : Z) : res mat :=
  if (c <? 0)%Z then Err ValueError
  else Ok (mbuild r (Z.to_nat c) (fun i j => if (i =? j)%nat then n1 else n0)).
(** A list comprehension whose elements read from the random state. *)
Fixpoint mapS {A B} (f : A -> nat -> res (B * nat)) (l : list A) (pos : nat) : res (list B * nat) :=
  match l with
  | [] => Ok ([], pos)
  | x :: xs => let* (y, p) := f x pos in let* (ys, q) := mapS f xs p in Ok (y :: ys, q)
  end.

(** ** Arguments *)
(** the arguments [rank] and [mode]: an int or something else *)
Inductive pyint := PyInt (z : Z) | PyNotInt.
(** [aux_init] and [dual_init]: a string, a tensor, a list, a tuple, or anything
    else.  Inside a tuple a [PSeq] is a list. *)
Inductive initname := RandomUniform | RandomStandardNormal | Zeros | UnknownName.
Inductive initval :=
| IStr (s : initname)
| ITensor (shape : list nat) (data : list num)
| IList (l : list pyobj)
| ITuple (l : list pyobj)
| IOther.

(** [tl.shape(x)]: AttributeError unless a tensor *)
Definition py_shape (o : pyobj) : res (list nat) :=
  match o with PArr sh _ => Ok sh | _ => Err AttributeError end.
Definition shape_eqb (sh : list nat) (J : nat) (rank : Z) : bool :=
  match sh with [a; b] => (a =? J)%nat && (Z.of_nat b =? rank)%Z | _ => false end.
(** [any(tl.shape(aux) != shape for aux, shape in zip(init, shapes))], penalties.py:105-107 *)
Fixpoint any_mismatch (l : list pyobj) (Js : list nat) (rank : Z) : res bool :=
  match l, Js with
  | o :: l', J :: Js' =>
      let* sh := py_shape o in
      if negb (shape_eqb sh J rank) then Ok true else any_mismatch l' Js' rank
  | _, _ => Ok false
  end.

(** Auxiliary variables: a matrix (modes 0 and 2) or those of mode 1. *)
Inductive auxval := VMat (M : mat) | VMats (a : auxes).

(** [tl.shape(matrices[0])[1]] *)
Definition first_cols (Xs : list mat) : res nat :=
  match Xs with [] => Err IndexError | X :: _ => Ok (mc X) end.

(** The common code of [ADMMPenalty.init_aux] (penalties.py:36-147) and
    [init_dual] (149-262): the two differ only in the attribute they read.
    [mode] is compared with 0, 1 and 2 as an integer. *)
Definition init_common (rnd : rand) (init : initval) (Xs : list mat) (rank mode : pyint) (pos : nat)
  : res (auxval * nat) :=
  match rank with
  | PyNotInt => Err TypeError
  | PyInt rank =>
  match mode with
  | PyNotInt => Err TypeError
  | PyInt mode =>
  if negb ((mode =? 0) || (mode =? 1) || (mode =? 2))%Z then Err ValueError else
  match init with
  | IOther | ITuple _ => Err TypeError
  | ITensor sh data =>
      if (mode =? 1)%Z then Err TypeError else
      match sh with
      | [len; r] =>
          let I := length Xs in
          let* K := first_cols Xs in
          if negb (Z.of_nat r =? rank)%Z || ((mode =? 0)%Z && negb (len =? I)%nat) then Err ValueError
          else if negb (Z.of_nat r =? rank)%Z || ((mode =? 2)%Z && negb (len =? K)%nat) then Err ValueError
          else Ok (VMat (arr_mat (PArr sh data)), pos)
      | _ => Err ValueError
      end
  | IList l =>
      if negb (mode =? 1)%Z then Err TypeError else
      let* bad := any_mismatch l (map mr Xs) rank in
      if (bad : bool) then Err ValueError
      else if negb (length l =? length Xs)%nat then Err ValueError
      else Ok (VMats (AList (map arr_mat l)), pos)
  | IStr UnknownName => Err ValueError
  | IStr Zeros =>
      if (mode =? 0)%Z then let* M := zeros (length Xs) rank in Ok (VMat M, pos)
      else if (mode =? 1)%Z then let* l := mapM (fun X => zeros (mr X) rank) Xs in Ok (VMats (AList l), pos)
      else let* K := first_cols Xs in let* M := zeros K rank in Ok (VMat M, pos)
  | IStr name =>
      let d := match name with RandomUniform => Uniform | _ => StdNormal end in
      if (mode =? 0)%Z then let* (M, p) := draw_mat rnd d (length Xs) rank pos in Ok (VMat M, p)
      else if (mode =? 1)%Z then
        let* (l, p) := mapS (fun X => draw_mat rnd d (mr X) rank) Xs pos in Ok (VMats (AList l), p)
      else let* K := first_cols Xs in let* (M, p) := draw_mat rnd d K rank pos in Ok (VMat M, p)
  end
  end
  end.

(** [Parafac2.init_aux], penalties.py:1150-1222.  [given] says whether a random
    state is passed ([random_state.uniform] on None: AttributeError). *)
(** lines 1197-1212, one basis matrix *)
Definition check_basis (rank : nat) (X : mat) (o : pyobj) : res unit :=
  match o with
  | PArr [J; r] data =>
      if negb (mr X =? J)%nat || negb (r =? rank)%nat then Err ValueError
      else let P := arr_mat o in
           let cross_product := mmul (mtrans P) P in
           if msumsq (msub cross_product (meye rank)) <? nlit 1 100000000 then Ok tt else Err ValueError
  | PArr _ _ => Err ValueError
  | _ => Err TypeError
  end.
(** the loop over zip(matrices, basis_matrices) *)
Fixpoint check_bases (rank : nat) (Xs : list mat) (l : list pyobj) : res unit :=
  match Xs, l with
  | X :: Xs', o :: l' => let* _ := check_basis rank X o in check_bases rank Xs' l'
  | _, _ => Ok tt
  end.
Definition pf2_init_aux (rnd : rand) (given : bool) (init : initval) (Xs : list mat) (rank mode : pyint) (pos : nat)
  : res (auxval * nat) :=
  match init with
  | ITensor _ _ | IList _ | IOther => Err TypeError
  | IStr _ | ITuple _ =>
  match rank with
  | PyNotInt => Err TypeError
  | PyInt rank =>
  match mode with
  | PyNotInt => Err TypeError
  | PyInt mode =>
  if negb (mode =? 1)%Z then Err ValueError else
  match init with
  | ITuple l =>
      match l with
      | [b; c] =>
          match b, c with
          | PSeq basis, PArr sh data =>
              match sh with
              | [r; s] =>
                  if negb (r =? s)%nat || negb (Z.of_nat r =? rank)%Z then Err ValueError
                  else let* _ := check_bases r Xs basis in
                       if negb (length basis =? length Xs)%nat then Err ValueError
                       else Ok (VMats (APf2 (map arr_mat basis) (arr_mat c)), pos)
              | _ => Err ValueError
              end
          | _, _ => Err TypeError
          end
      | _ => Err ValueError
      end
  | IStr UnknownName => Err ValueError
  | IStr Zeros =>
      let* c := zeros (Z.to_nat rank) rank in
      let* l := mapM (fun X => eye (mr X) rank) Xs in Ok (VMats (APf2 l c), pos)
  | IStr name =>
      let d := match name with RandomUniform => Uniform | _ => StdNormal end in
      if negb given then Err AttributeError
      else let* (c, p) := draw_mat rnd d (Z.to_nat rank) rank pos in
           let* l := mapM (fun X => eye (mr X) rank) Xs in Ok (VMats (APf2 l c), p)
  | _ => Err TypeError
  end
  end
  end
  end.

(** A penalty object with its [aux_init] and [dual_init] attributes *)
Record pobj := PObj { o_pen : penalty; o_aux : initval; o_dual : initval }.

(** the class decides which method is called *)
Definition init_aux (rnd : rand) (given : bool) (o : pobj) :=
  match o_pen o with
  | Parafac2 _ _ _ => pf2_init_aux rnd given (o_aux o)
  | _ => init_common rnd (o_aux o)
  end.
(** [Parafac2] inherits [init_dual] *)
Definition init_dual (rnd : rand) (o : pobj) := init_common rnd (o_dual o).

(** [initialize_aux] and [initialize_dual], decomposition.py:78-89: mode 0, then 1, then 2 *)
Definition initialize (f : pobj -> list mat -> pyint -> pyint -> nat -> res (auxval * nat))
  (Xs : list mat) (rank : pyint) (regs : list pobj * list pobj * list pobj) (pos : nat)
  : res (list auxval * list auxval * list auxval * nat) :=
  let '(rA, rB, rC) := regs in
  let* (a, p) := mapS (fun o => f o Xs rank (PyInt 0)) rA pos in
  let* (b, p) := mapS (fun o => f o Xs rank (PyInt 1)) rB p in
  let* (c, p) := mapS (fun o => f o Xs rank (PyInt 2)) rC p in
  Ok (a, b, c, p).
Definition initialize_aux (rnd : rand) := initialize (init_aux rnd true).
Definition initialize_dual (rnd : rand) := initialize (init_dual rnd).

End InitVars.
