(** Model of src/matcouply/coupled_matrices.py. *)
From Coq Require Import List Arith Bool ZArith.
From Verif Require Import Num Numpy.
Import ListNotations.
Local Open Scope num_scope.

Section CoupledMatrices.
Context {N : Num}.

(** ** Python values handed to the constructor
    Tensors (numpy arrays) are a shape and the entries in row-major order.
    [PSeq] is a list or tuple; a CoupledMatrixFactorization unpacks like the pair
    (weights, factors) (coupled_matrices.py:186-191).  [POther] is any object
    that is neither a tensor nor iterable (numbers, booleans, numpy scalars).
    Not modelled: generators, strings and dictionaries. *)
Inductive pyobj :=
| PNone
| POther
| PArr (shape : list nat) (data : list num)
| PSeq (l : list pyobj).

Definition size_of (shape : list nat) : nat := fold_right Nat.mul 1%nat shape.
(** entries of sub-array [i], each of [n] entries *)
Definition chunk (n : nat) (data : list num) (i : nat) : list num := firstn n (skipn (i * n) data).

(** [iter(x)] *)
Definition py_iter (o : pyobj) : res (list pyobj) :=
  match o with
  | PSeq l => Ok l
  | PArr (n :: nil) _ => Ok (repeat POther n)
  | PArr (n :: rest) data => Ok (map (fun i => PArr rest (chunk (size_of rest) data i)) (seq 0 n))
  | _ => Err TypeError
  end.
(** [len(x)] *)
Definition py_len (o : pyobj) : res nat :=
  match o with
  | PSeq l => Ok (length l)
  | PArr (n :: _) _ => Ok n
  | _ => Err TypeError
  end.
(** [a, b = x] and [a, b, c = x] *)
Definition unpack2 (o : pyobj) : res (pyobj * pyobj) :=
  let* l := py_iter o in
  match l with [a; b] => Ok (a, b) | _ => Err ValueError end.
Definition unpack3 (o : pyobj) : res (pyobj * pyobj * pyobj) :=
  let* l := py_iter o in
  match l with [a; b; c] => Ok (a, b, c) | _ => Err ValueError end.

(** shape check of a factor matrix: TypeError unless a tensor, ValueError unless
    two-dimensional; coupled_matrices.py:305-312, 313-320 and 330-341 *)
Definition matrix_shape (o : pyobj) : res (nat * nat) :=
  match o with
  | PArr [r; c] _ => Ok (r, c)
  | PArr _ _ => Err ValueError
  | _ => Err TypeError
  end.
(** lines 299-304 *)
Definition weights_shape (o : pyobj) : res (option nat) :=
  match o with
  | PNone => Ok None
  | PArr [n] _ => Ok (Some n)
  | PArr _ _ => Err ValueError
  | _ => Err TypeError
  end.
(** the loop over the B_i, lines 328-347 *)
Fixpoint validate_Bs (rank K : nat) (Bs : list pyobj) : res (list (nat * nat)) :=
  match Bs with
  | [] => Ok []
  | B :: Bs' =>
      let* (J, c) := matrix_shape B in
      if negb (c =? rank)%nat then Err ValueError
      else let* rest := validate_Bs rank K Bs' in Ok ((J, K) :: rest)
  end.

(** [_validate_cmf], coupled_matrices.py:298-362.  [weights, (A, B_is, C) = cmf]
    unpacks first the pair, then the factors. *)
Definition validate_cmf (cmf : pyobj) : res (list (nat * nat) * nat) :=
  let* (weights, factors) := unpack2 cmf in
  let* (A, B_is, C) := unpack3 factors in
  let* w := weights_shape weights in
  let* (nI, rank) := matrix_shape A in
  let* (K, rC) := matrix_shape C in
  if negb (rC =? rank)%nat then Err ValueError else
  let* Bs := py_iter B_is in
  let* shape := validate_Bs rank K Bs in
  if match w with Some n => negb (n =? rank)%nat | None => false end then Err ValueError else
  let* nB := py_len B_is in
  if negb (nI =? nB)%nat then Err ValueError else
  Ok (shape, rank).

(** ** Validated factorizations
    The typed view of a [CoupledMatrixFactorization] (or of a plain tuple that
    went through validation): weights, A, B_is, C. *)
Record cmf := Cmf { cw : option (list num); cA : mat; cBs : list mat; cC : mat }.

(** an array as a vector / matrix and back *)
Definition arr_vec (o : pyobj) : list num := match o with PArr _ d => d | _ => [] end.
Definition arr_mat (o : pyobj) : mat :=
  match o with
  | PArr [r; c] d => mbuild r c (fun i j => vget d (i * c + j))
  | _ => Mat 0 0 []
  end.
Definition py_of_vec (v : list num) : pyobj := PArr [length v] v.
Definition py_of_mat (M : mat) : pyobj := PArr [mr M; mc M] (concat (me M)).
Definition py_of_cmf (c : cmf) : pyobj :=
  PSeq [match cw c with None => PNone | Some w => py_of_vec w end;
        PSeq [py_of_mat (cA c); PSeq (map py_of_mat (cBs c)); py_of_mat (cC c)]].

(** [CoupledMatrixFactorization.__init__], coupled_matrices.py:92-99: validation,
    then the parts are stored ([shape], [rank] and the factors). *)
Definition cmf_init (o : pyobj) : res (list (nat * nat) * nat * cmf) :=
  let* (shape, rank) := validate_cmf o in
  let* (weights, factors) := unpack2 o in
  let* (A, B_is, C) := unpack3 factors in
  let* Bs := py_iter B_is in
  Ok (shape, rank,
      Cmf (match weights with PNone => None | w => Some (arr_vec w) end)
          (arr_mat A) (map arr_mat Bs) (arr_mat C)).
(** construction from a typed factorization *)
Definition revalidate (c : cmf) : res cmf :=
  let* (_, _, c') := cmf_init (py_of_cmf c) in Ok c'.

(** ** Conversion to dense arrays *)
(** Python indexing of a sequence of length n: negative indices count from the
    end, IndexError outside. *)
Definition py_index (n : nat) (i : Z) : res nat :=
  if ((0 <=? i) && (i <? Z.of_nat n))%Z then Ok (Z.to_nat i)
  else if ((- Z.of_nat n <=? i) && (i <? 0))%Z then Ok (Z.to_nat (i + Z.of_nat n))
  else Err IndexError.

(** [B_i * a] with a vector: numpy raises ValueError when the lengths differ
    (the broadcasting of arrays of length one is not modelled). *)
Definition mul_cols (M : mat) (v : list num) : res mat :=
  if (mc M =? length v)%nat then Ok (mcolscale M v) else Err ValueError.
Definition mul_vec (u v : list num) : res (list num) :=
  if (length u =? length v)%nat then Ok (vmul u v) else Err ValueError.

(** [cmf_to_matrix] (and its alias [cmf_to_slice]), coupled_matrices.py:419-428, 438 *)
Definition cmf_to_matrix (c : cmf) (matrix_idx : Z) (validate : bool) : res mat :=
  let* c := if validate then revalidate c else Ok c in
  let* i := py_index (mr (cA c)) matrix_idx in
  let a := mrow (cA c) i in
  let* a := match cw c with Some w => mul_vec a w | None => Ok a end in
  let Ct := mtrans (cC c) in
  let* ib := py_index (length (cBs c)) matrix_idx in
  let* Ba := mul_cols (nth ib (cBs c) (Mat 0 0 [])) a in
  if (mc Ba =? mr Ct)%nat then Ok (mmul Ba Ct) else Err ValueError.

(** [cmf_to_matrices] (and [cmf_to_slices]), coupled_matrices.py:494-504, 514 *)
Definition cmf_to_matrices (c : cmf) (validate : bool) : res (list mat) :=
  let* c := if validate then revalidate c else Ok c in
  let* A := match cw c with Some w => mul_cols (cA c) w | None => Ok (cA c) end in
  let decomposition := Cmf None A (cBs c) (cC c) in
  mapM (fun i => cmf_to_matrix decomposition (Z.of_nat i) false) (seq 0 (mr A)).

(** Third-order tensors: dimensions and the list of frontal slices. *)
Record ten := Ten { t0 : nat; t1 : nat; t2 : nat; tslices : list mat }.
Definition tget (t : ten) (i j k : nat) : num := mget (nth i (tslices t) (Mat 0 0 [])) j k.

(** [max(lengths)]: ValueError on an empty list *)
Definition max_list (l : list nat) : res nat :=
  match l with [] => Err ValueError | x :: t => Ok (fold_left Nat.max t x) end.
(** [tl.zeros((I, J, K))] and [tensor[i, :length] = matrix] *)
Definition tzeros (I J K : nat) : ten := Ten I J K (repeat (mzeros J K) I).
Definition tset (t : ten) (i len : nat) (M : mat) : ten :=
  Ten (t0 t) (t1 t) (t2 t)
      (upd (tslices t) i
           (mbuild (t1 t) (t2 t) (fun j k => if (j <? len)%nat then mget M j k
                                            else mget (nth i (tslices t) (Mat 0 0 [])) j k))).
Fixpoint fill (t : ten) (i : nat) (l : list (mat * nat)) : ten :=
  match l with
  | [] => t
  | (M, len) :: l' => fill (tset t i len M) (S i) l'
  end.
(** [cmf_to_tensor], coupled_matrices.py:588-596 *)
Definition cmf_to_tensor (c : cmf) (validate : bool) : res ten :=
  let* matrices := cmf_to_matrices c validate in
  let lengths := map mr (cBs c) in
  let* J := max_list lengths in
  Ok (fill (tzeros (mr (cA c)) J (mr (cC c))) 0 (combine matrices lengths)).

(** [tl.moveaxis(tensor, mode, 0)] for mode 0, 1, 2 *)
Definition moveaxis0 (t : ten) (mode : nat) : ten :=
  match mode with
  | O => t
  | 1%nat => Ten (t1 t) (t0 t) (t2 t) (map (fun j => mbuild (t0 t) (t2 t) (fun i k => tget t i j k)) (seq 0 (t1 t)))
  | _ => Ten (t2 t) (t0 t) (t1 t) (map (fun k => mbuild (t0 t) (t1 t) (fun i j => tget t i j k)) (seq 0 (t2 t)))
  end.
Definition mflat (M : mat) : list num := concat (me M).
Definition tflat (t : ten) : list num := concat (map mflat (tslices t)).
(** [tl.unfold(tensor, mode)] = reshape(moveaxis(tensor, mode, 0), (dim, -1)); a
    first dimension of 0 cannot be reshaped with -1 (ValueError). *)
Definition unfold (t : ten) (mode : Z) : res mat :=
  let* m := py_index 3 mode in
  let t' := moveaxis0 t m in
  if (t0 t' =? 0)%nat then Err ValueError else
  let c := (t1 t' * t2 t')%nat in
  Ok (mbuild (t0 t') c (fun a b => vget (tflat t') (a * c + b))).

(** [cmf_to_unfolded], coupled_matrices.py:708-714.  [tl.concatenate] of an empty
    list raises ValueError. *)
Definition concatenate (l : list mat) : res mat :=
  match l with [] => Err ValueError | _ => Ok (mconcat l) end.
Definition cmf_to_unfolded (c : cmf) (mode : Z) (pad validate : bool) : res mat :=
  if pad then let* t := cmf_to_tensor c validate in unfold t mode
  else if (mode =? 2)%Z then
    let* ms := cmf_to_matrices c validate in
    let* X := concatenate ms in Ok (mtrans X)
  else Err ValueError.

(** [cmf_to_vec], coupled_matrices.py:795-799 *)
Definition cmf_to_vec (c : cmf) (pad validate : bool) : res (list num) :=
  if pad then let* t := cmf_to_tensor c validate in Ok (tflat t)
  else
    let* ms := cmf_to_matrices c validate in
    match ms with [] => Err ValueError | _ => Ok (concat (map mflat ms)) end.

(** ** Conversion from CP and PARAFAC2 tensors
    tensorly's own CPTensor / Parafac2Tensor validation is reduced to the
    equal-column check; missing weights have been replaced by ones there. *)
Record cpt := Cpt { cpw : list num; cpf : list mat }.
Definition cp_check (t : cpt) : bool :=
  match cpf t with
  | [] => false
  | M :: _ => forallb (fun F => (mc F =? mc M)%nat) (cpf t) && (length (cpw t) =? mc M)%nat
  end.
(** lines 134-147 *)
Fixpoint cp_Bs (B C : mat) (shapes : list (nat * nat)) : res (list mat) :=
  match shapes with
  | [] => Ok []
  | (J, K) :: rest =>
      if negb (K =? mr C)%nat then Err ValueError
      else if (mr B <? J)%nat then Err ValueError
      else let* Bs := cp_Bs B C rest in
           Ok (Mat (Nat.min J (mr B)) (mc B) (firstn J (me B)) :: Bs)
  end.
(** [from_CPTensor], coupled_matrices.py:121-151 *)
Definition from_CPTensor (t : cpt) (shapes : option (list (nat * nat))) : res cmf :=
  if negb (cp_check t) then Err ValueError else
  match cpf t with
  | [A; B; C] =>
      let* Bs := match shapes with
                 | Some sh => if negb (length sh =? mr A)%nat then Err ValueError else cp_Bs B C sh
                 | None => Ok (repeat B (mr A))
                 end in
      revalidate (Cmf (Some (cpw t)) A Bs C)
  | _ => Err ValueError
  end.
(** [from_Parafac2Tensor], coupled_matrices.py:168-172, of an already valid
    Parafac2Tensor: weights, A, B, C and the projection matrices *)
Record pf2t := Pf2t { pfw : list num; pfA : mat; pfB : mat; pfC : mat; pfP : list mat }.
Definition from_Parafac2Tensor (t : pf2t) : res cmf :=
  revalidate (Cmf (Some (pfw t)) (pfA t) (map (fun P => mmul P (pfB t)) (pfP t)) (pfC t)).

End CoupledMatrices.
