(** Properties C18-C22: coupled matrix factorizations and their conversions.

    [cmf_init] models [CoupledMatrixFactorization(obj)] on arbitrary Python
    objects; the conversions work on the record [cmf] of its parts.  The meaning
    of the parts is in CmfSpec.v. *)
From Coq Require Import Reals Lra Lia List Arith Bool ZArith.
From Verif Require Import Num Numpy Spec PenaltySpec CoupledMatrices CmfSpec CmfProofs.
Import ListNotations.
Local Open Scope R_scope.

Notation pyobjR := (pyobj (N:=RNum)).

(** C18: construction succeeds exactly for parts that fit together, and then
    reports their common rank and the sizes of the matrices. *)
Theorem C18_constructor_accepts_iff_consistent (w A C : pyobjR) (Bs : list pyobjR)
  (shape : list (nat * nat)) (rank : nat) :
  (exists c, cmf_init (PSeq [w; PSeq [A; PSeq Bs; C]]) = Ok (shape, rank, c)) <->
  (exists K, consistent_parts w A C Bs rank K shape).
Proof. exact (C18_main w A C Bs shape rank). Qed.
Print Assumptions C18_constructor_accepts_iff_consistent.

(** Whatever object is passed, the constructor returns or raises one of the two
    documented exceptions. *)
Theorem C18_only_documented_errors (o : pyobjR) :
  (exists r, cmf_init o = Ok r) \/ cmf_init o = Err TypeError \/ cmf_init o = Err ValueError.
Proof. exact (C18_total_main o). Qed.
Print Assumptions C18_only_documented_errors.

(** Which of the two: arrays that do not fit together give ValueError, *)
Definition is_array (o : pyobjR) : Prop := exists s d, o = PArr (N:=RNum) s d.
Theorem C18_arrays_value_error (w A C : pyobjR) (Bs : list pyobjR) :
  w = PNone \/ is_array w -> is_array A -> is_array C -> Forall is_array Bs ->
  (exists r, cmf_init (PSeq [w; PSeq [A; PSeq Bs; C]]) = Ok r) \/ cmf_init (PSeq [w; PSeq [A; PSeq Bs; C]]) = Err ValueError.
Proof.
  intros Hw (sA & dA & ->) (sC & dC & ->) HB. unfold cmf_init, validate_cmf. cbn [unpack2 unpack3 py_iter bind].
  assert (W : (exists v, weights_shape w = Ok v) \/ weights_shape w = Err ValueError).
  { destruct Hw as [->|(s & d & ->)]; [left; eexists; reflexivity|]. destruct s as [|n [|]]; cbn; eauto. }
  destruct W as [(v & ->)| ->]; [|right; reflexivity]. cbn [bind].
  assert (S : forall s d, (exists v, matrix_shape (PArr (N:=RNum) s d) = Ok v) \/ matrix_shape (PArr (N:=RNum) s d) = Err ValueError).
  { intros s d. destruct s as [|n [|m [|]]]; cbn; eauto. }
  destruct (S sA dA) as [((nI, rank) & ->)| ->]; [|right; reflexivity]. cbn [bind].
  destruct (S sC dC) as [((K, rC) & ->)| ->]; [|right; reflexivity]. cbn [bind].
  destruct (negb (rC =? rank)%nat); [right; reflexivity|]. cbn [bind].
  assert (B : (exists l, validate_Bs rank K Bs = Ok l) \/ validate_Bs rank K Bs = Err ValueError).
  { induction HB as [|b Bs (s & d & ->) _ IH]; [left; eexists; reflexivity|]. cbn [validate_Bs]. destruct (S s d) as [((J, c) & ->)| ->]; [|right; reflexivity]. cbn [bind].
    destruct (negb (c =? rank)%nat); [right; reflexivity|]. destruct IH as [(l & ->)| ->]; [left; eexists; reflexivity|right; reflexivity]. }
  destruct B as [(l & ->)| ->]; [|right; reflexivity]. cbn [bind].
  destruct (match v with Some n => _ | None => _ end); [right; reflexivity|]. cbn [bind py_len].
  destruct (negb (nI =? length Bs)%nat); [right; reflexivity|]. left. eexists. reflexivity.
Qed.
Print Assumptions C18_arrays_value_error.
(** and one part that is not an array, among parts that fit together, gives TypeError. *)
Theorem C18_type_error (w A C w' A' C' : pyobjR) (Bs Bs2 : list pyobjR) B B' (shape : list (nat * nat)) rank K :
  consistent_parts w A C (Bs ++ B :: Bs2) rank K shape ->
  (w' <> PNone -> ~ is_array w' -> cmf_init (PSeq [w'; PSeq [A; PSeq (Bs ++ B :: Bs2); C]]) = Err TypeError) /\
  (~ is_array A' -> cmf_init (PSeq [w; PSeq [A'; PSeq (Bs ++ B :: Bs2); C]]) = Err TypeError) /\
  (~ is_array C' -> cmf_init (PSeq [w; PSeq [A; PSeq (Bs ++ B :: Bs2); C']]) = Err TypeError) /\
  (~ is_array B' -> cmf_init (PSeq [w; PSeq [A; PSeq (Bs ++ B' :: Bs2); C]]) = Err TypeError).
Proof.
  intros (Hw & (dA & ->) & (dC & ->) & HB).
  assert (NA : forall o, ~ is_array o -> matrix_shape o = Err TypeError) by (intros [| |s d|l] Ho; try reflexivity; exfalso; apply Ho; do 2 eexists; reflexivity).
  assert (W : exists v, weights_shape w = Ok v) by (destruct Hw as [->|(d & ->)]; eexists; reflexivity). destruct W as (v & EW).
  unfold cmf_init, validate_cmf. cbn [unpack2 unpack3 py_iter bind]. rewrite EW. cbn [bind matrix_shape]. rewrite Nat.eqb_refl. cbn [negb].
  split; [|split; [|split]].
  - intros Hn Ho. assert (EW' : weights_shape w' = Err TypeError) by (destruct w' as [| |s d|l]; try reflexivity; [congruence|exfalso; apply Ho; do 2 eexists; reflexivity]).
    rewrite EW'. reflexivity.
  - intros Ho. rewrite (NA _ Ho). reflexivity.
  - intros Ho. rewrite (NA _ Ho). reflexivity.
  - intros Ho. assert (EB : validate_Bs rank K (Bs ++ B' :: Bs2) = Err TypeError).
    { apply Forall2_app_inv_l in HB as (l1 & l2 & HB & _ & _). clear - HB NA Ho. induction HB as [|b y Bs l1 (J & d & -> & _) _ IH].
      - cbn [app validate_Bs]. rewrite (NA _ Ho). reflexivity.
      - cbn [app validate_Bs matrix_shape bind]. rewrite Nat.eqb_refl. cbn [negb]. rewrite IH. reflexivity. }
    rewrite EB. reflexivity.
Qed.
Print Assumptions C18_type_error.

(** Passing the B_i stacked in one array is the same as passing the list of slices. *)
Theorem C18_stacked_factors (w A C : pyobjR) (n s1 : nat) (rest : list nat) (d : list R) :
  validate_cmf (PSeq [w; PSeq [A; PArr (N:=RNum) (n :: s1 :: rest) d; C]]) =
  validate_cmf (PSeq [w; PSeq [A; PSeq (map (fun i => PArr (N:=RNum) (s1 :: rest)
     (chunk (size_of (s1 :: rest)) d i)) (seq 0 n)); C]]).
Proof. exact (C18_stack_main w A C n s1 rest d). Qed.
Print Assumptions C18_stacked_factors.

(** For matrices of real numbers, passing a factorization to the constructor
    returns it unchanged if it is valid and fails otherwise. *)
Theorem C18_revalidation (c c' : rcmf) :
  mwf (cA c) -> mwf (cC c) -> (forall i, (i < length (cBs c))%nat -> mwf (nthB c i)) ->
  (revalidate c = Ok c' <-> valid_cmf c /\ c' = c).
Proof. exact (C18_typed_main c c'). Qed.
Print Assumptions C18_revalidation.

(** C19 *)
Theorem C19_to_matrix (c : rcmf) (i : nat) (validate : bool) :
  valid_cmf c -> (i < length (cBs c))%nat ->
  exists X, cmf_to_matrix c (Z.of_nat i) validate = Ok X /\
    cmf_to_matrix c (Z.of_nat i - Z.of_nat (length (cBs c))) validate = Ok X /\ is_matrix_of c i X.
Proof. exact (C19_matrix_main c i validate). Qed.
Print Assumptions C19_to_matrix.

Theorem C19_to_matrix_out_of_range (c : rcmf) (z : Z) (validate : bool) :
  valid_cmf c ->
  (z < - Z.of_nat (length (cBs c)) \/ Z.of_nat (length (cBs c)) <= z)%Z ->
  cmf_to_matrix c z validate = Err IndexError.
Proof. exact (C19_out_main c z validate). Qed.
Print Assumptions C19_to_matrix_out_of_range.

Theorem C19_to_matrices (c : rcmf) (validate : bool) : valid_cmf c ->
  exists Xs, cmf_to_matrices c validate = Ok Xs /\ length Xs = length (cBs c) /\
    forall i, (i < length (cBs c))%nat ->
      is_matrix_of c i (nth i Xs no_mat) /\
      forall validate', cmf_to_matrix c (Z.of_nat i) validate' = Ok (nth i Xs no_mat).
Proof. exact (C19_matrices_main c validate). Qed.
Print Assumptions C19_to_matrices.

(** With validation on, an inconsistent factorization is never converted. *)
Theorem C19_invalid_rejected (c : rcmf) :
  mwf (cA c) -> mwf (cC c) -> (forall i, (i < length (cBs c))%nat -> mwf (nthB c i)) ->
  ~ valid_cmf c ->
  exists e, (e = TypeError \/ e = ValueError) /\ cmf_to_matrices c true = Err e /\
    (forall z, cmf_to_matrix c z true = Err e) /\ cmf_to_tensor c true = Err e /\
    (forall m, cmf_to_unfolded c m true true = Err e) /\ (forall p, cmf_to_vec c p true = Err e).
Proof. exact (C19_invalid_main c). Qed.
Print Assumptions C19_invalid_rejected.

(** C20 *)
Theorem C20_to_tensor (c : rcmf) (validate : bool) : valid_cmf c -> cBs c <> [] ->
  exists t J, cmf_to_tensor c validate = Ok t /\ is_max_rows c J /\
    t0 t = length (cBs c) /\ t1 t = J /\ t2 t = mr (cC c) /\
    forall i j k, (i < length (cBs c))%nat -> (j < J)%nat -> (k < mr (cC c))%nat ->
      tget t i j k = padded_entry c i j k.
Proof. exact (C20_main c validate). Qed.
Print Assumptions C20_to_tensor.

Theorem C20_no_matrices (c : rcmf) (validate : bool) :
  valid_cmf c -> cBs c = [] -> cmf_to_tensor c validate = Err ValueError.
Proof. exact (C20_empty_main c validate). Qed.
Print Assumptions C20_no_matrices.

(** C21 *)
Theorem C21_to_unfolded (c : rcmf) (validate : bool) (m : nat) (z : Z) (J : nat) :
  valid_cmf c -> is_max_rows c J -> (m < 3)%nat -> (z = Z.of_nat m \/ z = Z.of_nat m - 3)%Z ->
  (0 < unfold_rows m (length (cBs c)) J (mr (cC c)))%nat ->
  exists X, cmf_to_unfolded c z true validate = Ok X /\
    shaped X (unfold_rows m (length (cBs c)) J (mr (cC c)))
             (unfold_cols m (length (cBs c)) J (mr (cC c))) /\
    forall i j k, (i < length (cBs c))%nat -> (j < J)%nat -> (k < mr (cC c))%nat ->
      let '(a, b) := unfold_pos m J (mr (cC c)) i j k in mget X a b = padded_entry c i j k.
Proof. exact (C21_unfold_main c validate m z J). Qed.
Print Assumptions C21_to_unfolded.

Theorem C21_to_vec (c : rcmf) (validate : bool) (J : nat) : valid_cmf c -> is_max_rows c J ->
  exists x, cmf_to_vec c true validate = Ok x /\
    length x = (length (cBs c) * (J * mr (cC c)))%nat /\
    forall i j k, (i < length (cBs c))%nat -> (j < J)%nat -> (k < mr (cC c))%nat ->
      at_ x (i * (J * mr (cC c)) + (j * mr (cC c) + k)) = padded_entry c i j k.
Proof. exact (C21_vec_main c validate J). Qed.
Print Assumptions C21_to_vec.

(** Without padding only mode 2 and vectorisation exist, and no entry is added. *)
Theorem C21_without_padding (c : rcmf) (validate : bool) : valid_cmf c -> cBs c <> [] ->
  exists X x, cmf_to_unfolded c 2 false validate = Ok X /\ cmf_to_vec c false validate = Ok x /\
    shaped X (mr (cC c)) (rows_before c (length (cBs c))) /\
    length x = (rows_before c (length (cBs c)) * mr (cC c))%nat /\
    forall i j k, (i < length (cBs c))%nat -> (j < mr (nthB c i))%nat -> (k < mr (cC c))%nat ->
      mget X k (rows_before c i + j) = cmf_entry c i j k /\
      at_ x (rows_before c i * mr (cC c) + (j * mr (cC c) + k)) = cmf_entry c i j k.
Proof. exact (C21_nopad_main c validate). Qed.
Print Assumptions C21_without_padding.

Theorem C21_other_modes_rejected (c : rcmf) (validate : bool) (z : Z) :
  z <> 2%Z -> cmf_to_unfolded c z false validate = Err ValueError.
Proof. exact (C21_modes_main c validate z). Qed.
Print Assumptions C21_other_modes_rejected.

(** C22 *)
Theorem C22_from_cp (w : list R) (A B C : mat (N:=RNum)) (shapes : option (list (nat * nat))) :
  valid_cp3 w A B C ->
  (match shapes with None => True | Some sh => shapes_fit A B C sh end) ->
  exists c, from_CPTensor (Cpt (N:=RNum) w [A; B; C]) shapes = Ok c /\ valid_cmf c /\
    length (cBs c) = mr A /\ mr (cC c) = mr C /\
    forall i, (i < mr A)%nat ->
      mr (nthB c i) = match shapes with None => mr B | Some sh => fst (nth i sh (0, 0)%nat) end /\
      forall j k, (j < mr (nthB c i))%nat -> (k < mr C)%nat ->
        cmf_entry c i j k = cp_entry (mc A) (at_ w) (mget A) (mget B) (mget C) i j k.
Proof. exact (C22_cp_main w A B C shapes). Qed.
Print Assumptions C22_from_cp.

Theorem C22_from_cp_bad_shapes (w : list R) (A B C : mat (N:=RNum)) (sh : list (nat * nat)) :
  valid_cp3 w A B C -> ~ shapes_fit A B C sh ->
  from_CPTensor (Cpt (N:=RNum) w [A; B; C]) (Some sh) = Err ValueError.
Proof. exact (C22_cp_reject_main w A B C sh). Qed.
Print Assumptions C22_from_cp_bad_shapes.

Theorem C22_from_cp_wrong_order (w : list R) (Fs : list (mat (N:=RNum))) shapes :
  length Fs <> 3%nat -> from_CPTensor (Cpt (N:=RNum) w Fs) shapes = Err ValueError.
Proof. exact (C22_cp_order_main w Fs shapes). Qed.
Print Assumptions C22_from_cp_wrong_order.

Theorem C22_from_parafac2 (t : pf2t (N:=RNum)) : valid_pf2 t ->
  exists c, from_Parafac2Tensor t = Ok c /\ valid_cmf c /\
    length (cBs c) = mr (pfA t) /\ mr (cC c) = mr (pfC t) /\
    forall i, (i < mr (pfA t))%nat -> mr (nthB c i) = mr (nth i (pfP t) no_mat) /\
      forall j k, (j < mr (nthB c i))%nat -> (k < mr (pfC t))%nat ->
        cmf_entry c i j k =
        pf2_entry (mc (pfA t)) (at_ (pfw t)) (mget (pfA t)) (mget (pfB t)) (mget (pfC t))
                  (mget (nth i (pfP t) no_mat)) i j k.
Proof. exact (C22_pf2_main t). Qed.
Print Assumptions C22_from_parafac2.

(** ** Concrete cases meeting the hypotheses *)
Definition exc : rcmf :=
  Cmf (N:=RNum) (Some [2; 3]) (Mat 2 2 [[1; 2]; [3; 4]])
    [Mat 1 2 [[1; 1]]; Mat 3 2 [[1; 0]; [0; 1]; [2; 5]]] (Mat 2 2 [[1; 0]; [1; 7]]).
Example exc_valid : valid_cmf exc.
Proof.
  split; [repeat constructor|]. split; [repeat constructor|]. do 2 (split; [reflexivity|]). split.
  - intros i Hi. cbn in Hi. destruct i as [|[|i]]; [| |lia]; cbn; repeat split; repeat constructor.
  - intros w Hw. injection Hw as <-. reflexivity.
Qed.
Example exc_max : is_max_rows exc 3.
Proof.
  split; [|exists 1%nat; cbn; lia].
  intros i Hi. cbn in Hi. destruct i as [|[|i]]; cbn; lia.
Qed.
Example exc_entry : cmf_entry exc 1 2 1 = 432.
Proof. unfold cmf_entry, weight, nthB, at_, mget; cbn. lra. Qed.
Example exc_parts : exists K, consistent_parts PNone (PArr (N:=RNum) [2; 2]%nat [1; 2; 3; 4])
  (PArr (N:=RNum) [5; 2]%nat (repeat 1 10)) [PArr (N:=RNum) [1; 2]%nat [1; 1]; PArr (N:=RNum) [3; 2]%nat (repeat 2 6)]
  2 K [(1, 5); (3, 5)]%nat.
Proof.
  exists 5%nat. split; [now left|]. split; [eexists; reflexivity|]. split; [eexists; reflexivity|].
  repeat constructor; do 2 eexists; split; reflexivity.
Qed.
(** An inconsistent factorization (C has one column). *)
Example exc_invalid : let c := Cmf (N:=RNum) None (Mat 1 2 [[1; 2]]) [Mat 1 2 [[1; 1]]] (Mat 1 1 [[1]]) in
  mwf (cA c) /\ mwf (cC c) /\ (forall i, (i < length (cBs c))%nat -> mwf (nthB c i)) /\ ~ valid_cmf c.
Proof.
  cbn. split; [repeat constructor|]. split; [repeat constructor|]. split.
  - intros i Hi. destruct i as [|i]; [repeat constructor|lia].
  - intros (_ & _ & H & _). discriminate H.
Qed.
Example excp : let A := Mat (N:=RNum) 2 1 [[1]; [2]] in let B := Mat (N:=RNum) 3 1 [[1]; [2]; [3]] in
  let C := Mat (N:=RNum) 1 1 [[5]] in
  valid_cp3 [2] A B C /\ shapes_fit A B C [(1, 1); (3, 1)]%nat /\ ~ shapes_fit A B C [(1, 1); (4, 1)]%nat.
Proof.
  cbn. split; [do 5 (split; [now repeat constructor|]); reflexivity|]. split; [split; [reflexivity|]|].
  - intros J K [E|[E|[]]]; injection E; intros; subst; cbn; lia.
  - intros (_ & H). destruct (H 4%nat 1%nat) as (H1 & _); cbn; [auto|]. cbn in H1. lia.
Qed.
Example expf : valid_pf2 (Pf2t (N:=RNum) [2] (Mat 1 1 [[3]]) (Mat 1 1 [[4]]) (Mat 2 1 [[1]; [2]])
  [Mat 2 1 [[0]; [1]]]).
Proof.
  do 3 (split; [repeat constructor|]). do 5 (split; [reflexivity|]).
  intros i Hi. cbn in Hi. destruct i as [|i]; [|lia]. repeat constructor.
Qed.
