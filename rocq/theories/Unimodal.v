(** Model of src/matcouply/_unimodal_regression.py *)
From Coq Require Import List Arith Bool ZArith.
From Verif Require Import Num Numpy.
Import ListNotations.
Local Open Scope num_scope.

Section Unimodal.
Context {N : Num}.

(** Local variables of [prefix_isotonic_regression]
    (_unimodal_regression.py:31-37). *)
Record pstate := PState {
  p_sumwy : list num;
  p_sumwy2 : list num;
  p_sumw : list num;
  p_level : list num;       (* level_set *)
  p_index : list nat;       (* index_range *)
  p_error : list num;
  p_thr : list bool         (* threshold, line 45 (all False if unused) *)
}.

(** [_merge_intervals_inplace], _unimodal_regression.py:15-21.
    [store] is what writing a float into [level_set] does to it: the identity
    for a floating-point array, truncation for an integer array. *)
Definition merge_intervals (store : num -> num) (target merger : nat) (s : pstate) : pstate :=
  let wy := upd (p_sumwy s) target (vget (p_sumwy s) target + vget (p_sumwy s) merger) in
  let wy2 := upd (p_sumwy2 s) target (vget (p_sumwy2 s) target + vget (p_sumwy2 s) merger) in
  let w := upd (p_sumw s) target (vget (p_sumw s) target + vget (p_sumw s) merger) in
  let lv := upd (p_level s) target (store (vget wy target / vget w target)) in
  PState wy wy2 w lv (p_index s) (p_error s) (p_thr s).

Definition iget (l : list nat) (i : nat) : nat := nth i l 0%nat.

(** The while loop, _unimodal_regression.py:53-55.  When [index_range[i]] is 0
    the first operand reads [level_set[-1]], which has no effect because of the
    conjunct [index_range[i] != 0]. *)
Fixpoint merge_loop (store : num -> num) (fuel i : nat) (s : pstate) : res pstate :=
  let st := iget (p_index s) i in
  if negb (st =? 0)%nat && (vget (p_level s) i <=? vget (p_level s) (st - 1))
  then match fuel with
       | O => Err OutOfFuel
       | S f =>
           let s1 := merge_intervals store i (st - 1) s in
           let s2 := PState (p_sumwy s1) (p_sumwy2 s1) (p_sumw s1) (p_level s1)
                            (upd (p_index s1) i (iget (p_index s1) (st - 1)))
                            (p_error s1) (p_thr s1) in
           merge_loop store f i s2
       end
  else Ok s.

(** [np.cumsum] *)
Definition cumsum (l : list num) : list num := vbuild (length l) (fun k => nsum (S k) (vget l)).

(** One pass of the for loop, _unimodal_regression.py:50-62. *)
Definition prefix_step (store : num -> num) (nonneg : bool) (y cum : list num) (s : pstate) (i : nat)
  : res pstate :=
  let s0 := PState (p_sumwy s) (p_sumwy2 s) (p_sumw s)
                   (upd (p_level s) i (vget y i)) (upd (p_index s) i i)
                   (p_error s) (p_thr s) in
  let* s1 := merge_loop store i i s0 in
  let wy := vget (p_sumwy s1) i in
  let levelerror := vget (p_sumwy2 s1) i - (wy * wy / vget (p_sumw s1) i) in
  if nonneg && (vget (p_level s1) i <? n0)
  then Ok (PState (p_sumwy s1) (p_sumwy2 s1) (p_sumw s1) (p_level s1) (p_index s1)
                  (upd (p_error s1) (S i) (vget cum i)) (upd (p_thr s1) i true))
  else Ok (PState (p_sumwy s1) (p_sumwy2 s1) (p_sumw s1) (p_level s1) (p_index s1)
                  (upd (p_error s1) (S i) (levelerror + vget (p_error s1) (iget (p_index s1) i)))
                  (p_thr s1)).

Fixpoint prefix_for (store : num -> num) (nonneg : bool) (y cum : list num)
         (is_ : list nat) (s : pstate) : res pstate :=
  match is_ with
  | [] => Ok s
  | i :: rest => let* s' := prefix_step store nonneg y cum s i in
                 prefix_for store nonneg y cum rest s'
  end.

(** [prefix_isotonic_regression], _unimodal_regression.py:27-69.
    Result: ((level_set, index_range), error).  An empty [y] raises IndexError
    at [level_set[0] = y[0]] (line 39). *)
Definition prefix_isotonic_regression (store : num -> num) (y : list num)
           (weights : option (list num)) (nonneg : bool)
  : res ((list num * list nat) * list num) :=
  let n := length y in
  if (n =? 0)%nat then Err IndexError else
  let w := match weights with None => repeat n1 n | Some w => w end in
  let sumwy := vmul w y in
  let sumwy2 := vmul (vmul w y) y in
  let level := upd (repeat n0 n) 0 (vget y 0) in
  let cum := cumsum sumwy2 in
  let neg0 := nonneg && (vget level 0 <? n0) in
  let s0 := PState sumwy sumwy2 w level (repeat 0%nat n)
                   (if neg0 then upd (repeat n0 (S n)) 1 (vget cum 0) else repeat n0 (S n))
                   (if neg0 then upd (repeat false n) 0 true else repeat false n) in
  let* s := prefix_for store nonneg y cum (seq 1 (n - 1)) s0 in
  let level' := if nonneg
                then map2 (fun (b : bool) x => if b then n0 else x) (p_thr s) (p_level s)
                else p_level s in
  Ok ((level', p_index s), p_error s).

(** [a[lo:hi] = x] *)
Definition set_slice {A} (l : list A) (lo hi : nat) (x : A) : list A :=
  map (fun k => if ((lo <=? k) && (k <? hi))%nat then x else nth k l x) (seq 0 (length l)).

(** Body of [_compute_isotonic_from_index], _unimodal_regression.py:77-79;
    [e] is [idx + 1].  [None] is NaN. *)
Fixpoint iso_loop (fuel e : nat) (level : list num) (index : list nat) (y_iso : list (option num))
  : res (list (option num)) :=
  match e with
  | O => Ok y_iso
  | S idx =>
      match fuel with
      | O => Err OutOfFuel
      | S f => iso_loop f (iget index idx) level index
                        (set_slice y_iso (iget index idx) e (Some (vget level idx)))
      end
  end.

(** [_compute_isotonic_from_index], _unimodal_regression.py:73-81. *)
Definition compute_isotonic_from_index (end_index : nat) (level : list num) (index : list nat)
  : res (list (option num)) :=
  iso_loop end_index end_index level index (repeat None (Nat.min end_index (length level))).

(** [_get_best_unimodality_index], _unimodal_regression.py:84-92. *)
Definition best_step (el er : list num) (acc : nat * num) (i : nat) : nat * num :=
  let error := vget el i + vget er (length el - i - 1) in
  if error <? snd acc then (i, error) else acc.
Definition get_best_unimodality_index (el er : list num) : nat * num :=
  fold_left (best_step el er) (seq 0 (length el)) (0%nat, vget er (length er - 1)).

(** [_unimodal_regression], _unimodal_regression.py:95-104. *)
Definition unimodal_regression_1d (store : num -> num) (y : list num) (nonneg : bool)
  : res (list (option num) * num) :=
  let* (isol, errl) := prefix_isotonic_regression store y None nonneg in
  let* (isor, errr) := prefix_isotonic_regression store (rev y) None nonneg in
  let (best_idx, error) := get_best_unimodality_index errl errr in
  let* yl := compute_isotonic_from_index best_idx (fst isol) (snd isol) in
  let* yr := compute_isotonic_from_index (length y - best_idx) (fst isor) (snd isor) in
  Ok (yl ++ rev yr, error).

(** [unimodal_regression] on a vector, _unimodal_regression.py:131-132. *)
Definition unimodal_regression_vec (store : num -> num) (y : list num) (nonneg : bool)
  : res (list (option num)) :=
  let* (u, _) := unimodal_regression_1d store y nonneg in Ok u.

(** [unimodal_regression] on a matrix, _unimodal_regression.py:134-139 (arrays of
    higher order are reshaped to this case).  The result is given as its list of
    columns; [np.stack] of an empty list raises ValueError. *)
Definition unimodal_regression_cols (store : num -> num) (Y : mat) (nonneg : bool)
  : res (list (list (option num))) :=
  if (mc Y =? 0)%nat then Err ValueError
  else mapM (fun r => unimodal_regression_vec store (mcol Y r) nonneg) (seq 0 (mc Y)).

End Unimodal.

(** Storing into a floating-point array (exact in this model). *)
Definition store_float {N : Num} (x : num) : num := x.
