(** What a user can see of a heap: which objects a call left alone, and when the objects handed to a call are
    different objects. *)
From Coq Require Import List Arith.
From Verif Require Import Num Numpy Penalties CoupledMatrices Decomp Heap.
Import ListNotations.

Section HeapSpec.
Context {N : Num}.

(** Objects that existed before the call and are not among [arrays] and [lists] have the same contents after it. *)
Definition only_changes (arrays lists : nat -> Prop) (h h' : heap N) : Prop :=
  (forall x, x < h_next h -> ~ arrays x -> h_arr h' x = h_arr h x) /\
  (forall x, x < h_next h -> ~ lists x -> h_lst h' x = h_lst h x).

(** Every object named by the arguments exists. *)
Definition exists_in (h : heap N) (s : hstate N) : Prop :=
  s_A s < h_next h /\ s_Bs s < h_next h /\
  Forall (fun g => r_aux g < h_next h /\ r_dual g < h_next h) (s_rA s).
(** A, the auxiliary arrays and the dual arrays of mode 0 are pairwise different objects (two duals may be one). *)
Definition separate (s : hstate N) : Prop :=
  NoDup (s_A s :: map r_aux (s_rA s)) /\
  forall g, In g (s_rA s) -> ~ In (r_dual g) (s_A s :: map r_aux (s_rA s)).
(** Shapes: one row of A and one B_i for every matrix; auxiliary arrays of the shape of A. *)
Definition same_shape (M M' : mat) : Prop := mr M = mr M' /\ mc M = mc M' /\ length (me M) = length (me M').
Definition fits (Xs : list mat) (h : heap N) (s : hstate N) : Prop :=
  length (me (h_arr h (s_A s))) = mr (h_arr h (s_A s)) /\
  length Xs = mr (h_arr h (s_A s)) /\ length (h_lst h (s_Bs s)) = mr (h_arr h (s_A s)) /\
  forall g, In g (s_rA s) -> same_shape (h_arr h (r_aux g)) (h_arr h (s_A s)).
End HeapSpec.
