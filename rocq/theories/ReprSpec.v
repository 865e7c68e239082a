(** Specification vocabulary for the printed form of penalties (C93). *)
From Coq Require Import List Arith Bool String Ascii.
From Verif Require Import Num Numpy Penalties InitVars Parse Repr.
Import ListNotations.
Local Open Scope string_scope.

Section ReprSpec.
Context {N : Num}.
(** The parameters of the constructors of penalties.py other than aux_init and dual_init, with their values. *)
Definition parameters (S : shows) (o : printable) : list (string * string) :=
  match o_pen (r_obj o) with
  | NonNegativity => []
  | Box lo hi => [("min_val", show_option S lo); ("max_val", show_option S hi)]
  | L1Penalty reg nn => [("reg_strength", s_num S reg); ("non_negativity", show_bool nn)]
  | GeneralizedL2 M _ _ => [("norm_matrix", s_mat S M); ("svd", show_str (r_svd o)); ("validate", show_bool (r_validate o))]
  | TotalVariation reg l1 => [("reg_strength", s_num S reg); ("l1_strength", s_num S l1)]
  | L2Ball bound nn => [("norm_bound", s_num S bound); ("non_negativity", show_bool nn)]
  | UnitSimplex => []
  | Unimodality nn => [("non_negativity", show_bool nn)]
  | Parafac2 n ub uc => [("svd", show_str (r_svd o)); ("update_basis_matrices", show_bool ub); ("update_coordinate_matrix", show_bool uc); ("n_iter", s_int S n)]
  end.
(** Each parameter is printed as name=value and followed by a comma. *)
Fixpoint listed (l : list (string * string)) : string := match l with [] => "" | (k, v) :: l => k ++ "=" ++ v ++ ", " ++ listed l end.

(** No character c in s *)
Fixpoint free_of (c : ascii) (s : string) : Prop := match s with EmptyString => True | String a s => a <> c /\ free_of c s end.
(** Numbers of two calls can be told apart by their text, in which there is no comma; so can ints and names. *)
Record readable (S T : shows) : Prop := {
  rd_num : forall x y, s_num S x = s_num T y -> x = y;
  rd_int : forall x y, s_int S x = s_int T y -> x = y;
  rd_num_comma : (forall x, free_of "," (s_num S x)) /\ (forall x, free_of "," (s_num T x));
  rd_int_comma : (forall x, free_of "," (s_int S x)) /\ (forall x, free_of "," (s_int T x));
  rd_num_None : (forall x, s_num S x <> "None") /\ (forall x, s_num T x <> "None");
  rd_unknown : forall n, In n ["random_uniform"; "random_standard_normal"; "zeros"] -> n <> s_unknown S /\ n <> s_unknown T;
  rd_unknown_comma : free_of "," (s_unknown S) /\ free_of "," (s_unknown T) }.
(** Two initialisations with the same name, or both given as arrays *)
Definition same_init (a b : initval) : Prop := match a, b with IStr s, IStr t => s = t | IStr _, _ | _, IStr _ => False | _, _ => True end.
(** Two objects of the same class, with the same parameters and initialisations.  Of norm matrices nothing is said:
    numpy abbreviates large arrays. *)
Definition same_penalty (o p : printable) : Prop :=
  match o_pen (r_obj o), o_pen (r_obj p) with
  | GeneralizedL2 _ _ _, GeneralizedL2 _ _ _ => True
  | a, b => a = b /\ same_init (o_aux (r_obj o)) (o_aux (r_obj p)) /\ same_init (o_dual (r_obj o)) (o_dual (r_obj p)) /\
      match a with Parafac2 _ _ _ => r_svd o = r_svd p | _ => True end
  end.
Definition plain_names (l : list printable) : Prop := Forall (fun o => free_of "," (r_svd o)) l.
End ReprSpec.
