(** Model of how penalty objects are printed: [ADMMPenalty.__repr__], src/matcouply/penalties.py:345-366, and the
    list of penalties that [_parse_all_penalties] prints, src/matcouply/decomposition.py:538-545.

    Simplifications: [repr] of numbers, arrays and ints is a parameter; an unknown name for an initialisation is one
    string.  The list of strings holds one string for each call of [print]. *)
From Coq Require Import List Arith Bool ZArith String Ascii.
From Verif Require Import Num Numpy Penalties InitVars Parse.
Import ListNotations.
Local Open Scope string_scope.

Section Repr.
Context {N : Num}.

(** Python's [repr] of numbers, of arrays with one and two indices and of ints; the name in [IStr UnknownName] *)
Record shows := Shows { s_num : num -> string; s_vec : list num -> string; s_mat : mat -> string; s_int : nat -> string; s_unknown : string }.
(** A penalty object and the attributes [svd] (GeneralizedL2Penalty and Parafac2) and [validate]
    (GeneralizedL2Penalty), which are kept for printing: penalties.py:710-711, 1100 *)
Record printable := Printable { r_obj : pobj; r_svd : string; r_validate : bool }.

Definition show_bool (b : bool) : string := if b then "True" else "False".
Definition show_str (s : string) : string := "'" ++ s ++ "'".
Definition show_option (S : shows) (x : option num) : string := match x with Some x => s_num S x | None => "None" end.

(** [type(self).__name__] *)
Definition class_name (p : penalty) : string :=
  match p with
  | NonNegativity => "NonNegativity" | Box _ _ => "Box" | L1Penalty _ _ => "L1Penalty" | GeneralizedL2 _ _ _ => "GeneralizedL2Penalty"
  | TotalVariation _ _ => "TotalVariationPenalty" | L2Ball _ _ => "L2Ball" | UnitSimplex => "UnitSimplex" | Unimodality _ => "Unimodality" | Parafac2 _ _ _ => "Parafac2"
  end.
(** [self.__dict__.items()] with printed values, in the order in which the constructors set the attributes:
    penalties.py:33-34, 532-534, 566-570, 708-725, 816-818, 912-914, 1010-1011, 1100-1105.  The values of aux_init and
    dual_init are not used. *)
Definition attributes (S : shows) (o : printable) : list (string * string) :=
  let inits := [("aux_init", ""); ("dual_init", "")] in
  match o_pen (r_obj o) with
  | NonNegativity | UnitSimplex => inits
  | Box lo hi => inits ++ [("min_val", show_option S lo); ("max_val", show_option S hi)]
  | L1Penalty reg nn => inits ++ [("reg_strength", s_num S reg); ("non_negativity", show_bool nn)]
  | GeneralizedL2 M U s => inits ++ [("norm_matrix", s_mat S M); ("svd", show_str (r_svd o)); ("validate", show_bool (r_validate o)); ("_U", s_mat S U); ("_s", s_vec S s)]
  | TotalVariation reg l1 => inits ++ [("reg_strength", s_num S reg); ("l1_strength", s_num S l1)]
  | L2Ball bound nn => inits ++ [("norm_bound", s_num S bound); ("non_negativity", show_bool nn)]
  | Unimodality nn => inits ++ [("non_negativity", show_bool nn)]
  | Parafac2 n ub uc => [("svd", show_str (r_svd o))] ++ inits ++ [("update_basis_matrices", show_bool ub); ("update_coordinate_matrix", show_bool uc); ("n_iter", s_int S n)]
  end%list.
(** [_auto_add_param_to_repr], penalties.py:345-350 *)
Definition auto_add (param : string) : bool :=
  if String.prefix "_" param then false else if (param =? "aux_init") || (param =? "dual_init") then false else true.
(** lines 356-363 *)
Definition init_name (S : shows) (s : initname) : string :=
  match s with RandomUniform => "random_uniform" | RandomStandardNormal => "random_standard_normal" | Zeros => "zeros" | UnknownName => s_unknown S end.
Definition init_param (S : shows) (key : string) (v : initval) : string :=
  match v with IStr s => key ++ "='" ++ init_name S s ++ "'" | _ => key ++ "=given_init" end.
(** [__repr__], lines 352-366 *)
Definition repr (S : shows) (o : printable) : string :=
  let param_strings := (map (fun kv : string * string => (fst kv ++ "=" ++ snd kv)%string) (filter (fun kv => auto_add (fst kv)) (attributes S o))
    ++ [init_param S "aux_init" (o_aux (r_obj o))] ++ [init_param S "dual_init" (o_dual (r_obj o))])%list in
  "<'" ++ "matcouply.penalties" ++ "." ++ class_name (o_pen (r_obj o)) ++ "' with " ++ String.concat ", " param_strings ++ ")>".

(** decomposition.py:540-545 *)
Definition mode_lines (S : shows) (mode : string) (reg : list printable) : list string :=
  (["* Mode " ++ mode ++ ":"]%string ++ (if (List.length reg =? 0)%nat then ["   - (no regularization added)"] else []) ++ map (fun r => "   - " ++ repr S r)%string reg)%list.
Definition penalty_lines (S : shows) (regs : three (list printable)) : list string :=
  let '(rA, rB, rC) := regs in
  (["All regularization penalties (including regs list):"] ++ mode_lines S "0" rA ++ mode_lines S "1" rB ++ mode_lines S "2" rC)%list.
End Repr.
