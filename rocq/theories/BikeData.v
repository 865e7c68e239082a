(** Model of [get_bike_data], src/matcouply/data.py:98-150.

    The archive shipped with the package is a parameter: what line 130 finds in it, the value of the key
    "dataset", is a dictionary of dictionaries of dictionaries (name of the data frame, column, row), or
    opening and parsing it fails.  Dictionaries are association lists, as written by Python: no key occurs
    twice.  Python's [int] on strings is a parameter.  Times are instants, counted in hours from 2021-01-01
    00:00 UTC: [tz_localize] and [tz_convert] (line 134) do not change the instant, and dates that
    [datetime] cannot represent are not modelled.  Names of indices (lines 140-141, 146) are not modelled. *)
From Coq Require Import List String Arith ZArith Bool.
From Verif Require Import Num.
Import ListNotations.
Local Open Scope string_scope.

Section Bike.
Context {value : Type}.
Definition dict (V : Type) := list (string * V).
Fixpoint lookup {V} (k : string) (d : dict V) : option V :=
  match d with [] => None | (k', v) :: d => if (k =? k')%string then Some v else lookup k d end.
(** [d[k]], lines 133, 138, 145 *)
Definition item {V} (k : string) (d : dict V) : res V := match lookup k d with Some v => Ok v | None => Err KeyError end.

(** A data frame; entries that the file does not have are None (pandas: nan). *)
Record df (C R : Type) := DF { columns : list C; index : list R; cells : list (list (option value)) }.
Arguments DF {C R}. Arguments columns {C R}. Arguments index {C R}. Arguments cells {C R}.
(** the row labels of [pd.DataFrame] of a dictionary of dictionaries: in order of appearance *)
Fixpoint add_new (seen ks : list string) : list string :=
  match ks with
  | [] => seen
  | k :: ks => add_new (if existsb (String.eqb k) seen then seen else (seen ++ [k])%list) ks
  end.
Definition row_labels (d : dict (dict value)) : list string := fold_left (fun seen col => add_new seen (map fst (snd col))) d [].
(** [pd.DataFrame(value)], line 132 *)
Definition data_frame (d : dict (dict value)) : df string string :=
  DF (map fst d) (row_labels d) (map (fun s => map (fun col => lookup s (snd col)) d) (row_labels d)).

Variable int : string -> res Z.

(** [df.columns = time], line 139: the number of labels has to match *)
Definition set_columns {C C' R} (d : df C R) (l : list C') : res (df C' R) :=
  if (List.length l =? List.length (columns d))%nat then Ok (DF l (index d) (cells d)) else Err ValueError.
(** [df.index = df.index.astype(int)], lines 142, 147 *)
Definition index_to_int {C} (d : df C string) : res (df C Z) :=
  let* l := mapM int (index d) in Ok (DF (columns d) l (cells d)).
(** lines 137-143 *)
Definition one_city (datasets : dict (df string string)) (time : list Z) (city : string) : res (string * df Z Z) :=
  let* d := item city datasets in
  let* d := set_columns d time in
  let* d := index_to_int d in
  Ok (city, d).
(** lines 132-150; the metadata frame is returned separately because its columns are not times *)
Definition get_bike_data (archive : res (dict (dict (dict value)))) : res (dict (df Z Z) * df string Z) :=
  let* file := archive in (* lines 128-130 *)
  let datasets := map (fun kv => (fst kv, data_frame (snd kv))) file in (* line 132 *)
  let* oslo := item "oslo" datasets in
  let* time := mapM int (columns oslo) in (* lines 133-134 *)
  let* out := mapM (one_city datasets time) ["oslo"; "trondheim"; "bergen"] in
  let* m := item "station_metadata" datasets in
  let* m := index_to_int m in
  Ok (out, m).
End Bike.
Arguments df : clear implicits.
Arguments DF {value C R}. Arguments columns {value C R}. Arguments index {value C R}. Arguments cells {value C R}.
