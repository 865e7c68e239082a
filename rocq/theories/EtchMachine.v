(** Model of [get_semiconductor_etch_machine_data], src/matcouply/data.py:204-274.

    The content of MACHINE_Data.mat after lines 229-232 is a record of lists; how it is obtained from the
    result of [loadmat] (indexing with "LAMDATA" and two [squeeze]s) is a parameter, and so is Python's
    [int] on strings.  A table has a number of columns and a list of rows.  Index and column names of the
    data frames other than the variable names (lines 245-246, 251-252, 263-264, 270-271) are not modelled;
    the constant columns "Experiment", "Sample" and "Fault name" are single values. *)
From Coq Require Import List String Ascii Arith ZArith Bool.
From Verif Require Import Num DataCache.
Import ListNotations.
Local Open Scope string_scope.

Section EtchMachine.
Context {byte value entry : Type}.

Record table := { t_cols : nat; t_rows : list (list entry) }.
Record lamdata := { l_variables : list string; l_calib_names : list string; l_calibration : list table;
  l_test_names : list string; l_test : list table; l_fault_names : list string }.
(** A data frame with the given columns, and the metadata of one sample. *)
Record frame := { f_columns : list string; f_rows : list (list entry) }.
Record meta := { m_rows : list (list entry); m_experiment : Z; m_sample : Z; m_fault : option string }.

Variable int : string -> res Z.

(** [name.split(".")[0]], lines 238, 256 *)
Fixpoint before_dot (s : string) : string :=
  match s with
  | EmptyString => EmptyString
  | String a s => if Ascii.eqb a "."%char then EmptyString else String a (before_dot s)
  end.
(** [s[n:]] and [s[:n]], lines 238, 249-250, 256, 267-268 *)
Fixpoint drop (n : nat) (s : string) : string := match n, s with S n, String _ s => drop n s | _, _ => s end.
Fixpoint take (n : nat) (s : string) : string := match n, s with S n, String a s => String a (take n s) | _, _ => EmptyString end.
Definition sample_name (name : string) : string := drop 1 (before_dot name).
(** [d[k] = v]: the key keeps its place *)
Fixpoint dict_set {V} (k : string) (v : V) (d : list (string * V)) : list (string * V) :=
  match d with
  | [] => [(k, v)]
  | (k', v') :: d => if (k =? k')%string then (k, v) :: d else (k', v') :: dict_set k v d
  end.
(** [pd.DataFrame(Xi[:-1, 2:], columns=varnames)], lines 240, 258: the number of columns must match *)
Definition measurements (varnames : list string) (X : table) : res frame :=
  if (t_cols X - 2 =? List.length varnames)%nat then Ok {| f_columns := varnames; f_rows := map (skipn 2) (removelast (t_rows X)) |}
  else Err ValueError.
(** the dict comprehensions, lines 239-242 and 257-260 *)
Fixpoint build_data (varnames : list string) (names : list string) (Xs : list table) (d : list (string * frame)) : res (list (string * frame)) :=
  match names, Xs with
  | name :: names, X :: Xs => let* F := measurements varnames X in build_data varnames names Xs (dict_set name F d)
  | _, _ => Ok d
  end.
(** lines 248-253 and 266-272 for the [i]-th name; [faults] is None for the training data *)
Definition metadata (Xs : list table) (faults : option (list string)) (i : nat) (name : string) : res meta :=
  match nth_error Xs i with
  | None => Err IndexError
  | Some X =>
      if (t_cols X <? 2)%nat then Err IndexError
      else
        let* experiment := int (take 2 name) in
        let* sample := int (drop 2 name) in
        match faults with
        | None => Ok {| m_rows := map (firstn 2) (removelast (t_rows X)); m_experiment := experiment; m_sample := sample; m_fault := None |}
        | Some fs => match nth_error fs i with
            | None => Err IndexError
            | Some f => Ok {| m_rows := map (firstn 2) (removelast (t_rows X)); m_experiment := experiment; m_sample := sample; m_fault := Some f |}
            end
        end
  end.
(** the loops, lines 243-253 and 261-272 *)
Fixpoint build_meta (Xs : list table) (faults : option (list string)) (i : nat) (names : list string) (d : list (string * meta))
  : res (list (string * meta)) :=
  match names with
  | [] => Ok d
  | name :: names => let* m := metadata Xs faults i name in build_meta Xs faults (S i) names (dict_set name m d)
  end.
(** lines 238-253, and 256-272 *)
Definition prepare (varnames names : list string) (Xs : list table) (faults : option (list string))
  : res (list (string * frame) * list (string * meta)) :=
  let* data := build_data varnames (map sample_name names) Xs [] in
  let* md := build_meta Xs faults 0 (map fst data) [] in
  Ok (data, md).
(** lines 234-274 *)
Definition machine_data (L : lamdata) : res ((list (string * frame) * list (string * meta)) * (list (string * frame) * list (string * meta))) :=
  let varnames := skipn 2 (l_variables L) in (* line 235 *)
  let* train := prepare varnames (l_calib_names L) (l_calibration L) None in
  let* test := prepare varnames (l_test_names L) (l_test L) (Some (l_fault_names L)) in
  Ok (train, test).
(** the whole function: load the files (lines 229-231), then lines 232-274 *)
Definition get_semiconductor_etch_machine_data (loadmat : list byte -> res value) (to_lamdata : value -> res lamdata)
    (download_data save_data : bool) (e : env byte) (w : world byte) :=
  let (r, w') := exec e (get_semiconductor_etch_raw_data loadmat download_data save_data) w in
  (let* files := r in
   let* v := match find (fun fv => (fst fv =? "MACHINE_Data.mat")%string) files with Some fv => Ok (snd fv) | None => Err KeyError end in
   let* L := to_lamdata v in
   machine_data L, w').

End EtchMachine.
Arguments table : clear implicits. Arguments lamdata : clear implicits. Arguments frame : clear implicits. Arguments meta : clear implicits.
