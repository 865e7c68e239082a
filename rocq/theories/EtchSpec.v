(** Specification vocabulary for the etch machine data (C56). *)
From Coq Require Import List String Arith ZArith Bool.
From Verif Require Import Num DataCache EtchMachine.
Import ListNotations.

Section EtchSpec.
Context {entry : Type} (int : string -> res Z).
Notation table := (table entry). Notation frame := (frame entry). Notation meta := (meta entry).

(** Tables with the same number of rows, side by side. *)
Definition glued (a b : list (list entry)) : list (list entry) := map (fun p => (fst p ++ snd p)%list) (combine a b).
(** [text.split(".")[0][1:]]: the part before the first dot, or everything, without its first letter; the first
    two characters; the others. *)
Definition sample_id (file : string) : string :=
  match String.index 0 "." file with
  | Some n => String.substring 1 (n - 1) file
  | None => String.substring 1 (String.length file - 1) file
  end.
Definition first_two (s : string) : string := String.substring 0 2 s.
Definition from_third (s : string) : string := String.substring 2 (String.length s - 2) s.
(** The file names, up to the first dot and without the first letter, differ. *)
Definition distinct (names : list string) : Prop := NoDup (map sample_id names).
(** The measurements [F] and the metadata [m] (two columns, and the numbers below) are those of the sample with array [X], name [name] (such as
    2901: experiment 29, sample 1) and the given fault. *)
Definition describes (vars : list string) (name : string) (X : table) (fault : option string) (F : frame) (m : meta) : Prop :=
  f_columns F = vars /\ List.length (m_rows m) = List.length (f_rows F) /\ glued (m_rows m) (f_rows F) = removelast (t_rows X) /\
  ((forall row, In row (t_rows X) -> 2 <= List.length row)%nat -> forall row, In row (m_rows m) -> List.length row = 2%nat) /\
  int (first_two name) = Ok (m_experiment m) /\ int (from_third name) = Ok (m_sample m) /\ m_fault m = fault.
(** The two dictionaries have one entry for every sample, in order, describing that sample. *)
Definition aligned (vars names : list string) (Xs : list table) (faults : option (list string)) (data : list (string * frame)) (md : list (string * meta)) : Prop :=
  List.length data = Nat.min (List.length names) (List.length Xs) /\ List.length md = List.length data /\
  forall i name X, nth_error names i = Some name -> nth_error Xs i = Some X ->
    exists F m fault, nth_error data i = Some (sample_id name, F) /\ nth_error md i = Some (sample_id name, m) /\
      describes vars (sample_id name) X fault F m /\
      match faults with None => fault = None | Some l => exists x, nth_error l i = Some x /\ fault = Some x end.
End EtchSpec.
