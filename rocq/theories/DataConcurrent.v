(** Several processes that call [get_semiconductor_etch_raw_data] (src/matcouply/data.py:153-201) at the
    same time, on the same directory.  Each process is the program of DataCache.v; the processes take turns
    operation by operation, in any order, and a process that gets no more turns has died.

    The file is opened with "wb" (line 195): an existing file is cut to length zero, and every process
    writes at its own position, whatever the others did to the file meanwhile (POSIX); bytes before the
    position that are missing then read as zero bytes.  With a single process this is the appending of
    DataCache.v (C81_alone).  Not modelled: other programs that touch the directory, systems on which a
    file cannot be opened twice. *)
From Coq Require Import List String Arith ZArith Bool.
From Verif Require Import Num DataCache.
Import ListNotations.

Section Concurrent.
Context {byte : Type} (zero : byte).
Notation bytes := (list byte).
(** What is left to do, and the position in the file opened last (line 195). *)
Record proc (A : Type) := Proc { p_rest : prog byte A; p_pos : nat }.
Arguments Proc {A}. Arguments p_rest {A}. Arguments p_pos {A}.
(** One byte of f.write(request.content) at position [o], line 196. *)
Definition write_at (o : nat) (b : byte) (c : bytes) : bytes :=
  (firstn o (c ++ repeat zero (o - List.length c)) ++ b :: skipn (S o) c)%list.
(** One operation of a process (lines 184-200); all but opening and writing are those of DataCache.v. *)
Definition pstep {A} (e : env byte) (q : proc A) (w : world byte) : option (proc A * world byte) :=
  match p_rest q with
  | Open f k => if e_fault e (w_time w) || negb (w_dir w) then Some (Proc (k false) 0, tick w)
                else Some (Proc (k true) 0, tick (set_file f [] w))
  | Put f b k => if e_fault e (w_time w) then Some (Proc (k false) (p_pos q), tick w)
                 else Some (Proc (k true) (S (p_pos q)),
                            tick (set_file f (write_at (p_pos q) b (match w_files w f with Some c => c | None => [] end)) w))
  | p => match step e p w with Some (p', w') => Some (Proc p' (p_pos q), w') | None => None end
  end.
(** The processes and the disk; any process may be the next. *)
Definition system (A : Type) : Type := list (proc A) * world byte.
Definition replace {B} (i : nat) (x : B) (l : list B) : list B := (firstn i l ++ x :: skipn (S i) l)%list.
Inductive schedule {A} (e : env byte) : system A -> system A -> Prop :=
| sched_now s : schedule e s s
| sched_turn s ps w i q q' w' : schedule e s (ps, w) -> nth_error ps i = Some q -> pstep e q w = Some (q', w') ->
    schedule e s (replace i q' ps, w').
(** Processes that are about to start. *)
Definition starting {A} (p : prog byte A) : proc A := Proc p 0.
End Concurrent.
Arguments proc : clear implicits. Arguments system : clear implicits.
Arguments Proc {byte A}. Arguments p_rest {byte A}. Arguments p_pos {byte A}.
