(** Model of [get_semiconductor_etch_raw_data], src/matcouply/data.py:153-201: the local copies of the
    etch data.

    The function is a program over the operations it performs on its environment.  An execution may be
    stopped after any number of operations (a crash), the server may answer anything at any time and any
    write may fail.  Writing the content is modelled byte by byte, since a process that dies during
    [f.write] or before [f.close] may leave any beginning of the content in the file.  The byte type, the
    type of parsed MATLAB files and [scipy.io.loadmat] (as a function of the content) are parameters.
    Not modelled: the printed messages and the progress bar (lines 182-184, [tqdm]), a missing [requests]
    or [tqdm] module (lines 15-20), and loss of data already written (power failure).  Several processes at
    once: DataConcurrent.v. *)
From Coq Require Import List String Arith ZArith Bool.
From Verif Require Import Num.
Import ListNotations.
Local Open Scope string_scope.

Section DataCache.
Context {byte value : Type}.
Notation bytes := (list byte).

(** The answer of [requests.get], line 189: an exception (all of [requests]' are subclasses of OSError),
    or a status code and a content. *)
Inductive answer := Unreachable | Response (status : Z) (content : bytes).
(** What one call meets: the answer of the server and the failure of a disk operation at each moment. *)
Record env := { e_net : nat -> string -> answer; e_fault : nat -> bool }.
(** The directory DOWNLOADED_PARENT (line 25) and its files, the requests made so far and the time. *)
Record world := { w_files : string -> option bytes; w_dir : bool; w_log : list string; w_time : nat }.

(** Programs: the operations used by lines 184-200; [false] answers are an OSError. *)
Inductive prog (A : Type) :=
| Ret (r : res A)
| Exists (f : string) (k : bool -> prog A) (* file_path.exists(), line 186 *)
| Read (f : string) (k : option bytes -> prog A) (* loadmat(file_path) reads the file, line 187 *)
| Get (u : string) (k : answer -> prog A) (* requests.get(url), line 189 *)
| Mkdir (k : bool -> prog A) (* DOWNLOADED_PARENT.mkdir(exist_ok=True, parents=True), line 194 *)
| Open (f : string) (k : bool -> prog A) (* open(file_path, "wb"), line 195 *)
| Put (f : string) (b : byte) (k : bool -> prog A). (* one byte of f.write(request.content), line 196 *)
Arguments Ret {A}. Arguments Exists {A}. Arguments Read {A}. Arguments Get {A}. Arguments Mkdir {A}. Arguments Open {A}. Arguments Put {A}.

(** ** The effect of the operations *)
Definition tick (w : world) : world := {| w_files := w_files w; w_dir := w_dir w; w_log := w_log w; w_time := S (w_time w) |}.
Definition set_file (f : string) (c : bytes) (w : world) : world :=
  {| w_files := fun g => if (g =? f)%string then Some c else w_files w g; w_dir := w_dir w; w_log := w_log w; w_time := w_time w |}.
Definition make_dir (w : world) : world := {| w_files := w_files w; w_dir := true; w_log := w_log w; w_time := w_time w |}.
Definition request (u : string) (w : world) : world :=
  {| w_files := w_files w; w_dir := w_dir w; w_log := w_log w ++ [u]; w_time := w_time w |}.
Definition step {A} (e : env) (p : prog A) (w : world) : option (prog A * world) :=
  match p with
  | Ret _ => None
  | Exists f k => Some (k (match w_files w f with Some _ => true | None => false end), tick w)
  | Read f k => Some (k (w_files w f), tick w)
  | Get u k => Some (k (e_net e (w_time w) u), tick (request u w))
  | Mkdir k => if e_fault e (w_time w) then Some (k false, tick w) else Some (k true, tick (make_dir w))
  | Open f k => if e_fault e (w_time w) || negb (w_dir w) then Some (k false, tick w)
                else Some (k true, tick (set_file f [] w))
  | Put f b k => if e_fault e (w_time w) then Some (k false, tick w)
                 else Some (k true, tick (set_file f (match w_files w f with Some c => c ++ [b] | None => [b] end) w))
  end.
(** The world when the process dies after [n] operations (or after the last one). *)
Fixpoint crash {A} (e : env) (n : nat) (p : prog A) (w : world) : world :=
  match n with
  | O => w
  | S n => match step e p w with Some (p, w) => crash e n p w | None => w end
  end.
(** A complete execution. *)
Fixpoint exec {A} (e : env) (p : prog A) (w : world) : res A * world :=
  match p with
  | Ret r => (r, w)
  | Exists f k => exec e (k (match w_files w f with Some _ => true | None => false end)) (tick w)
  | Read f k => exec e (k (w_files w f)) (tick w)
  | Get u k => exec e (k (e_net e (w_time w) u)) (tick (request u w))
  | Mkdir k => if e_fault e (w_time w) then exec e (k false) (tick w) else exec e (k true) (tick (make_dir w))
  | Open f k => if e_fault e (w_time w) || negb (w_dir w) then exec e (k false) (tick w)
                else exec e (k true) (tick (set_file f [] w))
  | Put f b k => if e_fault e (w_time w) then exec e (k false) (tick w)
                 else exec e (k true) (tick (set_file f (match w_files w f with Some c => c ++ [b] | None => [b] end) w))
  end.

(** ** The code *)
Variable loadmat : bytes -> res value.
Fixpoint write_all {A} (f : string) (c : bytes) (k : prog A) : prog A := (* f.write(request.content), line 196 *)
  match c with
  | [] => k
  | b :: c => Put f b (fun ok => if ok then write_all f c k else Ret (Err OSError))
  end.
(** lines 193-196 *)
Definition save {A} (f : string) (c : bytes) (k : prog A) : prog A :=
  Mkdir (fun ok => if ok then Open f (fun ok => if ok then write_all f c k else Ret (Err OSError)) else Ret (Err OSError)).
(** the loop body, lines 185-200; [k] receives the value stored in the dictionary *)
Definition load_file {A} (download_data save_data : bool) (file url : string) (k : value -> prog A) : prog A :=
  Exists file (fun b =>
    if b then Read file (fun c => match c with
      | Some c => match loadmat c with Ok v => k v | Err e => Ret (Err e) end (* line 187 *)
      | None => Ret (Err OSError) end)
    else if download_data then Get url (fun a => match a with
      | Unreachable => Ret (Err OSError)
      | Response status content =>
          if negb (status =? 200)%Z then Ret (Err RuntimeError) (* lines 190-191 *)
          else let finish := match loadmat content with Ok v => k v | Err e => Ret (Err e) end in (* line 198 *)
               if save_data then save file content finish else finish
      end)
    else Ret (Err RuntimeError)). (* lines 199-200 *)
Fixpoint load_files (download_data save_data : bool) (urls : list (string * string)) (acc : list (string * value))
  : prog (list (string * value)) :=
  match urls with
  | [] => Ret (Ok acc) (* line 201 *)
  | (file, url) :: urls => load_file download_data save_data file url (fun v => load_files download_data save_data urls (acc ++ [(file, v)]))
  end.
(** lines 175-179 *)
Definition data_urls : list (string * string) :=
  [("MACHINE_Data.mat", "http://eigenvector.com/data/Etch/MACHINE_Data.mat");
   ("OES_DATA.mat", "http://eigenvector.com/data/Etch/OES_DATA.mat");
   ("RFM_DATA.mat", "http://eigenvector.com/data/Etch/RFM_DATA.mat")].
Definition get_semiconductor_etch_raw_data (download_data save_data : bool) : prog (list (string * value)) :=
  load_files download_data save_data data_urls [].

End DataCache.
Arguments answer : clear implicits. Arguments env : clear implicits. Arguments world : clear implicits. Arguments prog : clear implicits.
Arguments Ret {byte A}. Arguments Exists {byte A}. Arguments Read {byte A}. Arguments Get {byte A}. Arguments Mkdir {byte A}. Arguments Open {byte A}. Arguments Put {byte A}.
