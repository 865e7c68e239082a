(** Specification vocabulary for the cache of the etch data (C45, C46, C55). *)
From Coq Require Import List String Arith ZArith Bool.
From Verif Require Import Num DataCache.
Import ListNotations.
Local Open Scope string_scope.

(** The three files, in the order in which they are loaded, and where they are served. *)
Definition etch_files : list string := ["MACHINE_Data.mat"; "OES_DATA.mat"; "RFM_DATA.mat"].
Definition url_of (f : string) : string := "http://eigenvector.com/data/Etch/" ++ f.

Section CacheSpec.
Context {byte value : Type} (loadmat : list byte -> res value).
Notation world := (world byte). Notation env := (env byte).

(** The file has content [c], or does not exist. *)
Definition local (w : world) (f : string) (c : list byte) : Prop := w_files w f = Some c.
Definition absent (w : world) (f : string) : Prop := w_files w f = None.
(** At some time the server answers a request for the file with status 200 and content [c]. *)
Definition served (e : env) (f : string) (c : list byte) : Prop := exists t, e_net e t (url_of f) = Response 200 c.
(** [b] is a beginning of [c]. *)
Definition begins {A} (b c : list A) : Prop := exists d, c = (b ++ d)%list.
(** The files among [l] that do not exist. *)
Definition missing (w : world) (l : list string) : list string :=
  filter (fun f => match w_files w f with Some _ => false | None => true end) l.
Definition same_disk (w w' : world) : Prop := (forall f, w_files w' f = w_files w f) /\ w_dir w' = w_dir w.

(** Why loading a file can fail with an exception: its local copy is not readable; it does not exist and
    downloading is not allowed; the server cannot be reached, refuses, or sends something unreadable; the
    disk fails while the file is saved. *)
Definition reason (e : env) (dl sv : bool) (f : string) (x : exn) (w : world) : Prop :=
  (exists c, local w f c /\ loadmat c = Err x) \/
  (absent w f /\ dl = false /\ x = RuntimeError) \/
  (absent w f /\ dl = true /\ ((exists t, e_net e t (url_of f) = Unreachable) /\ x = OSError \/
     (exists t s c, e_net e t (url_of f) = Response s c /\ s <> 200%Z) /\ x = RuntimeError \/
     sv = true /\ x = OSError /\ (exists t, e_fault e t = true) \/
     exists c, served e f c /\ loadmat c = Err x)).
(** A server that answers every request for the file with status 200 and a readable content. *)
Definition serves (e : env) (f : string) : Prop := forall t, exists c v, e_net e t (url_of f) = Response 200 c /\ loadmat c = Ok v.
Definition reliable_disk (e : env) : Prop := forall t, e_fault e t = false.

(** The worlds that any sequence of calls, each complete or interrupted anywhere and meeting any server
    and disk behaviour, can lead to. *)
Inductive later : world -> world -> Prop :=
| later_now w : later w w
| later_call w w1 e dl sv : later w w1 -> later w (snd (exec e (get_semiconductor_etch_raw_data loadmat dl sv) w1))
| later_interrupted w w1 e n dl sv : later w w1 -> later w (crash e n (get_semiconductor_etch_raw_data loadmat dl sv) w1).
End CacheSpec.
