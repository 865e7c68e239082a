(** Specification vocabulary for calls at the same time (C81). *)
From Coq Require Import List String Arith ZArith Bool.
From Verif Require Import Num DataCache CacheSpec DataConcurrent.
Import ListNotations.

Section ConcurrentSpec.
Context {byte value : Type} (zero : byte) (loadmat : list byte -> res value).
(** The server has one version of each file: whenever it answers with status 200, with that. *)
Definition one_version (e : env byte) (content : string -> list byte) : Prop :=
  forall t f c, In f etch_files -> e_net e t (url_of f) = Response 200 c -> c = content f.
(** The server answers every request for one of the files with status 200 and its content, which can be loaded. *)
Definition good_server (e : env byte) (content : string -> list byte) : Prop :=
  (forall t f, In f etch_files -> e_net e t (url_of f) = Response 200 (content f)) /\
  forall f, In f etch_files -> exists v, loadmat (content f) = Ok v.
Definition nothing_yet (w : world byte) : Prop := forall f, In f etch_files -> absent w f.
(** A copy in which bytes are missing at the end or replaced by zero bytes. *)
Definition damaged (b c : list byte) : Prop :=
  (List.length b <= List.length c)%nat /\ forall i x, nth_error b i = Some x -> x = zero \/ nth_error c i = Some x.
(** The program of a process has come to its end. *)
Definition ended {A} (q : proc byte A) : Prop := exists r, p_rest q = Ret r.
Definition returned {A} (q : proc byte A) (v : A) : Prop := p_rest q = Ret (Ok v).
Definition raised {A} (q : proc byte A) (x : exn) : Prop := p_rest q = Ret (Err x).
(** Calls with the given arguments [download_data], [save_data], about to start. *)
Definition calls (l : list (bool * bool)) : list (proc byte (list (string * value))) :=
  map (fun a => starting (get_semiconductor_etch_raw_data loadmat (fst a) (snd a))) l.
End ConcurrentSpec.
