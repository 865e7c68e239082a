(** Model of src/matcouply/_doc_utils.py: C3 linearisation and docstring inheritance.

    Classes are identified by numbers, compared by identity (as classes are unless a metaclass
    overrides __eq__) and count as true (as classes do unless a metaclass overrides __bool__ or
    __len__). *)
From Coq Require Import List Arith Bool String.
From Verif Require Import Num.
Import ListNotations.

Definition cls := nat.

(** The value of a class attribute as far as this module can tell: None, or an object with a
    docstring (fn.__doc__, None when there is none). *)
Inductive attr := ANone | AObj (doc : option string).

(** The classes that exist: [__mro__], the attributes defined in the class itself ([__dict__]) and
    those found on its metaclass (type.__mro__, ABCMeta.register, ...). *)
Record world := World { w_count : nat; w_mro : cls -> list cls;
                        w_dict : cls -> string -> option attr; w_meta : cls -> string -> option attr }.

(** ** mro, lines 9-40 *)
(** [candidate in s[1:]], line 28 *)
Definition in_tail (c : cls) (s : list cls) : bool := existsb (Nat.eqb c) (tl s).
(** lines 26-33: the first head that is in no tail *)
Fixpoint find_candidate (non_empty todo : list (list cls)) : option cls :=
  match todo with
  | [] => None
  | seq :: todo' =>
      match seq with
      | [] => None (* not reached: the lists in non_empty are not empty *)
      | candidate :: _ =>
          let not_head := filter (in_tail candidate) non_empty in
          match not_head with
          | [] => Some candidate
          | _ => find_candidate non_empty todo'
          end
      end
  end.
(** lines 37-40: [if seq[0] == candidate: del seq[0]] (on an empty list nothing is deleted: those
    are not in non_empty) *)
Definition drop_head (c : cls) (s : list cls) : list cls :=
  match s with h :: t => if (h =? c)%nat then t else s | [] => [] end.
Definition is_empty (s : list cls) : bool := match s with [] => true | _ => false end.
(** lines 21-40: [while True] *)
Fixpoint mro_loop (fuel : nat) (seqs : list (list cls)) (res : list cls) : Num.res (list cls) :=
  match fuel with
  | O => Err OutOfFuel
  | S fuel' =>
      let non_empty := filter (fun s => negb (is_empty s)) seqs in
      match non_empty with
      | [] => Ok res
      | _ =>
          match find_candidate non_empty non_empty with
          | None => Err TypeError
          | Some candidate => mro_loop fuel' (map (drop_head candidate) seqs) (res ++ [candidate])
          end
      end
  end.
Definition total_length (seqs : list (list cls)) : nat := list_sum (map (@List.length cls) seqs).
(** lines 9-20 *)
Definition mro (w : world) (bases : list cls) : res (list cls) :=
  let seqs := map (w_mro w) bases ++ [bases] in
  mro_loop (S (total_length seqs)) seqs [].

(** ** Attribute look-up: getattr(cls, name, None) of the Python language, first along
    cls.__mro__, then on the metaclass *)
Fixpoint lookup (w : world) (l : list cls) (n : string) : option attr :=
  match l with
  | [] => None
  | c :: l' => match w_dict w c n with Some a => Some a | None => lookup w l' n end
  end.
Definition getattr (w : world) (c : cls) (n : string) : option attr :=
  match lookup w (w_mro w c) n with Some a => Some a | None => w_meta w c n end.

(** ** _copy_ancestor_docstring, lines 55-71: returns the docstring set on [fn] *)
Fixpoint search_doc (w : world) (m : list cls) (n : string) : res (option string) :=
  match m with
  | [] => Err RuntimeError (* lines 68-69 *)
  | c :: m' =>
      match getattr w c n with
      | None | Some ANone => search_doc w m' n (* lines 63-65 *)
      | Some (AObj doc) => Ok doc (* lines 66-67 *)
      end
  end.
Definition copy_ancestor (w : world) (m : list cls) (n : string) (doc : option string) : res (option string) :=
  match doc with
  | Some _ => Err RuntimeError (* lines 58-59 *)
  | None => search_doc w m n
  end.

(** ** InheritableDocstrings, lines 74-102 *)
Definition decorator_name : string := "copy_ancestor_docstring".
(** What a class namespace maps names to: the injected decorator (line 80) or anything else. *)
Inductive nsval := VDecorator (m : list cls) | VAttr (a : attr).
Definition namespace := list (string * nsval).
Fixpoint ns_get (ns : namespace) (n : string) : option nsval :=
  match ns with [] => None | (k, v) :: ns' => if String.eqb k n then Some v else ns_get ns' n end.
(** The statements of a class body this module cares about: a function definition (with or without
    [@copy_ancestor_docstring]) and any other binding of a name. *)
Inductive stmt := SDef (n : string) (doc : option string) (inherit : bool) | SBind (n : string) (a : attr).
Definition run_stmt (w : world) (ns : namespace) (s : stmt) : res namespace :=
  match s with
  | SDef n doc false => Ok ((n, VAttr (AObj doc)) :: ns)
  | SDef n doc true =>
      match ns_get ns decorator_name with
      | Some (VDecorator m) => let* d := copy_ancestor w m n doc in Ok ((n, VAttr (AObj d)) :: ns)
      | Some (VAttr _) => Err NotModelled (* the body has rebound the decorator's name and calls that *)
      | None => Err RuntimeError (* the module-level decorator, lines 46-52 *)
      end
  | SBind n a => Ok ((n, VAttr a) :: ns)
  end.
Fixpoint run_body (w : world) (ns : namespace) (body : list stmt) : res namespace :=
  match body with [] => Ok ns | s :: b => let* ns' := run_stmt w ns s in run_body w ns' b end.
(** lines 84-102: __new__ refuses a rebound decorator and removes it from the namespace *)
Definition check_decorator (ns : namespace) : res namespace :=
  match ns_get ns decorator_name with
  | Some (VDecorator _) => Ok (filter (fun kv => negb (String.eqb (fst kv) decorator_name)) ns)
  | Some (VAttr _) => Err RuntimeError
  | None => Ok ns
  end.
Definition ns_attr (ns : namespace) (n : string) : option attr :=
  match ns_get ns n with Some (VAttr a) => Some a | _ => None end.
(** Python's [type.__new__] makes the class; [order] is the linearisation it computes for the
    bases (object when there are none), see [created] in DocSpec.v. *)
Definition add_class (w : world) (order : list cls) (dict : string -> option attr) (meta : string -> option attr) : world :=
  let k := w_count w in
  World (S k) (fun c => if (c =? k)%nat then k :: order else w_mro w c)
        (fun c => if (c =? k)%nat then dict else w_dict w c)
        (fun c => if (c =? k)%nat then meta else w_meta w c).
(** A class statement with metaclass InheritableDocstrings: __prepare__ (lines 75-82), the body,
    __new__ (lines 84-102). *)
Definition class_statement (w : world) (bases : list cls) (body : list stmt) : res namespace :=
  let* m := mro w bases in
  let* ns := run_body w [(decorator_name, VDecorator m)] body in
  check_decorator ns.
