(** Specification vocabulary for class linearisation and docstring inheritance (C47, C48).
    Nothing here refers to the algorithm in DocUtils.v, only to the description of classes. *)
From Coq Require Import List Arith Bool String.
From Verif Require Import Num DocUtils.
Import ListNotations.

(** [x] comes before [y] in [l]. *)
Definition precedes (l : list cls) (x y : cls) : Prop := exists l1 l2 l3, l = l1 ++ x :: l2 ++ y :: l3.

(** A duplicate-free ordering of all members of the lists that keeps the order of each list. *)
Definition linearisation (lists : list (list cls)) (l : list cls) : Prop :=
  NoDup l /\ (forall x, In x l <-> exists s, In s lists /\ In x s) /\
  (forall s x y, In s lists -> precedes s x y -> precedes l x y).

(** [x] is the first member of [s] that is not in [done]. *)
Definition next_of (s done : list cls) (x : cls) : Prop :=
  exists s1 s2, s = s1 ++ x :: s2 /\ (forall z, In z s1 -> In z done) /\ ~ In x done.
(** Something that is not in [done] must still come before [x]. *)
Definition must_wait (lists : list (list cls)) (done : list cls) (x : cls) : Prop :=
  exists s z, In s lists /\ precedes s z x /\ ~ In z done.
(** The C3 rule: each class in the result comes from the earliest list whose next member does not
    have to wait. *)
Definition c3 (lists : list (list cls)) (l : list cls) : Prop :=
  linearisation lists l /\
  forall done x rest, l = done ++ x :: rest ->
    exists earlier s later, lists = earlier ++ s :: later /\ next_of s done x /\
      ~ must_wait lists done x /\
      forall s', In s' earlier -> forall y, next_of s' done y -> must_wait lists done y.

(** The lists that C3 merges for a class with the given bases. *)
Definition merged (w : world) (bases : list cls) : list (list cls) := map (w_mro w) bases ++ [bases].

(** The class hierarchies that can arise: start from [object] (class 0) and add classes with
    existing bases one at a time; Python refuses bases that C3 cannot order. *)
Definition object_world (dict meta : string -> option attr) : world :=
  World 1 (fun _ => [0%nat]) (fun _ => dict) (fun _ => meta).
Inductive created : world -> Prop :=
  | created_object dict meta : created (object_world dict meta)
  | created_class w bases order dict meta :
      created w -> (forall b, In b bases -> (b < w_count w)%nat) ->
      c3 (merged w (match bases with [] => [0%nat] | _ => bases end)) order ->
      created (add_class w order dict meta).

(** [c] is the first class of [m] that defines [n] in its own body, with value [a]. *)
Definition nearest (w : world) (m : list cls) (n : string) (a : attr) : Prop :=
  exists l1 c l2, m = l1 ++ c :: l2 /\ w_dict w c n = Some a /\ forall c', In c' l1 -> w_dict w c' n = None.
(** No class of [m] defines [n]. *)
Definition undefined (w : world) (m : list cls) (n : string) : Prop := forall c, In c m -> w_dict w c n = None.
(** The metaclasses of the classes in [m] have no attribute [n]. *)
Definition not_on_metaclass (w : world) (m : list cls) (n : string) : Prop := forall c, In c m -> w_meta w c n = None.
(** What looking up attribute [n] on class [c] gives in Python. *)
Definition reaches (w : world) (c : cls) (n : string) (a : attr) : Prop :=
  nearest w (w_mro w c) n a \/ (undefined w (w_mro w c) n /\ w_meta w c n = Some a).
(** [d] is the docstring of attribute [n] of the first class in [m] that has such an attribute,
    defined there or inherited (attributes that are None do not count). *)
Definition first_having (w : world) (m : list cls) (n : string) (d : option string) : Prop :=
  exists l1 c l2, m = l1 ++ c :: l2 /\ reaches w c n (AObj d) /\ forall c', In c' l1 -> forall a, reaches w c' n a -> a = ANone.

(** The name a statement binds. *)
Definition binds (s : stmt) : string := match s with SDef n _ _ => n | SBind n _ => n end.
(** [s] is the statement of the body that determines what the class maps [n] to. *)
Definition last_binding (body : list stmt) (n : string) (s : stmt) : Prop :=
  exists b1 b2, body = b1 ++ s :: b2 /\ binds s = n /\ forall s', In s' b2 -> binds s' <> n.
