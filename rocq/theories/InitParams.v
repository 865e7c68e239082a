(** The argument [init_params] of [initialize_cmf], decomposition.py:55-73: a dictionary that
    is completed in place and passed on to tensorly's decompositions. *)
From Coq Require Import List Arith Bool ZArith String.
From Verif Require Import Num Numpy Penalties CoupledMatrices Decomp InitVars Parse Fit.
Import ListNotations.

Section InitParams.
Context {N : Num}.

(** Values are integers or anything else. *)
Inductive pyval := VInt (z : Z) | VOther (n : nat).
Definition dict := list (string * pyval).
Fixpoint dict_get (d : dict) (k : string) : option pyval :=
  match d with [] => None | (k', v) :: d' => if String.eqb k k' then Some v else dict_get d' k end.
(** [d[k] = v]: a new key is added at the end *)
Fixpoint dict_set (d : dict) (k : string) (v : pyval) : dict :=
  match d with [] => [(k, v)] | (k', v') :: d' => if String.eqb k k' then (k', v) :: d' else (k', v') :: dict_set d' k v end.

(** lines 55-59, [init_params] after the defaults have been filled in *)
Definition fill_params (p : option dict) : dict :=
  let d := match p with None => [] | Some d => d end in
  match dict_get d "n_iter_max" with None => dict_set d "n_iter_max" (VInt 50) | Some _ => d end.
(** The whole function: the decompositions receive the keywords; what the caller's dictionary
    holds afterwards is returned with the result, also when the call raises. *)
Definition initialize_cmf_params (E : ext) (IE : dict -> initext) (rnd : rand) (Xs : list mat) (rank : pyint) (init : initarg) (pos : nat)
  (p : option dict) : res (cmf * nat) * option dict :=
  match init with
  | InitSeq _ | InitName MRandom | InitName MSvd | InitName MThresholdSvd =>                 (* returned before line 55 *)
      (initialize_cmf E (IE []) rnd Xs rank init pos, p)
  | InitName _ =>
      let d := fill_params p in
      (initialize_cmf E (IE d) rnd Xs rank init pos, match p with None => None | Some _ => Some d end)
  end.
End InitParams.
