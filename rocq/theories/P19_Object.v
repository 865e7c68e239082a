(** C60: a factorization unpacks to what it was built from, and can be built again from
    its parts. *)
From Coq Require Import Lia List Arith Bool ZArith QArith.
From Verif Require Import Num Numpy CoupledMatrices CmfObject.
Import ListNotations.
Local Open Scope nat_scope.

Section Object.
Context {N : Num}.

(** Unpacking [weights, (A, B_is, C) = f], indexing and [len] agree with each other and with
    the value handed to the constructor. *)
Theorem C60_unpack (x : pyobj) f : construct x = Ok f -> exists w fs A Bs C,
  py_iter x = Ok [w; fs] /\ py_iter fs = Ok [A; Bs; C] /\
  iter f = [w; fs] /\ getitem f 0 = Ok w /\ getitem f 1 = Ok fs /\ len f = length (iter f) /\
  (forall i, (i < 0 \/ 2 <= i)%Z -> getitem f i = Err IndexError) /\
  (forall n, 2 <= n -> index_loop f 0 n = iter f).
Proof.
  intros H. unfold construct in H. destruct (validate_cmf x) as [[sh r]|] eqn:V; [|discriminate]. cbn [bind] in H.
  unfold validate_cmf in V. unfold unpack2 in *. destruct (py_iter x) as [l|] eqn:E1; [|discriminate]. cbn [bind] in *.
  destruct l as [|w [|fs [|? ?]]]; try discriminate. cbn [bind] in *. injection H as <-.
  unfold unpack3 in V. destruct (py_iter fs) as [l|] eqn:E2; [|discriminate]. cbn [bind] in V. destruct l as [|A [|Bs [|C [|? ?]]]]; try discriminate.
  exists w, fs, A, Bs, C. split; [reflexivity|]. split; [exact E2|]. do 4 (split; [reflexivity|]). split.
  - intros i Hi. unfold getitem. destruct (Z.eqb_spec i 0); [lia|]. destruct (Z.eqb_spec i 1); [lia|reflexivity].
  - intros [|[|n]] Hn; try lia. cbn. destruct n; reflexivity.
Qed.
(** Building a factorization from an existing one gives an equal one: same parts, same shape,
    same rank, the same dense matrices. *)
Theorem C60_rebuild (x : pyobj) f : construct x = Ok f ->
  construct (PSeq (iter f)) = Ok f /\ cmf_init (PSeq (iter f)) = cmf_init x /\
  exists c, cmf_init x = Ok (o_shape f, o_rank f, c).
Proof.
  intros H. unfold construct in H. destruct (validate_cmf x) as [[sh r]|] eqn:V; [|discriminate]. cbn [bind] in H.
  assert (U : exists w fs, unpack2 x = Ok (w, fs) /\ f = CmfObj w fs sh r).
  { destruct (unpack2 x) as [[w fs]|]; [|discriminate]. cbn [bind] in H. injection H as <-. eauto. }
  destruct U as (w & fs & U & ->). clear H. assert (U' : unpack2 (PSeq [w; fs]) = Ok (w, fs)) by reflexivity.
  assert (V' : validate_cmf (PSeq [w; fs]) = validate_cmf x) by (unfold validate_cmf; now rewrite U, U').
  unfold iter. cbn [o_weights o_factors o_shape o_rank]. unfold construct, cmf_init. rewrite V', V, U, U'. cbn [bind].
  split; [reflexivity|]. split; [reflexivity|].
  unfold validate_cmf in V. rewrite U in V. cbn [bind] in V. destruct (unpack3 fs) as [[[A Bs] C]|]; [|discriminate]. cbn [bind] in V |- *.
  destruct (weights_shape w); [|discriminate]. cbn [bind] in V. destruct (matrix_shape A) as [[nI rk]|]; [|discriminate]. cbn [bind] in V.
  destruct (matrix_shape C) as [[K rC]|]; [|discriminate]. cbn [bind] in V. destruct (negb (rC =? rk)); [discriminate|].
  destruct (py_iter Bs); [|discriminate]. cbn [bind]. eauto.
Qed.
End Object.
Print Assumptions C60_unpack.
Print Assumptions C60_rebuild.

(** Two matrices, rank 2, weights. *)
Example ex_object : exists f, construct (N:=QNum)
    (PSeq (N:=QNum) [PArr (N:=QNum) [2] [3; 1]%Q; PSeq (N:=QNum) [PArr (N:=QNum) [2; 2] [1; 2; 3; 4]%Q; PSeq (N:=QNum) [PArr (N:=QNum) [1; 2] [5; 6]%Q; PArr (N:=QNum) [3; 2] [1; 0; 0; 1; 1; 1]%Q]; PArr (N:=QNum) [1; 2] [7; 8]%Q]]) = Ok f /\
  o_shape f = [(1, 1); (3, 1)] /\ o_rank f = 2.
Proof. eexists. split; [vm_compute; reflexivity|]. split; reflexivity. Qed.
