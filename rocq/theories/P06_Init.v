(** Properties of the initialisation of auxiliary and dual variables. *)
From Coq Require Import Reals Lra Lia List Arith Bool ZArith.
From Verif Require Import Num Numpy RFacts Spec SpecFacts MatFacts ModelSpec Penalties PenaltySpec CoupledMatrices CmfSpec CmfProofs Decomp DecompSpec
  DecompFacts InitVars InitSpec InitProofs.
Import ListNotations.
Local Open Scope R_scope.


(** Whatever initialiser a penalty has: a result is of the kind and shape the mode
    needs, and PARAFAC2 penalties, and no others, get a pair of bases and coordinates. *)
Theorem C17_init_aux_shapes : forall rnd given o (Xs : list matR) rank mode pos v pos',
  init_aux rnd given o Xs rank mode pos = Ok (v, pos') ->
  exists r m, rank = PyInt r /\ mode = PyInt m /\ fits_mode Xs (Z.to_nat r) m v /\ (is_pair v <-> is_parafac2 (o_pen o)).
Proof.
  intros rnd given o Xs rank mode pos v pos' H. unfold init_aux in H.
  assert (CO : init_common rnd (o_aux o) Xs rank mode pos = Ok (v, pos') -> exists r m, rank = PyInt r /\ mode = PyInt m /\ fits_mode Xs (Z.to_nat r) m v /\ ~ is_pair v).
  { intros K. destruct rank as [r|]; [|discriminate]. destruct mode as [m|]; [|discriminate]. exists r, m.
    destruct (init_common_fits _ _ _ _ _ _ _ _ K). auto. }
  destruct o as [p a d]. cbn [o_pen o_aux] in *.
  destruct p; try (destruct (CO H) as (r & m & -> & -> & F & NP); exists r, m; cbn [is_parafac2]; tauto).
  unfold pf2_init_aux in H. destruct a as [s| | |l|] eqn:EA; try discriminate H;
    (destruct rank as [r|]; [|discriminate H]); (destruct mode as [m|]; [|discriminate H]); rewrite <- EA in *; clear EA;
    exists r, m; (split; [reflexivity|]); (split; [reflexivity|]);
    match goal with |- fits_mode _ _ _ _ /\ _ => idtac end.
  - assert (K : pf2_init_aux rnd given (IStr s) Xs (PyInt r) (PyInt m) pos = Ok (v, pos')) by exact H.
    destruct (pf2_init_fits _ _ _ _ _ _ _ _ _ K). cbn [is_parafac2]. tauto.
  - assert (K : pf2_init_aux rnd given (ITuple l) Xs (PyInt r) (PyInt m) pos = Ok (v, pos')) by exact H.
    destruct (pf2_init_fits _ _ _ _ _ _ _ _ _ K). cbn [is_parafac2]. tauto.
Qed.

Theorem C17_init_dual_shapes : forall rnd o (Xs : list matR) rank mode pos v pos',
  init_dual rnd o Xs rank mode pos = Ok (v, pos') ->
  exists r m, rank = PyInt r /\ mode = PyInt m /\ fits_mode Xs (Z.to_nat r) m v /\ ~ is_pair v.
Proof.
  intros rnd o Xs rank mode pos v pos' H. unfold init_dual in H. destruct rank as [r|]; [|discriminate]. destruct mode as [m|]; [|discriminate].
  exists r, m. destruct (init_common_fits _ _ _ _ _ _ _ _ H). auto.
Qed.

(** Given variables are accepted exactly when they have the right kind and shape for
    the mode, are then returned entry by entry, and no random numbers are consumed. *)
Theorem C17_given_tensor : forall rnd given o sh d (Xs : list matR) rank mode pos v pos',
  ~ is_parafac2 (o_pen o) -> o_aux o = ITensor sh d ->
  (init_aux rnd given o Xs (PyInt rank) (PyInt mode) pos = Ok (v, pos') <->
   good_tensor Xs rank mode sh /\ pos' = pos /\ v = VMat (arr_mat (PArr sh d))).
Proof.
  intros rnd given o sh d Xs rank mode pos v pos' NP E. unfold init_aux. rewrite E.
  destruct (o_pen o); try (cbn in NP; tauto); rewrite init_tensor_iff; tauto.
Qed.
Theorem C17_given_list : forall rnd given o l (Xs : list matR) rank mode pos v pos',
  ~ is_parafac2 (o_pen o) -> o_aux o = IList l ->
  (init_aux rnd given o Xs (PyInt rank) (PyInt mode) pos = Ok (v, pos') <->
   good_list Xs rank mode l /\ pos' = pos /\ v = VMats (AList (map arr_mat l))).
Proof.
  intros rnd given o l Xs rank mode pos v pos' NP E. unfold init_aux. rewrite E.
  destruct (o_pen o); try (cbn in NP; tauto); rewrite init_list_iff; tauto.
Qed.
Theorem C17_given_pair : forall rnd given o l (Xs : list matR) rank mode pos v pos',
  is_parafac2 (o_pen o) -> o_aux o = ITuple l ->
  (init_aux rnd given o Xs (PyInt rank) (PyInt mode) pos = Ok (v, pos') <->
   good_pair Xs rank mode l /\ pos' = pos /\ exists basis c, l = [PSeq basis; c] /\ v = VMats (APf2 (map arr_mat basis) (arr_mat c))).
Proof.
  intros rnd given o l Xs rank mode pos v pos' NP E. unfold init_aux. rewrite E.
  destruct (o_pen o); try (cbn in NP; tauto). rewrite init_pair_iff. tauto.
Qed.
Theorem C17_given_dual : forall rnd o (Xs : list matR) rank mode pos v pos',
  match o_dual o with
  | ITensor sh d => init_dual rnd o Xs (PyInt rank) (PyInt mode) pos = Ok (v, pos') <->
      good_tensor Xs rank mode sh /\ pos' = pos /\ v = VMat (arr_mat (PArr sh d))
  | IList l => init_dual rnd o Xs (PyInt rank) (PyInt mode) pos = Ok (v, pos') <->
      good_list Xs rank mode l /\ pos' = pos /\ v = VMats (AList (map arr_mat l))
  | ITuple _ | IOther => ~ init_dual rnd o Xs (PyInt rank) (PyInt mode) pos = Ok (v, pos')
  | IStr _ => True
  end.
Proof.
  intros rnd o Xs rank mode pos v pos'. unfold init_dual. destruct (o_dual o) as [s|sh d|l|l|]; auto.
  - rewrite init_tensor_iff. tauto.
  - rewrite init_list_iff. tauto.
  - cbn. destruct (negb _); discriminate.
  - cbn. destruct (negb _); discriminate.
Qed.
(** the matrix returned for a given tensor has the tensor's entries *)
Theorem C17_given_entries : forall (r c : nat) (d : list R),
  let M := arr_mat (N:=RNum) (PArr [r; c] d) in shaped M r c /\ entries_of M r c d.
Proof. intros r c d M. split; [apply arr_mat_shaped|apply arr_mat_entries]. Qed.
(** Kinds that no mode accepts. *)
Theorem C17_wrong_kind : forall rnd given o (Xs : list matR) rank mode pos v pos',
  match o_aux o with
  | ITensor _ _ | IList _ => is_parafac2 (o_pen o)
  | ITuple _ => ~ is_parafac2 (o_pen o)
  | IOther | IStr UnknownName => True
  | IStr _ => False
  end -> init_aux rnd given o Xs rank mode pos <> Ok (v, pos').
Proof.
  intros rnd given o Xs rank mode pos v pos'. unfold init_aux. destruct o as [p a d]. cbn [o_pen o_aux].
  destruct p, a as [[]| | | |]; cbn [is_parafac2]; intros HH K; try tauto; try discriminate K;
  unfold init_common, pf2_init_aux in K; destruct rank; try discriminate K; destruct mode; try discriminate K; destruct (negb _); discriminate K.
Qed.

(** Errors: TypeError and ValueError, except AttributeError for list elements that are
    not tensors (plain penalties) and for PARAFAC2 without a random state. *)
Theorem C17_errors : forall rnd given o (Xs : list matR) rank mode pos e, Xs <> [] ->
  init_aux rnd given o Xs rank mode pos = Err e ->
  e = TypeError \/ e = ValueError \/ (e = AttributeError /\ ((exists l, o_aux o = IList l) \/ given = false)).
Proof.
  intros rnd given o Xs rank mode pos e NE H. unfold init_aux in H.
  assert (CO : init_common rnd (o_aux o) Xs rank mode pos = Err e -> e = TypeError \/ e = ValueError \/ (e = AttributeError /\ ((exists l, o_aux o = IList l) \/ given = false))).
  { intros K. apply init_common_err in K; [|assumption]. tauto. }
  destruct (o_pen o); try (exact (CO H)). clear CO.
  assert (CB : forall r l Xs0 e0, check_bases (N:=RNum) r Xs0 l = Err e0 -> e0 = TypeError \/ e0 = ValueError).
  { intros r l Xs0. revert l. induction Xs0 as [|X Xs0 IH]; intros [|b l] e0 K; try discriminate K. cbn [check_bases] in K.
    destruct (check_basis r X b) as [[]|e1] eqn:E; cbn [bind] in K; [eauto|]. injection K as <-. unfold check_basis in E.
    destruct b as [| |[|? [|? [|]]] ?|?]; try (injection E as <-; auto).
    destruct (_ || _)%bool; [injection E as <-; auto|]. destruct (nltb _ _); [discriminate|injection E as <-; auto]. }
  assert (EY : forall l r e0, mapM (fun X => eye (N:=RNum) (mr X) r) l = Err e0 -> e0 = ValueError).
  { intros l r. induction l as [|X l IH]; intros e0 K; cbn in K; [discriminate|]. unfold eye at 1 in K. destruct (r <? 0)%Z; cbn in K; [injection K as <-; auto|].
    destruct (mapM _ l) eqn:E; cbn in K; [discriminate|]. injection K as <-. eauto. }
  unfold pf2_init_aux in H. destruct (o_aux o) as [s| | |l|]; try (injection H as <-; auto; fail);
    (destruct rank as [r|]; [|injection H as <-; auto]); (destruct mode as [m|]; [|injection H as <-; auto]);
    (destruct (negb (m =? 1)%Z); [injection H as <-; auto|]).
  - destruct s; try (injection H as <-; auto; fail).
    1,2: destruct given; cbn [negb] in H; [|injection H as <-; auto]; unfold draw_mat in H; destruct (r <? 0)%Z eqn:Hr; cbn [bind] in H; [injection H as <-; auto|];
      destruct (mapM _ Xs) eqn:EM; cbn [bind] in H; [discriminate|injection H as <-; eauto].
    unfold zeros in H; destruct (r <? 0)%Z eqn:Hr; cbn [bind] in H; [injection H as <-; auto|];
      destruct (mapM _ Xs) eqn:EM; cbn [bind] in H; [discriminate|injection H as <-; eauto].
  - destruct l as [|b [|c [|x l]]]; try (injection H as <-; auto; fail).
    destruct b as [| |? ?|basis]; try (injection H as <-; auto; fail). destruct c as [| |sh dd|?]; try (injection H as <-; auto; fail).
    destruct sh as [|a [|b [|x sh]]]; try (injection H as <-; auto; fail).
    destruct (_ || _)%bool; [injection H as <-; auto|]. destruct (check_bases a Xs basis) as [[]|e0] eqn:E; cbn [bind] in H.
    + destruct (negb _); [injection H as <-; auto|discriminate].
    + injection H as <-. destruct (CB _ _ _ _ E); auto.
Qed.

(** The named methods always succeed on a documented mode and non-negative rank: zeros,
    or consecutive draws from the documented distribution; PARAFAC2 bases are columns of
    identity matrices. *)
Theorem C17_named_methods : forall rnd o s (Xs : list matR) rank pos, Xs <> [] -> (0 <= rank)%Z -> s <> UnknownName ->
  ~ is_parafac2 (o_pen o) -> o_aux o = IStr s -> o_dual o = IStr s ->
  forall f, f = init_aux rnd true o \/ f = init_dual rnd o ->
  (exists M p, f Xs (PyInt rank) (PyInt 0) pos = Ok (VMat M, p) /\ drawn rnd s (length Xs) (Z.to_nat rank) pos M p) /\
  (exists l p, f Xs (PyInt rank) (PyInt 1) pos = Ok (VMats (AList l), p) /\ drawn_list rnd s (map mr Xs) (Z.to_nat rank) pos l p) /\
  (exists M p, f Xs (PyInt rank) (PyInt 2) pos = Ok (VMat M, p) /\ drawn rnd s (colsX Xs) (Z.to_nat rank) pos M p).
Proof.
  intros rnd o s Xs rank pos NE Hr NU NP EA ED f Hf.
  assert (F : f = init_common rnd (IStr s)).
  { destruct Hf as [-> | ->]; unfold init_aux, init_dual; rewrite ?EA, ?ED; [|reflexivity]. destruct (o_pen o); try reflexivity. cbn in NP. tauto. }
  subst f. split; [|split].
  - exact (init_named rnd s Xs rank 0 pos NE Hr NU).
  - exact (init_named rnd s Xs rank 1 pos NE Hr NU).
  - exact (init_named rnd s Xs rank 2 pos NE Hr NU).
Qed.
Theorem C17_named_parafac2 : forall rnd o s (Xs : list matR) rank pos, (0 <= rank)%Z -> s <> UnknownName ->
  is_parafac2 (o_pen o) -> o_aux o = IStr s ->
  exists P D p, init_aux rnd true o Xs (PyInt rank) (PyInt 1) pos = Ok (VMats (APf2 P D), p) /\
    drawn rnd s (Z.to_nat rank) (Z.to_nat rank) pos D p /\ length P = length Xs /\
    forall i, (i < length Xs)%nat -> is_eye (rowsX Xs i) (Z.to_nat rank) (nthX P i).
Proof.
  intros rnd o s Xs rank pos Hr NU NP EA. unfold init_aux. rewrite EA. destruct (o_pen o); try (cbn in NP; tauto). now apply pf2_named.
Qed.

(** All penalties of all modes at once, as the fit does. *)
Theorem C17_all_penalties : forall rnd (Xs : list matR) rank rA rB rC pos a b c p,
  (initialize_aux rnd Xs rank (rA, rB, rC) pos = Ok (a, b, c, p) \/ initialize_dual rnd Xs rank (rA, rB, rC) pos = Ok (a, b, c, p)) ->
  length a = length rA /\ length b = length rB /\ length c = length rC /\
  (forall r, rank = PyInt r ->
   Forall (fits_mode Xs (Z.to_nat r) 0) a /\ Forall (fits_mode Xs (Z.to_nat r) 1) b /\ Forall (fits_mode Xs (Z.to_nat r) 2) c).
Proof.
  intros rnd Xs rank rA rB rC pos a b c p H.
  assert (F : exists f, (forall o m pos v q, f o Xs rank (PyInt m) pos = Ok (v, q) -> forall r, rank = PyInt r -> fits_mode Xs (Z.to_nat r) m v) /\
    initialize (N:=RNum) f Xs rank (rA, rB, rC) pos = Ok (a, b, c, p)).
  { destruct H as [H|H]; eexists; (split; [|exact H]); intros o m pos0 v q K r ->;
      [destruct (C17_init_aux_shapes _ _ _ _ _ _ _ _ _ K) as (r' & m' & E1 & E2 & F & _)|destruct (C17_init_dual_shapes _ _ _ _ _ _ _ _ K) as (r' & m' & E1 & E2 & F & _)];
      injection E1 as <-; injection E2 as <-; exact F. }
  destruct F as (f & Hf & K).
  destruct (initialize_Forall2 f Xs rank rA rB rC pos a b c p (fun m o v => forall r, rank = PyInt r -> fits_mode Xs (Z.to_nat r) m v) Hf K) as (FA & FB & FC).
  assert (G : forall (l : list (pobj (N:=RNum))) l' m, Forall2 (fun (o : pobj) (v : auxval) => forall r, rank = PyInt r -> fits_mode Xs (Z.to_nat r) m v) l l' ->
    length l' = length l /\ forall r, rank = PyInt r -> Forall (fits_mode Xs (Z.to_nat r) m) l').
  { intros l l' m F. induction F as [|x y l l' Hxy F IH]; [split; auto|]. destruct IH as (L & IH). split; [cbn; now rewrite L|]. intros r Hr. constructor; auto. }
  destruct (G _ _ _ FA) as (LA & GA), (G _ _ _ FB) as (LB & GB), (G _ _ _ FC) as (LC & GC).
  split; [assumption|]. split; [assumption|]. split; [assumption|]. intros r Hr. auto.
Qed.

Print Assumptions C17_init_aux_shapes.
Print Assumptions C17_init_dual_shapes.
Print Assumptions C17_given_tensor.
Print Assumptions C17_given_list.
Print Assumptions C17_given_pair.
Print Assumptions C17_given_dual.
Print Assumptions C17_given_entries.
Print Assumptions C17_wrong_kind.
Print Assumptions C17_errors.
Print Assumptions C17_named_methods.
Print Assumptions C17_named_parafac2.
Print Assumptions C17_all_penalties.

(** Two data matrices, 2 x 2 and 3 x 2, rank 1. *)
Definition iX : list matR := [mones (N:=RNum) 2 2; mones (N:=RNum) 3 2].
Example init_good_tensor : good_tensor iX 1 0 [2; 1]%nat /\ ~ good_tensor iX 1 0 [3; 1]%nat /\ good_tensor iX 1 2 [2; 1]%nat.
Proof.
  split; [|split].
  - split; [discriminate|]. exists 2%nat, 1%nat. repeat split. left. now split.
  - intros (_ & a & b & E & _ & [(_ & K)|(K & _)]); [|discriminate]. injection E as <- <-. discriminate.
  - split; [discriminate|]. exists 2%nat, 1%nat. repeat split. right. now split.
Qed.
Definition rarr (sh : list nat) (d : list R) : pyobj (N:=RNum) := PArr (N:=RNum) sh d.
Example init_good_list : good_list iX 1 1 [rarr [2; 1]%nat [0; 1]; rarr [3; 1]%nat [0; 1; 2]] /\
  ~ good_list iX 1 1 [rarr [2; 1]%nat [0; 1]].
Proof.
  split.
  - split; [reflexivity|]. split; [reflexivity|]. intros [|[|i]] Hi; [eexists 1%nat, _; split; reflexivity|eexists 1%nat, _; split; reflexivity|cbn in Hi; lia].
  - intros (_ & K & _). discriminate.
Qed.
Example init_good_pair : good_pair iX 1 1 [PSeq [rarr [2; 1]%nat [0; 1]; rarr [3; 1]%nat [0; 1; 0]]; rarr [1; 1]%nat [7]].
Proof.
  split; [reflexivity|]. exists [rarr [2; 1]%nat [0; 1]; rarr [3; 1]%nat [0; 1; 0]], 1%nat, [7].
  split; [reflexivity|]. split; [reflexivity|]. split; [reflexivity|].
  intros [|[|i]] Hi; [eexists; split; [reflexivity|]|eexists; split; [reflexivity|]|cbn in Hi; lia];
    unfold near_ortho, sumsq, Sum, vget; cbn; rn; lra.
Qed.
