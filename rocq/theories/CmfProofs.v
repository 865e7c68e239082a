(** Proofs about the coupled-matrix model. *)
From Coq Require Import Reals Lra Lia List Arith Bool ZArith.
From Verif Require Import Num Numpy RFacts Spec SpecFacts MatFacts PenaltySpec CoupledMatrices CmfSpec.
Import ListNotations.
Local Open Scope R_scope.

(** ** Flattening *)
Lemma concat_length_const {A} (l : list (list A)) c :
  Forall (fun r => length r = c) l -> length (concat l) = (length l * c)%nat.
Proof.
  induction 1; cbn; [reflexivity|]. rewrite app_length. lia.
Qed.
Lemma nth_concat_const {A} (l : list (list A)) c i j d d' :
  Forall (fun r => length r = c) l -> (i < length l)%nat -> (j < c)%nat ->
  nth (i * c + j) (concat l) d = nth j (nth i l d') d.
Proof.
  intros H. revert i. induction H as [|r l Hr Hl IH]; intros i Hi Hj; cbn in *; [lia|].
  destruct i as [|i].
  - cbn. rewrite app_nth1 by lia. reflexivity.
  - cbn. rewrite app_nth2 by lia. replace (c + i * c + j - length r)%nat with (i * c + j)%nat by lia.
    apply IH; lia.
Qed.
Lemma mflat_length (M : rmat) : mwf M -> length (mflat M) = (mr M * mc M)%nat.
Proof. intros (H1 & H2). unfold mflat. rewrite (concat_length_const _ (mc M)) by assumption. now rewrite H1. Qed.
Lemma mflat_nth (M : rmat) i j : mwf M -> (i < mr M)%nat -> (j < mc M)%nat ->
  vg (mflat M) (i * mc M + j) = rget M i j.
Proof.
  intros (H1 & H2) Hi Hj. unfold mflat, vget, mget. apply nth_concat_const; try assumption. now rewrite H1.
Qed.
Lemma arr_mat_of_mat (M : rmat) : mwf M -> arr_mat (py_of_mat M) = M.
Proof.
  intros H. unfold arr_mat, py_of_mat. apply mat_ext; auto with mwf. cbn. intros i j Hi Hj.
  rewrite mget_mbuild by assumption. now apply mflat_nth.
Qed.

(** ** Validation *)
Lemma validate_Bs_ok rank K (Bs : list (pyobj (N:=RNum))) shapes :
  validate_Bs rank K Bs = Ok shapes <->
  Forall2 (fun B s => exists J d, B = PArr [J; rank] d /\ s = (J, K)) Bs shapes.
Proof.
  revert shapes. induction Bs as [|B Bs IH]; intros shapes; cbn.
  - split; intros H; [injection H as <-; constructor|inversion H; reflexivity].
  - split.
    + intros H. destruct B as [| |sh d|]; cbn in H; try discriminate.
      destruct sh as [|J [|c [|]]]; cbn in H; try discriminate.
      destruct (Nat.eqb_spec c rank) as [->|]; cbn in H; [|discriminate].
      destruct (validate_Bs rank K Bs) eqn:E; cbn in H; [|discriminate]. injection H as <-.
      constructor; [eauto|]. now apply IH.
    + intros H. inversion H as [|? ? ? ? (J & d & -> & ->) H2]; subst. cbn.
      rewrite Nat.eqb_refl. cbn. apply IH in H2. rewrite H2. reflexivity.
Qed.
Lemma validate_Bs_err rank K (Bs : list (pyobj (N:=RNum))) e :
  validate_Bs rank K Bs = Err e -> e = TypeError \/ e = ValueError.
Proof.
  induction Bs as [|B Bs IH]; cbn; [discriminate|].
  destruct B as [| |sh d|]; cbn; try (intros H; injection H; auto).
  destruct sh as [|J [|c [|]]]; cbn; try (intros H; injection H; auto).
  destruct (c =? rank)%nat; cbn; [|intros H; injection H; auto].
  destruct (validate_Bs rank K Bs); cbn; [discriminate|]. intros H; injection H as ->. auto.
Qed.
Lemma matrix_shape_ok (o : pyobj (N:=RNum)) r c : matrix_shape o = Ok (r, c) <-> exists d, o = PArr [r; c] d.
Proof.
  split.
  - destruct o as [| |sh d|]; cbn; try discriminate. destruct sh as [|a [|b [|]]]; try discriminate.
    intros H; injection H as -> ->. eauto.
  - intros (d & ->). reflexivity.
Qed.
Lemma matrix_shape_err (o : pyobj (N:=RNum)) e : matrix_shape o = Err e -> e = TypeError \/ e = ValueError.
Proof.
  destruct o as [| |sh d|]; cbn; try (intros H; injection H; auto).
  destruct sh as [|a [|b [|]]]; intros H; try discriminate; injection H; auto.
Qed.
Lemma py_iter_err (o : pyobj (N:=RNum)) e : py_iter o = Err e -> e = TypeError.
Proof.
  destruct o as [| |sh d|]; cbn; try (intros H; injection H; auto).
  - destruct sh as [|a [|b t]]; intros H; try discriminate; injection H; auto.
  - discriminate.
Qed.
Lemma unpack2_err (o : pyobj (N:=RNum)) e : unpack2 o = Err e -> e = TypeError \/ e = ValueError.
Proof.
  unfold unpack2. destruct (py_iter o) eqn:E; cbn.
  - destruct a as [|? [|? [|]]]; intros H; try discriminate; injection H; auto.
  - intros H; injection H as ->. left. eapply py_iter_err; eauto.
Qed.
Lemma unpack3_err (o : pyobj (N:=RNum)) e : unpack3 o = Err e -> e = TypeError \/ e = ValueError.
Proof.
  unfold unpack3. destruct (py_iter o) eqn:E; cbn.
  - destruct a as [|? [|? [|? [|]]]]; intros H; try discriminate; injection H; auto.
  - intros H; injection H as ->. left. eapply py_iter_err; eauto.
Qed.
Lemma weights_shape_err (o : pyobj (N:=RNum)) e : weights_shape o = Err e -> e = TypeError \/ e = ValueError.
Proof.
  destruct o as [| |sh d|]; cbn; try discriminate; try (intros H; injection H; auto).
  destruct sh as [|a [|]]; intros H; try discriminate; injection H; auto.
Qed.
Lemma py_len_err (o : pyobj (N:=RNum)) e : py_len o = Err e -> e = TypeError.
Proof.
  destruct o as [| |sh d|]; cbn; try discriminate; try (intros H; injection H; auto).
  destruct sh; intros H; try discriminate; injection H; auto.
Qed.
Lemma validate_err (o : pyobj (N:=RNum)) e : validate_cmf o = Err e -> e = TypeError \/ e = ValueError.
Proof.
  unfold validate_cmf.
  destruct (unpack2 o) as [[w f]|e0] eqn:E1; cbn; [|intros H; injection H as <-; eauto using unpack2_err].
  destruct (unpack3 f) as [[[A B] C]|e0] eqn:E2; cbn; [|intros H; injection H as <-; eauto using unpack3_err].
  destruct (weights_shape w) as [n|e0] eqn:E3; cbn; [|intros H; injection H as <-; eauto using weights_shape_err].
  destruct (matrix_shape A) as [[nI rank]|e0] eqn:E4; cbn; [|intros H; injection H as <-; eauto using matrix_shape_err].
  destruct (matrix_shape C) as [[K rC]|e0] eqn:E5; cbn; [|intros H; injection H as <-; eauto using matrix_shape_err].
  destruct (rC =? rank)%nat; cbn; [|intros H; injection H; auto].
  destruct (py_iter B) as [Bs|e0] eqn:E6; cbn; [|intros H; injection H as <-; left; eauto using py_iter_err].
  destruct (validate_Bs rank K Bs) eqn:E7; cbn; [|intros H; injection H as <-; eauto using validate_Bs_err].
  destruct (match n with Some n0 => negb (n0 =? rank)%nat | None => false end); cbn; [intros H; injection H; auto|].
  destruct (py_len B) as [nB|e0] eqn:E8; cbn; [|intros H; injection H as <-; left; eauto using py_len_err].
  destruct (nI =? nB)%nat; cbn; [discriminate|intros H; injection H; auto].
Qed.

(** the factorization built from a successful validation *)
Lemma cmf_init_shape (o : pyobj (N:=RNum)) shape rank c :
  cmf_init o = Ok (shape, rank, c) -> validate_cmf o = Ok (shape, rank).
Proof.
  unfold cmf_init. destruct (validate_cmf o) as [[sh rk]|]; cbn; [|discriminate].
  destruct (unpack2 o) as [[w f]|]; cbn; [|discriminate].
  destruct (unpack3 f) as [[[A B] C]|]; cbn; [|discriminate].
  destruct (py_iter B) as [Bs|]; cbn; [|discriminate]. intros H; injection H as -> -> _. reflexivity.
Qed.
Lemma cmf_init_err (o : pyobj (N:=RNum)) e : cmf_init o = Err e -> e = TypeError \/ e = ValueError.
Proof.
  unfold cmf_init. destruct (validate_cmf o) as [[sh rk]|e0] eqn:E; cbn.
  2:{ intros H; injection H as <-. eauto using validate_err. }
  destruct (unpack2 o) as [[w f]|e0] eqn:E1; cbn; [|intros H; injection H as <-; eauto using unpack2_err].
  destruct (unpack3 f) as [[[A B] C]|e0] eqn:E2; cbn; [|intros H; injection H as <-; eauto using unpack3_err].
  destruct (py_iter B) as [Bs|e0] eqn:E6; cbn; [discriminate|intros H; injection H as <-; left; eauto using py_iter_err].
Qed.

Lemma validate_iff (w A C : pyobj (N:=RNum)) Bs shape rank :
  validate_cmf (PSeq [w; PSeq [A; PSeq Bs; C]]) = Ok (shape, rank) <->
  exists K, consistent_parts w A C Bs rank K shape.
Proof.
  unfold validate_cmf. cbn [unpack2 unpack3 py_iter bind py_len]. split.
  - intros H.
    destruct (weights_shape w) as [n|e0] eqn:E3; cbn in H; [|discriminate].
    destruct (matrix_shape A) as [[nI rk]|e0] eqn:E4; cbn in H; [|discriminate].
    destruct (matrix_shape C) as [[K rC]|e0] eqn:E5; cbn in H; [|discriminate].
    destruct (Nat.eqb_spec rC rk) as [->|]; cbn in H; [|discriminate].
    destruct (validate_Bs rk K Bs) as [sh|] eqn:E7; cbn in H; [|discriminate].
    destruct (match n with Some n0 => negb (n0 =? rk)%nat | None => false end) eqn:En; cbn in H; [discriminate|].
    destruct (Nat.eqb_spec nI (length Bs)) as [->|]; cbn in H; [|discriminate].
    injection H as -> ->. exists K. split; [|split; [|split]].
    + destruct w as [| |s d|]; cbn in E3; try discriminate; [now left|].
      destruct s as [|a [|]]; try discriminate. injection E3 as <-.
      apply negb_false_iff, Nat.eqb_eq in En. subst. right; eauto.
    + now apply matrix_shape_ok.
    + now apply matrix_shape_ok.
    + now apply validate_Bs_ok.
  - intros (K & Hw & (dA & ->) & (dC & ->) & HB). apply validate_Bs_ok in HB.
    destruct Hw as [->|(dw & ->)]; cbn; rewrite !Nat.eqb_refl; cbn; rewrite HB; cbn; now rewrite ?Nat.eqb_refl.
Qed.

(** ** Typed factorizations validate exactly when consistent *)
Lemma Forall2_py (Bs : list rmat) (rank K : nat) :
  (forall i, (i < length Bs)%nat -> mc (nth i Bs no_mat) = rank) ->
  Forall2 (fun B s => exists J d, B = PArr [J; rank] d /\ s = (J, K))
    (map py_of_mat Bs) (map (fun B => (mr B, K)) Bs).
Proof.
  induction Bs as [|B Bs IH]; intros H; cbn; constructor.
  - exists (mr B), (mflat B). rewrite <- (H 0%nat) by (cbn; lia). split; reflexivity.
  - apply IH. intros i Hi. apply (H (S i)). cbn; lia.
Qed.
Lemma map_arr_mat (Bs : list rmat) : (forall i, (i < length Bs)%nat -> mwf (nth i Bs no_mat)) ->
  map arr_mat (map py_of_mat Bs) = Bs.
Proof.
  induction Bs as [|B Bs IH]; intros H; cbn [map]; [reflexivity|]. f_equal.
  - apply arr_mat_of_mat, (H 0%nat). cbn; lia.
  - apply IH. intros i Hi. apply (H (S i)). cbn; lia.
Qed.
Lemma revalidate_ok (c : rcmf) : valid_cmf c -> revalidate c = Ok c.
Proof.
  intros (HA & HC & HcC & HrA & HB & Hw).
  assert (Hv : validate_cmf (py_of_cmf c) = Ok (map (fun B => (mr B, mr (cC c))) (cBs c), mc (cA c))).
  { apply validate_iff. exists (mr (cC c)). unfold consistent_parts. rewrite map_length.
    split; [|split; [|split]].
    - destruct (cw c) as [w|] eqn:E; [|now left]. right. exists w. unfold py_of_vec. now rewrite (Hw w eq_refl).
    - exists (mflat (cA c)). unfold py_of_mat. now rewrite HrA.
    - exists (mflat (cC c)). unfold py_of_mat. now rewrite HcC.
    - apply Forall2_py. intros i Hi. apply (HB i Hi). }
  unfold revalidate, cmf_init. rewrite Hv. cbn [bind].
  cbn -[arr_mat py_of_mat]. rewrite !arr_mat_of_mat by assumption.
  rewrite map_arr_mat by (intros i Hi; apply (HB i Hi)).
  destruct c as [[w|] A Bs C]; reflexivity.
Qed.
Lemma revalidate_err (c : rcmf) e : revalidate c = Err e -> e = TypeError \/ e = ValueError.
Proof.
  unfold revalidate. destruct (cmf_init (py_of_cmf c)) as [[[? ?] ?]|e0] eqn:E; cbn; [discriminate|].
  intros H; injection H as <-. eauto using cmf_init_err.
Qed.
(** validation accepts nothing else *)
Lemma Forall2_py_inv (Bs : list rmat) (rank K : nat) (sh : list (nat * nat)) :
  Forall2 (fun B s => exists J d, B = PArr [J; rank] d /\ s = (J, K)) (map py_of_mat Bs) sh ->
  forall i, (i < length Bs)%nat -> mc (nth i Bs no_mat) = rank.
Proof.
  revert sh. induction Bs as [|B Bs IH]; intros sh H i Hi; cbn in *; [lia|].
  inversion H as [|? ? ? ? (J & d & E & _) H2]; subst. destruct i as [|i].
  - unfold py_of_mat in E. congruence.
  - apply (IH _ H2 i). lia.
Qed.
Lemma revalidate_iff (c c' : rcmf) :
  mwf (cA c) -> mwf (cC c) -> (forall i, (i < length (cBs c))%nat -> mwf (nthB c i)) ->
  (revalidate c = Ok c' <-> valid_cmf c /\ c' = c).
Proof.
  intros HA HC HB. split.
  - intros H. assert (Hv : valid_cmf c).
    { unfold revalidate in H. destruct (cmf_init (py_of_cmf c)) as [[[sh rk] c0]|] eqn:E; cbn in H; [|discriminate].
      apply cmf_init_shape in E. unfold py_of_cmf in E. apply validate_iff in E.
      destruct E as (K & Hw & (dA & EA) & (dC & EC) & HF).
      rewrite map_length in EA. unfold py_of_mat in EA, EC.
      assert (E1 : mr (cA c) = length (cBs c)) by congruence.
      assert (E2 : mc (cA c) = rk) by congruence.
      assert (E3 : mc (cC c) = rk) by congruence.
      split; [assumption|]. split; [assumption|]. split; [congruence|]. split; [assumption|]. split.
      - intros i Hi. split; [now apply HB|]. rewrite E2. unfold nthB. eapply Forall2_py_inv; eauto.
      - intros w Ew. rewrite Ew in Hw. destruct Hw as [Hw|(d & Hw)]; [discriminate|].
        unfold py_of_vec in Hw. congruence. }
    split; [assumption|]. rewrite revalidate_ok in H by assumption. congruence.
  - intros (Hv & ->). now apply revalidate_ok.
Qed.

(** ** Dense conversion *)
Lemma py_index_ok n (i : nat) : (i < n)%nat -> py_index n (Z.of_nat i) = Ok i.
Proof.
  intros H. unfold py_index.
  replace ((0 <=? Z.of_nat i) && (Z.of_nat i <? Z.of_nat n))%Z with true.
  - now rewrite Nat2Z.id.
  - symmetry. apply andb_true_iff; split; [apply Z.leb_le|apply Z.ltb_lt]; lia.
Qed.
Lemma py_index_neg n (i : nat) : (i < n)%nat -> py_index n (Z.of_nat i - Z.of_nat n) = Ok i.
Proof.
  intros H. unfold py_index.
  replace ((0 <=? Z.of_nat i - Z.of_nat n) && (Z.of_nat i - Z.of_nat n <? Z.of_nat n))%Z with false.
  - replace ((- Z.of_nat n <=? Z.of_nat i - Z.of_nat n) && (Z.of_nat i - Z.of_nat n <? 0))%Z with true.
    + f_equal. rewrite Z.sub_add. apply Nat2Z.id.
    + symmetry. apply andb_true_iff; split; [apply Z.leb_le|apply Z.ltb_lt]; lia.
  - symmetry. apply andb_false_iff. left. apply Z.leb_gt. lia.
Qed.
Lemma py_index_out n (z : Z) : (z < - Z.of_nat n \/ Z.of_nat n <= z)%Z -> py_index n z = Err IndexError.
Proof.
  intros H. unfold py_index.
  replace ((0 <=? z) && (z <? Z.of_nat n))%Z with false.
  - replace ((- Z.of_nat n <=? z) && (z <? 0))%Z with false; [reflexivity|].
    symmetry. apply andb_false_iff. destruct H; [left; apply Z.leb_gt|right; apply Z.ltb_ge]; lia.
  - symmetry. apply andb_false_iff. destruct H; [left; apply Z.leb_gt|right; apply Z.ltb_ge]; lia.
Qed.

(** the row a_i times the weights *)
Definition arow (c : rcmf) (i : nat) : list R :=
  map (fun r => rget (cA c) i r * weight c r) (seq 0 (mc (cA c))).
Lemma arow_eq (c : rcmf) i : valid_cmf c -> (i < mr (cA c))%nat ->
  match cw c with Some w => mul_vec (N:=RNum) (mrow (cA c) i) w | None => Ok (mrow (cA c) i) end = Ok (arow c i).
Proof.
  intros (HA & _ & _ & _ & _ & Hw) Hi. unfold arow, weight. destruct (cw c) as [w|] eqn:E.
  - unfold mul_vec. rewrite length_mrow by assumption. rewrite (Hw w eq_refl), Nat.eqb_refl. f_equal.
    apply (list_eq_nth _ _ 0).
    + unfold vmul. rewrite length_map2, length_mrow, map_length, seq_length, (Hw w eq_refl) by assumption. lia.
    + intros r Hr. unfold vmul in *. rewrite length_map2, length_mrow, (Hw w eq_refl), Nat.min_id in Hr by assumption.
      rewrite nth_seq_map by assumption. change (vg (vmul (N:=RNum) (mrow (cA c) i) w) r = rget (cA c) i r * at_ w r).
      rewrite vg_vmul; [rewrite vg_mrow; reflexivity| |].
      * exact (eq_ind_r (fun n => (r < n)%nat) Hr (length_mrow (cA c) i HA Hi)).
      * exact (eq_ind_r (fun n => (r < n)%nat) Hr (Hw w eq_refl)).
  - f_equal. apply (list_eq_nth _ _ 0).
    + rewrite length_mrow, map_length, seq_length by assumption. reflexivity.
    + intros r Hr. rewrite length_mrow in Hr by assumption. rewrite nth_seq_map by assumption.
      change (vg (mrow (cA c) i) r = rget (cA c) i r * 1). rewrite vg_mrow. exact (eq_sym (Rmult_1_r _)).
Qed.
Lemma length_arow c i : length (arow c i) = mc (cA c).
Proof. unfold arow. now rewrite map_length, seq_length. Qed.
Lemma vg_arow c i r : (r < mc (cA c))%nat -> vg (arow c i) r = rget (cA c) i r * weight c r.
Proof. intros H. unfold arow, vget. now rewrite nth_seq_map by assumption. Qed.

Definition dense (c : rcmf) (i : nat) : rmat := mmul (mcolscale (nthB c i) (arow c i)) (mtrans (cC c)).

Lemma dense_is_matrix (c : rcmf) i : valid_cmf c -> (i < length (cBs c))%nat -> is_matrix_of c i (dense c i).
Proof.
  intros (HA & HC & HcC & HrA & HB & Hw) Hi. destruct (HB i Hi) as (HBi & HcB). split.
  - split; [unfold dense; auto with mwf|]. split; reflexivity.
  - intros j k Hj Hk. unfold dense. rewrite mget_mmul by mlia. mshape. unfold cmf_entry.
    rewrite HcB. apply rsum_Sum_ext. intros r Hr.
    rewrite mget_mcolscale by mlia. rewrite mget_mtrans by mlia. rewrite vg_arow by assumption. reflexivity.
Qed.
Lemma is_matrix_unique (c : rcmf) i X Y : is_matrix_of c i X -> is_matrix_of c i Y -> X = Y.
Proof.
  intros ((WX & RX & CX) & EX) ((WY & RY & CY) & EY). apply mat_ext; try assumption; try congruence.
  intros j k Hj Hk. rewrite EX, EY; try congruence; rewrite ?RX, ?CX in *; congruence.
Qed.

Lemma matrix_index (c : rcmf) (z : Z) v : valid_cmf c ->
  cmf_to_matrix c z v = let* i := py_index (length (cBs c)) z in Ok (dense c i).
Proof.
  intros Hv. pose proof Hv as (HA & HC & HcC & HrA & HB & Hw). unfold cmf_to_matrix.
  replace (if v then revalidate c else Ok c) with (Ok c) by (destruct v; [now rewrite revalidate_ok|reflexivity]).
  cbn [bind]. rewrite HrA. destruct (py_index (length (cBs c)) z) as [i|e] eqn:Ei; cbn [bind]; [|reflexivity].
  assert (Hi : (i < length (cBs c))%nat).
  { unfold py_index in Ei.
    destruct ((0 <=? z) && (z <? Z.of_nat (length (cBs c))))%Z eqn:E1.
    - injection Ei as <-. apply andb_true_iff in E1. destruct E1 as (E1 & E2).
      apply Z.leb_le in E1. apply Z.ltb_lt in E2. lia.
    - destruct ((- Z.of_nat (length (cBs c)) <=? z) && (z <? 0))%Z eqn:E2; [|discriminate].
      injection Ei as <-. apply andb_true_iff in E2. destruct E2 as (E2 & E3).
      apply Z.leb_le in E2. apply Z.ltb_lt in E3. lia. }
  rewrite arow_eq by (try assumption; congruence). cbn [bind].
  destruct (HB i Hi) as (HBi & HcB). unfold mul_cols. rewrite length_arow.
  change (nth i (cBs c) (Mat 0 0 [])) with (nthB c i). rewrite HcB, Nat.eqb_refl. cbn [bind].
  mshape. rewrite HcB, HcC, Nat.eqb_refl. reflexivity.
Qed.

Lemma mapM_ok {A B} (f : A -> res B) (g : A -> B) (l : list A) :
  (forall x, In x l -> f x = Ok (g x)) -> mapM f l = Ok (map g l).
Proof.
  induction l as [|a l IH]; intros H; cbn; [reflexivity|].
  rewrite (H a) by (now left). cbn. rewrite IH by (intros; apply H; now right). reflexivity.
Qed.

(** weights folded into A *)
Definition folded (c : rcmf) (A : rmat) : rcmf := Cmf None A (cBs c) (cC c).
Lemma folded_A (c : rcmf) : valid_cmf c -> exists A,
  match cw c with Some w => mul_cols (cA c) w | None => Ok (cA c) end = Ok A /\
  mwf A /\ mr A = mr (cA c) /\ mc A = mc (cA c) /\
  forall i r, (i < mr (cA c))%nat -> (r < mc (cA c))%nat -> rget A i r = rget (cA c) i r * weight c r.
Proof.
  intros (HA & _ & _ & _ & _ & Hw). unfold weight. destruct (cw c) as [w|] eqn:E.
  - exists (mcolscale (cA c) w). unfold mul_cols. rewrite (Hw w eq_refl), Nat.eqb_refl.
    repeat split; auto with mwf; try (apply mwf_mcolscale). intros i r Hi Hr. now rewrite mget_mcolscale.
  - exists (cA c). split; [reflexivity|]. repeat split; try apply HA. intros. exact (eq_sym (Rmult_1_r _)).
Qed.
Lemma folded_valid (c : rcmf) A : valid_cmf c -> mwf A -> mr A = mr (cA c) -> mc A = mc (cA c) ->
  valid_cmf (folded c A).
Proof.
  intros (HA & HC & HcC & HrA & HB & Hw) WA RA CA. split; [exact WA|]. split; [exact HC|].
  cbn. split; [congruence|]. split; [congruence|]. split; [|discriminate].
  intros i Hi. destruct (HB i Hi). split; [assumption|]. unfold nthB in *. cbn. congruence.
Qed.
Lemma folded_entry (c : rcmf) A i j k : mr A = mr (cA c) -> mc A = mc (cA c) -> (i < mr (cA c))%nat ->
  (forall i r, (i < mr (cA c))%nat -> (r < mc (cA c))%nat -> rget A i r = rget (cA c) i r * weight c r) ->
  cmf_entry (folded c A) i j k = cmf_entry c i j k.
Proof.
  intros RA CA Hi H. unfold cmf_entry. cbn [folded cA cC]. rewrite CA. apply Sum_ext. intros r Hr.
  rewrite (H i r) by assumption. unfold weight at 1, nthB. cbn. rn. change (nth i (cBs c) no_mat) with (nthB c i).
  rewrite Rmult_1_r. reflexivity.
Qed.

Lemma matrices_dense (c : rcmf) v : valid_cmf c ->
  cmf_to_matrices c v = Ok (map (dense c) (seq 0 (length (cBs c)))).
Proof.
  intros Hv. pose proof Hv as (HA & HC & HcC & HrA & HB & Hw). unfold cmf_to_matrices.
  replace (if v then revalidate c else Ok c) with (Ok c) by (destruct v; [now rewrite revalidate_ok|reflexivity]).
  cbn [bind]. destruct (folded_A c Hv) as (A & -> & WA & RA & CA & EA). cbn [bind]. rewrite RA, HrA.
  apply mapM_ok. intros i Hi. apply in_seq in Hi. assert (Hi' : (i < length (cBs c))%nat) by lia.
  change (Cmf None A (cBs c) (cC c)) with (folded c A).
  pose proof (folded_valid c A Hv WA RA CA) as Hf.
  rewrite matrix_index by assumption. cbn [folded cBs]. rewrite py_index_ok by assumption. cbn [bind]. f_equal.
  apply (is_matrix_unique c i); [|now apply dense_is_matrix].
  destruct (dense_is_matrix (folded c A) i Hf Hi') as (Hs & He). split; [exact Hs|].
  intros j k Hj Hk. rewrite He by assumption. apply folded_entry; try assumption. congruence.
Qed.

(** ** Tensor *)
Lemma fold_max_spec (l : list nat) x : (x <= fold_left Nat.max l x)%nat /\
  (forall y, In y l -> (y <= fold_left Nat.max l x)%nat) /\ (fold_left Nat.max l x = x \/ In (fold_left Nat.max l x) l).
Proof.
  revert x. induction l as [|a l IH]; intros x; cbn; [repeat split; auto; intros ? []|].
  destruct (IH (Nat.max x a)) as (H1 & H2 & H3). split; [lia|]. split.
  - intros y [<-|Hy]; [lia|auto].
  - destruct H3 as [H3|H3]; [|auto]. rewrite H3. destruct (Nat.max_spec x a) as [(_ & ->)|(_ & ->)]; auto.
Qed.
Lemma max_list_spec (l : list nat) : l <> [] -> exists J, max_list l = Ok J /\
  (forall y, In y l -> (y <= J)%nat) /\ In J l.
Proof.
  destruct l as [|x l]; [congruence|]. intros _. cbn. eexists; split; [reflexivity|].
  destruct (fold_max_spec l x) as (H1 & H2 & H3). split.
  - intros y [<-|Hy]; auto.
  - destruct H3 as [->|]; auto.
Qed.

Lemma fill_dims (t : ten (N:=RNum)) i l :
  t0 (fill t i l) = t0 t /\ t1 (fill t i l) = t1 t /\ t2 (fill t i l) = t2 t /\
  length (tslices (fill t i l)) = length (tslices t).
Proof.
  revert t i. induction l as [|[M len] l IH]; intros t i; cbn; [auto|].
  destruct (IH (tset t i len M) (S i)) as (H1 & H2 & H3 & H4). rewrite H1, H2, H3, H4. cbn.
  now rewrite length_upd.
Qed.
Lemma fill_nth (t : ten (N:=RNum)) i l a d : (i + length l <= length (tslices t))%nat ->
  nth a (tslices (fill t i l)) (Mat 0 0 []) =
  if (i <=? a)%nat && (a <? i + length l)%nat then
    mbuild (t1 t) (t2 t) (fun j k => if (j <? snd (nth (a - i) l d))%nat then rget (fst (nth (a - i) l d)) j k
                                     else rget (nth a (tslices t) (Mat 0 0 [])) j k)
  else nth a (tslices t) (Mat 0 0 []).
Proof.
  revert t i. induction l as [|[M len] l IH]; intros t i Hl.
  - cbn [fill length]. replace ((i <=? a)%nat && (a <? i + 0)%nat) with false; [reflexivity|].
    symmetry. apply andb_false_iff. destruct (Nat.leb_spec i a); [right; apply Nat.ltb_ge; lia|left; reflexivity].
  - cbn [fill length] in *. rewrite IH by (cbn; rewrite length_upd; lia). cbn [tset t1 t2 tslices].
    destruct (Nat.eq_dec a i) as [->|Hne].
    + replace ((S i <=? i)%nat && (i <? S i + length l)%nat) with false.
      2:{ symmetry. apply andb_false_iff. left. apply Nat.leb_gt. lia. }
      replace ((i <=? i)%nat && (i <? i + S (length l))%nat) with true.
      2:{ symmetry. apply andb_true_iff. split; [apply Nat.leb_refl|apply Nat.ltb_lt; lia]. }
      rewrite nth_upd_eq by lia. rewrite Nat.sub_diag. reflexivity.
    + rewrite !nth_upd_neq by assumption.
      destruct (Nat.leb_spec i a) as [Hia|Hia].
      * destruct (Nat.leb_spec (S i) a); [|lia]. cbn [andb].
        replace (a <? i + S (length l))%nat with (a <? S i + length l)%nat by (f_equal; lia).
        replace (a - i)%nat with (S (a - S i)) by lia. reflexivity.
      * destruct (Nat.leb_spec (S i) a); [lia|]. reflexivity.
Qed.

Definition padded (c : rcmf) (J i : nat) : rmat := mbuild J (mr (cC c)) (fun j k => padded_entry c i j k).
Lemma tensor_main (c : rcmf) v : valid_cmf c -> cBs c <> [] -> exists t J,
  cmf_to_tensor c v = Ok t /\ is_max_rows c J /\
  t0 t = mr (cA c) /\ t1 t = J /\ t2 t = mr (cC c) /\
  tslices t = map (padded c J) (seq 0 (length (cBs c))).
Proof.
  intros Hv Hne. pose proof Hv as (HA & HC & HcC & HrA & HB & Hw). unfold cmf_to_tensor.
  rewrite matrices_dense by assumption. cbn [bind].
  destruct (max_list_spec (map mr (cBs c))) as (J & -> & Hmax & Hin); [destruct (cBs c); [congruence|discriminate]|].
  cbn [bind]. eexists; exists J. split; [reflexivity|].
  split.
  { split.
    - intros i Hi. apply Hmax. apply in_map. now apply nth_In.
    - apply in_map_iff in Hin. destruct Hin as (B & <- & HBin). apply (In_nth _ _ no_mat) in HBin.
      destruct HBin as (i & Hi & <-). now exists i. }
  set (l := combine (map (dense c) (seq 0 (length (cBs c)))) (map mr (cBs c))).
  assert (Ll : length l = length (cBs c)).
  { unfold l. rewrite combine_length, !map_length, seq_length. lia. }
  set (t := tzeros (mr (cA c)) J (mr (cC c))).
  assert (Lt : length (tslices t) = length (cBs c)) by (cbn; rewrite repeat_length; congruence).
  destruct (fill_dims t 0 l) as (D0 & D1 & D2 & D3).
  split; [rewrite D0; reflexivity|]. split; [rewrite D1; reflexivity|]. split; [rewrite D2; reflexivity|].
  apply (list_eq_nth _ _ (Mat 0 0 [])).
  - rewrite D3, Lt, map_length, seq_length. reflexivity.
  - intros i Hi. rewrite D3, Lt in Hi.
    rewrite (fill_nth t 0 l i (no_mat, 0%nat)) by lia.
    replace ((0 <=? i)%nat && (i <? 0 + length l)%nat) with true.
    2:{ symmetry. apply andb_true_iff. split; [apply Nat.leb_le; lia|apply Nat.ltb_lt; lia]. }
    rewrite Nat.sub_0_r. unfold l. rewrite combine_nth by (rewrite !map_length, seq_length; reflexivity).
    rewrite nth_seq_map by assumption.
    cbn [fst snd]. rewrite (nth_map_lt mr (cBs c) i 0%nat no_mat) by assumption.
    change (nth i (cBs c) no_mat) with (nthB c i). rewrite nth_seq_map by assumption.
    unfold padded. cbn [t t1 t2 tzeros]. apply mbuild_ext. intros j k Hj Hk. unfold padded_entry.
    destruct (Nat.ltb_spec j (mr (nthB c i))).
    + destruct (dense_is_matrix c i Hv Hi) as (_ & He). now apply He.
    + cbn. rewrite nth_repeat_lt by (rewrite HrA; assumption). now rewrite mget_mzeros.
Qed.

(** ** Unfolding and vectorisation *)
Lemma tflat_nth (t : ten (N:=RNum)) i j k :
  length (tslices t) = t0 t ->
  Forall (fun M => mwf M /\ mr M = t1 t /\ mc M = t2 t) (tslices t) ->
  (i < t0 t)%nat -> (j < t1 t)%nat -> (k < t2 t)%nat ->
  vg (tflat t) (i * (t1 t * t2 t) + (j * t2 t + k)) = tget t i j k.
Proof.
  intros Hl HF Hi Hj Hk. unfold tflat, vget, tget.
  assert (HM : mwf (nth i (tslices t) (Mat 0 0 [])) /\ mr (nth i (tslices t) (Mat 0 0 [])) = t1 t /\
               mc (nth i (tslices t) (Mat 0 0 [])) = t2 t).
  { rewrite Forall_forall in HF. apply HF, nth_In. now rewrite Hl. }
  rewrite (nth_concat_const _ (t1 t * t2 t) i (j * t2 t + k) _ []).
  - rewrite (nth_map_lt mflat _ i [] (Mat 0 0 [])) by (now rewrite Hl).
    destruct HM as (W & R1 & C1).
    pose proof (mflat_nth (nth i (tslices t) (Mat 0 0 [])) j k W) as H. rewrite R1, C1 in H. now apply H.
  - apply Forall_forall. intros l Hin. apply in_map_iff in Hin. destruct Hin as (M & <- & HMin).
    rewrite Forall_forall in HF. destruct (HF M HMin) as (W & R1 & C1). rewrite mflat_length by assumption.
    now rewrite R1, C1.
  - rewrite map_length. now rewrite Hl.
  - nia.
Qed.
Lemma tflat_length (t : ten (N:=RNum)) :
  length (tslices t) = t0 t ->
  Forall (fun M => mwf M /\ mr M = t1 t /\ mc M = t2 t) (tslices t) ->
  length (tflat t) = (t0 t * (t1 t * t2 t))%nat.
Proof.
  intros Hl HF. unfold tflat. rewrite (concat_length_const _ (t1 t * t2 t)).
  - now rewrite map_length, Hl.
  - apply Forall_forall. intros l Hin. apply in_map_iff in Hin. destruct Hin as (M & <- & HMin).
    rewrite Forall_forall in HF. destruct (HF M HMin) as (W & R1 & C1). rewrite mflat_length by assumption.
    now rewrite R1, C1.
Qed.
Definition ten_wf (t : ten (N:=RNum)) : Prop :=
  length (tslices t) = t0 t /\ Forall (fun M => mwf M /\ mr M = t1 t /\ mc M = t2 t) (tslices t).
Lemma moveaxis_wf t m : ten_wf t -> ten_wf (moveaxis0 t m).
Proof.
  intros H. destruct m as [|[|m]]; [exact H| |]; cbn.
  - split; cbn; [now rewrite map_length, seq_length|].
    apply Forall_forall. intros M HM. apply in_map_iff in HM. destruct HM as (j & <- & _).
    repeat split; auto with mwf; apply mwf_mbuild.
  - split; cbn; [now rewrite map_length, seq_length|].
    apply Forall_forall. intros M HM. apply in_map_iff in HM. destruct HM as (j & <- & _).
    repeat split; auto with mwf; apply mwf_mbuild.
Qed.
Lemma moveaxis_get t m i j k : (m < 3)%nat -> (i < t0 t)%nat -> (j < t1 t)%nat -> (k < t2 t)%nat ->
  tget t i j k = match m with O => tget (moveaxis0 t m) i j k
                 | 1%nat => tget (moveaxis0 t m) j i k | _ => tget (moveaxis0 t m) k i j end.
Proof.
  intros Hm Hi Hj Hk. destruct m as [|[|[|m]]]; [reflexivity| | |lia]; cbn; unfold tget at 2; cbn.
  - rewrite nth_seq_map by assumption. now rewrite mget_mbuild.
  - rewrite nth_seq_map by assumption. now rewrite mget_mbuild.
Qed.
Lemma unfold_main (t : ten (N:=RNum)) (m : nat) (z : Z) : ten_wf t -> py_index 3 z = Ok m ->
  (0 < t0 (moveaxis0 t m))%nat ->
  exists X, unfold t z = Ok X /\
    shaped X (t0 (moveaxis0 t m)) (t1 (moveaxis0 t m) * t2 (moveaxis0 t m)) /\
    forall i j k, (i < t0 t)%nat -> (j < t1 t)%nat -> (k < t2 t)%nat ->
      tget t i j k = match m with O => rget X i (j * t2 t + k)
                     | 1%nat => rget X j (i * t2 t + k) | _ => rget X k (i * t1 t + j) end.
Proof.
  intros Hw Hz Hpos. unfold unfold. rewrite Hz. cbn [bind].
  assert (Hm : (m < 3)%nat).
  { unfold py_index in Hz.
    destruct ((0 <=? z) && (z <? Z.of_nat 3))%Z eqn:E1.
    - injection Hz as <-. apply andb_true_iff in E1. destruct E1 as (E1 & E2).
      apply Z.leb_le in E1. apply Z.ltb_lt in E2. lia.
    - destruct ((- Z.of_nat 3 <=? z) && (z <? 0))%Z eqn:E2; [|discriminate].
      injection Hz as <-. apply andb_true_iff in E2. destruct E2 as (E2 & E3).
      apply Z.leb_le in E2. apply Z.ltb_lt in E3. lia. }
  destruct (Nat.eqb_spec (t0 (moveaxis0 t m)) 0) as [E|E]; [lia|].
  eexists; split; [reflexivity|]. split; [split; [auto with mwf|split; reflexivity]|].
  intros i j k Hi Hj Hk. rewrite (moveaxis_get t m i j k) by assumption.
  destruct (moveaxis_wf t m Hw) as (W1 & W2).
  destruct m as [|[|[|m]]]; [| | |lia].
  - rewrite mget_mbuild; [|assumption|cbn; nia].
    now rewrite tflat_nth.
  - rewrite mget_mbuild; [|assumption|cbn; nia].
    cbn [moveaxis0 t2]. change (t2 t) with (t2 (moveaxis0 t 1)). now rewrite tflat_nth.
  - rewrite mget_mbuild; [|assumption|cbn; nia].
    cbn [moveaxis0 t2]. change (t1 t) with (t2 (moveaxis0 t 2)). now rewrite tflat_nth.
Qed.

Lemma padded_wf (c : rcmf) J t : valid_cmf c -> t0 t = mr (cA c) -> t1 t = J -> t2 t = mr (cC c) ->
  tslices t = map (padded c J) (seq 0 (length (cBs c))) -> ten_wf t.
Proof.
  intros (_ & _ & _ & HrA & _) E0 E1 E2 E3. split.
  - now rewrite E3, map_length, seq_length, E0.
  - rewrite E3. apply Forall_forall. intros M HM. apply in_map_iff in HM. destruct HM as (i & <- & _).
    rewrite E1, E2. split; [apply mwf_mbuild|]. split; reflexivity.
Qed.
Lemma padded_get (c : rcmf) J t i j k : t1 t = J -> t2 t = mr (cC c) ->
  tslices t = map (padded c J) (seq 0 (length (cBs c))) ->
  (i < length (cBs c))%nat -> (j < J)%nat -> (k < mr (cC c))%nat ->
  tget t i j k = padded_entry c i j k.
Proof.
  intros E1 E2 E3 Hi Hj Hk. unfold tget. rewrite E3, nth_seq_map by assumption. unfold padded.
  now rewrite mget_mbuild.
Qed.

(** stacking without padding *)
Definition stack_rows (l : list rmat) (i : nat) : nat := fold_right (fun A n => (mr A + n)%nat) 0%nat (firstn i l).
Lemma mconcat_get (l : list rmat) K i j k :
  l <> [] -> (forall M, In M l -> mwf M /\ mc M = K) -> (i < length l)%nat ->
  (j < mr (nth i l no_mat))%nat ->
  rget (mconcat l) (stack_rows l i + j) k = rget (nth i l no_mat) j k.
Proof.
  intros Hne HF Hi Hj.
  assert (Hin : forall l' : list rmat, (forall M, In M l' -> mwf M) -> (i < length l')%nat ->
    (j < mr (nth i l' no_mat))%nat ->
    nth (stack_rows l' i + j) (flat_map me l') [] = nth j (me (nth i l' no_mat)) []).
  { clear. revert i. intros i l'. revert i. induction l' as [|M l' IH]; intros i H Hi Hj; cbn in *; [lia|].
    destruct (H M (or_introl eq_refl)) as (L & _). destruct i as [|i].
    - cbn. rewrite app_nth1; [reflexivity|]. exact (eq_ind_r (fun n => (j < n)%nat) Hj L).
    - unfold stack_rows. cbn [firstn fold_right]. rewrite app_nth2; [|rn; lia].
      transitivity (nth (stack_rows l' i + j) (flat_map me l') []).
      + unfold stack_rows. rn. f_equal. lia.
      + apply IH; auto; lia. }
  unfold mget. destruct l as [|M l]; [congruence|]. cbn [mconcat me].
  rewrite Hin; auto. intros M' HM'. now apply HF.
Qed.
Lemma flat_map_me_length (l : list rmat) : (forall M, In M l -> mwf M) ->
  length (flat_map me l) = fold_right (fun A n => (mr A + n)%nat) 0%nat l.
Proof.
  induction l as [|A l IH]; intros H; cbn; [reflexivity|]. rewrite app_length.
  pose proof (IH (fun M HM => H M (or_intror HM))) as E. destruct (H A (or_introl eq_refl)) as (L & _). rn. lia.
Qed.
Lemma mconcat_wf (l : list rmat) K : (forall M, In M l -> mwf M /\ mc M = K) -> mwf (mconcat l).
Proof.
  intros H. destruct l as [|M l]; [split; constructor|].
  assert (E : mc M = K) by (apply H; now left). split; cbn [mconcat mr mc me].
  - apply flat_map_me_length. intros A HA. now apply H.
  - apply Forall_forall. intros r Hr. apply in_flat_map in Hr. destruct Hr as (A & HA & Hr).
    destruct (H A HA) as ((_ & F) & E'). rewrite Forall_forall in F. rewrite (F r Hr). congruence.
Qed.
Lemma vec_nopad_nth (l : list rmat) K i j k :
  (forall M, In M l -> mwf M /\ mc M = K) -> (i < length l)%nat ->
  (j < mr (nth i l no_mat))%nat -> (k < K)%nat ->
  vg (concat (map mflat l)) (stack_rows l i * K + (j * K + k)) = rget (nth i l no_mat) j k.
Proof.
  intros HF. revert i. induction l as [|M l IH]; intros i Hi Hj Hk; cbn in Hi; [lia|].
  destruct (HF M (or_introl eq_refl)) as (W & C1).
  destruct i as [|i].
  - cbn [stack_rows firstn fold_right nth]. unfold vget. cbn [map concat]. cbn in Hj.
    rewrite app_nth1. 2:{ rewrite mflat_length, C1 by assumption. nia. }
    rewrite Nat.mul_0_l, Nat.add_0_l. subst K. now apply mflat_nth.
  - unfold vget, stack_rows. cbn [map concat firstn fold_right nth].
    rewrite app_nth2. 2:{ rewrite mflat_length, C1 by assumption. nia. }
    rewrite mflat_length, C1 by assumption.
    replace ((mr M + fold_right (fun A n => (mr A + n)%nat) 0%nat (firstn i l)) * K + (j * K + k) - mr M * K)%nat
      with (stack_rows l i * K + (j * K + k))%nat by (unfold stack_rows; nia).
    apply IH; auto; try lia. intros; apply HF; now right.
Qed.
Lemma vec_nopad_length (l : list rmat) K :
  (forall M, In M l -> mwf M /\ mc M = K) ->
  length (concat (map mflat l)) = (stack_rows l (length l) * K)%nat.
Proof.
  intros HF. induction l as [|M l IH]; [reflexivity|].
  destruct (HF M (or_introl eq_refl)) as (W & C1). cbn [map concat length]. rewrite app_length, mflat_length by assumption.
  rewrite IH by (intros; apply HF; now right). unfold stack_rows. cbn [firstn fold_right]. nia.
Qed.
Lemma stack_rows_S (l : list rmat) i : (i < length l)%nat ->
  stack_rows l (S i) = (stack_rows l i + mr (nth i l no_mat))%nat.
Proof.
  revert i. induction l as [|M l IH]; intros i Hi; cbn in Hi; [lia|]. destruct i as [|i].
  - unfold stack_rows. cbn. lia.
  - unfold stack_rows in *. cbn [firstn fold_right nth]. specialize (IH i ltac:(lia)). cbn [firstn fold_right] in IH.
    destruct l; cbn in *; lia.
Qed.
Lemma stack_rows_dense (c : rcmf) i : (i <= length (cBs c))%nat ->
  stack_rows (map (dense c) (seq 0 (length (cBs c)))) i = rows_before c i.
Proof.
  induction i as [|i IH]; intros Hi; [reflexivity|].
  rewrite stack_rows_S by (rewrite map_length, seq_length; lia). rewrite IH by lia.
  rewrite nth_seq_map by lia. reflexivity.
Qed.
Lemma dense_all (c : rcmf) : valid_cmf c -> forall M, In M (map (dense c) (seq 0 (length (cBs c)))) ->
  mwf M /\ mc M = mr (cC c).
Proof.
  intros Hv M HM. apply in_map_iff in HM. destruct HM as (i & <- & Hi). apply in_seq in Hi.
  destruct (dense_is_matrix c i Hv ltac:(lia)) as ((W & _ & C1) & _). auto.
Qed.

(** ** From CP and PARAFAC2 *)
Lemma cp_Bs_spec (B C : rmat) sh : mwf B -> 
  match cp_Bs B C sh with
  | Ok Bs => length Bs = length sh /\ Forall (fun s => snd s = mr C /\ (fst s <= mr B)%nat) sh /\
      forall i, (i < length sh)%nat ->
        nth i Bs no_mat = Mat (fst (nth i sh (0, 0)%nat)) (mc B) (firstn (fst (nth i sh (0, 0)%nat)) (me B))
  | Err e => e = ValueError /\ ~ Forall (fun s => snd s = mr C /\ (fst s <= mr B)%nat) sh
  end.
Proof.
  intros WB. induction sh as [|[J K] sh IH]; cbn [cp_Bs]; [cbn; repeat split; [constructor|intros; lia]|].
  destruct (Nat.eqb_spec K (mr C)) as [->|Hne]; cbn [negb].
  2:{ split; [reflexivity|]. intros F. inversion F as [|? ? (H & _)]; subst. cbn in H. congruence. }
  destruct (Nat.ltb_spec (mr B) J) as [Hlt|Hge].
  { split; [reflexivity|]. intros F. inversion F as [|? ? (_ & H)]; subst. cbn in H. lia. }
  destruct (cp_Bs B C sh) as [Bs|e]; cbn.
  - destruct IH as (L & F & E). split; [now rewrite L|]. split; [constructor; auto|].
    intros [|i] Hi; cbn; [now rewrite Nat.min_l by assumption|]. apply E. lia.
  - destruct IH as (-> & F). split; [reflexivity|]. intros F'. inversion F'; subst. contradiction.
Qed.
Lemma firstn_mat (B : rmat) J : mwf B -> (J <= mr B)%nat ->
  mwf (Mat (N:=RNum) J (mc B) (firstn J (me B))) /\
  forall j r, (j < J)%nat -> rget (Mat J (mc B) (firstn J (me B))) j r = rget B j r.
Proof.
  intros (L & F) HJ. split.
  - split; cbn; [rewrite firstn_length; rn; lia|].
    apply Forall_forall. intros r Hr. rewrite Forall_forall in F. apply F.
    rewrite <- (firstn_skipn J (me B)). apply in_or_app. now left.
  - intros j r Hj. unfold mget. cbn. f_equal. rewrite <- (firstn_skipn J (me B)) at 2.
    rewrite app_nth1; [reflexivity|]. rewrite firstn_length. rn. lia.
Qed.

(** ** Main statements *)
Lemma C18_main (w A C : pyobj (N:=RNum)) (Bs : list (pyobj (N:=RNum))) shape rank :
  (exists c, cmf_init (PSeq [w; PSeq [A; PSeq Bs; C]]) = Ok (shape, rank, c)) <->
  (exists K, consistent_parts w A C Bs rank K shape).
Proof.
  split.
  - intros (c & H). apply cmf_init_shape in H. now apply validate_iff in H.
  - intros H. apply validate_iff in H. unfold cmf_init. rewrite H. cbn. eexists; reflexivity.
Qed.
Lemma C18_total_main (o : pyobj (N:=RNum)) :
  (exists r, cmf_init o = Ok r) \/ cmf_init o = Err TypeError \/ cmf_init o = Err ValueError.
Proof.
  destruct (cmf_init o) as [r|e] eqn:E; [left; eauto|]. destruct (cmf_init_err o e E) as [->| ->]; auto.
Qed.
Lemma C18_stack_main (w A C : pyobj (N:=RNum)) n s1 rest d :
  validate_cmf (PSeq [w; PSeq [A; PArr (n :: s1 :: rest) d; C]]) =
  validate_cmf (PSeq [w; PSeq [A; PSeq (map (fun i => PArr (s1 :: rest) (chunk (size_of (s1 :: rest)) d i)) (seq 0 n)); C]]).
Proof.
  unfold validate_cmf. cbn [unpack2 unpack3 py_iter py_len bind]. rewrite map_length, seq_length. reflexivity.
Qed.
Lemma C18_typed_main (c c' : rcmf) :
  mwf (cA c) -> mwf (cC c) -> (forall i, (i < length (cBs c))%nat -> mwf (nthB c i)) ->
  (revalidate c = Ok c' <-> valid_cmf c /\ c' = c).
Proof. exact (revalidate_iff c c'). Qed.

Lemma C19_matrix_main (c : rcmf) (i : nat) v : valid_cmf c -> (i < length (cBs c))%nat ->
  exists X, cmf_to_matrix c (Z.of_nat i) v = Ok X /\
    cmf_to_matrix c (Z.of_nat i - Z.of_nat (length (cBs c))) v = Ok X /\ is_matrix_of c i X.
Proof.
  intros Hv Hi. exists (dense c i). rewrite !matrix_index by assumption.
  rewrite py_index_ok, py_index_neg by assumption. cbn. repeat split; try reflexivity; now apply dense_is_matrix.
Qed.
Lemma C19_out_main (c : rcmf) (z : Z) v : valid_cmf c ->
  (z < - Z.of_nat (length (cBs c)) \/ Z.of_nat (length (cBs c)) <= z)%Z ->
  cmf_to_matrix c z v = Err IndexError.
Proof. intros Hv Hz. rewrite matrix_index by assumption. now rewrite py_index_out. Qed.
Lemma C19_matrices_main (c : rcmf) v : valid_cmf c ->
  exists Xs, cmf_to_matrices c v = Ok Xs /\ length Xs = length (cBs c) /\
    forall i, (i < length (cBs c))%nat ->
      is_matrix_of c i (nth i Xs no_mat) /\ forall v', cmf_to_matrix c (Z.of_nat i) v' = Ok (nth i Xs no_mat).
Proof.
  intros Hv. eexists; split; [now apply matrices_dense|]. split; [now rewrite map_length, seq_length|].
  intros i Hi. rewrite nth_seq_map by assumption. split; [now apply dense_is_matrix|].
  intros v'. rewrite matrix_index by assumption. now rewrite py_index_ok.
Qed.
Lemma C19_invalid_main (c : rcmf) :
  mwf (cA c) -> mwf (cC c) -> (forall i, (i < length (cBs c))%nat -> mwf (nthB c i)) -> ~ valid_cmf c ->
  exists e, (e = TypeError \/ e = ValueError) /\ cmf_to_matrices c true = Err e /\
    (forall z, cmf_to_matrix c z true = Err e) /\ cmf_to_tensor c true = Err e /\
    (forall m, cmf_to_unfolded c m true true = Err e) /\ (forall p, cmf_to_vec c p true = Err e).
Proof.
  intros HA HC HB Hn. destruct (revalidate c) as [c'|e] eqn:E.
  - apply revalidate_iff in E; [|assumption..]. tauto.
  - exists e. split; [now apply (revalidate_err c)|].
    assert (E1 : cmf_to_matrices c true = Err e) by (unfold cmf_to_matrices; now rewrite E).
    assert (E2 : cmf_to_tensor c true = Err e) by (unfold cmf_to_tensor; now rewrite E1).
    split; [assumption|]. split; [intros z; unfold cmf_to_matrix; now rewrite E|]. split; [assumption|].
    split; [intros m; unfold cmf_to_unfolded; now rewrite E2|].
    intros [|]; unfold cmf_to_vec; [now rewrite E2|now rewrite E1].
Qed.

Lemma C20_main (c : rcmf) v : valid_cmf c -> cBs c <> [] ->
  exists t J, cmf_to_tensor c v = Ok t /\ is_max_rows c J /\
    t0 t = length (cBs c) /\ t1 t = J /\ t2 t = mr (cC c) /\
    forall i j k, (i < length (cBs c))%nat -> (j < J)%nat -> (k < mr (cC c))%nat ->
      tget t i j k = padded_entry c i j k.
Proof.
  intros Hv Hne. destruct (tensor_main c v Hv Hne) as (t & J & E & HJ & D0 & D1 & D2 & D3).
  exists t, J. split; [assumption|]. split; [assumption|].
  destruct Hv as (_ & _ & _ & HrA & _). split; [congruence|]. split; [assumption|]. split; [assumption|].
  intros i j k Hi Hj Hk. now apply (padded_get c J t).
Qed.
Lemma C20_empty_main (c : rcmf) v : valid_cmf c -> cBs c = [] -> cmf_to_tensor c v = Err ValueError.
Proof.
  intros Hv E. unfold cmf_to_tensor. rewrite matrices_dense by assumption. cbn. rewrite E. reflexivity.
Qed.

Lemma C21_unfold_main (c : rcmf) v (m : nat) (z : Z) J : valid_cmf c -> is_max_rows c J -> (m < 3)%nat ->
  (z = Z.of_nat m \/ z = Z.of_nat m - 3)%Z ->
  (0 < unfold_rows m (length (cBs c)) J (mr (cC c)))%nat ->
  exists X, cmf_to_unfolded c z true v = Ok X /\
    shaped X (unfold_rows m (length (cBs c)) J (mr (cC c))) (unfold_cols m (length (cBs c)) J (mr (cC c))) /\
    forall i j k, (i < length (cBs c))%nat -> (j < J)%nat -> (k < mr (cC c))%nat ->
      let '(a, b) := unfold_pos m J (mr (cC c)) i j k in rget X a b = padded_entry c i j k.
Proof.
  intros Hv HJ Hm Hz Hpos.
  assert (Hne : cBs c <> []).
  { destruct HJ as (_ & i & Hi & _). intros E. rewrite E in Hi. cbn in Hi. lia. }
  destruct (tensor_main c v Hv Hne) as (t & J' & E & HJ' & D0 & D1 & D2 & D3).
  assert (J' = J) as ->.
  { destruct HJ as (H1 & i & Hi & H2), HJ' as (H3 & i' & Hi' & H4).
    specialize (H1 i' Hi'). specialize (H3 i Hi). lia. }
  assert (Ht0 : t0 t = length (cBs c)) by (destruct Hv as (_ & _ & _ & HrA & _); congruence).
  assert (Hi3 : py_index 3 z = Ok m).
  { destruct Hz as [->| ->]; [now apply py_index_ok|]. now apply (py_index_neg 3). }
  pose proof (padded_wf c J t Hv D0 D1 D2 D3) as Hw.
  unfold cmf_to_unfolded. rewrite E. cbn [bind].
  assert (HP : (0 < t0 (moveaxis0 t m))%nat).
  { destruct m as [|[|m]]; cbn in *; congruence. }
  destruct (unfold_main t m z Hw Hi3 HP) as (X & -> & Hs & He).
  exists X. split; [reflexivity|]. split.
  - destruct m as [|[|[|m]]]; cbn in *; try lia; rewrite ?Ht0, ?D1, ?D2 in Hs; exact Hs.
  - intros i j k Hi Hj Hk. rewrite <- (padded_get c J t i j k) by assumption.
    rewrite (He i j k) by congruence.
    destruct m as [|[|[|m]]]; cbn in *; try lia; rewrite ?D1, ?D2; reflexivity.
Qed.
Lemma C21_vec_main (c : rcmf) v J : valid_cmf c -> is_max_rows c J ->
  exists x, cmf_to_vec c true v = Ok x /\ length x = (length (cBs c) * (J * mr (cC c)))%nat /\
    forall i j k, (i < length (cBs c))%nat -> (j < J)%nat -> (k < mr (cC c))%nat ->
      at_ x (i * (J * mr (cC c)) + (j * mr (cC c) + k)) = padded_entry c i j k.
Proof.
  intros Hv HJ.
  assert (Hne : cBs c <> []).
  { destruct HJ as (_ & i & Hi & _). intros E. rewrite E in Hi. cbn in Hi. lia. }
  destruct (tensor_main c v Hv Hne) as (t & J' & E & HJ' & D0 & D1 & D2 & D3).
  assert (J' = J) as ->.
  { destruct HJ as (H1 & i & Hi & H2), HJ' as (H3 & i' & Hi' & H4).
    specialize (H1 i' Hi'). specialize (H3 i Hi). lia. }
  assert (Ht0 : t0 t = length (cBs c)) by (destruct Hv as (_ & _ & _ & HrA & _); congruence).
  destruct (padded_wf c J t Hv D0 D1 D2 D3) as (W1 & W2).
  unfold cmf_to_vec. rewrite E. cbn [bind]. eexists; split; [reflexivity|]. split.
  - pose proof (tflat_length t W1 W2) as L. rewrite Ht0, D1, D2 in L. exact L.
  - intros i j k Hi Hj Hk. rewrite <- (padded_get c J t i j k) by assumption.
    rewrite <- D2, <- D1. apply tflat_nth; try assumption; congruence.
Qed.
Lemma C21_nopad_main (c : rcmf) v : valid_cmf c -> cBs c <> [] ->
  exists X x, cmf_to_unfolded c 2 false v = Ok X /\ cmf_to_vec c false v = Ok x /\
    shaped X (mr (cC c)) (rows_before c (length (cBs c))) /\
    length x = (rows_before c (length (cBs c)) * mr (cC c))%nat /\
    forall i j k, (i < length (cBs c))%nat -> (j < mr (nthB c i))%nat -> (k < mr (cC c))%nat ->
      rget X k (rows_before c i + j) = cmf_entry c i j k /\
      at_ x (rows_before c i * mr (cC c) + (j * mr (cC c) + k)) = cmf_entry c i j k.
Proof.
  intros Hv Hne. unfold cmf_to_unfolded, cmf_to_vec. cbn [Z.eqb Pos.eqb].
  rewrite matrices_dense by assumption. cbn [bind].
  set (l := map (dense c) (seq 0 (length (cBs c)))).
  assert (Ll : length l = length (cBs c)) by (unfold l; now rewrite map_length, seq_length).
  assert (Hl : l <> []) by (intros E; rewrite E in Ll; destruct (cBs c); [congruence|discriminate]).
  pose proof (dense_all c Hv) as HF. fold l in HF.
  assert (Ec : concatenate l = Ok (mconcat l)) by (unfold concatenate; destruct l; [congruence|reflexivity]).
  rewrite Ec. cbn [bind].
  exists (mtrans (mconcat l)), (concat (map mflat l)). split; [reflexivity|].
  split; [destruct l; [congruence|reflexivity]|].
  assert (Hrows : mr (mconcat l) = rows_before c (length (cBs c))).
  { rewrite <- stack_rows_dense by lia. fold l. unfold stack_rows. rewrite firstn_all2 by lia.
    destruct l; [congruence|reflexivity]. }
  assert (Hcols : mc (mconcat l) = mr (cC c)).
  { destruct l as [|M l']; [congruence|]. apply (HF M). now left. }
  split. { split; [auto with mwf|]. cbn. auto. }
  split. { rewrite (vec_nopad_length l (mr (cC c)) HF), Ll. unfold l. now rewrite stack_rows_dense by lia. }
  intros i j k Hi Hj Hk.
  assert (Hd : nth i l no_mat = dense c i) by (unfold l; now rewrite nth_seq_map).
  destruct (dense_is_matrix c i Hv Hi) as ((W & R1 & C1) & He).
  assert (Hsr : stack_rows l i = rows_before c i) by (apply stack_rows_dense; lia).
  assert (Hlt : (rows_before c i + j < rows_before c (length (cBs c)))%nat).
  { clear - Hi Hj. induction (length (cBs c)) as [|n IH]; [lia|]. cbn.
    destruct (Nat.eq_dec i n) as [->|]; [lia|]. specialize (IH ltac:(lia)). lia. }
  split.
  - rewrite mget_mtrans by congruence. rewrite <- Hsr. 
    rewrite (mconcat_get l (mr (cC c)) i j k) by (rewrite ?Hd; auto; congruence).
    rewrite Hd. now apply He.
  - rewrite <- Hsr. change (vg (concat (map mflat l)) (stack_rows l i * mr (cC c) + (j * mr (cC c) + k)) = cmf_entry c i j k).
    rewrite (vec_nopad_nth l (mr (cC c)) i j k) by (rewrite ?Hd; auto; congruence).
    rewrite Hd. now apply He.
Qed.
Lemma C21_modes_main (c : rcmf) v (z : Z) : z <> 2%Z -> cmf_to_unfolded c z false v = Err ValueError.
Proof. intros H. unfold cmf_to_unfolded. apply Z.eqb_neq in H. now rewrite H. Qed.

Lemma cp_check_ok (w : list R) (A B C : rmat) : valid_cp3 w A B C -> cp_check (Cpt (N:=RNum) w [A; B; C]) = true.
Proof.
  intros (_ & _ & _ & E1 & E2 & E3). unfold cp_check. cbn. rewrite E1, E2, !Nat.eqb_refl. cbn.
  apply Nat.eqb_eq. exact E3.
Qed.
Lemma C22_cp_main (w : list R) (A B C : rmat) (shapes : option (list (nat * nat))) :
  valid_cp3 w A B C ->
  (match shapes with None => True | Some sh => shapes_fit A B C sh end) ->
  exists c, from_CPTensor (Cpt (N:=RNum) w [A; B; C]) shapes = Ok c /\ valid_cmf c /\
    length (cBs c) = mr A /\ mr (cC c) = mr C /\
    forall i, (i < mr A)%nat ->
      mr (nthB c i) = match shapes with None => mr B | Some sh => fst (nth i sh (0, 0)%nat) end /\
      forall j k, (j < mr (nthB c i))%nat -> (k < mr C)%nat ->
        cmf_entry c i j k = cp_entry (mc A) (at_ w) (rget A) (rget B) (rget C) i j k.
Proof.
  intros Hcp Hsh. pose proof Hcp as (WA & WB & WC & E1 & E2 & E3).
  unfold from_CPTensor. rewrite cp_check_ok by assumption. cbn [negb cpf cpw].
  assert (Hent : forall c i j k, cw c = Some w -> cA c = A -> cC c = C ->
            (forall r, rget (nthB c i) j r = rget B j r) ->
            cmf_entry c i j k = cp_entry (mc A) (at_ w) (rget A) (rget B) (rget C) i j k).
  { intros c i j k Ew EA EC EB. unfold cmf_entry, cp_entry, weight. rewrite Ew, EA, EC. apply Sum_ext.
    intros r Hr. rewrite EB. rn. ring. }
  destruct shapes as [sh|].
  - destruct Hsh as (Hl & HF). rewrite Hl, Nat.eqb_refl. cbn [negb].
    pose proof (cp_Bs_spec B C sh WB) as S. destruct (cp_Bs B C sh) as [Bs|e].
    2:{ destruct S as (_ & S). exfalso. apply S. apply Forall_forall. intros [J K] Hin.
        destruct (HF J K Hin). cbn. auto. }
    destruct S as (L & F & EB). cbn [bind]. rewrite Forall_forall in F.
    set (c := Cmf (N:=RNum) (Some w) A Bs C).
    assert (HB : forall i, (i < length Bs)%nat -> mwf (nthB c i) /\ mc (nthB c i) = mc A /\
              mr (nthB c i) = fst (nth i sh (0, 0)%nat) /\
              forall j r, (j < mr (nthB c i))%nat -> rget (nthB c i) j r = rget B j r).
    { intros i Hi. unfold nthB. cbn [c cBs]. rewrite EB by congruence.
      destruct (firstn_mat B (fst (nth i sh (0, 0)%nat)) WB) as (W & G).
      { apply F. apply nth_In. congruence. }
      split; [exact W|]. split; [exact E1|]. split; [reflexivity|]. intros j r Hj. apply G. exact Hj. }
    assert (Hv : valid_cmf c).
    { split; [exact WA|]. split; [exact WC|]. split; [exact E2|]. split; [cbn; congruence|].
      split; [|intros w' Hw'; cbn in Hw'; injection Hw' as <-; exact E3].
      intros i Hi. destruct (HB i Hi) as (H1 & H2 & _). auto. }
    exists c. split; [now apply revalidate_ok|]. split; [exact Hv|]. split; [cbn; congruence|]. split; [reflexivity|].
    intros i Hi. assert (Hi' : (i < length Bs)%nat) by congruence. destruct (HB i Hi') as (H1 & H2 & H3 & H4).
    split; [exact H3|]. intros j k Hj Hk. apply Hent; try reflexivity. intros r. now apply H4.
  - cbn [bind]. set (c := Cmf (N:=RNum) (Some w) A (repeat B (mr A)) C).
    assert (HB : forall i, (i < mr A)%nat -> nthB c i = B).
    { intros i Hi. unfold nthB. cbn. now rewrite nth_repeat_lt. }
    assert (Hv : valid_cmf c).
    { split; [exact WA|]. split; [exact WC|]. split; [exact E2|]. split; [cbn; now rewrite repeat_length|].
      split; [|intros w' Hw'; cbn in Hw'; injection Hw' as <-; exact E3].
      intros i Hi. cbn in Hi. rewrite repeat_length in Hi. rewrite HB by assumption. auto. }
    exists c. split; [now apply revalidate_ok|]. split; [exact Hv|]. split; [cbn; now rewrite repeat_length|].
    split; [reflexivity|]. intros i Hi. rewrite HB by assumption. split; [reflexivity|]. intros j k Hj Hk.
    apply Hent; try reflexivity. intros r. now rewrite HB.
Qed.
Lemma C22_cp_reject_main (w : list R) (A B C : rmat) (sh : list (nat * nat)) :
  valid_cp3 w A B C -> ~ shapes_fit A B C sh ->
  from_CPTensor (Cpt (N:=RNum) w [A; B; C]) (Some sh) = Err ValueError.
Proof.
  intros Hcp Hn. pose proof Hcp as (WA & WB & WC & E1 & E2 & E3).
  unfold from_CPTensor. rewrite cp_check_ok by assumption. cbn [negb cpf cpw].
  destruct (Nat.eqb_spec (length sh) (mr A)) as [El|]; cbn [negb]; [|reflexivity].
  pose proof (cp_Bs_spec B C sh WB) as S. destruct (cp_Bs B C sh) as [Bs|e].
  - destruct S as (_ & F & _). exfalso. apply Hn. split; [assumption|]. intros J K Hin.
    rewrite Forall_forall in F. destruct (F (J, K) Hin). auto.
  - destruct S as (-> & _). reflexivity.
Qed.
Lemma C22_cp_order_main (w : list R) (Fs : list rmat) shapes : length Fs <> 3%nat ->
  from_CPTensor (Cpt (N:=RNum) w Fs) shapes = Err ValueError.
Proof.
  intros H. unfold from_CPTensor. destruct (cp_check (Cpt (N:=RNum) w Fs)); cbn [negb cpf]; [|reflexivity].
  destruct Fs as [|A [|B [|C [|D Fs]]]]; try reflexivity. cbn in H. lia.
Qed.
Lemma C22_pf2_main (t : pf2t (N:=RNum)) : valid_pf2 t ->
  exists c, from_Parafac2Tensor t = Ok c /\ valid_cmf c /\
    length (cBs c) = mr (pfA t) /\ mr (cC c) = mr (pfC t) /\
    forall i, (i < mr (pfA t))%nat -> mr (nthB c i) = mr (nth i (pfP t) no_mat) /\
      forall j k, (j < mr (nthB c i))%nat -> (k < mr (pfC t))%nat ->
        cmf_entry c i j k =
        pf2_entry (mc (pfA t)) (at_ (pfw t)) (rget (pfA t)) (rget (pfB t)) (rget (pfC t))
                  (rget (nth i (pfP t) no_mat)) i j k.
Proof.
  intros (WA & WB & WC & E1 & E2 & E3 & E4 & E5 & HP). unfold from_Parafac2Tensor.
  set (c := Cmf (N:=RNum) (Some (pfw t)) (pfA t) (map (fun P => mmul P (pfB t)) (pfP t)) (pfC t)).
  assert (HB : forall i, (i < length (pfP t))%nat -> nthB c i = mmul (nth i (pfP t) no_mat) (pfB t)).
  { intros i Hi. unfold nthB. cbn [c cBs]. now rewrite (nth_map_lt _ _ _ _ no_mat). }
  assert (Hv : valid_cmf c).
  { split; [exact WA|]. split; [exact WC|]. split; [exact E1|]. split; [cbn; rewrite map_length; congruence|].
    split; [|intros w' Hw'; cbn in Hw'; injection Hw' as <-; exact E4].
    intros i Hi. cbn in Hi. rewrite map_length in Hi. rewrite HB by assumption. split; [auto with mwf|exact E3]. }
  exists c. split; [now apply revalidate_ok|]. split; [exact Hv|]. split; [cbn; rewrite map_length; congruence|].
  split; [reflexivity|]. intros i Hi. assert (Hi' : (i < length (pfP t))%nat) by congruence.
  rewrite HB by assumption. split; [reflexivity|]. intros j k Hj Hk. mshape.
  unfold cmf_entry, pf2_entry. cbn [c cA cC]. apply Sum_ext. intros r Hr. rewrite HB by assumption.
  rewrite mget_mmul by (try assumption; congruence). destruct (HP i Hi') as (_ & HcP). rewrite HcP.
  unfold weight. cbn [cw c]. rewrite <- (rsum_Sum_ext (mc (pfA t)) _ (fun q => rget (nth i (pfP t) no_mat) j q * rget (pfB t) q r) (fun _ _ => eq_refl)).
  reflexivity.
Qed.
