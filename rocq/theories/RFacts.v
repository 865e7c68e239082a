(** Facts about the [RNum] instance: comparisons, sums, list accessors. *)
From Coq Require Import Reals Lra Lia List Arith Bool ZArith.
From Verif Require Import Num Numpy.
Import ListNotations.
Local Open Scope R_scope.

Global Arguments vget {N} v i : simpl never.
Global Arguments mget {N} M i j : simpl never.

Ltac rn0 := cbn [num n0 n1 nadd nsub nmul ndiv nopp nleb nsqrt nlit RNum].
Ltac rn := cbn [num n0 n1 nadd nsub nmul ndiv nopp nleb nsqrt nlit RNum] in *.

Lemma Rleb_spec x y : reflect (x <= y) (Rleb x y).
Proof. unfold Rleb; destruct (Rle_dec x y); constructor; assumption. Qed.
Lemma Rleb_true x y : Rleb x y = true <-> x <= y.
Proof. destruct (Rleb_spec x y); split; intros; try lra; congruence. Qed.
Lemma Rleb_false x y : Rleb x y = false <-> y < x.
Proof. destruct (Rleb_spec x y); split; intros; try lra; congruence. Qed.
Lemma nltb_spec (x y : R) : reflect (x < y) (nltb (N:=RNum) x y).
Proof. unfold nltb; rn. destruct (Rleb_spec y x); constructor; lra. Qed.
Lemma nltb_true (x y : R) : nltb (N:=RNum) x y = true <-> x < y.
Proof. destruct (nltb_spec x y); split; intros; try lra; congruence. Qed.
Lemma nltb_false (x y : R) : nltb (N:=RNum) x y = false <-> y <= x.
Proof. destruct (nltb_spec x y); split; intros; try lra; congruence. Qed.
Lemma neqb_true (x y : R) : neqb (N:=RNum) x y = true <-> x = y.
Proof.
  unfold neqb; rn. rewrite andb_true_iff, !Rleb_true. split; intros; [lra|subst; lra].
Qed.
Lemma neqb_spec (x y : R) : reflect (x = y) (neqb (N:=RNum) x y).
Proof.
  destruct (neqb (N:=RNum) x y) eqn:E; constructor.
  - now apply neqb_true.
  - intros H; apply neqb_true in H; congruence.
Qed.
Lemma nmax_R (x y : R) : nmax (N:=RNum) x y = Rmax x y.
Proof. unfold nmax, Rmax; rn. unfold Rleb. destruct (Rle_dec x y); reflexivity. Qed.
Lemma nmin_R (x y : R) : nmin (N:=RNum) x y = Rmin x y.
Proof. unfold nmin, Rmin; rn. unfold Rleb. destruct (Rle_dec x y); reflexivity. Qed.
Lemma nabs_R (x : R) : nabs (N:=RNum) x = Rabs x.
Proof.
  unfold nabs; rn. destruct (Rleb_spec 0 x).
  - now rewrite Rabs_right by lra.
  - rewrite Rabs_left by lra; reflexivity.
Qed.
Lemma ntruthy_R (x : R) : ntruthy (N:=RNum) x = true <-> x <> 0.
Proof.
  unfold ntruthy; rn. destruct (neqb_spec x 0); cbn; split; intros; try congruence; lra.
Qed.
Lemma ntruthy_pos (x : R) : 0 < x -> ntruthy (N:=RNum) x = true.
Proof. intros H. apply ntruthy_R. lra. Qed.
Lemma ntruthy_R_false (x : R) : ntruthy (N:=RNum) x = false <-> x = 0.
Proof.
  unfold ntruthy; rn. destruct (neqb_spec x 0); cbn; split; intros; try congruence; lra.
Qed.
Lemma nhalf_R : nhalf (N:=RNum) = 1 / 2.
Proof. reflexivity. Qed.

Ltac rlia := rn; lia.

(** ** Finite sums over R *)
Definition rsum (n : nat) (f : nat -> R) : R := nsum (N:=RNum) n f.
Lemma nsum_rsum n (f : nat -> R) : nsum (N:=RNum) n f = rsum n f.
Proof. reflexivity. Qed.
Lemma rsum_0 f : rsum 0 f = 0.
Proof. reflexivity. Qed.
Lemma rsum_S n f : rsum (S n) f = rsum n f + f n.
Proof. reflexivity. Qed.
Global Opaque rsum.

Lemma rsum_ext n f g : (forall i, (i < n)%nat -> f i = g i) -> rsum n f = rsum n g.
Proof.
  induction n as [|n IH]; intros H; [reflexivity|].
  rewrite !rsum_S, IH by (intros; apply H; lia). now rewrite H by lia.
Qed.
Lemma rsum_const n c : rsum n (fun _ => c) = INR n * c.
Proof.
  induction n as [|n IH]; [rewrite rsum_0; cbn; lra|].
  rewrite rsum_S, IH, S_INR; lra.
Qed.
Lemma rsum_zero n f : (forall i, (i < n)%nat -> f i = 0) -> rsum n f = 0.
Proof. intros H. rewrite (rsum_ext n f (fun _ => 0) H), rsum_const; lra. Qed.
Lemma rsum_add n f g : rsum n (fun i => f i + g i) = rsum n f + rsum n g.
Proof. induction n as [|n IH]; [rewrite !rsum_0; lra|]. rewrite !rsum_S, IH; lra. Qed.
Lemma rsum_sub n f g : rsum n (fun i => f i - g i) = rsum n f - rsum n g.
Proof. induction n as [|n IH]; [rewrite !rsum_0; lra|]. rewrite !rsum_S, IH; lra. Qed.
Lemma rsum_opp n f : rsum n (fun i => - f i) = - rsum n f.
Proof. induction n as [|n IH]; [rewrite !rsum_0; lra|]. rewrite !rsum_S, IH; lra. Qed.
Lemma rsum_scal n c f : rsum n (fun i => c * f i) = c * rsum n f.
Proof. induction n as [|n IH]; [rewrite !rsum_0; lra|]. rewrite !rsum_S, IH; lra. Qed.
Lemma rsum_scal_r n c f : rsum n (fun i => f i * c) = rsum n f * c.
Proof. induction n as [|n IH]; [rewrite !rsum_0; lra|]. rewrite !rsum_S, IH; lra. Qed.
Lemma rsum_le n f g : (forall i, (i < n)%nat -> f i <= g i) -> rsum n f <= rsum n g.
Proof.
  induction n as [|n IH]; intros H; [rewrite !rsum_0; lra|].
  rewrite !rsum_S. pose proof (IH ltac:(intros; apply H; lia)). pose proof (H n ltac:(lia)). lra.
Qed.
Lemma rsum_nonneg n f : (forall i, (i < n)%nat -> 0 <= f i) -> 0 <= rsum n f.
Proof. intros H. rewrite <- (rsum_zero n (fun _ => 0)) by reflexivity. now apply rsum_le. Qed.
Lemma rsum_nonneg_zero n f :
  (forall i, (i < n)%nat -> 0 <= f i) -> rsum n f = 0 -> forall i, (i < n)%nat -> f i = 0.
Proof.
  induction n as [|n IH]; intros H H0 i Hi; [lia|].
  rewrite rsum_S in H0.
  assert (0 <= rsum n f) by (apply rsum_nonneg; intros; apply H; lia).
  pose proof (H n ltac:(lia)).
  destruct (Nat.eq_dec i n) as [->|Hne]; [lra|].
  apply IH; [intros; apply H; lia | lra | lia].
Qed.
Lemma rsum_pos n f :
  (forall i, (i < n)%nat -> 0 <= f i) -> (exists i, (i < n)%nat /\ 0 < f i) -> 0 < rsum n f.
Proof.
  intros H [i [Hi Hp]]. assert (0 <= rsum n f) by (now apply rsum_nonneg).
  destruct (Req_dec (rsum n f) 0) as [E|E]; [|lra].
  pose proof (rsum_nonneg_zero n f H E i Hi); lra.
Qed.
Lemma rsum_le_one n f i :
  (forall k, (k < n)%nat -> 0 <= f k) -> (i < n)%nat -> f i <= rsum n f.
Proof.
  induction n as [|n IH]; intros H Hi; [lia|]. rewrite rsum_S.
  assert (0 <= rsum n f) by (apply rsum_nonneg; intros; apply H; lia).
  destruct (Nat.eq_dec i n) as [->|Hne]; [lra|].
  pose proof (IH ltac:(intros; apply H; lia) ltac:(lia)). pose proof (H n ltac:(lia)). lra.
Qed.
Lemma rsum_swap n m (f : nat -> nat -> R) :
  rsum n (fun i => rsum m (fun j => f i j)) = rsum m (fun j => rsum n (fun i => f i j)).
Proof.
  induction n as [|n IH].
  - rewrite rsum_0. symmetry; apply rsum_zero; intros; apply rsum_0.
  - rewrite rsum_S, IH. rewrite <- rsum_add. apply rsum_ext; intros. now rewrite rsum_S.
Qed.
Lemma rsum_split n m f : rsum (n + m) f = rsum n f + rsum m (fun i => f (n + i)%nat).
Proof.
  induction m as [|m IH].
  - rewrite Nat.add_0_r, rsum_0; lra.
  - rewrite Nat.add_succ_r, !rsum_S, IH; lra.
Qed.
Lemma rsum_head n f : rsum (S n) f = f 0%nat + rsum n (fun i => f (S i)).
Proof.
  change (S n) with (1 + n)%nat. rewrite rsum_split, rsum_S, rsum_0. cbn. lra.
Qed.
Lemma rsum_single n i f :
  (i < n)%nat -> (forall k, (k < n)%nat -> k <> i -> f k = 0) -> rsum n f = f i.
Proof.
  induction n as [|n IH]; intros Hi H; [lia|]. rewrite rsum_S.
  destruct (Nat.eq_dec i n) as [->|Hne].
  - rewrite rsum_zero; [lra|]. intros; apply H; lia.
  - rewrite IH by (try lia; intros; apply H; lia). rewrite (H n) by lia. lra.
Qed.
Lemma rsum_delta n i (f : nat -> R) :
  (i < n)%nat -> rsum n (fun k => (if (i =? k)%nat then 1 else 0) * f k) = f i.
Proof.
  intros Hi. rewrite (rsum_single n i); [|assumption|].
  - rewrite Nat.eqb_refl; lra.
  - intros k Hk Hne; destruct (Nat.eqb_spec i k); [congruence|lra].
Qed.
Lemma rsum_delta_r n i (f : nat -> R) :
  (i < n)%nat -> rsum n (fun k => f k * (if (k =? i)%nat then 1 else 0)) = f i.
Proof.
  intros Hi. rewrite (rsum_single n i); [|assumption|].
  - rewrite Nat.eqb_refl; lra.
  - intros k Hk Hne; destruct (Nat.eqb_spec k i); [congruence|lra].
Qed.
Lemma rsum_rev n f : rsum n (fun i => f (n - 1 - i)%nat) = rsum n f.
Proof.
  induction n as [|n IH]; [reflexivity|].
  rewrite rsum_head. rewrite rsum_S. rewrite <- IH.
  replace (S n - 1 - 0)%nat with n by lia. rewrite Rplus_comm. f_equal.
  apply rsum_ext; intros i Hi. f_equal; lia.
Qed.

(** ** Lists *)
Lemma length_upd {A} (l : list A) i x : length (upd l i x) = length l.
Proof. revert i; induction l as [|a l IH]; intros [|i]; cbn; auto. Qed.
Lemma nth_upd {A} (l : list A) i j x d :
  (i < length l)%nat -> nth j (upd l i x) d = if (j =? i)%nat then x else nth j l d.
Proof.
  revert i j; induction l as [|a l IH]; intros [|i] [|j]; cbn; intros H; try lia; auto.
  apply IH; lia.
Qed.
Lemma nth_upd_eq {A} (l : list A) i x d : (i < length l)%nat -> nth i (upd l i x) d = x.
Proof. intros; rewrite nth_upd by assumption; now rewrite Nat.eqb_refl. Qed.
Lemma nth_upd_neq {A} (l : list A) i j x d : j <> i -> nth j (upd l i x) d = nth j l d.
Proof. revert i j; induction l as [|a l IH]; intros [|i] [|j] H; cbn; auto; try lia. Qed.

Lemma length_map2 {A B C} (f : A -> B -> C) l m :
  length (map2 f l m) = Nat.min (length l) (length m).
Proof. revert m; induction l as [|a l IH]; intros [|b m]; cbn; auto. Qed.
Lemma nth_map2 {A B C} (f : A -> B -> C) l m i da db dc :
  (i < length l)%nat -> (i < length m)%nat ->
  nth i (map2 f l m) dc = f (nth i l da) (nth i m db).
Proof.
  revert m i; induction l as [|a l IH]; intros [|b m] [|i]; cbn; intros; try lia; auto.
  apply IH; lia.
Qed.
Lemma nth_map_lt {A B} (f : A -> B) l i d d' :
  (i < length l)%nat -> nth i (map f l) d = f (nth i l d').
Proof.
  intros H. rewrite (nth_indep (map f l) d (f d')) by (now rewrite map_length).
  apply map_nth.
Qed.
Lemma nth_repeat_lt {A} (x d : A) n i : (i < n)%nat -> nth i (repeat x n) d = x.
Proof. revert i; induction n; intros [|i] H; cbn; try lia; auto. apply IHn; lia. Qed.
Lemma nth_seq_map {A} (f : nat -> A) n i d : (i < n)%nat -> nth i (map f (seq 0 n)) d = f i.
Proof.
  intros H. rewrite (nth_map_lt f _ _ d 0%nat) by (now rewrite seq_length).
  now rewrite seq_nth by assumption.
Qed.
Lemma list_eq_nth {A} (l m : list A) d :
  length l = length m -> (forall i, (i < length l)%nat -> nth i l d = nth i m d) -> l = m.
Proof. intros; apply nth_ext with d d; auto. Qed.

Lemma Forall2_len {A B} {P : A -> B -> Prop} {l m} : Forall2 P l m -> length l = length m.
Proof. induction 1; cbn; congruence. Qed.

Lemma vget_vbuild n (f : nat -> R) i : (i < n)%nat -> vget (N:=RNum) (vbuild n f) i = f i.
Proof. intros; unfold vget, vbuild. now apply nth_seq_map. Qed.
Lemma length_vbuild n (f : nat -> R) : length (vbuild (N:=RNum) n f) = n.
Proof. unfold vbuild; now rewrite map_length, seq_length. Qed.

Lemma vg_upd_eq (l : list R) i x : (i < length l)%nat -> vget (N:=RNum) (upd l i x) i = x.
Proof. intros; unfold vget; now apply nth_upd_eq. Qed.
Lemma vg_upd_neq (l : list R) i j x : j <> i ->
  vget (N:=RNum) (upd l i x) j = vget (N:=RNum) l j.
Proof. intros; unfold vget; now apply nth_upd_neq. Qed.

Lemma vg_map2 (f : R -> R -> R) (u v : list R) i : (i < length u)%nat -> (i < length v)%nat ->
  vget (N:=RNum) (map2 f u v) i = f (vget (N:=RNum) u i) (vget (N:=RNum) v i).
Proof. intros; unfold vget; now apply nth_map2. Qed.
Lemma vg_vmul (u v : list R) i : (i < length u)%nat -> (i < length v)%nat ->
  vget (N:=RNum) (vmul (N:=RNum) u v) i = vget (N:=RNum) u i * vget (N:=RNum) v i.
Proof. intros; unfold vmul; now apply vg_map2. Qed.
Lemma vg_vadd (u v : list R) i : (i < length u)%nat -> (i < length v)%nat ->
  vget (N:=RNum) (vadd (N:=RNum) u v) i = vget (N:=RNum) u i + vget (N:=RNum) v i.
Proof. intros; unfold vadd; now apply vg_map2. Qed.
Lemma vg_vsub (u v : list R) i : (i < length u)%nat -> (i < length v)%nat ->
  vget (N:=RNum) (vsub (N:=RNum) u v) i = vget (N:=RNum) u i - vget (N:=RNum) v i.
Proof. intros; unfold vsub; now apply vg_map2. Qed.
Lemma vg_map (f : R -> R) (u : list R) i : (i < length u)%nat ->
  vget (N:=RNum) (map f u) i = f (vget (N:=RNum) u i).
Proof. intros; unfold vget; now apply nth_map_lt. Qed.

Lemma lsum_acc (l : list R) a : fold_left Rplus l a = a + fold_left Rplus l 0.
Proof.
  revert a; induction l as [|x l IH]; intros a; cbn; [lra|].
  rewrite (IH (a + x)), (IH (0 + x)); lra.
Qed.
Lemma lsum_cons (x : R) l : lsum (N:=RNum) (x :: l) = x + lsum (N:=RNum) l.
Proof. unfold lsum; cbn. rewrite lsum_acc; lra. Qed.
Lemma lsum_nil : lsum (N:=RNum) [] = 0.
Proof. reflexivity. Qed.
Lemma lsum_rsum (l : list R) : lsum (N:=RNum) l = rsum (length l) (fun i => nth i l 0).
Proof.
  induction l as [|x l IH]; [reflexivity|].
  rewrite lsum_cons, IH. cbn [length]. rewrite rsum_head. reflexivity.
Qed.
