(** Lists and matrices taken in another order: what is computed entry by entry is taken in
    the same order, and sums and maxima do not change. *)
From Coq Require Import Reals Lra Lia List Arith Bool Permutation FunctionalExtensionality.
From Verif Require Import Num Numpy RFacts Unimodal Penalties.
Import ListNotations.

(** ** Lists *)
(** The elements of l at the positions p. *)
Definition reorder {T} (p : list nat) (l : list T) : list T :=
  flat_map (fun i => match nth_error l i with Some x => [x] | None => [] end) p.
Lemma reorder_map {T U} p (f : T -> U) l : reorder p (map f l) = map f (reorder p l).
Proof.
  unfold reorder. induction p as [|i p IH]; [reflexivity|]. cbn [flat_map]. rewrite map_app, IH. f_equal.
  rewrite nth_error_map. now destruct (nth_error l i).
Qed.
Lemma nth_error_map2 {T U W} (f : T -> U -> W) l : forall m i, nth_error (map2 f l m) i =
  match nth_error l i, nth_error m i with Some x, Some y => Some (f x y) | _, _ => None end.
Proof.
  induction l as [|x l IH]; intros [|y m] [|i]; cbn [map2 nth_error]; try reflexivity.
  - now destruct (nth_error l i).
  - apply IH.
Qed.
Lemma reorder_map2 {T U W} p (f : T -> U -> W) l m : length l = length m -> reorder p (map2 f l m) = map2 f (reorder p l) (reorder p m).
Proof.
  intros L. unfold reorder. induction p as [|i p IH]; [reflexivity|]. cbn [flat_map]. rewrite IH, nth_error_map2.
  destruct (nth_error l i) eqn:E1, (nth_error m i) eqn:E2; cbn; auto.
  - exfalso. apply nth_error_None in E2. apply (f_equal (fun o => match o with Some _ => true | None => false end)) in E1. assert (nth_error l i <> None) by (destruct (nth_error l i); discriminate). apply nth_error_Some in H. lia.
  - exfalso. apply nth_error_None in E1. assert (nth_error m i <> None) by congruence. apply nth_error_Some in H. lia.
Qed.
Lemma mapM_nth_error {T U} (f : T -> res U) l : forall r, mapM f l = Ok r -> forall i,
  match nth_error l i with Some x => exists y, f x = Ok y /\ nth_error r i = Some y | None => nth_error r i = None end.
Proof.
  induction l as [|x l IH]; intros r H i; cbn [mapM] in H.
  - injection H as <-. now destruct i.
  - destruct (f x) as [y|] eqn:E; [|discriminate]. cbn [bind] in H. destruct (mapM f l) as [ys|]; [|discriminate]. cbn [bind] in H. injection H as <-.
    destruct i as [|i]; cbn [nth_error]; [eauto|]. now apply IH.
Qed.
Lemma mapM_app {T U} (f : T -> res U) l m a b : mapM f l = Ok a -> mapM f m = Ok b -> mapM f (l ++ m) = Ok (a ++ b).
Proof.
  revert a. induction l as [|x l IH]; intros a H1 H2; cbn [mapM app] in *; [now injection H1 as <-|].
  destruct (f x); [|discriminate]. cbn [bind] in *. destruct (mapM f l) as [ys|]; [|discriminate]. cbn [bind] in *. injection H1 as <-.
  now rewrite (IH ys eq_refl H2).
Qed.
Lemma mapM_reorder {T U} p (f : T -> res U) l r : mapM f l = Ok r -> mapM f (reorder p l) = Ok (reorder p r).
Proof.
  intros H. unfold reorder. induction p as [|i p IH]; [reflexivity|]. cbn [flat_map]. apply mapM_app; [|exact IH].
  pose proof (mapM_nth_error _ _ _ H i) as K. destruct (nth_error l i) as [x|]; [|now rewrite K].
  destruct K as (y & K1 & ->). cbn [mapM]. now rewrite K1.
Qed.
Lemma mapM_ext {T U} (f g : T -> res U) l : (forall x, In x l -> f x = g x) -> mapM f l = mapM g l.
Proof. induction l as [|x l IH]; intros H; [reflexivity|]. cbn [mapM]. rewrite H by now left. rewrite IH; [reflexivity|]. intros y Hy. apply H. now right. Qed.
Lemma mapM_map {T U W} (f : U -> res W) (h : T -> U) l : mapM f (map h l) = mapM (fun x => f (h x)) l.
Proof. induction l as [|x l IH]; [reflexivity|]. cbn [mapM map]. now rewrite IH. Qed.
(** What commutes with a change of the elements. *)
Lemma mapM_commute {T U T' U'} (f : T -> res U) (f' : T' -> res U') (h : T -> T') (k : U -> U') (Q : T -> Prop) l r :
  (forall x y, Q x -> f x = Ok y -> f' (h x) = Ok (k y)) -> Forall Q l -> mapM f l = Ok r -> mapM f' (map h l) = Ok (map k r).
Proof.
  intros HC F. revert r. induction F as [|x l Hx F IH]; intros r H; cbn [mapM map] in *; [now injection H as <-|].
  destruct (f x) as [y|] eqn:E; [|discriminate]. cbn [bind] in H. destruct (mapM f l) as [ys|]; [|discriminate]. cbn [bind] in H. injection H as <-.
  rewrite (HC x y Hx E). cbn [bind]. now rewrite (IH ys eq_refl).
Qed.
Lemma map_nth_seq {T} (l : list T) d : map (fun i => nth i l d) (seq 0 (length l)) = l.
Proof.
  induction l as [|x l IH]; [reflexivity|]. cbn [length seq map nth]. f_equal. rewrite <- seq_shift, map_map. exact IH.
Qed.

Section Perm.
Variables (p : list nat) (n : nat).
Hypothesis Hp : Permutation p (seq 0 n).
Notation s := (fun k => nth k p 0).

Lemma p_len : length p = n. Proof. now rewrite (Permutation_length Hp), seq_length. Qed.
Lemma p_lt i : In i p -> i < n. Proof. intros H. apply (Permutation_in _ Hp) in H. apply in_seq in H. lia. Qed.
Lemma s_lt k : k < n -> nth k p 0 < n. Proof. intros H. apply p_lt, nth_In. now rewrite p_len. Qed.
Lemma map_s : map s (seq 0 n) = p.
Proof. rewrite <- p_len. apply map_nth_seq. Qed.
Lemma reorder_nths {T} (l : list T) d : length l = n -> reorder p l = map (fun i => nth i l d) p.
Proof.
  intros L. assert (K : forall i, In i p -> i < length l) by (intros; rewrite L; now apply p_lt). clear L. revert K. generalize p as q.
  induction q as [|i q IH]; intros K; [reflexivity|]. unfold reorder. cbn [flat_map map].
  rewrite (nth_error_nth' l d) by (apply K; now left). cbn [app]. f_equal. apply IH. intros; apply K; now right.
Qed.
Lemma reorder_length {T} (l : list T) : length l = n -> length (reorder p l) = n.
Proof. intros L. destruct l as [|x l]; [|rewrite (reorder_nths _ x L), map_length; apply p_len]. cbn in L |- *. pose proof p_len as K. rewrite <- L in *. destruct p; [reflexivity|discriminate]. Qed.
Lemma reorder_nth {T} (l : list T) d k : length l = n -> k < n -> nth k (reorder p l) d = nth (nth k p 0) l d.
Proof. intros L Hk. rewrite (reorder_nths l d L), nth_indep with (d' := nth 0 l d) by (rewrite map_length, p_len; exact Hk). apply map_nth with (f := fun i => nth i l d). Qed.
Lemma reorder_perm {T} (l : list T) : length l = n -> Permutation (reorder p l) l.
Proof.
  intros L. destruct l as [|x l0] eqn:EL.
  - cbn in L. pose proof p_len as K. rewrite <- L in K. destruct p; [constructor|discriminate].
  - rewrite <- EL in *. rewrite (reorder_nths l x L). transitivity (map (fun i => nth i l x) (seq 0 (length l))); [apply Permutation_map; now rewrite L|]. rewrite map_nth_seq. reflexivity.
Qed.
Lemma reorder_seq : reorder p (seq 0 n) = p.
Proof.
  rewrite (reorder_nths (seq 0 n) 0) by apply seq_length. rewrite <- (map_id p) at 2. apply map_ext_in. intros i Hi. rewrite seq_nth by now apply p_lt. lia.
Qed.
Lemma mapM_seq_reorder {U} (G G' : nat -> res U) r : (forall k, k < n -> G' k = G (nth k p 0)) -> mapM G (seq 0 n) = Ok r ->
  mapM G' (seq 0 n) = Ok (reorder p r).
Proof.
  intros HG H. rewrite (mapM_ext G' (fun k => G (s k))) by (intros k Hk; apply in_seq in Hk; apply HG; lia).
  rewrite <- (mapM_map G s), map_s. rewrite <- reorder_seq at 1. now apply mapM_reorder.
Qed.
Lemma reorder_ext {T} (l m : list T) d : length l = n -> length m = n -> (forall k, k < n -> nth k m d = nth (nth k p 0) l d) -> m = reorder p l.
Proof.
  intros L M H. apply (nth_ext _ _ d d); [now rewrite M, reorder_length|]. intros k Hk. rewrite M in Hk. rewrite reorder_nth by assumption. now apply H.
Qed.

(** ** Sums and extreme values of reals *)
Local Open Scope R_scope.
Lemma lsum_perm (l m : list R) : Permutation l m -> lsum (N:=RNum) l = lsum (N:=RNum) m.
Proof.
  intros H. unfold lsum. enough (forall a, fold_left (@nadd RNum) l a = fold_left (@nadd RNum) m a) by auto.
  induction H as [|x l m H IH|x y l|l m k H1 IH1 H2 IH2]; intros a; cbn [fold_left]; auto.
  - f_equal. cbn. lra.
  - now rewrite IH1.
Qed.
Lemma lsum_reorder (l : list R) : length l = n -> lsum (N:=RNum) (reorder p l) = lsum (N:=RNum) l.
Proof. intros L. now apply lsum_perm, reorder_perm. Qed.
Lemma fold_perm (f : R -> R -> R) : (forall a x y, f (f a x) y = f (f a y) x) -> forall l m, Permutation l m -> forall a, fold_left f l a = fold_left f m a.
Proof.
  intros HF l m H. induction H as [|x l m H IH|x y l|l m k H1 IH1 H2 IH2]; intros a; cbn [fold_left]; auto.
  - now rewrite HF.
  - now rewrite IH1.
Qed.
Lemma extreme_perm (f : R -> R -> R) (l m : list R) : (forall x y, f x y = f y x) -> (forall x y z, f (f x y) z = f x (f y z)) -> (forall x, f x x = x) -> Permutation l m ->
  match l with [] => 0 | x :: t => fold_left f t x end = match m with [] => 0 | x :: t => fold_left f t x end.
Proof.
  intros FC FA FI H.
  assert (S : forall a x y, f (f a x) y = f (f a y) x) by (intros; now rewrite FA, (FC x), <- FA).
  destruct l as [|x t]; [apply Permutation_nil in H; now subst|]. destruct m as [|y u]; [symmetry in H; now apply Permutation_nil in H|].
  (* both folds absorb their own first element *)
  assert (A : fold_left f (x :: t) x = fold_left f t x) by (cbn [fold_left]; now rewrite FI).
  assert (B : fold_left f (y :: u) y = fold_left f u y) by (cbn [fold_left]; now rewrite FI).
  assert (IN : forall z l, In z l -> fold_left f l z = match l with [] => z | x :: t => fold_left f t x end).
  { intros z l0 Hz. apply in_split in Hz as (l1 & l2 & ->). 
    assert (P1 : Permutation (l1 ++ z :: l2) (z :: l1 ++ l2)) by (symmetry; apply Permutation_middle).
    rewrite (fold_perm f S _ _ P1). cbn [fold_left]. rewrite FI. destruct l1 as [|w l1]; [reflexivity|]. cbn [app fold_left].
    rewrite (fold_perm f S _ _ (Permutation_sym (Permutation_middle l1 l2 z))). cbn [fold_left]. f_equal. apply FC. }
  rewrite <- A, (fold_perm f S _ _ H). apply IN. apply (Permutation_in _ H). now left.
Qed.
Lemma nmax_R (x y : R) : @nmax RNum x y = Rmax x y.
Proof. unfold nmax. cbn. unfold Rleb. destruct (Rle_dec x y); unfold Rmax; destruct (Rle_dec x y); try reflexivity; contradiction. Qed.
Lemma nmin_R (x y : R) : @nmin RNum x y = Rmin x y.
Proof. unfold nmin. cbn. unfold Rleb. destruct (Rle_dec x y); unfold Rmin; destruct (Rle_dec x y); try reflexivity; contradiction. Qed.
Lemma lmax_reorder (l : list R) : length l = n -> lmax (N:=RNum) (reorder p l) = lmax (N:=RNum) l.
Proof.
  intros L. unfold lmax. apply (extreme_perm (@nmax RNum)); [| | |now apply reorder_perm]; intros; rewrite ?nmax_R.
  - apply Rmax_comm. - symmetry. apply Rmax_assoc. - apply Rmax_left. lra.
Qed.
Lemma lmin_reorder (l : list R) : length l = n -> lmin (N:=RNum) (reorder p l) = lmin (N:=RNum) l.
Proof.
  intros L. unfold lmin. apply (extreme_perm (@nmin RNum)); [| | |now apply reorder_perm]; intros; rewrite ?nmin_R.
  - apply Rmin_comm. - symmetry. apply Rmin_assoc. - apply Rmin_left. lra.
Qed.
Lemma nsum_lsum (f : nat -> R) k : nsum (N:=RNum) k f = lsum (N:=RNum) (map f (seq 0 k)).
Proof.
  induction k as [|k IH]; [reflexivity|]. rewrite seq_S, map_app. unfold lsum in *. rewrite fold_left_app. cbn [map fold_left nsum]. now rewrite IH.
Qed.
Lemma nsum_s (f : nat -> R) : nsum (N:=RNum) n (fun i => f (nth i p 0%nat)) = nsum (N:=RNum) n f.
Proof.
  rewrite !nsum_lsum. rewrite <- (map_map s f), map_s. now apply lsum_perm, Permutation_map.
Qed.
End Perm.
