(** Matrices with reordered rows, lists of matrices in another order, and the updates of the
    penalties. *)
From Coq Require Import Reals Lra Lia List Arith Bool Permutation FunctionalExtensionality.
From Verif Require Import Num Numpy RFacts MatFacts Unimodal Penalties CoupledMatrices Decomp OrderProofs OrderSizes ReorderFacts ReorderSpec.
Import ListNotations.

Notation rmat := (mat (N:=RNum)).
Definition mreorder (p : list nat) (M : rmat) : rmat := Mat (N:=RNum) (mr M) (mc M) (reorder p (me M)).

Section Perm.
Variables (p : list nat) (n : nat).
Hypothesis Hp : Permutation p (seq 0 n).
Local Open Scope R_scope.

Definition tall (M : rmat) : Prop := mr M = n /\ length (me M) = n.
Lemma tall_mbuild c f : tall (mbuild (N:=RNum) n c f).
Proof. split; [reflexivity|]. cbn. now rewrite map_length, seq_length. Qed.
Lemma tall_re M : tall M -> tall (mreorder p M).
Proof. intros (H1 & H2). split; [exact H1|]. cbn. now apply (reorder_length p n Hp). Qed.
Lemma mget_re M k j : tall M -> (k < n)%nat -> mget (mreorder p M) k j = mget M (nth k p 0%nat) j.
Proof. intros (_ & H) Hk. unfold mget. cbn [mreorder me]. now rewrite (reorder_nth p n Hp). Qed.
Lemma mrow_re M k : tall M -> (k < n)%nat -> mrow (mreorder p M) k = mrow M (nth k p 0%nat).
Proof. intros (_ & H) Hk. unfold mrow. cbn [mreorder me]. now rewrite (reorder_nth p n Hp). Qed.
Lemma mbuild_re c f : mreorder p (mbuild (N:=RNum) n c f) = mbuild (N:=RNum) n c (fun i => f (nth i p 0%nat)).
Proof.
  unfold mreorder, mbuild. cbn [mr mc me]. f_equal. rewrite reorder_map, (reorder_seq p n Hp). rewrite <- (map_s p n Hp) at 1. now rewrite map_map.
Qed.
Lemma mbuild_ext2 r c (f g : nat -> nat -> R) : (forall i j, (i < r)%nat -> (j < c)%nat -> f i j = g i j) -> mbuild (N:=RNum) r c f = mbuild (N:=RNum) r c g.
Proof.
  intros H. unfold mbuild. f_equal. apply map_ext_in. intros i Hi. apply in_seq in Hi. apply map_ext_in. intros j Hj. apply in_seq in Hj. apply H; lia.
Qed.
Lemma mmap_re f M : tall M -> mmap f (mreorder p M) = mreorder p (mmap f M).
Proof.
  intros T. unfold mmap. pose proof T as (T1 & _). cbn [mreorder mr mc]. rewrite T1, mbuild_re. apply mbuild_ext2. intros i j Hi _. f_equal. now apply mget_re.
Qed.
Lemma mmap2_re f A B : tall A -> tall B -> mmap2 f (mreorder p A) (mreorder p B) = mreorder p (mmap2 f A B).
Proof.
  intros TA TB. unfold mmap2. pose proof TA as (T1 & _). cbn [mreorder mr mc]. rewrite T1, mbuild_re. apply mbuild_ext2. intros i j Hi _. f_equal; now apply mget_re.
Qed.
Lemma tall_mmap f M : tall M -> tall (mmap f M). Proof. intros (T & _). unfold mmap. rewrite T. apply tall_mbuild. Qed.
Lemma tall_mmap2 f A B : tall A -> tall (mmap2 f A B). Proof. intros (T & _). unfold mmap2. rewrite T. apply tall_mbuild. Qed.
Lemma mcolscale_re M v : tall M -> mcolscale (mreorder p M) v = mreorder p (mcolscale M v).
Proof. intros T. unfold mcolscale. pose proof T as (T1 & _). cbn [mreorder mr mc]. rewrite T1, mbuild_re. apply mbuild_ext2. intros i j Hi _. now rewrite mget_re. Qed.
Lemma mcoldiv_re M v : tall M -> mcoldiv (mreorder p M) v = mreorder p (mcoldiv M v).
Proof. intros T. unfold mcoldiv. pose proof T as (T1 & _). cbn [mreorder mr mc]. rewrite T1, mbuild_re. apply mbuild_ext2. intros i j Hi _. now rewrite mget_re. Qed.
Lemma nsum_ext2 k (f g : nat -> R) : (forall i, (i < k)%nat -> f i = g i) -> nsum (N:=RNum) k f = nsum (N:=RNum) k g.
Proof. intros H. induction k as [|k IH]; [reflexivity|]. cbn [nsum]. rewrite H by lia. rewrite IH; [reflexivity|]. intros; apply H; lia. Qed.
Lemma msum_re M : tall M -> msum (mreorder p M) = msum M.
Proof.
  intros T. unfold msum. pose proof T as (T1 & _). cbn [mreorder mr mc]. rewrite T1. rewrite <- (nsum_s p n Hp (fun i => nsum (mc M) (fun j => mget M i j))).
  apply nsum_ext2. intros i Hi. apply nsum_ext2. intros j _. now apply mget_re.
Qed.
Lemma msumsq_re M : tall M -> msumsq (mreorder p M) = msumsq M.
Proof. intros T. unfold msumsq, mhad. rewrite mmap2_re by assumption. apply msum_re. now apply tall_mmap2. Qed.
Lemma mnorm_re M : tall M -> mnorm (mreorder p M) = mnorm M.
Proof. intros T. unfold mnorm. now rewrite msumsq_re. Qed.
Lemma col_norms_re M : tall M -> col_norms (mreorder p M) = col_norms M.
Proof.
  intros T. unfold col_norms, vbuild. pose proof T as (T1 & _). cbn [mreorder mr mc]. rewrite T1. apply map_ext. intros j. f_equal.
  rewrite <- (nsum_s p n Hp (fun i => nmul (mget M i j) (mget M i j))). apply nsum_ext2. intros i Hi. now rewrite mget_re.
Qed.
Lemma mcol_re M j : mcol (mreorder p M) j = reorder p (mcol M j).
Proof. unfold mcol. cbn [mreorder me]. now rewrite reorder_map. Qed.
Lemma simplex_col_re (col r : list (@num RNum)) : length col = n -> simplex_col (N:=RNum) col = Ok r -> simplex_col (N:=RNum) (reorder p col) = Ok (reorder p r) /\ length r = n.
Proof.
  intros L H. unfold simplex_col in *. destruct (lagrange_multiplier (N:=RNum) col) as [mu|] eqn:E; [|discriminate]. cbn [bind] in H. injection H as <-. split; [|now rewrite map_length].
  assert (K : lagrange_multiplier (N:=RNum) (reorder p col) = Ok mu).
  { unfold lagrange_multiplier in *. destruct col as [|x t]; [discriminate|]. 
    assert (LR : length (reorder p (x :: t)) = n) by now apply (reorder_length p n Hp).
    destruct (reorder p (x :: t)) as [|y u] eqn:ER; [exfalso; cbn in LR, L; lia|]. rewrite <- ER in *. rewrite <- E. f_equal.
    - apply functional_extensionality. intros m. unfold simplex_f. rewrite <- reorder_map. now rewrite (lsum_reorder p n Hp) by (rewrite map_length; exact L).
    - unfold simplex_lo. now rewrite (lmin_reorder p n Hp _ L : lmin (N:=RNum) (@reorder (@num RNum) p (x :: t)) = lmin (x :: t)).
    - unfold simplex_hi. now rewrite (lmax_reorder p n Hp _ L : lmax (N:=RNum) (@reorder (@num RNum) p (x :: t)) = lmax (x :: t)). }
  rewrite K. cbn [bind]. now rewrite reorder_map.
Qed.
Lemma of_cols_re cols : Forall (fun c => length c = n) cols -> of_cols (N:=RNum) n (map (reorder p) cols) = mreorder p (of_cols (N:=RNum) n cols).
Proof.
  intros F. unfold of_cols. rewrite map_length, mbuild_re. apply mbuild_ext2. intros i j Hi Hj. unfold vget.
  rewrite (nth_indep _ [] (reorder p [])) by (rewrite map_length; exact Hj). rewrite map_nth, (reorder_nth p n Hp); auto.
  rewrite Forall_forall in F. apply F, nth_In, Hj.
Qed.

Lemma update_re E q V rho X : order_free q -> tall V -> factor_matrix_update E q V rho = Ok X ->
  factor_matrix_update E q (mreorder p V) rho = Ok (mreorder p X) /\ tall X.
Proof.
  intros OF T H. destruct q as [|lo hi|reg nn|M U s|reg l1|b nn| |nn|k ub uc]; cbn [order_free] in OF; try contradiction; cbn [factor_matrix_update] in *.
  - injection H as <-. rewrite mmap_re by assumption. split; [reflexivity|now apply tall_mmap].
  - destruct (clip_ok lo hi); [|discriminate]. injection H as <-. rewrite mmap_re by assumption. split; [reflexivity|now apply tall_mmap].
  - destruct (negb (ntruthy rho)); [discriminate|]. destruct nn; injection H as <-; (rewrite mmap_re by assumption; split; [reflexivity|now apply tall_mmap]).
  - cbv zeta in *. injection H as <-. destruct nn.
    + rewrite mmap_re by assumption. assert (T1 := tall_mmap relu V T). set (W := mmap relu V) in *. clearbody W.
      rewrite col_norms_re by assumption. unfold mscale. rewrite mmap_re by assumption. assert (T2 := tall_mmap (nmul b) W T1). rewrite mcoldiv_re by assumption.
      split; [reflexivity|]. unfold mcoldiv. destruct T2 as (-> & _). apply tall_mbuild.
    + rewrite col_norms_re by assumption. unfold mscale. rewrite mmap_re by assumption. assert (T2 := tall_mmap (nmul b) V T). rewrite mcoldiv_re by assumption.
      split; [reflexivity|]. unfold mcoldiv. destruct T2 as (-> & _). apply tall_mbuild.
  - destruct (mapM (fun j => simplex_col (mcol V j)) (seq 0 (mc V))) as [cols|] eqn:EM; [|discriminate]. cbn [bind] in H. injection H as <-.
    assert (LC : forall j, length (mcol V j) = n) by (intros j; unfold mcol; rewrite map_length; apply T).
    assert (K : mapM (fun j => simplex_col (mcol (mreorder p V) j)) (seq 0 (mc V)) = Ok (map (reorder p) cols) /\ Forall (fun c => length c = n) cols).
    { clear T. revert cols EM. generalize (seq 0 (mc V)). intros l. induction l as [|j l IH]; intros cols EM; cbn [mapM] in *; [injection EM as <-; split; [reflexivity|constructor]|].
      destruct (simplex_col (mcol V j)) as [c|] eqn:ES; [|discriminate]. cbn [bind] in EM. destruct (mapM _ l) as [cs|] eqn:EC; [|discriminate]. cbn [bind] in EM. injection EM as <-.
      destruct (simplex_col_re _ _ (LC j) ES) as (K1 & K2). destruct (IH cs eq_refl) as (I1 & I2). rewrite mcol_re, K1. cbn [bind]. rewrite I1. cbn [bind map]. split; [reflexivity|now constructor]. }
    destruct K as (K1 & K2). change (mc (mreorder p V)) with (mc V). rewrite K1. cbn [bind]. change (mr (mreorder p V)) with (mr V). destruct T as (-> & _).
    rewrite of_cols_re by assumption. split; [reflexivity|apply tall_mbuild].
Qed.

(** Row by row, with the feasibility penalties in the same order. *)
Lemma rows_update_re q V fps X : tall V -> length fps = n -> rows_update q V fps = Ok X ->
  rows_update q (mreorder p V) (reorder p fps) = Ok (mreorder p X) /\ tall X.
Proof.
  intros T L H. unfold rows_update in *. rewrite L in H. destruct (mapM _ (seq 0 n)) as [rows|] eqn:EM; [|discriminate]. cbn [bind] in H. injection H as <-.
  rewrite (reorder_length p n Hp) by assumption.
  rewrite (mapM_seq_reorder p n Hp (fun i => row_update q (mrow V i) (nth i fps n0)) _ rows); [|intros k Hk; rewrite mrow_re, (reorder_nth p n Hp) by assumption; reflexivity|exact EM].
  cbn [bind]. split; [reflexivity|]. split; [apply T|]. cbn [me]. apply mapM_length in EM. now rewrite EM, seq_length.
Qed.
Lemma penalty_mat_re q V : order_free q -> tall V -> penalty_mat q (mreorder p V) = penalty_mat q V.
Proof.
  intros OF T. destruct q as [|lo hi|reg nn|M U s|reg l1|b nn| |nn|k ub uc]; cbn [order_free] in OF; try contradiction; try reflexivity. cbn [penalty_mat]. unfold mabs_sum.
  rewrite mmap_re by assumption. rewrite msum_re; [reflexivity|]. now apply tall_mmap.
Qed.

(** ** Lists of matrices *)
Lemma list_update_mapM E q : forall fms rhos k, length fms = k -> length rhos = k ->
  matrices_update_list (N:=RNum) E q fms rhos k = mapM (fun x => factor_matrix_update E q (fst x) (snd x)) (combine fms rhos).
Proof.
  intros fms. induction fms as [|f fms IH]; intros [|r rhos] [|k] H1 H2; try discriminate; [reflexivity|]. cbn [matrices_update_list combine mapM fst snd].
  rewrite IH by (cbn in *; lia). reflexivity.
Qed.
Lemma combine_map2 {T U} (l : list T) : forall m : list U, combine l m = map2 pair l m.
Proof. induction l as [|x l IH]; intros [|y m]; cbn; [reflexivity..|]. now rewrite IH. Qed.
Lemma list_update_re E q fms rhos r : length fms = n -> length rhos = n -> matrices_update_list E q fms rhos n = Ok r ->
  matrices_update_list E q (reorder p fms) (reorder p rhos) n = Ok (reorder p r) /\ length r = n.
Proof.
  intros L1 L2 H. pose proof (list_update_length _ _ _ _ _ _ H) as LR. rewrite list_update_mapM in * by (rewrite ?(reorder_length p n Hp); auto).
  split; [|lia]. rewrite combine_map2 in *. rewrite <- reorder_map2 by congruence. now apply mapM_reorder.
Qed.

(** Sums of matrices of one size do not depend on the order. *)
Lemma fold_madd_get (l : list rmat) : forall M, mr (fold_left madd l M) = mr M /\ mc (fold_left madd l M) = mc M.
Proof. apply dims_fold_madd. Qed.
Lemma madd_swap (A B C : rmat) : madd (madd A B) C = madd (madd A C) B.
Proof.
  unfold madd, mmap2. cbn [mr mc mbuild]. apply mbuild_ext2. intros i j Hi Hj. rewrite !mget_mbuild by assumption. cbn. lra.
Qed.
Lemma madd_first (A B C : rmat) : mr A = mr B -> mc A = mc B -> madd (madd A B) C = madd (madd B A) C.
Proof. intros H1 H2. unfold madd, mmap2. cbn [mr mc mbuild]. rewrite H1, H2. apply mbuild_ext2. intros i j Hi Hj. rewrite !mget_mbuild by congruence. cbn. lra. Qed.
Lemma madd_comm2 (A B : rmat) : mr A = mr B -> mc A = mc B -> madd A B = madd B A.
Proof. intros H1 H2. unfold madd, mmap2. rewrite H1, H2. apply mbuild_ext2. intros. cbn. lra. Qed.
Lemma fold_madd_perm (l m : list rmat) : Permutation l m -> forall A, fold_left madd l A = fold_left madd m A.
Proof.
  intros H. induction H as [|x l m H IH|x y l|l m k H1 IH1 H2 IH2]; intros A; cbn [fold_left]; auto.
  - now rewrite madd_swap.
  - now rewrite IH1.
Qed.
Lemma msum_list_perm (l m : list rmat) r c : Permutation l m -> (forall X, In X l -> mr X = r /\ mc X = c) -> msum_list l = msum_list m.
Proof.
  intros H D. destruct l as [|x t]; [apply Permutation_nil in H; now subst|]. destruct m as [|y u]; [symmetry in H; now apply Permutation_nil in H|].
  cbn [msum_list]. f_equal. assert (IY : In y (x :: t)) by (apply (Permutation_in _ (Permutation_sym H)); now left).
  destruct IY as [->|IY]; [apply fold_madd_perm; now apply Permutation_cons_inv in H|].
  apply in_split in IY as (l1 & l2 & ->). assert (K : Permutation (x :: l1 ++ l2) u).
  { apply (Permutation_cons_inv (a := y)). rewrite <- H. rewrite <- Permutation_middle. apply perm_swap. }
  rewrite <- (fold_madd_perm _ _ K). rewrite (fold_madd_perm (l1 ++ y :: l2) (y :: l1 ++ l2)) by (symmetry; apply Permutation_middle).
  cbn [fold_left]. f_equal. destruct (D x ltac:(now left)) as (X1 & X2). destruct (D y) as (Y1 & Y2); [right; apply in_elt|]. apply madd_comm2; congruence.
Qed.
End Perm.
