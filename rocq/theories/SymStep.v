(** The factor updates for two problems that differ in units and orders only. *)
From Coq Require Import Reals Lra Lia List Arith Bool ZArith Permutation.
From Verif Require Import Num Numpy RFacts Spec SpecFacts MatFacts ModelSpec Penalties PenaltySpec ProxProofs SimplexProofs
  CoupledMatrices CmfSpec CmfProofs Decomp DecompSpec DecompFacts AdmmA OrderProofs ReorderFacts ReorderPen SymSpec SymFacts SymPen.
Import ListNotations.
Local Open Scope R_scope.

(** ** Lists *)
Definition lrel {A B} (n : nat) (Q : nat -> A -> B -> Prop) (da : A) (db : B) (l : list A) (l' : list B) : Prop :=
  length l = n /\ length l' = n /\ forall i, (i < n)%nat -> Q i (nth i l da) (nth i l' db).
Lemma length_map2 {A B C} (f : A -> B -> C) : forall l m n, length l = n -> length m = n -> length (map2 f l m) = n.
Proof. induction l as [|x l IH]; intros [|y m] n H1 H2; cbn in *; try lia. destruct n; [lia|]. f_equal. apply IH; lia. Qed.
Lemma nth_map2' {A B C} (f : A -> B -> C) da db dc : forall l m i, (i < length l)%nat -> (i < length m)%nat -> nth i (map2 f l m) dc = f (nth i l da) (nth i m db).
Proof. induction l as [|x l IH]; intros [|y m] [|i] H1 H2; cbn in *; try lia; [reflexivity|]. apply IH; lia. Qed.
Lemma lrel_map2 {A A' B B' C C'} n (Q1 : nat -> A -> A' -> Prop) (Q2 : nat -> B -> B' -> Prop) (Q3 : nat -> C -> C' -> Prop) da da' db db' dc dc' f f' l l' m m' :
  lrel n Q1 da da' l l' -> lrel n Q2 db db' m m' -> (forall i a a' b b', (i < n)%nat -> Q1 i a a' -> Q2 i b b' -> Q3 i (f a b) (f' a' b')) -> lrel n Q3 dc dc' (map2 f l m) (map2 f' l' m').
Proof.
  intros (L1 & L2 & H1) (L3 & L4 & H2) H. split; [now apply length_map2|]. split; [now apply length_map2|]. intros i Hi.
  rewrite (nth_map2' f da db) by lia. rewrite (nth_map2' f' da' db') by lia. auto.
Qed.
Lemma lrel_map {A A' C C'} n (Q1 : nat -> A -> A' -> Prop) (Q3 : nat -> C -> C' -> Prop) da da' dc dc' f f' l l' :
  lrel n Q1 da da' l l' -> (forall i a a', (i < n)%nat -> Q1 i a a' -> Q3 i (f a) (f' a')) -> lrel n Q3 dc dc' (map f l) (map f' l').
Proof.
  intros (L1 & L2 & H1) H. split; [now rewrite map_length|]. split; [now rewrite map_length|]. intros i Hi. rewrite (nth_map_lt _ _ _ _ da) by lia. rewrite (nth_map_lt _ _ _ _ da') by lia. auto.
Qed.
Lemma lrel_impl {A B} n (Q Q' : nat -> A -> B -> Prop) da db l l' : (forall i a b, (i < n)%nat -> Q i a b -> Q' i a b) -> lrel n Q da db l l' -> lrel n Q' da db l l'.
Proof. intros H (L1 & L2 & K). split; [exact L1|]. split; [exact L2|]. auto. Qed.
Lemma lrel_lsum n k (l l' : list R) : lrel n (fun _ a b => b = k * a) 0 0 l l' -> lsum (N:=RNum) l' = k * lsum (N:=RNum) l.
Proof. intros (L1 & L2 & H). rewrite !lsum_rsum. rn. rewrite L1, L2, <- rsum_scal. apply rsum_ext. exact H. Qed.
Lemma mapM_rel {A A' B B'} (f : A -> res B) (g : A' -> res B') (P : A -> A' -> Prop) (Q : B -> B' -> Prop) : (forall x y, P x y -> res_rel Q (f x) (g y)) ->
  forall l l', Forall2 P l l' -> res_rel (Forall2 Q) (mapM f l) (mapM g l').
Proof.
  intros H l l' F. induction F as [|x y l l' HP F IH]; cbn [mapM]; [cbn; constructor|]. apply (res_rel_bind _ _ _ _ _ _ (H x y HP)). intros a b Hab.
  apply (res_rel_bind _ _ _ _ _ _ IH). intros u v Huv. cbn. now constructor.
Qed.
Lemma mapM_seq_rel {B B'} (f : nat -> res B) (g : nat -> res B') (Q : nat -> B -> B' -> Prop) db db' : forall n, (forall i, (i < n)%nat -> res_rel (Q i) (f i) (g i)) ->
  res_rel (lrel n Q db db') (mapM f (seq 0 n)) (mapM g (seq 0 n)).
Proof.
  enough (G : forall n a, (forall i, (i < n)%nat -> res_rel (Q (a + i)%nat) (f (a + i)%nat) (g (a + i)%nat)) ->
    res_rel (lrel n (fun i => Q (a + i)%nat) db db') (mapM f (seq a n)) (mapM g (seq a n))) by (intros n; apply (G n 0%nat)).
  induction n as [|n IH]; intros a H; cbn [seq mapM]; [cbn; repeat split; intros; lia|].
  pose proof (H 0%nat ltac:(lia)) as H0. rewrite Nat.add_0_r in H0. apply (res_rel_bind _ _ _ _ _ _ H0). intros x y Hxy.
  eapply res_rel_bind; [apply IH; intros i Hi; rewrite Nat.add_succ_l, <- Nat.add_succ_r; apply H; lia|]. intros u v (L1 & L2 & K). cbn. split; [cbn; lia|]. split; [cbn; lia|].
  intros [|i] Hi; cbn [nth]; [now rewrite Nat.add_0_r|]. rewrite Nat.add_succ_r, <- Nat.add_succ_l. apply K. lia.
Qed.
Lemma list_update_seq E p : forall n (fms : list rmat) (rhos : list R), length fms = n -> length rhos = n ->
  matrices_update_list (N:=RNum) E p fms rhos n = mapM (fun i => factor_matrix_update E p (nth i fms no_mat) (nth i rhos 0)) (seq 0 n).
Proof.
  intros n fms rhos L1 L2. rewrite list_update_mapM by assumption. 
  assert (EC : combine fms rhos = map (fun i => (nth i fms no_mat, nth i rhos 0)) (seq 0 n)).
  { apply (nth_ext _ _ (no_mat, 0) (no_mat, 0)); [rewrite combine_length, map_length, seq_length; lia|]. intros i Hi. rewrite combine_length in Hi. rewrite combine_nth by congruence.
    rewrite (nth_map_lt _ _ _ _ 0%nat) by (rewrite seq_length; lia). now rewrite seq_nth by lia. }
  rn. rewrite EC. now rewrite mapM_map.
Qed.

Lemma ml_lrel n J c k p q (l l' : list rmat) : moved_list n J c k p q l l' -> lrel n (fun i => moved (J i) c k (p i) q) no_mat no_mat l l'.
Proof. exact (fun H => H). Qed.
(** ** Vectors *)
Lemma moved_vec_map2 n k l m q (f f' : R -> R -> R) (u u' v v' : list R) : rearranges n q -> (forall x y, f' (k * x) (l * y) = m * f x y) -> moved_vec n k q u u' -> moved_vec n l q v v' ->
  moved_vec n m q (map2 f u v) (map2 f' u' v').
Proof.
  intros Hq Hf (L1 & L2 & H1) (L3 & L4 & H2). split; [now apply length_map2|]. split; [now apply length_map2|]. intros j Hj. pose proof (re_lt _ _ Hq j Hj) as Hj'. unfold at_.
  rewrite !(nth_map2' _ 0 0) by lia. change (f' (at_ u' j) (at_ v' j) = m * f (at_ u (q j)) (at_ v (q j))). rewrite H1, H2 by assumption. apply Hf.
Qed.
Lemma moved_vec_scale n k l q (x x' : R) (v v' : list R) : rearranges n q -> x' = l * x -> moved_vec n k q v v' -> moved_vec n (l * k) q (vscale (N:=RNum) x v) (vscale (N:=RNum) x' v').
Proof.
  intros Hq -> (L1 & L2 & H). unfold vscale. split; [now rewrite map_length|]. split; [now rewrite map_length|]. intros j Hj. pose proof (re_lt _ _ Hq j Hj) as Hj'. unfold at_.
  rewrite !(nth_map_lt _ _ _ _ 0) by (rn; lia). change (l * x * at_ v' j = l * k * (x * at_ v (q j))). rewrite H by assumption. ring.
Qed.
Lemma moved_vec_ext n k l q (v v' : list R) : k = l -> moved_vec n k q v v' -> moved_vec n l q v v'.
Proof. now intros ->. Qed.
Lemma moved_vec_lsum n k q (v v' : list R) : rearranges n q -> moved_vec n k q v v' -> lsum (N:=RNum) v' = k * lsum (N:=RNum) v.
Proof.
  intros Hq (L1 & L2 & H). rewrite !lsum_rsum. rn. rewrite L1, L2. rewrite <- (re_sum n q Hq (fun i => nth i v 0)), <- rsum_scal. apply rsum_ext. exact H.
Qed.
Lemma moved_solve_row n t k q (M M' : rmat) (b b' : list R) d d' : rearranges n q -> t <> 0 -> moved n n t q q M M' -> mtrans M = M -> mtrans M' = M' ->
  has_svd M n d -> has_svd M' n d' -> moved_vec n (t * k) q b b' -> res_rel (moved_vec n k q) (solve_row d b) (solve_row d' b').
Proof.
  intros Hq Ht HM S1 S2 D1 D2 (L1 & L2 & Hb).
  assert (MB : moved 1 n (t * k) (fun i => i) q (rowm b) (rowm b')).
  { split; [split; [apply rowm_wf|split; [reflexivity|exact L1]]|]. split; [split; [apply rowm_wf|split; [reflexivity|exact L2]]|].
    intros i j Hi Hj. assert (i = 0%nat) as -> by lia. rewrite !rowm_get. now apply Hb. }
  pose proof (moved_solve 1 n t k (fun i => i) q M M' (rowm b) (rowm b') d d' (re_id 1) Hq Ht HM S1 S2 D1 D2 MB) as K.
  pose proof HM as ((WM & RM & CM) & (WM' & RM' & CM') & _).
  destruct (solve_row d b) as [z|e] eqn:E1; destruct (solve_row d' b') as [z'|e'] eqn:E2.
  - destruct (solve_row_mat b z n d M D1 RM CM L1 E1) as (K1 & LZ). destruct (solve_row_mat b' z' n d' M' D2 RM' CM' L2 E2) as (K2 & LZ'). rewrite K1, K2 in K. cbn in K.
    destruct K as (_ & _ & K). cbn. split; [exact LZ|]. split; [exact LZ'|]. intros j Hj. exact (K 0%nat j ltac:(lia) Hj).
  - exfalso. destruct (solve_row_mat b z n d M D1 RM CM L1 E1) as (K1 & LZ). rewrite K1 in K. destruct d' as [[U s] Vh]. unfold solve_row in E2. unfold solve_mat in K. destruct (finite_svd (U, s, Vh)); [discriminate|contradiction].
  - exfalso. destruct (solve_row_mat b' z' n d' M' D2 RM' CM' L2 E2) as (K1 & LZ). rewrite K1 in K. destruct d as [[U s] Vh]. unfold solve_row in E1. unfold solve_mat in K. destruct (finite_svd (U, s, Vh)); [discriminate|contradiction].
  - destruct d as [[U s] Vh], d' as [[U' s'] Vh']. unfold solve_row in *. destruct (finite_svd (U, s, Vh)); [discriminate|]. destruct (finite_svd (U', s', Vh')); [discriminate|]. cbn. congruence.
Qed.
Lemma moved_rows r c k (q : nat -> nat) (rows rows' : list (list R)) : lrel r (fun _ => moved_vec c k q) [] [] rows rows' -> moved r c k (fun i => i) q (Mat (N:=RNum) r c rows) (Mat (N:=RNum) r c rows').
Proof.
  intros (L1 & L2 & H). 
  assert (W : forall l : list (list R), length l = r -> (forall i, (i < r)%nat -> length (nth i l []) = c) -> shaped (Mat (N:=RNum) r c l) r c).
  { intros l L K. split; [|split; reflexivity]. split; [exact L|]. cbn [me mc]. apply Forall_forall. intros x Hx. apply (In_nth _ _ []) in Hx. destruct Hx as (i & Hi & <-). apply K. rewrite <- L. exact Hi. }
  split; [apply W; [exact L1|intros i Hi; apply (H i Hi)]|]. split; [apply W; [exact L2|intros i Hi; apply (H i Hi)]|].
  intros i j Hi Hj. exact (proj2 (proj2 (H i Hi)) j Hj).
Qed.
Lemma moved_sum_mats r c k (p q : nat -> nat) : rearranges r p -> rearranges c q -> forall l l' A A', Forall2 (moved r c k p q) l l' -> moved r c k p q A A' ->
  moved r c k p q (fold_left (madd (N:=RNum)) l A) (fold_left (madd (N:=RNum)) l' A').
Proof.
  intros Hp Hq l l' A A' F. revert A A'. induction F as [|x y l l' H F IH]; intros A A' HA; cbn [fold_left]; [exact HA|]. apply IH. now apply moved_madd.
Qed.
Lemma moved_msum_list n r c k (p q : nat -> nat) (l l' : list rmat) : rearranges r p -> rearranges c q -> (0 < n)%nat -> lrel n (fun _ => moved r c k p q) no_mat no_mat l l' ->
  exists M M', msum_list l = Some M /\ msum_list l' = Some M' /\ moved r c k p q M M'.
Proof.
  intros Hp Hq Hn (L1 & L2 & H). destruct l as [|x l]; [cbn in L1; lia|]. destruct l' as [|y l']; [cbn in L2; lia|]. cbn [msum_list]. eexists _, _. split; [reflexivity|]. split; [reflexivity|].
  apply moved_sum_mats; [assumption|assumption| |apply (H 0%nat Hn)].
  clear Hn. cbn in L1, L2. assert (K : forall i, (i < length l)%nat -> moved r c k p q (nth i l no_mat) (nth i l' no_mat)) by (intros i Hi; apply (H (S i)); lia). assert (LL : length l = length l') by lia. clear - K LL.
  revert l' LL K. induction l as [|a l IH]; intros [|b l'] LL K; try discriminate; constructor; [apply (K 0%nat); cbn; lia|]. apply IH; [now injection LL|]. intros i Hi. apply (K (S i)). cbn. lia.
Qed.
Lemma moved_sum_rows r c k q i : rearranges c q -> (i < r)%nat -> forall l l' v v', Forall2 (moved r c k (fun i => i) q) l l' -> moved_vec c k q v v' ->
  moved_vec c k q (fold_left (fun acc M => vadd (N:=RNum) acc (mrow M i)) l v) (fold_left (fun acc M => vadd (N:=RNum) acc (mrow M i)) l' v').
Proof.
  intros Hq Hi l l' v v' F. revert v v'. induction F as [|x y l l' H F IH]; intros v v' HV; cbn [fold_left]; [exact HV|]. apply IH. 
  apply (moved_vec_map2 c k k k q); [assumption|intros a b; rn; ring|exact HV|]. now apply (moved_row r c k q x y i).
Qed.
Lemma moved_vec_zeros n k q : rearranges n q -> moved_vec n k q (repeat 0 n) (repeat 0 n).
Proof.
  intros Hq. split; [apply repeat_length|]. split; [apply repeat_length|]. intros j Hj. unfold at_. 
  assert (Z : forall i, nth i (repeat 0 n) 0 = 0) by (intros i; clear; revert i; induction n as [|n IH]; intros [|i]; cbn; auto). rewrite !Z. ring.
Qed.

(** ** Loops and tests *)
Lemma inner_loop_rel {S S'} (R0 : S -> S' -> Prop) step step' conv conv' : (forall s s', R0 s s' -> res_rel R0 (step s) (step' s')) ->
  (forall s s' t t', R0 s s' -> R0 t t' -> conv' s' t' = conv s t) -> forall n s s', R0 s s' -> res_rel R0 (inner_loop step conv n s) (inner_loop step' conv' n s').
Proof.
  intros H1 H2. induction n as [|n IH]; intros s s' H; cbn [inner_loop]; [exact H|]. apply (res_rel_bind R0); [now apply H1|]. intros t t' HT.
  rewrite (H2 s s' t t' H HT). destruct (conv s t) as [b|]; [|reflexivity]. cbn [bind]. destruct b; [exact HT|now apply IH].
Qed.
Lemma xdiv_k k a b : 0 < k -> xdiv (N:=RNum) (k * a) (k * b) = xdiv (N:=RNum) a b.
Proof.
  intros Hk. unfold xdiv. rn. assert (Z : forall x, neqb (N:=RNum) (k * x) 0 = neqb (N:=RNum) x 0).
  { intros x. destruct (neqb_spec (k * x) 0), (neqb_spec x 0); try reflexivity; exfalso; [apply Rmult_integral in e; lra|subst; lra]. }
  rewrite !Z. destruct (neqb_spec b 0); [reflexivity|]. f_equal. field. lra.
Qed.
Lemma inner_conv_k tol k a b gs gs' : 0 < k -> gs' = gs -> inner_conv (N:=RNum) tol (k * a) (k * b) gs' = inner_conv (N:=RNum) tol a b gs.
Proof.
  intros Hk ->. unfold inner_conv. destruct tol as [t|]; [|reflexivity]. destruct (negb _ || _); [reflexivity|]. 
  assert (EQ : nltb (N:=RNum) (@nmul RNum t (k * a)) (k * b) = nltb (N:=RNum) (@nmul RNum t a) b); [|rewrite EQ; reflexivity].
  rn. destruct (nltb_spec (t * (k * a)) (k * b)), (nltb_spec (t * a) b); try reflexivity; exfalso; nra.
Qed.
Lemma rel_eq {T} (x y : res T) : res_rel eq x y -> y = x.
Proof. destruct x, y; cbn; intros; congruence || contradiction. Qed.
Lemma Forall2_eq {T} (l l' : list T) : Forall2 eq l l' -> l' = l.
Proof. intros H. induction H; congruence. Qed.
Lemma root_k n J c k (p : nat -> nat -> nat) q (l l' : list rmat) : 0 < k -> rearranges c q -> (forall i, (i < n)%nat -> rearranges (J i) (p i)) -> moved_list n J c k p q l l' ->
  root_sum_squared (N:=RNum) l' = k * root_sum_squared (N:=RNum) l.
Proof.
  intros Hk Hq Hp H. unfold root_sum_squared. rewrite (lrel_lsum n (k * k) (map msumsq l) (map msumsq l')).
  - rn. rewrite sqrt_mult; [now rewrite sqrt_square by lra|nra|]. rewrite lsum_rsum. apply rsum_nonneg. intros i Hi. rewrite map_length in Hi. rewrite (nth_map_lt _ _ _ _ no_mat) by assumption. rewrite msumsq_nsq. apply nsq_nonneg.
  - eapply lrel_map; [exact (ml_lrel _ _ _ _ _ _ _ _ H)|]. cbv beta. intros i a a' Hi Ha. now apply (moved_msumsq (J i) c (p i) q (Hp i Hi) Hq).
Qed.

(** ** Feasibility penalties *)
Definition scaled (n : nat) (t : R) (l l' : list R) : Prop := lrel n (fun _ a b => b = t * a /\ 0 <= a) 0 0 l l'.
Lemma gram_diag (D : rmat) i : (i < mc D)%nat -> 0 <= rget (mmul (mtrans D) D) i i.
Proof. intros Hi. rewrite mget_mmul by (mshape; assumption). apply rsum_nonneg. intros a Ha. mshape. rewrite mget_mtrans by assumption. apply Rle_0_sqr. Qed.
Lemma feas_penalties_k n r t scale constant (q : nat -> nat) (ls ls' : list rmat) : (0 < n)%nat -> 0 < t -> 0 <= scale -> rearranges r q ->
  lrel n (fun _ a b => moved r r t q q a b /\ 0 <= mtrace a) no_mat no_mat ls ls' -> res_rel (scaled n t) (feas_penalties (N:=RNum) scale constant ls) (feas_penalties (N:=RNum) scale constant ls').
Proof.
  intros Hn Ht Hs Hq H. unfold feas_penalties.
  assert (F : scaled n t (map (feas_penalty (N:=RNum) scale) ls) (map (feas_penalty (N:=RNum) scale) ls')).
  { eapply lrel_map; [exact H|]. cbv beta. intros i a a' Hi (Ha & Hp). unfold feas_penalty. rewrite (moved_trace r t q a a' Hq Ha). unfold nhalf. rn. split; [field|]. assert (0 <= mtrace a * scale) by now apply Rmult_le_pos. rn. lra. }
  set (f := map (feas_penalty (N:=RNum) scale) ls) in *. set (f' := map (feas_penalty (N:=RNum) scale) ls') in *. clearbody f f'. destruct constant; [|exact F].
  destruct F as (L1 & L2 & F). destruct f as [|x f]; [cbn in L1; lia|]. destruct f' as [|x' f']; [cbn in L2; lia|]. cbn [res_rel].
  assert (N1 : x :: f <> []) by discriminate. assert (N2 : x' :: f' <> []) by discriminate. set (g := x :: f) in *. set (g' := x' :: f') in *. clearbody g g'.
  destruct (lmax_spec g N1) as (A1 & A2). destruct (lmax_spec g' N2) as (B1 & B2).
  assert (LM : lmax (N:=RNum) g' = t * lmax (N:=RNum) g /\ 0 <= lmax (N:=RNum) g).
  { apply (In_nth _ _ 0) in A1. destruct A1 as (i & Hi & Ei). apply (In_nth _ _ 0) in B1. destruct B1 as (j & Hj & Ej). destruct (F i ltac:(lia)) as (F1 & F2). destruct (F j ltac:(lia)) as (F3 & F4).
    split; [|rn; rewrite <- Ei; exact F2]. apply Rle_antisym.
    - rn. rewrite <- Ej, F3. apply Rmult_le_compat_l; [lra|]. apply A2. apply nth_In. lia.
    - rn. rewrite <- Ei, <- F1. apply B2. apply nth_In. lia. }
  apply (lrel_map n (fun _ (_ _ : R) => True) _ 0 0); [split; [exact L1|split; [exact L2|auto]]|]. cbv beta. intros i a a' _ _. exact LM.
Qed.
