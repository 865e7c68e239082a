(** C99: what is equal at the start stays equal. *)
From Coq Require Import Reals Lra Lia List Arith Bool ZArith Permutation.
From Verif Require Import Num Numpy RFacts Spec SpecFacts MatFacts ModelSpec Penalties PenaltySpec CoupledMatrices CmfSpec CmfProofs Decomp DecompSpec
  DecompFacts InitVars InitSpec Parse ParseSpec ParseProofs Fit FitSpec FitProofs P08_Fit P09_Calls P11_Total DecompExamples FitExamples Ideal StartSpec ReorderSpec P27_Order
  ResumeSpec SymSpec P25_Starts P29_Symmetry EqualSpec.
Import ListNotations.
Local Open Scope R_scope.

(** ** Exchanging two numbers *)
Definition swap (i j k : nat) : nat := if (k =? i)%nat then j else if (k =? j)%nat then i else k.
Lemma swap_i i j : swap i j i = j.
Proof. unfold swap. now rewrite Nat.eqb_refl. Qed.
Lemma swap_lt n i j k : (i < n)%nat -> (j < n)%nat -> (k < n)%nat -> (swap i j k < n)%nat.
Proof. intros. unfold swap. destruct (k =? i)%nat, (k =? j)%nat; lia. Qed.
Lemma swap_swap i j k : swap i j (swap i j k) = k.
Proof. unfold swap. destruct (Nat.eqb_spec k i); destruct (Nat.eqb_spec k j); subst; rewrite ?Nat.eqb_refl; repeat (match goal with |- context[(?x =? ?y)%nat] => destruct (Nat.eqb_spec x y) end); lia. Qed.
Lemma swap_rearranges n i j : (i < n)%nat -> (j < n)%nat -> rearranges n (swap i j).
Proof.
  intros Hi Hj. unfold rearranges. apply NoDup_Permutation_bis.
  - apply FinFun.Injective_map_NoDup; [|apply seq_NoDup]. intros x y E. rewrite <- (swap_swap i j x), E. apply swap_swap.
  - now rewrite map_length.
  - intros k Hk. apply in_map_iff in Hk as (l & <- & Hl). apply in_seq in Hl. apply in_seq. split; [lia|]. apply swap_lt; lia.
Qed.
(** what holds for i and j holds after the exchange *)
Lemma swap_case (Q : nat -> nat -> Prop) i j : (forall k, Q k k) -> Q i j -> Q j i -> forall k, Q k (swap i j k).
Proof. intros H1 H2 H3 k. unfold swap. destruct (Nat.eqb_spec k i) as [->|]; [exact H2|]. destruct (Nat.eqb_spec k j) as [->|]; [exact H3|apply H1]. Qed.

(** ** Sizes of a start *)
Lemma start_shapes Xs c rank : data_fits Xs c -> mc (cA c) = rank -> (0 < length Xs)%nat ->
  shaped (cA c) (length Xs) rank /\ shaped (cC c) (colsX Xs) rank /\ length (cBs c) = length Xs /\
  (forall i, (i < length Xs)%nat -> shaped (nthB c i) (rowsX Xs i) rank) /\ forall w, cw c = Some w -> length w = rank.
Proof.
  intros ((WA & WC & HC & RA & HB & HW) & L & HX) <- H0.
  split; [split; [exact WA|split; [congruence|reflexivity]]|]. split.
  { split; [exact WC|]. split; [|exact HC]. unfold colsX. destruct (HX 0%nat H0) as (_ & _ & K). symmetry. exact K. }
  split; [now symmetry|]. split; [|intros w Hw; now apply HW]. intros i Hi. destruct (HX i Hi) as (_ & K & _). rewrite L in Hi. destruct (HB i Hi) as (W & M). split; [exact W|]. split; [|exact M]. unfold rowsX. symmetry. exact K.
Qed.
Lemma moved_self r c p q (M : matR) : shaped M r c -> (forall i j, (i < r)%nat -> (j < c)%nat -> mget M i j = mget M (p i) (q j)) -> moved r c 1 p q M M.
Proof. intros HS H. split; [exact HS|]. split; [exact HS|]. intros i j Hi Hj. rewrite Rmult_1_l. now apply H. Qed.
Lemma moved_columns r c p s j0 (M : matR) : moved r c 1 p s M M -> (forall i, (i < r)%nat -> p i = i) -> (j0 < c)%nat -> equal_columns M j0 (s j0).
Proof. intros ((_ & R1 & _) & _ & H) Hp Hj k Hk. rewrite R1 in Hk. rewrite (H k j0 Hk Hj) at 1. rewrite (Hp k Hk). apply Rmult_1_l. Qed.
Lemma moved_rows r c q s i0 (M : matR) : moved r c 1 s q M M -> (forall i, (i < c)%nat -> q i = i) -> (i0 < r)%nat -> equal_rows M i0 (s i0).
Proof. intros ((_ & _ & C1) & _ & H) Hq Hi k Hk. rewrite C1 in Hk. rewrite (H i0 k Hi Hk) at 1. rewrite (Hq k Hk). apply Rmult_1_l. Qed.
Lemma F2_self {A} (Q : A -> A -> Prop) l : Forall2 Q l l -> Forall (fun x => Q x x) l.
Proof. induction l as [|x l IH]; intros H; [constructor|]. inversion H; subst. constructor; auto. Qed.
Lemma refl_init a : same_but_init a a.
Proof. repeat split. Qed.
Lemma refl_data_init a : same_but_data_and_init a a.
Proof. repeat split. Qed.

(** ** Components *)
Theorem C99_equal_components V IE rnd (a : fitR) rank c out r s :
  sensible V a rank -> accepted V a -> same_columns (f_data a) -> svd_correct (e_ext V) rank ->
  starts_from a c -> data_fits (f_data a) c -> mc (cA c) = rank -> zero_vars a ->
  (r < rank)%nat -> (s < rank)%nat -> equal_components c r s ->
  cmf_aoadmm V IE rnd a = Ok out ->
  equal_components (out_cmf out) r s /\ forall v, out_vars out = Some v -> equal_variables v r s.
Proof.
  intros HS AC SC HE SF DF MC ZV Hr Hs (QA & QB & QC & QW) H.
  assert (H0 : (0 < length (f_data a))%nat) by (destruct HS as (NE & _); destruct (f_data a); [congruence|cbn; lia]).
  destruct (start_shapes _ _ _ DF MC H0) as (SA & SCC & LB & SB & LW).
  assert (EQ : forall M : matR, equal_columns M r s -> forall i j, (i < mr M)%nat -> mget M i j = mget M i (swap r s j)).
  { intros M K i j Hi. apply (swap_case (fun j j' => mget M i j = mget M i j')); [reflexivity|now apply K|symmetry; now apply K]. }
  assert (MV : moved_cmf (data_sizes a rank) (other_components (swap r s)) c c).
  { unfold moved_cmf. cbn [z_n z_rank z_rows z_cols data_sizes h_A h_B h_C h_comp h_rows h_cols other_components]. split; [|split; [|split]].
    - destruct (cw c) as [w|] eqn:Ew; [|exact Logic.I]. assert (K := LW w eq_refl). split; [exact K|]. split; [exact K|]. intros j Hj. rewrite Rmult_1_l.
      assert (W := QW w eq_refl). apply (swap_case (fun j j' => at_ w j = at_ w j')); [reflexivity|exact W|now symmetry].
    - apply moved_self; [exact SA|]. intros i j Hi Hj. apply EQ; [exact QA|]. destruct SA as (_ & -> & _). exact Hi.
    - split; [exact LB|]. split; [exact LB|]. intros i Hi. apply moved_self; [exact (SB i Hi)|]. intros k j Hk Hj. apply (EQ (nth i (cBs c) no_mat)); [apply (QB i); congruence|].
      destruct (SB i Hi) as (_ & K & _). unfold nthB in K. rewrite K. exact Hk.
    - apply moved_self; [exact SCC|]. intros i j Hi Hj. apply EQ; [exact QC|]. destruct SCC as (_ & -> & _). exact Hi. }
  pose proof (C69_components V IE rnd a a rank (swap r s) c c HS AC SC HE (swap_rearranges _ _ _ Hr Hs) (refl_init a) SF SF MV ZV) as R. rewrite H in R. cbn [same_outcome] in R.
  destruct R as ((RW & RA & (RL & _ & RB) & RC) & RV & _). cbn [z_n z_rank z_rows z_cols data_sizes h_A h_B h_C h_comp h_rows h_cols other_components] in *.
  assert (CO : forall n p M, (forall i, (i < n)%nat -> p i = i) -> moved n rank 1 p (swap r s) M M -> equal_columns M r s).
  { intros n p M Hp K. pose proof (moved_columns _ _ _ _ r _ K Hp Hr) as X. now rewrite swap_i in X. }
  split.
  - split; [apply (CO (length (f_data a)) (fun i => i)); [reflexivity|exact RA]|]. split; [|split].
    + intros i Hi. rewrite RL in Hi. apply (CO (rowsX (f_data a) i) (fun i => i)); [reflexivity|exact (RB i Hi)].
    + apply (CO (colsX (f_data a)) (fun i => i)); [reflexivity|exact RC].
    + intros w Hw. rewrite Hw in RW. destruct RW as (_ & _ & K). rewrite (K r Hr), swap_i. apply Rmult_1_l.
  - intros v Hv. rewrite Hv in RV. destruct RV as (V1 & V2 & V3 & V4 & V5 & V6). apply F2_self in V1, V2, V4, V5, V6.
    cbn [z_n z_rank z_rows z_cols data_sizes h_A h_B h_C h_comp h_rows h_cols other_components] in *.
    split.
    + rewrite !Forall_app. repeat split; (eapply Forall_impl; [|eassumption]); intros M K; (eapply CO; [|exact K]); reflexivity.
    + eapply Forall_impl; [|exact V4]. intros l (LL & _ & K). rewrite Forall_forall. intros M IN. destruct (In_nth l M no_mat IN) as (i & Hi & <-). rewrite LL in Hi.
      eapply CO; [|exact (K i Hi)]; reflexivity.
Qed.
Print Assumptions C99_equal_components.

(** ** Columns of the data *)
Theorem C99_equal_columns V IE rnd (a : fitR) rank c out k l :
  sensible V a rank -> accepted V a -> same_columns (f_data a) -> svd_correct (e_ext V) rank ->
  starts_from a c -> data_fits (f_data a) c -> mc (cA c) = rank -> zero_vars a ->
  (k < colsX (f_data a))%nat -> (l < colsX (f_data a))%nat ->
  (forall X, In X (f_data a) -> equal_columns X k l) -> equal_rows (cC c) k l -> (f_updC a = true -> order_indifferent a 2) ->
  cmf_aoadmm V IE rnd a = Ok out -> equal_rows (cC (out_cmf out)) k l.
Proof.
  intros HS AC SC HE SF DF MC ZV Hk Hl QX QC OC H.
  assert (H0 : (0 < length (f_data a))%nat) by (destruct HS as (NE & _); destruct (f_data a); [congruence|cbn; lia]).
  destruct (start_shapes _ _ _ DF MC H0) as (SA & SCC & LB & SB & LW).
  assert (MV : moved_cmf (data_sizes a rank) (other_rows_columns (fun _ i => i) (swap k l)) c c).
  { unfold moved_cmf. cbn [z_n z_rank z_rows z_cols data_sizes h_A h_B h_C h_comp h_rows h_cols other_rows_columns]. split; [|split; [|split]].
    - destruct (cw c) as [w|] eqn:Ew; [|exact Logic.I]. assert (K := LW w eq_refl). split; [exact K|]. split; [exact K|]. intros j Hj. now rewrite Rmult_1_l.
    - apply moved_self; [exact SA|reflexivity].
    - split; [exact LB|]. split; [exact LB|]. intros i Hi. apply moved_self; [exact (SB i Hi)|reflexivity].
    - apply moved_self; [exact SCC|]. intros i j Hi Hj. destruct SCC as (_ & _ & MM). apply (swap_case (fun i i' => mget (cC c) i j = mget (cC c) i' j)); [reflexivity|apply QC; rewrite MM; exact Hj|symmetry; apply QC; rewrite MM; exact Hj]. }
  assert (DV : moved_data (data_sizes a rank) (other_rows_columns (fun _ i => i) (swap k l)) (f_data a) (f_data a)).
  { unfold moved_data, moved_list. cbn [z_n z_rank z_rows z_cols data_sizes h_A h_B h_C h_comp h_rows h_cols other_rows_columns]. split; [reflexivity|]. split; [reflexivity|].
    intros i Hi. replace (h_X (other_rows_columns (fun _ i => i) (swap k l))) with 1 by (unfold h_X; cbn; ring). destruct DF as (_ & _ & HX). specialize (HX i Hi).
    assert (IN : In (nth i (f_data a) no_mat) (f_data a)) by (apply nth_In; exact Hi).
    apply moved_self; [split; [exact (proj1 HX)|split; [reflexivity|now apply SC]]|]. intros x y Hx Hy.
    apply (swap_case (fun y y' => mget (nth i (f_data a) no_mat) x y = mget (nth i (f_data a) no_mat) x y')); [reflexivity|apply (QX _ IN); exact Hx|symmetry; apply (QX _ IN); exact Hx]. }
  pose proof (C70_rows_and_columns V IE rnd a a rank (fun _ i => i) (swap k l) c c HS AC HE (swap_rearranges _ _ _ Hk Hl) (fun i _ => id_rearranges _) DV (refl_data_init a) SF SF MV ZV) as R.
  rewrite H in R. destruct R as ((_ & _ & _ & RC) & _); [intros _; right; intros i j; reflexivity|intros U; left; auto|].
  cbn [z_n z_rank z_rows z_cols data_sizes h_A h_B h_C h_comp h_rows h_cols other_rows_columns] in RC.
  pose proof (moved_rows _ _ _ _ k _ RC (fun i _ => eq_refl) Hk) as X. now rewrite swap_i in X.
Qed.
Print Assumptions C99_equal_columns.

(** ** Rows of a data matrix *)
Theorem C99_equal_rows V IE rnd (a : fitR) rank c out i k l :
  sensible V a rank -> accepted V a -> same_columns (f_data a) -> svd_correct (e_ext V) rank ->
  starts_from a c -> data_fits (f_data a) c -> mc (cA c) = rank -> zero_vars a ->
  (i < length (f_data a))%nat -> (k < rowsX (f_data a) i)%nat -> (l < rowsX (f_data a) i)%nat ->
  equal_rows (nthX (f_data a) i) k l -> equal_rows (nthB c i) k l -> (f_updB a = true -> order_indifferent a 1) ->
  cmf_aoadmm V IE rnd a = Ok out -> equal_rows (nthB (out_cmf out) i) k l.
Proof.
  intros HS AC SC HE SF DF MC ZV Hi Hk Hl QX QB OB H.
  assert (H0 : (0 < length (f_data a))%nat) by lia.
  destruct (start_shapes _ _ _ DF MC H0) as (SA & SCC & LB & SB & LW).
  set (p := fun i' => if (i' =? i)%nat then swap k l else (fun j : nat => j)).
  assert (QQ : forall (M : matR), equal_rows M k l -> forall x y, (y < mc M)%nat -> mget M x y = mget M (swap k l x) y).
  { intros M K x y Hy. apply (swap_case (fun x x' => mget M x y = mget M x' y)); [reflexivity|now apply K|symmetry; now apply K]. }
  assert (MV : moved_cmf (data_sizes a rank) (other_rows_columns p (fun j => j)) c c).
  { unfold moved_cmf. cbn [z_n z_rank z_rows z_cols data_sizes h_A h_B h_C h_comp h_rows h_cols other_rows_columns]. split; [|split; [|split]].
    - destruct (cw c) as [w|] eqn:Ew; [|exact Logic.I]. assert (K := LW w eq_refl). split; [exact K|]. split; [exact K|]. intros j Hj. now rewrite Rmult_1_l.
    - apply moved_self; [exact SA|reflexivity].
    - split; [exact LB|]. split; [exact LB|]. intros i' Hi'. apply moved_self; [exact (SB i' Hi')|]. intros x y Hx Hy. unfold p. destruct (Nat.eqb_spec i' i) as [->|]; [|reflexivity].
      apply (QQ (nthB c i) QB). destruct (SB i Hi) as (_ & _ & ->). exact Hy.
    - apply moved_self; [exact SCC|reflexivity]. }
  assert (DV : moved_data (data_sizes a rank) (other_rows_columns p (fun j => j)) (f_data a) (f_data a)).
  { unfold moved_data, moved_list. cbn [z_n z_rank z_rows z_cols data_sizes h_A h_B h_C h_comp h_rows h_cols other_rows_columns]. split; [reflexivity|]. split; [reflexivity|].
    intros i' Hi'. replace (h_X (other_rows_columns p (fun j => j))) with 1 by (unfold h_X; cbn; ring). destruct DF as (_ & _ & HX). specialize (HX i' Hi').
    assert (IN : In (nth i' (f_data a) no_mat) (f_data a)) by (apply nth_In; exact Hi').
    apply moved_self; [split; [exact (proj1 HX)|split; [reflexivity|now apply SC]]|]. intros x y Hx Hy. unfold p. destruct (Nat.eqb_spec i' i) as [->|]; [|reflexivity].
    apply (QQ (nthX (f_data a) i) QX). unfold nthX. rewrite (SC _ IN). exact Hy. }
  assert (HR : forall i', (i' < length (f_data a))%nat -> rearranges (rowsX (f_data a) i') (p i')).
  { intros i' Hi'. unfold p. destruct (Nat.eqb_spec i' i) as [->|]; [now apply swap_rearranges|apply id_rearranges]. }
  pose proof (C70_rows_and_columns V IE rnd a a rank p (fun j => j) c c HS AC HE (id_rearranges _) HR DV (refl_data_init a) SF SF MV ZV) as R.
  rewrite H in R. destruct R as ((_ & _ & (_ & _ & RB) & _) & _); [intros U; left; auto|intros _; right; intros j; reflexivity|].
  cbn [z_n z_rank z_rows z_cols data_sizes h_A h_B h_C h_comp h_rows h_cols other_rows_columns] in RB. specialize (RB i Hi).
  pose proof (moved_rows _ _ _ _ k _ RB (fun i _ => eq_refl) Hk) as X. unfold p in X. rewrite Nat.eqb_refl, swap_i in X. exact X.
Qed.
Print Assumptions C99_equal_rows.

(** ** Data matrices *)
Lemma in_order_self {T} (l : list T) n i j : length l = n -> nth_error l i = nth_error l j -> in_order (map (swap i j) (seq 0 n)) l l.
Proof.
  intros L E. split; [reflexivity|]. intros k x Hk. rewrite nth_error_map in Hk. destruct (nth_error (seq 0 n) k) as [y|] eqn:Hy; [|discriminate Hk]. cbn [option_map] in Hk. injection Hk as <-.
  assert (y = k) as ->. { assert (K : (k < n)%nat) by (rewrite <- (seq_length n 0); apply nth_error_Some; congruence). rewrite (nth_error_nth' _ 0%nat) in Hy by (now rewrite seq_length). rewrite seq_nth in Hy by exact K. now injection Hy as <-. }
  apply (swap_case (fun k k' => nth_error l k = nth_error l k')); auto.
Qed.
Lemma in_order_equal {T} (l : list T) n i j : (i < n)%nat -> in_order (map (swap i j) (seq 0 n)) l l -> nth_error l i = nth_error l j.
Proof.
  intros Hi (_ & K). apply K. rewrite (nth_error_nth' _ 0%nat) by (now rewrite map_length, seq_length).
  rewrite (nth_indep _ 0%nat (swap i j 0)) by (now rewrite map_length, seq_length). rewrite map_nth, seq_nth by exact Hi. cbn. now rewrite swap_i.
Qed.
Theorem C99_equal_matrices (V : envR) IE rnd (a : fitR) c out i j :
  right_width (e_ext V) -> (i < length (f_data a))%nat -> (j < length (f_data a))%nat -> rows_alike a -> zero_vars a -> plain_regs a ->
  starts_from a c -> data_fits (f_data a) c ->
  nth_error (f_data a) i = nth_error (f_data a) j -> nth_error (me (cA c)) i = nth_error (me (cA c)) j -> nth_error (cBs c) i = nth_error (cBs c) j ->
  cmf_aoadmm V IE rnd a = Ok out ->
  nth_error (me (cA (out_cmf out))) i = nth_error (me (cA (out_cmf out))) j /\ nth_error (cBs (out_cmf out)) i = nth_error (cBs (out_cmf out)) j.
Proof.
  intros HW Hi Hj RA (Z1 & Z2 & Z3) PR SF DF QX QA QB H. set (n := length (f_data a)) in *. set (p := map (swap i j) (seq 0 n)).
  pose proof DF as ((WA & _ & _ & MA & _) & LB & _).
  assert (LA : length (me (cA c)) = n). { destruct WA as (K & _). rewrite K. unfold n. congruence. }
  assert (RO : regs_in_order p (f_regs a) (f_regs a)).
  { destruct PR as [E|(u0 & u1 & u2 & E)]; [left; now rewrite E|right]. exists u0, u1, u2, u0, u1, u2. split; [exact E|]. split; [exact E|].
    assert (K : forall m u, Forall (fun o : pobjR => o_aux o = IStr Zeros /\ o_dual o = IStr Zeros) u -> Forall2 (pen_in_order p m) u u).
    { intros m u. induction 1 as [|o l (E1 & E2) _ IH]; constructor; [|exact IH]. split; [reflexivity|]. rewrite E1, E2. split; constructor. }
    split; [|split]; apply K.
    - apply (Z3 0%nat); [lia|]. rewrite E. reflexivity.
    - apply (Z3 1%nat); [lia|]. rewrite E. reflexivity.
    - apply (Z3 2%nat); [lia|]. rewrite E. reflexivity. }
  assert (SO : same_but_order p a a).
  { split; [now apply in_order_self|]. split.
    { exists c, c. split; [exact SF|]. split; [exact SF|]. split; [reflexivity|]. split; [|split; [|reflexivity]].
      - split; [reflexivity|]. split; [reflexivity|]. now apply in_order_self.
      - apply in_order_self; [unfold n; now symmetry|exact QB]. }
    split; [exact RO|]. repeat (split; [first [assumption|reflexivity]|]). reflexivity. }
  assert (PP : Permutation p (seq 0 (length (f_data a)))) by (apply swap_rearranges; assumption).
  destruct (C67_order p V IE rnd a a out HW PP SO RA H) as (out' & H' & (_ & (_ & _ & OA) & OB & _) & _). rewrite H in H'. injection H' as <-.
  split; [exact (in_order_equal _ n _ _ Hi OA)|exact (in_order_equal _ n _ _ Hi OB)].
Qed.
Print Assumptions C99_equal_matrices.

(** ** Cases that meet the hypotheses *)
(** two matrices with 2 and 1 rows, rank 2, two equal components in the start; ridge terms, non-negativity on all modes and a norm bound on the B_i *)
Definition a99 : fitR := args69 (1 / 10) (1 / 5) (3 / 10) 2 (Some (1 / 100)) (data69 1 1 2 3 4 5 6) (start69 (m22 1 1 3 3) (m22 2 2 1 1) (m22 1 1 2 2) 1 1).
Lemma fits69 k x1 x2 x3 x4 y1 y2 a1 a2 a3 a4 b1 b2 b3 b4 c1 c2 c3 c4 z1 z2 :
  data_fits (data69 k x1 x2 x3 x4 y1 y2) (start69 (m22 a1 a2 a3 a4) (m22 b1 b2 b3 b4) (m22 c1 c2 c3 c4) z1 z2).
Proof. split; [apply start69_valid|]. split; [reflexivity|]. intros [|[|i]] Hi; [repeat constructor|repeat constructor|cbn in Hi; lia]. Qed.
Ltac eq22 := intros [|[|?i]] ?; try (cbn in *; lia); unfold mget; cbn; lra.
Example C99_components_nonvacuous rnd : exists V out c, sensible V a99 2 /\ accepted V a99 /\ same_columns (f_data a99) /\ svd_correct (e_ext V) 2 /\ starts_from a99 c /\
  data_fits (f_data a99) c /\ mc (cA c) = 2%nat /\ zero_vars a99 /\ equal_components c 0 1 /\ cmf_aoadmm V no_ext rnd a99 = Ok out.
Proof.
  destruct ideal_exists as (E & HE & _). set (V := Env (N:=RNum) E (fun _ => []) true).
  assert (D : dependable V a99 2) by (apply dependable69; lra). destruct (C51_fit_total V no_ext rnd _ 2 D no_ext_ranks (HE 2%nat)) as (out & H).
  exists V, out, (start69 (m22 1 1 3 3) (m22 2 2 1 1) (m22 1 1 2 2) 1 1).
  split; [apply D|]. split; [now apply (accepted_dependable V _ 2)|]. split; [apply D|]. split; [apply HE|]. split; [apply starts69|]. split; [apply fits69|]. split; [reflexivity|]. split; [apply zero69|].
  split; [|exact H]. split; [eq22|]. split; [intros [|[|i]] Hi; [eq22|eq22|cbn in Hi; lia]|]. split; [eq22|]. discriminate.
Qed.
(** equal rows of the first data matrix, and equal columns of both *)
Definition b99 : fitR := args69 (1 / 10) (1 / 5) (3 / 10) 2 (Some (1 / 100)) (data69 1 7 7 7 7 5 5) (start69 (m22 1 2 3 1) (m22 1 2 1 2) (m22 3 1 3 1) 1 3).
Example C99_rows_columns_nonvacuous rnd : exists V out c, sensible V b99 2 /\ accepted V b99 /\ same_columns (f_data b99) /\ svd_correct (e_ext V) 2 /\ starts_from b99 c /\
  data_fits (f_data b99) c /\ mc (cA c) = 2%nat /\ zero_vars b99 /\ (forall X, In X (f_data b99) -> equal_columns X 0 1) /\ equal_rows (cC c) 0 1 /\
  equal_rows (nthX (f_data b99) 0) 0 1 /\ equal_rows (nthB c 0) 0 1 /\ order_indifferent b99 1 /\ order_indifferent b99 2 /\ cmf_aoadmm V no_ext rnd b99 = Ok out.
Proof.
  destruct ideal_exists as (E & HE & _). set (V := Env (N:=RNum) E (fun _ => []) true).
  assert (D : dependable V b99 2) by (apply dependable69; lra). destruct (C51_fit_total V no_ext rnd _ 2 D no_ext_ranks (HE 2%nat)) as (out & H).
  exists V, out, (start69 (m22 1 2 3 1) (m22 1 2 1 2) (m22 3 1 3 1) 1 3).
  assert (OI : forall m, (m < 3)%nat -> order_indifferent b99 m).
  { intros m Hm. split; [|intros u K; cbn in K; rewrite K; constructor]. intros kw MV. destruct (kw69 _ _ _ _ _ _ _ m kw Hm MV) as (K1 & K2 & K3 & K4 & K5 & K6 & K7 & K8 & K9). rewrite K5, K7, K8, K9. split; [discriminate|]. split; [reflexivity|]. split; [now left|reflexivity]. }
  split; [apply D|]. split; [now apply (accepted_dependable V _ 2)|]. split; [apply D|]. split; [apply HE|]. split; [apply starts69|]. split; [apply fits69|]. split; [reflexivity|]. split; [apply zero69|].
  split; [intros X [<-|[<-|[]]]; eq22|]. split; [eq22|]. split; [eq22|]. split; [eq22|]. split; [apply OI; lia|]. split; [apply OI; lia|exact H].
Qed.
(** two equal data matrices with equal starts *)
Definition m99 : fitR := args67 [m11 3; m11 3] (start67 2 2 5 5).
Lemma kw99 m kw : mode_values (f_kw m99) m kw -> k_nn kw = Some true /\ k_lower kw = None /\ k_upper kw = None /\ k_norm kw = None /\
  k_uni kw = None /\ k_l1 kw = None /\ k_tv kw = None /\ k_gl2 kw = None /\ k_pf2 kw = false.
Proof. intros (M1 & M2 & M3 & M4 & M5 & M6 & M7 & M8 & M9). cbn in *. auto 12. Qed.
Lemma dependable99 E : dependable (Env (N:=RNum) E (fun _ => []) true) m99 1.
Proof.
  assert (UPX : forall m u, user_penalties (f_regs m99) m u -> u = []) by (intros m u H; exact H).
  assert (KWX := kw99).
  split.
  { unfold sensible. split; [discriminate|]. split; [repeat constructor|].
    split; [reflexivity|]. split; [lia|]. split; [do 5 eexists; reflexivity|]. split; [cbn; lra|]. split; [intros m v _ ->; cbn; lra|]. split.
    - intros m r kw Hm _ MV. destruct (KWX m kw MV) as (K1 & K2 & K3 & K4 & K5 & K6 & K7 & K8 & K9). split; [intros hi E0; congruence|intros M E0; congruence].
    - split.
      + intros m r u Hm _ HU. rewrite (UPX m u HU). constructor.
      + intros [K|(u & HU & K)]; [discriminate K|]. rewrite (UPX 1%nat u HU) in K. inversion K. }
  split; [intros X [<-|[<-|[]]]; reflexivity|]. split.
  { exists (start67 2 2 5 5). split; [reflexivity|]. split; [|reflexivity]. split; [apply start67_valid|]. split; [reflexivity|].
    intros [|[|i]] Hi; [split; [apply m11_wf|split; reflexivity]|split; [apply m11_wf|split; reflexivity]|cbn in Hi; lia]. }
  split; [reflexivity|]. split; [discriminate|].
  split; [eexists; split; [reflexivity|discriminate]|]. split; [eexists; split; [reflexivity|discriminate]|].
  split; [exact Logic.I|]. split; [repeat split; exact Logic.I|]. split; [exact Logic.I|]. split.
  { intros m kw Hm MV. destruct (KWX m kw MV) as (K1 & K2 & K3 & K4 & K5 & K6 & K7 & K8 & K9). unfold acceptable. rewrite K4, K6, K7, K8. cbn.
    split; [lra|]. split; [lra|]. split; [intros K; now destruct K|]. split; [lra|exact Logic.I]. }
  split.
  { intros m Hm _. split; [intros v ->; cbn; lra|]. split.
    - intros kw MV. destruct (KWX m kw MV) as (K1 & K2 & K3 & K4 & K5 & K6 & K7 & K8 & K9). unfold asks_plain. rewrite K6, K7, K8, K9. cbn. auto.
    - intros u HU. rewrite (UPX m u HU). constructor. }
  split.
  { intros _ _ [(kw & MV & K)|(u & HU & K)].
    - destruct (KWX 0%nat kw MV) as (K1 & K2 & K3 & K4 & K5 & K6 & K7 & K8 & K9). unfold asks_matrixwise, wants in K. rewrite K4, K5, K7, K8 in K. cbn in K.
      destruct K as [K|[K|[K|(M & K)]]]; try discriminate K; lra.
    - rewrite (UPX 0%nat u HU) in K. inversion K. }
  intros K. discriminate.
Qed.

Example C99_matrices_nonvacuous rnd : exists V out, right_width (e_ext V) /\ rows_alike m99 /\ zero_vars m99 /\ plain_regs m99 /\ starts_from m99 (start67 2 2 5 5) /\
  data_fits (f_data m99) (start67 2 2 5 5) /\ length (f_data m99) = 2%nat /\ nth_error (f_data m99) 0 = nth_error (f_data m99) 1 /\
  nth_error (me (cA (start67 2 2 5 5))) 0 = nth_error (me (cA (start67 2 2 5 5))) 1 /\ nth_error (cBs (start67 2 2 5 5)) 0 = nth_error (cBs (start67 2 2 5 5)) 1 /\
  cmf_aoadmm V no_ext rnd m99 = Ok out.
Proof.
  destruct exact_svd_right_width as (E & HW & HE). set (V := Env (N:=RNum) E (fun _ => []) true).
  destruct (C51_fit_total V no_ext rnd _ 1 (dependable99 E) no_ext_ranks (HE 1%nat)) as (out & H). exists V, out. split; [exact HW|]. split.
  { intros _. split.
    - intros kw MV. destruct (kw99 0%nat kw MV) as (K1 & K2 & K3 & K4 & K5 & K6 & K7 & K8 & K9). rewrite K5, K7, K8. split; [discriminate|]. split; [reflexivity|now left].
    - intros u ->. constructor. }
  split; [split; [reflexivity|]; split; [reflexivity|]; intros m u _ K; cbn in K; rewrite K; constructor|]. split; [now left|].
  split; [split; [apply start67_valid|exists (seq66 (start67 2 2 5 5)); split; reflexivity]|].
  split; [split; [apply start67_valid|]; split; [reflexivity|]; intros [|[|i]] Hi; [repeat constructor|repeat constructor|cbn in Hi; lia]|].
  repeat (split; [reflexivity|]). exact H.
Qed.
