(** Matrices in other units and orders. *)
From Coq Require Import Reals Lra Lia List Arith Bool ZArith Permutation.
From Verif Require Import Num Numpy RFacts Spec SpecFacts MatFacts ModelSpec Penalties PenaltySpec CoupledMatrices CmfSpec CmfProofs Decomp DecompSpec
  DecompFacts ReorderFacts SymSpec.
Import ListNotations.
Local Open Scope R_scope.

Ltac rr := cbn [num RNum Num.n0 Num.n1] in *; first [ring | symmetry; ring | lra | nra].
(** ** Rearrangements *)
Section Perm.
Variables (n : nat) (p : nat -> nat).
Hypothesis Hp : rearranges n p.
Lemma re_lt i : (i < n)%nat -> (p i < n)%nat.
Proof. intros H. assert (K : In (p i) (map p (seq 0 n))) by (apply in_map, in_seq; lia). apply (Permutation_in _ Hp) in K. apply in_seq in K. lia. Qed.
Lemma re_inj i j : (i < n)%nat -> (j < n)%nat -> p i = p j -> i = j.
Proof.
  intros Hi Hj E. assert (ND : NoDup (map p (seq 0 n))) by (apply (Permutation_NoDup (Permutation_sym Hp)), seq_NoDup).
  rewrite (NoDup_nth _ (p n)) in ND. rewrite map_length, seq_length in ND. apply ND; [assumption|assumption|].
  rewrite !map_nth, !seq_nth by assumption. exact E.
Qed.
Lemma re_onto j : (j < n)%nat -> exists i, (i < n)%nat /\ p i = j.
Proof. intros H. assert (K : In j (seq 0 n)) by (apply in_seq; lia). apply (Permutation_in _ (Permutation_sym Hp)) in K. apply in_map_iff in K. destruct K as (i & E & K). apply in_seq in K. exists i. split; [lia|exact E]. Qed.
Lemma re_sum (f : nat -> R) : rsum n (fun i => f (p i)) = rsum n f.
Proof.
  rewrite <- !nsum_rsum, !nsum_lsum. rewrite <- (map_map p f). apply lsum_perm. apply Permutation_map. exact Hp.
Qed.
End Perm.
Lemma re_id n : rearranges n (fun i => i).
Proof. unfold rearranges. rewrite map_id. apply Permutation_refl. Qed.

(** ** Operations *)
Lemma moved_ext r c k l (p q p' q' : nat -> nat) (M M' : rmat) : k = l -> (forall i, (i < r)%nat -> p i = p' i) -> (forall j, (j < c)%nat -> q j = q' j) -> moved r c k p q M M' -> moved r c l p' q' M M'.
Proof. intros -> E1 E2 (S1 & S2 & H). split; [exact S1|]. split; [exact S2|]. intros i j Hi Hj. rewrite H, E1, E2 by assumption. reflexivity. Qed.
Ltac shp := match goal with H : shaped ?M _ _ |- _ => let w := fresh "W" in let a := fresh "Sr" in let b := fresh "Sc" in destruct H as (w & a & b) end.
Lemma moved_mmul r m c k l (p q s : nat -> nat) (A A' B B' : rmat) : rearranges m s -> moved r m k p s A A' -> moved m c l s q B B' -> 
  rearranges r p -> rearranges c q -> moved r c (k * l) p q (mmul A B) (mmul A' B').
Proof.
  intros Hs (SA & SA' & HA) (SB & SB' & HB) Hp Hq. repeat shp. split; [split; [auto with mwf|mshape; split; congruence]|]. split; [split; [auto with mwf|mshape; split; congruence]|].
  intros i j Hi Hj. rewrite !mget_mmul by (rewrite ?Sr1, ?Sr2, ?Sr, ?Sr0, ?Sc, ?Sc0; auto using re_lt; try (apply re_lt with (n := r); auto); try (apply re_lt with (n := c); auto); lia).
  rewrite Sc1, Sc2. rewrite <- (re_sum m s Hs (fun a => rget A (p i) a * rget B a (q j))). rewrite <- rsum_scal. apply rsum_ext. intros a Ha.
  rewrite HA, HB by assumption. ring.
Qed.
Lemma moved_mtrans r c k (p q : nat -> nat) (A A' : rmat) : rearranges r p -> rearranges c q -> moved r c k p q A A' -> moved c r k q p (mtrans A) (mtrans A').
Proof.
  intros Hp Hq (SA & SA' & HA). repeat shp. split; [split; [auto with mwf|mshape; split; congruence]|]. split; [split; [auto with mwf|mshape; split; congruence]|].
  intros i j Hi Hj. pose proof (re_lt _ _ Hp j Hj). pose proof (re_lt _ _ Hq i Hi). rewrite !mget_mtrans by lia. now apply HA.
Qed.
Section Same.
Variables (r c : nat) (p q : nat -> nat).
Hypothesis Hp : rearranges r p.
Hypothesis Hq : rearranges c q.
Lemma moved_map k l (f f' : R -> R) (A A' : rmat) : (forall x, f' (k * x) = l * f x) -> moved r c k p q A A' -> moved r c l p q (mmap f A) (mmap f' A').
Proof.
  intros Hf (SA & SA' & HA). repeat shp. split; [split; [auto with mwf|mshape; split; congruence]|]. split; [split; [auto with mwf|mshape; split; congruence]|].
  intros i j Hi Hj. pose proof (re_lt _ _ Hp i Hi). pose proof (re_lt _ _ Hq j Hj). rewrite !mget_mmap by lia. rewrite HA by assumption. apply Hf.
Qed.
Lemma moved_map2 k l m (f f' : R -> R -> R) (A A' B B' : rmat) : (forall x y, f' (k * x) (l * y) = m * f x y) -> moved r c k p q A A' -> moved r c l p q B B' -> moved r c m p q (mmap2 f A B) (mmap2 f' A' B').
Proof.
  intros Hf (SA & SA' & HA) (SB & SB' & HB). repeat shp. split; [split; [auto with mwf|mshape; split; congruence]|]. split; [split; [auto with mwf|mshape; split; congruence]|].
  intros i j Hi Hj. pose proof (re_lt _ _ Hp i Hi). pose proof (re_lt _ _ Hq j Hj). rewrite !mget_mmap2 by lia. rewrite HA, HB by assumption. apply Hf.
Qed.
Lemma moved_madd k (A A' B B' : rmat) : moved r c k p q A A' -> moved r c k p q B B' -> moved r c k p q (madd A B) (madd A' B').
Proof. apply moved_map2. intros x y. rn. ring. Qed.
Lemma moved_msub k (A A' B B' : rmat) : moved r c k p q A A' -> moved r c k p q B B' -> moved r c k p q (msub A B) (msub A' B').
Proof. apply moved_map2. intros x y. rn. ring. Qed.
Lemma moved_mhad k l (A A' B B' : rmat) : moved r c k p q A A' -> moved r c l p q B B' -> moved r c (k * l) p q (mhad A B) (mhad A' B').
Proof. apply moved_map2. intros x y. rn. ring. Qed.
Lemma moved_mscale k l (x x' : R) (A A' : rmat) : x' = l * x -> moved r c k p q A A' -> moved r c (l * k) p q (mscale (N:=RNum) x A) (mscale (N:=RNum) x' A').
Proof. intros ->. apply moved_map. intros y. rn. ring. Qed.
Lemma moved_mcolscale k l (A A' : rmat) (v v' : list R) : moved r c k p q A A' -> moved_vec c l q v v' -> moved r c (k * l) p q (mcolscale (N:=RNum) A v) (mcolscale (N:=RNum) A' v').
Proof.
  intros (SA & SA' & HA) (L1 & L2 & HV). repeat shp. split; [split; [auto with mwf|mshape; split; congruence]|]. split; [split; [auto with mwf|mshape; split; congruence]|].
  intros i j Hi Hj. pose proof (re_lt _ _ Hp i Hi). pose proof (re_lt _ _ Hq j Hj). rewrite !mget_mcolscale by lia. rewrite HA by assumption.
  change (vg v' j) with (at_ v' j). rewrite HV by assumption. change (vg v (q j)) with (at_ v (q j)). unfold vg in *. cbn [num RNum] in *. ring.
Qed.
Lemma moved_mcoldiv k l (A A' : rmat) (v v' : list R) : l <> 0 -> (forall j, (j < c)%nat -> at_ v j <> 0) -> moved r c k p q A A' -> moved_vec c l q v v' -> moved r c (k / l) p q (mcoldiv (N:=RNum) A v) (mcoldiv (N:=RNum) A' v').
Proof.
  intros Hl HN (SA & SA' & HA) (L1 & L2 & HV). repeat shp. split; [split; [auto with mwf|mshape; split; congruence]|]. split; [split; [auto with mwf|mshape; split; congruence]|].
  intros i j Hi Hj. pose proof (re_lt _ _ Hp i Hi). pose proof (re_lt _ _ Hq j Hj). rewrite !mget_mcoldiv by lia. rewrite HA by assumption.
  change (vg v' j) with (at_ v' j). rewrite HV by assumption. change (vg v (q j)) with (at_ v (q j)). unfold vg in *. cbn [num RNum] in *. field. split; [now apply HN|exact Hl].
Qed.
Lemma moved_mzeros k : moved r c k p q (mzeros (N:=RNum) r c) (mzeros (N:=RNum) r c).
Proof.
  split; [split; [auto with mwf|split; reflexivity]|]. split; [split; [auto with mwf|split; reflexivity]|].
  intros i j Hi Hj. pose proof (re_lt _ _ Hp i Hi). pose proof (re_lt _ _ Hq j Hj). rewrite !mget_mzeros by assumption. cbn [num RNum] in *. ring.
Qed.
(** ** Sums and norms *)
Lemma moved_sum k (A A' : rmat) : moved r c k p q A A' -> msum A' = k * msum A.
Proof.
  intros (SA & SA' & HA). repeat shp. unfold msum. rewrite Sr, Sr0, Sc, Sc0. rewrite !nsum_rsum. 
  transitivity (k * rsum r (fun i => rsum c (fun j => rget A (p i) (q j)))).
  - rewrite <- rsum_scal. apply rsum_ext. intros i Hi. rewrite nsum_rsum. rewrite <- rsum_scal. apply rsum_ext. intros j Hj. now apply HA.
  - f_equal. transitivity (rsum r (fun i => nsum (N:=RNum) c (fun j => rget A (p i) j))).
    + apply rsum_ext. intros i Hi. etransitivity; [|symmetry; apply nsum_rsum]. exact (re_sum c q Hq (fun j => rget A (p i) j)).
    + exact (re_sum r p Hp (fun i => nsum (N:=RNum) c (fun j => rget A i j))).
Qed.
Lemma moved_msumsq k (A A' : rmat) : moved r c k p q A A' -> msumsq A' = k * k * msumsq A.
Proof. intros H. unfold msumsq. apply moved_sum. now apply moved_mhad. Qed.
Lemma moved_mnorm k (A A' : rmat) : 0 <= k -> moved r c k p q A A' -> mnorm A' = k * mnorm A.
Proof.
  intros Hk H. unfold mnorm. rewrite (moved_msumsq k A A' H). rn. rewrite sqrt_mult; [|nra|]. { rewrite sqrt_square by assumption. reflexivity. }
  rewrite msumsq_nsq. apply nsq_nonneg.
Qed.
Lemma moved_col k (A A' : rmat) j : moved r c k p q A A' -> (j < c)%nat -> forall i, (i < r)%nat -> vg (mcol A' j) i = k * vg (mcol A (q j)) (p i).
Proof. intros (SA & SA' & HA) Hj i Hi. repeat shp. pose proof (re_lt _ _ Hp i Hi). rewrite !vg_mcol by (assumption || lia). now apply HA. Qed.
End Same.
Lemma moved_trace n k (q : nat -> nat) (A A' : rmat) : rearranges n q -> moved n n k q q A A' -> mtrace A' = k * mtrace A.
Proof.
  intros Hq (SA & SA' & HA). repeat shp. unfold mtrace. rewrite Sr, Sr0, !nsum_rsum.
  transitivity (k * rsum n (fun i => rget A (q i) (q i))); [|f_equal; exact (re_sum n q Hq (fun i => rget A i i))]. rewrite <- rsum_scal. apply rsum_ext. intros i Hi. now apply HA.
Qed.
Lemma moved_meye n (q : nat -> nat) : rearranges n q -> moved n n 1 q q (meye (N:=RNum) n) (meye (N:=RNum) n).
Proof.
  intros Hq. split; [split; [auto with mwf|split; reflexivity]|]. split; [split; [auto with mwf|split; reflexivity]|].
  intros i j Hi Hj. pose proof (re_lt _ _ Hq i Hi). pose proof (re_lt _ _ Hq j Hj). rewrite !mget_meye by assumption. cbn [num RNum n1 n0].
  destruct (Nat.eqb_spec i j) as [->|NE]; [rewrite Nat.eqb_refl; ring|]. destruct (Nat.eqb_spec (q i) (q j)) as [E|_]; [|ring]. exfalso. apply NE. now apply (re_inj n q Hq).
Qed.
Lemma moved_diag n k (q : nat -> nat) (A A' : rmat) : rearranges n q -> moved n n k q q A A' -> moved_vec n k q (mdiag A) (mdiag A').
Proof.
  intros Hq (SA & SA' & HA). repeat shp. unfold mdiag. rewrite Sr, Sr0. split; [apply length_vbuild|]. split; [apply length_vbuild|]. intros j Hj. pose proof (re_lt _ _ Hq j Hj).
  change (vg (vbuild (N:=RNum) n (fun i => rget A' i i)) j = k * vg (vbuild (N:=RNum) n (fun i => rget A i i)) (q j)). rewrite !vget_vbuild by assumption. now apply HA.
Qed.
Lemma moved_row r c k (q : nat -> nat) (A A' : rmat) i : rearranges c q -> moved r c k (fun i => i) q A A' -> (i < r)%nat -> moved_vec c k q (mrow A i) (mrow A' i).
Proof.
  intros Hq (SA & SA' & HA) Hi. repeat shp. split; [rewrite length_mrow by (assumption || lia); assumption|]. split; [rewrite length_mrow by (assumption || lia); assumption|].
  intros j Hj. change (vg (mrow A' i) j = k * vg (mrow A i) (q j)). rewrite !vg_mrow. now apply HA.
Qed.
Lemma moved_ridge n t (q : nat -> nat) (G G' : rmat) fp fp' l2 l2' m : rearranges n q -> moved n n t q q G G' -> fp' = t * fp -> l2' = t * l2 ->
  moved n n t q q (ridge (N:=RNum) G fp m l2) (ridge (N:=RNum) G' fp' m l2').
Proof.
  intros Hq H E1 E2. unfold ridge. apply moved_madd; [assumption|assumption|assumption|]. destruct H as ((_ & _ & ->) & (_ & _ & ->) & _).
  apply (moved_ext n n (t * 1) t q q q q); [ring|reflexivity|reflexivity|]. apply moved_mscale; [assumption|assumption| |now apply moved_meye]. rn. rewrite E1, E2. rr.
Qed.

(** ** Solving *)
Lemma sym_unique (M W X Y : rmat) n r : shaped M n n -> mtrans M = M -> shaped W n n -> mmul W M = meye n -> shaped X r n -> shaped Y r n -> mmul X M = mmul Y M -> X = Y.
Proof.
  intros (WM & RM & CM) SM (WW & RW & CW) EW (WX & RX & CX) (WY & RY & CY) E.
  assert (EW' : mmul M (mtrans W) = meye n). { rewrite <- SM at 1. rewrite <- mtrans_mmul by lia. rewrite EW. apply mtrans_meye. }
  rewrite <- (mmul_eye_r X n) by (assumption || lia). rewrite <- (mmul_eye_r Y n) by (assumption || lia). rewrite <- EW', <- !mmul_assoc by lia. now rewrite E.
Qed.
Lemma finite_inv (M : rmat) n d : shaped M n n -> mtrans M = M -> has_svd M n d -> finite_svd d = true -> exists W, shaped W n n /\ mmul W M = meye n.
Proof.
  intros (WM & RM & CM) SM Hd F. destruct d as [[U s] Vh]. set (W := mmul (mmul (meye (N:=RNum) n) (mcoldiv U s)) Vh). exists W.
  assert (ES : solve_mat (U, s, Vh) (meye (N:=RNum) n) = Ok W) by (unfold solve_mat; now rewrite F).
  destruct (solve_mat_spec M (meye (N:=RNum) n) W n (U, s, Vh) WM (mwf_meye n) RM CM eq_refl SM Hd ES) as (S1 & E). split; assumption.
Qed.
Lemma inv_finite (M W : rmat) n d : shaped M n n -> has_svd M n d -> shaped W n n -> mmul W M = meye n -> finite_svd d = true.
Proof.
  intros (WM & RM & CM) Hd (WW & RW & CW) E. destruct d as [[U s] Vh]. destruct Hd as (W1 & S1 & S2 & L & W2 & S3 & S4 & (OU & OV & _ & EM)).
  unfold finite_svd. apply forallb_forall. intros x Hx. apply ntruthy_R. intros ->. apply (In_nth _ _ 0) in Hx. destruct Hx as (a & Ha & Ea).
  assert (Ha' : (a < n)%nat) by (rewrite <- L; exact Ha). rewrite RM, CM in *.
  assert (Z : forall i, (i < n)%nat -> rsum n (fun j => rget M i j * rget Vh a j) = 0).
  { intros i Hi. rewrite (rsum_ext _ _ (fun j => rsum n (fun b => rget U i b * at_ s b * (rget Vh b j * rget Vh a j)))).
    - rewrite rsum_swap. apply rsum_zero. intros b Hb. rewrite rsum_scal. assert (OV' : rsum n (fun j => rget Vh b j * rget Vh a j) = if Nat.eq_dec b a then 1 else 0).
      { pose proof (OV b a Hb Ha') as K. rewrite Sum_rsum in K. unfold kron in K. rewrite K. destruct (Nat.eqb_spec b a), (Nat.eq_dec b a); congruence || reflexivity. }
      rewrite OV'. destruct (Nat.eq_dec b a) as [->|]; [|rr]. change (at_ s a) with (nth a s 0). rewrite Ea. rr.
    - intros j Hj. rewrite (EM i j Hi Hj), Sum_rsum. rewrite <- rsum_scal_r. apply rsum_ext. intros b Hb. rr. }
  assert (V0 : forall i, (i < n)%nat -> rget Vh a i = 0).
  { intros i Hi. transitivity (rsum n (fun j => rget (mmul W M) i j * rget Vh a j)).
    - rewrite E. rewrite (rsum_single n i); [rewrite mget_meye, Nat.eqb_refl by assumption; rr|assumption|]. intros j Hj Hne. rewrite mget_meye by assumption. destruct (Nat.eqb_spec i j); [congruence|rr].
    - rewrite (rsum_ext _ _ (fun j => rsum n (fun b => rget W i b * (rget M b j * rget Vh a j)))).
      + rewrite rsum_swap. apply rsum_zero. intros b Hb. rewrite rsum_scal, Z by assumption. rr.
      + intros j Hj. rewrite mget_mmul by lia. rewrite CW, <- rsum_scal_r. apply rsum_ext. intros b Hb. rr. }
  pose proof (OV a a Ha' Ha') as K. unfold kron in K. rewrite Nat.eqb_refl, Sum_rsum in K. rewrite rsum_zero in K; [lra|]. intros i Hi. rewrite V0 by assumption. rr.
Qed.
Lemma moved_back n t (q : nat -> nat) (M M' W : rmat) : rearranges n q -> t <> 0 -> moved n n t q q M M' -> shaped W n n -> mmul W M = meye n ->
  exists W', shaped W' n n /\ mmul W' M' = meye n.
Proof.
  intros Hq Ht HM SW EW. exists (mbuild (N:=RNum) n n (fun i j => / t * rget W (q i) (q j))). set (W' := mbuild _ _ _).
  assert (MW : moved n n (/ t) q q W W').
  { split; [exact SW|]. split; [split; [apply mwf_mbuild|split; reflexivity]|]. intros i j Hi Hj. unfold W'. now rewrite mget_mbuild. }
  split; [apply MW|]. pose proof (moved_mmul n n n _ _ q q q W W' M M' Hq MW HM Hq Hq) as H. rewrite EW in H. destruct H as (_ & (W2 & R2 & C2) & H).
  apply mat_ext; [assumption|apply mwf_meye|assumption|assumption|]. rewrite R2, C2. intros i j Hi Hj. rewrite H by assumption.
  pose proof (moved_meye n q Hq) as (_ & _ & K). rewrite (K i j Hi Hj). cbn [num RNum] in *. field. exact Ht.
Qed.
(** Two results, or the same exception. *)
Definition res_rel {T U} (Q : T -> U -> Prop) (x : res T) (y : res U) : Prop :=
  match x, y with Ok a, Ok b => Q a b | Err e, Err f => f = e | _, _ => False end.
Lemma moved_finite n t (q : nat -> nat) (M M' : rmat) d d' : rearranges n q -> t <> 0 -> moved n n t q q M M' -> mtrans M = M -> mtrans M' = M' -> has_svd M n d -> has_svd M' n d' ->
  finite_svd d' = finite_svd d.
Proof.
  intros Hq Ht HM S1 S2 D1 D2. pose proof HM as (SM & SM' & H).
  destruct (finite_svd d) eqn:F.
  - destruct (finite_inv M n d SM S1 D1 F) as (W & SW & EW). destruct (moved_back n t q M M' W Hq Ht HM SW EW) as (W' & SW' & EW'). now apply (inv_finite M' W' n d').
  - destruct (finite_svd d') eqn:F'; [|reflexivity]. exfalso.
    destruct (finite_inv M' n d' SM' S2 D2 F') as (W' & SW' & EW').
    assert (exists W, shaped W n n /\ mmul W M = meye n).
    { (* the inverse rearrangement *)
      assert (Hinv : exists qi, rearranges n qi /\ (forall j, (j < n)%nat -> q (qi j) = j)).
      { set (qi := fun j => match find (fun i => (q i =? j)%nat) (seq 0 n) with Some i => i | None => 0%nat end).
        assert (Q : forall j, (j < n)%nat -> (qi j < n)%nat /\ q (qi j) = j).
        { intros j Hj. unfold qi. destruct (find (fun i => (q i =? j)%nat) (seq 0 n)) as [i|] eqn:EF.
          - apply find_some in EF. destruct EF as (I1 & I2). apply in_seq in I1. apply Nat.eqb_eq in I2. split; [lia|exact I2].
          - destruct (re_onto n q Hq j Hj) as (i & Hi & Ei). exfalso. assert (K := find_none _ _ EF i ltac:(apply in_seq; lia)). cbn in K. apply Nat.eqb_neq in K. contradiction. }
        exists qi. split; [|intros j Hj; now apply Q]. unfold rearranges. apply NoDup_Permutation_bis.
        - apply (NoDup_nth _ (qi n)). rewrite map_length, seq_length. intros i j Hi Hj E. rewrite !map_nth, !seq_nth in E by assumption. cbn in E.
          rewrite <- (proj2 (Q i Hi)), <- (proj2 (Q j Hj)). now rewrite E.
        - rewrite map_length. apply Nat.le_refl.
        - intros x Hx. apply in_map_iff in Hx. destruct Hx as (j & <- & Hj). apply in_seq in Hj. apply in_seq. destruct (Q j ltac:(lia)). lia. }
      destruct Hinv as (qi & Hqi & E). apply (moved_back n (/ t) qi M' M W' Hqi); [now apply Rinv_neq_0_compat| |exact SW'|exact EW'].
      split; [exact SM'|]. split; [exact SM|]. intros i j Hi Hj. pose proof (re_lt _ _ Hqi i Hi). pose proof (re_lt _ _ Hqi j Hj). rewrite H, !E by assumption. cbn [num RNum] in *. symmetry. field. exact Ht. }
    destruct H0 as (W & SW & EW). rewrite (inv_finite M W n d SM D1 SW EW) in F. discriminate.
Qed.
Lemma moved_solve r n t k (p q : nat -> nat) (M M' b b' : rmat) d d' : rearranges r p -> rearranges n q -> t <> 0 -> moved n n t q q M M' -> mtrans M = M -> mtrans M' = M' ->
  has_svd M n d -> has_svd M' n d' -> moved r n (t * k) p q b b' -> res_rel (moved r n k p q) (solve_mat d b) (solve_mat d' b').
Proof.
  intros Hp Hq Ht HM S1 S2 D1 D2 Hb. pose proof (moved_finite n t q M M' d d' Hq Ht HM S1 S2 D1 D2) as FE. pose proof HM as (SM & SM' & HMe). pose proof Hb as (Sb & Sb' & Hbe).
  destruct (finite_svd d) eqn:F.
  2:{ destruct d as [[U s] Vh], d' as [[U' s'] Vh']. unfold solve_mat. rewrite F, FE. reflexivity. }
  destruct (solve_mat d b) as [Z|] eqn:EZ; [|destruct d as [[U s] Vh]; unfold solve_mat in EZ; rewrite F in EZ; discriminate].
  destruct (solve_mat d' b') as [Z'|] eqn:EZ'; [|destruct d' as [[U' s'] Vh']; unfold solve_mat in EZ'; rewrite FE in EZ'; discriminate].
  cbn. destruct SM as (WM & RM & CM), SM' as (WM' & RM' & CM'), Sb as (Wb & Rb & Cb), Sb' as (Wb' & Rb' & Cb').
  destruct (solve_mat_spec M b Z n d WM Wb RM CM Cb S1 D1 EZ) as (SZ & Q1). destruct (solve_mat_spec M' b' Z' n d' WM' Wb' RM' CM' Cb' S2 D2 EZ') as (SZ' & Q2). rewrite Rb in SZ. rewrite Rb' in SZ'.
  set (Y := mbuild (N:=RNum) r n (fun i j => k * rget Z (p i) (q j))).
  assert (MY : moved r n k p q Z Y). { split; [exact SZ|]. split; [split; [apply mwf_mbuild|split; reflexivity]|]. intros i j Hi Hj. unfold Y. now rewrite mget_mbuild. }
  assert (EY : Z' = Y); [|subst; exact MY].
  destruct (finite_inv M' n d' ltac:(repeat split; assumption || apply WM') S2 D2 FE) as (W' & SW' & EW').
  apply (sym_unique M' W' Z' Y n r); [repeat split; assumption || apply WM'|exact S2|exact SW'|exact EW'|exact SZ'|apply MY|].
  rewrite Q2. pose proof (moved_mmul r n n k t p q q Z Y M M' Hq MY HM Hp Hq) as (_ & (WY & RY & CY) & K).
  apply mat_ext; [assumption|assumption|congruence|congruence|]. rewrite Rb', Cb'. intros i j Hi Hj. rewrite K, Hbe by assumption. rewrite Q1. rr.
Qed.
