(** Facts about real matrices ([mat] over [RNum]). *)
From Coq Require Import Reals Lra Lia List Arith Bool ZArith.
From Verif Require Import Num Numpy RFacts.
Import ListNotations.
Local Open Scope R_scope.

Notation rmat := (mat (N:=RNum)).
Notation rget := (mget (N:=RNum)).
Notation vg := (vget (N:=RNum)).

Lemma mget_mbuild r c (f : nat -> nat -> R) i j :
  (i < r)%nat -> (j < c)%nat -> rget (mbuild r c f) i j = f i j.
Proof.
  intros Hi Hj. unfold mget, mbuild; cbn. rewrite nth_seq_map by assumption.
  now rewrite nth_seq_map by assumption.
Qed.
Lemma mr_mbuild r c (f : nat -> nat -> R) : mr (mbuild (N:=RNum) r c f) = r.
Proof. reflexivity. Qed.
Lemma mc_mbuild r c (f : nat -> nat -> R) : mc (mbuild (N:=RNum) r c f) = c.
Proof. reflexivity. Qed.
Lemma mwf_mbuild r c (f : nat -> nat -> R) : mwf (mbuild (N:=RNum) r c f).
Proof.
  split; cbn.
  - now rewrite map_length, seq_length.
  - apply Forall_forall. intros row H. apply in_map_iff in H. destruct H as (i & <- & _).
    now rewrite map_length, seq_length.
Qed.
Lemma mat_ext (A B : rmat) : mwf A -> mwf B -> mr A = mr B -> mc A = mc B ->
  (forall i j, (i < mr A)%nat -> (j < mc A)%nat -> rget A i j = rget B i j) -> A = B.
Proof.
  destruct A as [r c a], B as [r' c' b]. cbn. intros (LA & FA) (LB & FB) -> -> H. cbn in *.
  f_equal. apply (list_eq_nth _ _ []); [congruence|]. intros i Hi.
  rewrite Forall_forall in FA, FB.
  assert (Ha : length (nth i a []) = c') by (apply FA, nth_In; congruence).
  assert (Hb : length (nth i b []) = c') by (apply FB, nth_In; congruence).
  apply (list_eq_nth _ _ 0); [congruence|]. intros j Hj. apply (H i j); congruence.
Qed.
Lemma mbuild_ext r c (f g : nat -> nat -> R) :
  (forall i j, (i < r)%nat -> (j < c)%nat -> f i j = g i j) ->
  mbuild (N:=RNum) r c f = mbuild (N:=RNum) r c g.
Proof.
  intros H. apply mat_ext; try apply mwf_mbuild; try reflexivity. cbn. intros i j Hi Hj.
  rewrite !mget_mbuild by assumption. now apply H.
Qed.
(** a well-formed matrix is built from its entries *)
Lemma mbuild_id (A : rmat) : mwf A -> mbuild (N:=RNum) (mr A) (mc A) (fun i j => rget A i j) = A.
Proof.
  intros H. apply mat_ext; auto using mwf_mbuild. cbn. intros. now rewrite mget_mbuild.
Qed.

(** ** Entries of the operations *)
Lemma mget_mtrans (A : rmat) i j : (i < mc A)%nat -> (j < mr A)%nat -> rget (mtrans A) i j = rget A j i.
Proof. intros; unfold mtrans. now rewrite mget_mbuild. Qed.
Lemma mget_mmul (A B : rmat) i j : (i < mr A)%nat -> (j < mc B)%nat ->
  rget (mmul A B) i j = rsum (mc A) (fun k => rget A i k * rget B k j).
Proof. intros; unfold mmul. now rewrite mget_mbuild. Qed.
Lemma mget_mmap (f : R -> R) (A : rmat) i j : (i < mr A)%nat -> (j < mc A)%nat ->
  rget (mmap f A) i j = f (rget A i j).
Proof. intros; unfold mmap. now rewrite mget_mbuild. Qed.
Lemma mget_mmap2 (f : R -> R -> R) (A B : rmat) i j : (i < mr A)%nat -> (j < mc A)%nat ->
  rget (mmap2 f A B) i j = f (rget A i j) (rget B i j).
Proof. intros; unfold mmap2. now rewrite mget_mbuild. Qed.
Lemma mget_madd (A B : rmat) i j : (i < mr A)%nat -> (j < mc A)%nat ->
  rget (madd A B) i j = rget A i j + rget B i j.
Proof. intros; unfold madd. now rewrite mget_mmap2. Qed.
Lemma mget_msub (A B : rmat) i j : (i < mr A)%nat -> (j < mc A)%nat ->
  rget (msub A B) i j = rget A i j - rget B i j.
Proof. intros; unfold msub. now rewrite mget_mmap2. Qed.
Lemma mget_mhad (A B : rmat) i j : (i < mr A)%nat -> (j < mc A)%nat ->
  rget (mhad A B) i j = rget A i j * rget B i j.
Proof. intros; unfold mhad. now rewrite mget_mmap2. Qed.
Lemma mget_mscale c (A : rmat) i j : (i < mr A)%nat -> (j < mc A)%nat ->
  rget (mscale (N:=RNum) c A) i j = c * rget A i j.
Proof. intros; unfold mscale. now rewrite mget_mmap. Qed.
Lemma mget_mcolscale (A : rmat) (v : list R) i j : (i < mr A)%nat -> (j < mc A)%nat ->
  rget (mcolscale (N:=RNum) A v) i j = rget A i j * vg v j.
Proof. intros; unfold mcolscale. now rewrite mget_mbuild. Qed.
Lemma mget_mcoldiv (A : rmat) (v : list R) i j : (i < mr A)%nat -> (j < mc A)%nat ->
  rget (mcoldiv (N:=RNum) A v) i j = rget A i j / vg v j.
Proof. intros; unfold mcoldiv. now rewrite mget_mbuild. Qed.
Lemma mget_meye n i j : (i < n)%nat -> (j < n)%nat ->
  rget (meye (N:=RNum) n) i j = if (i =? j)%nat then 1 else 0.
Proof. intros; unfold meye, meye2. now rewrite mget_mbuild. Qed.
Lemma mget_mzeros r c i j : (i < r)%nat -> (j < c)%nat -> rget (mzeros (N:=RNum) r c) i j = 0.
Proof. intros; unfold mzeros. now rewrite mget_mbuild. Qed.
Lemma mget_mdiagm (v : list R) i j : (i < length v)%nat -> (j < length v)%nat ->
  rget (mdiagm (N:=RNum) v) i j = if (i =? j)%nat then vg v i else 0.
Proof. intros; unfold mdiagm. now rewrite mget_mbuild. Qed.
Lemma mget_of_cols r (cols : list (list R)) i j : (i < r)%nat -> (j < length cols)%nat ->
  rget (of_cols (N:=RNum) r cols) i j = vg (nth j cols []) i.
Proof. intros; unfold of_cols. rewrite mget_mbuild by assumption. reflexivity. Qed.

(** ** Shapes *)
Lemma mwf_mtrans (A : rmat) : mwf (mtrans A). Proof. apply mwf_mbuild. Qed.
Lemma mwf_mmul (A B : rmat) : mwf (mmul A B). Proof. apply mwf_mbuild. Qed.
Lemma mwf_mmap f (A : rmat) : mwf (mmap f A). Proof. apply mwf_mbuild. Qed.
Lemma mwf_mmap2 f (A B : rmat) : mwf (mmap2 f A B). Proof. apply mwf_mbuild. Qed.
Lemma mwf_madd (A B : rmat) : mwf (madd A B). Proof. apply mwf_mbuild. Qed.
Lemma mwf_msub (A B : rmat) : mwf (msub A B). Proof. apply mwf_mbuild. Qed.
Lemma mwf_mhad (A B : rmat) : mwf (mhad A B). Proof. apply mwf_mbuild. Qed.
Lemma mwf_mscale c (A : rmat) : mwf (mscale c A). Proof. apply mwf_mbuild. Qed.
Lemma mwf_mcolscale (A : rmat) v : mwf (mcolscale A v). Proof. apply mwf_mbuild. Qed.
Lemma mwf_mcoldiv (A : rmat) v : mwf (mcoldiv A v). Proof. apply mwf_mbuild. Qed.
Lemma mwf_meye n : mwf (meye (N:=RNum) n). Proof. apply mwf_mbuild. Qed.
Lemma mwf_mzeros r c : mwf (mzeros (N:=RNum) r c). Proof. apply mwf_mbuild. Qed.
Lemma mwf_mdiagm (v : list R) : mwf (mdiagm (N:=RNum) v). Proof. apply mwf_mbuild. Qed.
Lemma mwf_of_cols r (cols : list (list R)) : mwf (of_cols (N:=RNum) r cols). Proof. apply mwf_mbuild. Qed.
Global Hint Resolve mwf_mbuild mwf_mtrans mwf_mmul mwf_mmap mwf_mmap2 mwf_madd mwf_msub mwf_mhad
  mwf_mscale mwf_mcolscale mwf_mcoldiv mwf_meye mwf_mzeros mwf_mdiagm mwf_of_cols : mwf.

(** solve [mr A = _], [i < mr (op ...)] goals *)
Ltac mshape := cbn [mr mc mtrans mmul mmap mmap2 madd msub mhad mscale mcolscale mcoldiv meye meye2
                    mzeros mones mdiagm of_cols mbuild] in *.
Ltac mlia := mshape; rn; try assumption; lia.

Ltac mget_rw :=
  repeat first
    [ rewrite mget_mtrans by mlia | rewrite mget_mmul by mlia | rewrite mget_madd by mlia
    | rewrite mget_msub by mlia | rewrite mget_mhad by mlia | rewrite mget_mscale by mlia
    | rewrite mget_mcolscale by mlia | rewrite mget_mcoldiv by mlia | rewrite mget_mmap by mlia
    | rewrite mget_mzeros by mlia | rewrite mget_mbuild by mlia ].

(** ** Algebra *)
Lemma mmul_assoc (A B C : rmat) : mc A = mr B -> mmul (mmul A B) C = mmul A (mmul B C).
Proof.
  intros H1. apply mat_ext; auto with mwf. intros i j Hi Hj. mshape.
  rewrite (mget_mmul (mmul A B)) by mlia. rewrite (mget_mmul A) by mlia. mshape.
  rewrite (rsum_ext _ _ (fun k => rsum (mc A) (fun l => rget A i l * rget B l k * rget C k j))).
  2:{ intros k Hk. rewrite mget_mmul by mlia. now rewrite <- rsum_scal_r. }
  rewrite rsum_swap. apply rsum_ext. intros l Hl. rewrite mget_mmul by mlia.
  rewrite <- rsum_scal. apply rsum_ext. intros; ring.
Qed.
Lemma mtrans_involutive (A : rmat) : mwf A -> mtrans (mtrans A) = A.
Proof.
  intros H. apply mat_ext; auto with mwf. intros i j Hi Hj. mshape. now rewrite !mget_mtrans by mlia.
Qed.
Lemma mtrans_mmul (A B : rmat) : mc A = mr B -> mtrans (mmul A B) = mmul (mtrans B) (mtrans A).
Proof.
  intros H. apply mat_ext; auto with mwf. intros i j Hi Hj. mshape.
  rewrite mget_mtrans by mlia. rewrite !mget_mmul by mlia. mshape. rewrite H.
  apply rsum_ext. intros k Hk. rewrite !mget_mtrans by mlia. ring.
Qed.
Lemma mmul_meye_r (A : rmat) : mwf A -> mmul A (meye (mc A)) = A.
Proof.
  intros H. apply mat_ext; auto with mwf. intros i j Hi Hj. mshape.
  rewrite mget_mmul by mlia. rewrite <- (rsum_delta_r (mc A) j (fun k => rget A i k)) by assumption.
  apply rsum_ext. intros k Hk. now rewrite mget_meye by assumption.
Qed.
Lemma mmul_meye_l (A : rmat) : mwf A -> mmul (meye (mr A)) A = A.
Proof.
  intros H. apply mat_ext; auto with mwf. intros i j Hi Hj. mshape.
  rewrite mget_mmul by mlia. rewrite <- (rsum_delta (mr A) i (fun k => rget A k j)) by assumption.
  apply rsum_ext. intros k Hk. now rewrite mget_meye by assumption.
Qed.
Lemma mmul_eye_r (A : rmat) n : mwf A -> n = mc A -> mmul A (meye n) = A.
Proof. intros W ->. now apply mmul_meye_r. Qed.
Lemma mmul_eye_l (A : rmat) n : mwf A -> n = mr A -> mmul (meye n) A = A.
Proof. intros W ->. now apply mmul_meye_l. Qed.
Lemma mmul_madd_l (A B C : rmat) : mr A = mr B -> mc A = mc B ->
  mmul (madd A B) C = madd (mmul A C) (mmul B C).
Proof.
  intros H1 H2. apply mat_ext; auto with mwf. intros i j Hi Hj. mshape.
  rewrite mget_madd, !mget_mmul by mlia. mshape. rewrite <- H2, <- rsum_add.
  apply rsum_ext. intros k Hk. rewrite mget_madd by mlia. ring.
Qed.
Lemma mmul_madd_r (A B C : rmat) : mc A = mr B -> mr B = mr C -> mc B = mc C ->
  mmul A (madd B C) = madd (mmul A B) (mmul A C).
Proof.
  intros H0 H1 H2. apply mat_ext; auto with mwf. intros i j Hi Hj. mshape.
  rewrite mget_madd, !mget_mmul by mlia. mshape. rewrite <- rsum_add.
  apply rsum_ext. intros k Hk. rewrite mget_madd by mlia. ring.
Qed.
Lemma mmul_msub_l (A B C : rmat) : mr A = mr B -> mc A = mc B ->
  mmul (msub A B) C = msub (mmul A C) (mmul B C).
Proof.
  intros H1 H2. apply mat_ext; auto with mwf. intros i j Hi Hj. mshape.
  rewrite mget_msub, !mget_mmul by mlia. mshape. rewrite <- H2, <- rsum_sub.
  apply rsum_ext. intros k Hk. rewrite mget_msub by mlia. ring.
Qed.
Lemma mmul_msub_r (A B C : rmat) : mc A = mr B -> mr B = mr C -> mc B = mc C ->
  mmul A (msub B C) = msub (mmul A B) (mmul A C).
Proof.
  intros H0 H1 H2. apply mat_ext; auto with mwf. intros i j Hi Hj. mshape.
  rewrite mget_msub, !mget_mmul by mlia. mshape. rewrite <- rsum_sub.
  apply rsum_ext. intros k Hk. rewrite mget_msub by mlia. ring.
Qed.
Lemma mmul_mscale_l c (A B : rmat) : mmul (mscale c A) B = mscale c (mmul A B).
Proof.
  apply mat_ext; auto with mwf. intros i j Hi Hj. mshape.
  rewrite mget_mscale, !mget_mmul by mlia. mshape. rewrite <- rsum_scal.
  apply rsum_ext. intros k Hk. rewrite mget_mscale by mlia. ring.
Qed.
Lemma mmul_mscale_r c (A B : rmat) : mc A = mr B -> mmul A (mscale c B) = mscale c (mmul A B).
Proof.
  intros H. apply mat_ext; auto with mwf. intros i j Hi Hj. mshape.
  rewrite mget_mscale, !mget_mmul by mlia. mshape. rewrite <- rsum_scal.
  apply rsum_ext. intros k Hk. rewrite mget_mscale by mlia. ring.
Qed.
Lemma mcolscale_mdiag (A : rmat) (v : list R) : length v = mc A -> mcolscale A v = mmul A (mdiagm v).
Proof.
  intros H. apply mat_ext; auto with mwf. intros i j Hi Hj. mshape.
  rewrite mget_mcolscale, mget_mmul by mlia.
  rewrite (rsum_ext _ _ (fun k => (rget A i k * vg v k) * (if (k =? j)%nat then 1 else 0))).
  - now rewrite (rsum_delta_r (mc A) j (fun k => rget A i k * vg v k)) by assumption.
  - intros k Hk. rewrite mget_mdiagm by mlia. destruct (k =? j)%nat; ring.
Qed.
Lemma mtrans_mdiagm (v : list R) : mtrans (mdiagm (N:=RNum) v) = mdiagm v.
Proof.
  apply mat_ext; auto with mwf. intros i j Hi Hj. mshape. rewrite mget_mtrans, !mget_mdiagm by mlia.
  rewrite (Nat.eqb_sym j i). destruct (Nat.eqb_spec i j); congruence.
Qed.
Lemma mtrans_meye n : mtrans (meye (N:=RNum) n) = meye n.
Proof.
  apply mat_ext; auto with mwf. intros i j Hi Hj. mshape.
  rewrite mget_mtrans, !mget_meye by mlia. now rewrite Nat.eqb_sym.
Qed.
Lemma mtrans_madd (A B : rmat) : mr A = mr B -> mc A = mc B -> mtrans (madd A B) = madd (mtrans A) (mtrans B).
Proof.
  intros H1 H2. apply mat_ext; auto with mwf. intros i j Hi Hj. mshape.
  rewrite mget_mtrans, !mget_madd by mlia. now rewrite !mget_mtrans by mlia.
Qed.
Lemma mtrans_mscale c (A : rmat) : mtrans (mscale c A) = mscale c (mtrans A).
Proof.
  apply mat_ext; auto with mwf. intros i j Hi Hj. mshape.
  rewrite mget_mtrans, !mget_mscale by mlia. now rewrite !mget_mtrans by mlia.
Qed.

(** ** Inner product and squared norm *)
Definition mip (A B : rmat) : R := rsum (mr A) (fun i => rsum (mc A) (fun j => rget A i j * rget B i j)).
Definition nsq (A : rmat) : R := mip A A.

Lemma mip_sym (A B : rmat) : mr A = mr B -> mc A = mc B -> mip A B = mip B A.
Proof.
  intros H1 H2. unfold mip. rewrite <- H1, <- H2. apply rsum_ext; intros. apply rsum_ext; intros. ring.
Qed.
Lemma mip_madd_l (A B C : rmat) : mr A = mr B -> mc A = mc B -> mip (madd A B) C = mip A C + mip B C.
Proof.
  intros H1 H2. unfold mip. mshape. rewrite <- H1, <- H2, <- rsum_add. apply rsum_ext; intros i Hi.
  rewrite <- rsum_add. apply rsum_ext; intros j Hj. rewrite mget_madd by mlia. ring.
Qed.
Lemma mip_msub_l (A B C : rmat) : mr A = mr B -> mc A = mc B -> mip (msub A B) C = mip A C - mip B C.
Proof.
  intros H1 H2. unfold mip. mshape. rewrite <- H1, <- H2, <- rsum_sub. apply rsum_ext; intros i Hi.
  rewrite <- rsum_sub. apply rsum_ext; intros j Hj. rewrite mget_msub by mlia. ring.
Qed.
Lemma mip_madd_r (A B C : rmat) : mr A = mr B -> mc A = mc B -> mip A (madd B C) = mip A B + mip A C.
Proof.
  intros H1 H2. unfold mip. rewrite <- rsum_add. apply rsum_ext; intros i Hi.
  rewrite <- rsum_add. apply rsum_ext; intros j Hj. rewrite mget_madd by mlia. ring.
Qed.
Lemma mip_msub_r (A B C : rmat) : mr A = mr B -> mc A = mc B -> mip A (msub B C) = mip A B - mip A C.
Proof.
  intros H1 H2. unfold mip. rewrite <- rsum_sub. apply rsum_ext; intros i Hi.
  rewrite <- rsum_sub. apply rsum_ext; intros j Hj. rewrite mget_msub by mlia. ring.
Qed.
Lemma mip_mscale_l c (A B : rmat) : mip (mscale (N:=RNum) c A) B = c * mip A B.
Proof.
  unfold mip. mshape. rewrite <- rsum_scal. apply rsum_ext; intros i Hi. rewrite <- rsum_scal.
  apply rsum_ext; intros j Hj. rewrite mget_mscale by mlia. ring.
Qed.
Lemma mip_mscale_r c (A B : rmat) : mr A = mr B -> mc A = mc B ->
  mip A (mscale (N:=RNum) c B) = c * mip A B.
Proof.
  intros H1 H2. unfold mip. rewrite <- rsum_scal. apply rsum_ext; intros i Hi. rewrite <- rsum_scal.
  apply rsum_ext; intros j Hj. rewrite mget_mscale by mlia. ring.
Qed.
(** <A B, C> = <A, C B^T> *)
Lemma mip_mmul_l (A B C : rmat) : mc A = mr B -> mr A = mr C -> mc B = mc C ->
  mip (mmul A B) C = mip A (mmul C (mtrans B)).
Proof.
  intros H1 H2 H3. unfold mip. mshape. apply rsum_ext; intros i Hi.
  rewrite (rsum_ext _ _ (fun j => rsum (mc A) (fun k => rget A i k * rget B k j * rget C i j))).
  2:{ intros j Hj. rewrite mget_mmul by mlia. now rewrite <- rsum_scal_r. }
  rewrite rsum_swap. apply rsum_ext; intros k Hk. rewrite mget_mmul by mlia. mshape.
  rewrite <- rsum_scal, H3. apply rsum_ext; intros j Hj. rewrite mget_mtrans by mlia. ring.
Qed.
(** <A B, C> = <B, A^T C> *)
Lemma mip_mmul_r (A B C : rmat) : mc A = mr B -> mr A = mr C -> mc B = mc C ->
  mip (mmul A B) C = mip B (mmul (mtrans A) C).
Proof.
  intros H1 H2 H3. unfold mip. mshape.
  rewrite (rsum_ext (mr A) _ (fun i => rsum (mr B) (fun k => rsum (mc B) (fun j => rget A i k * rget B k j * rget C i j)))).
  2:{ intros i Hi. rewrite rsum_swap. apply rsum_ext; intros j Hj. rewrite mget_mmul by mlia.
      rewrite <- rsum_scal_r, H1. reflexivity. }
  rewrite rsum_swap. apply rsum_ext; intros k Hk. rewrite rsum_swap. apply rsum_ext; intros j Hj.
  rewrite mget_mmul by mlia. mshape. rewrite <- rsum_scal. apply rsum_ext; intros i Hi.
  rewrite mget_mtrans by mlia. ring.
Qed.
Lemma mip_mtrans (A B : rmat) : mr A = mr B -> mc A = mc B -> mip (mtrans A) (mtrans B) = mip A B.
Proof.
  intros H1 H2. unfold mip. mshape. rewrite rsum_swap. apply rsum_ext; intros i Hi.
  apply rsum_ext; intros j Hj. now rewrite !mget_mtrans by mlia.
Qed.
Lemma nsq_nonneg (A : rmat) : 0 <= nsq A.
Proof.
  apply rsum_nonneg; intros i Hi. apply rsum_nonneg; intros j Hj. apply Rle_0_sqr.
Qed.
Lemma nsq_zero (A : rmat) : nsq A = 0 -> forall i j, (i < mr A)%nat -> (j < mc A)%nat -> rget A i j = 0.
Proof.
  intros H i j Hi Hj. unfold nsq, mip in H.
  pose proof (rsum_nonneg_zero _ _ (fun i Hi => rsum_nonneg _ _ (fun j Hj => Rle_0_sqr (rget A i j))) H i Hi) as H1.
  cbv beta in H1.
  pose proof (rsum_nonneg_zero _ _ (fun j Hj => Rle_0_sqr (rget A i j)) H1 j Hj) as H2.
  now apply Rsqr_0_uniq.
Qed.
Lemma nsq_pos (A : rmat) i j : (i < mr A)%nat -> (j < mc A)%nat -> rget A i j <> 0 -> 0 < nsq A.
Proof.
  intros Hi Hj H. pose proof (nsq_nonneg A). destruct (Req_dec (nsq A) 0) as [E|E]; [|lra].
  now pose proof (nsq_zero A E i j Hi Hj).
Qed.
Lemma nsq_mscale c (A : rmat) : nsq (mscale (N:=RNum) c A) = c * c * nsq A.
Proof. unfold nsq. rewrite mip_mscale_l, mip_mscale_r by reflexivity. ring. Qed.
Lemma nsq_madd (A B : rmat) : mr A = mr B -> mc A = mc B ->
  nsq (madd A B) = nsq A + 2 * mip A B + nsq B.
Proof.
  intros H1 H2. unfold nsq. rewrite mip_madd_l, !mip_madd_r by (auto; congruence).
  rewrite (mip_sym B A) by congruence. ring.
Qed.
Lemma nsq_msub (A B : rmat) : mr A = mr B -> mc A = mc B ->
  nsq (msub A B) = nsq A - 2 * mip A B + nsq B.
Proof.
  intros H1 H2. unfold nsq. rewrite mip_msub_l, !mip_msub_r by (auto; congruence).
  rewrite (mip_sym B A) by congruence. ring.
Qed.
Lemma nsq_mtrans (A : rmat) : nsq (mtrans A) = nsq A.
Proof. apply mip_mtrans; reflexivity. Qed.
Lemma nsq_msub_sym (A B : rmat) : mr A = mr B -> mc A = mc B -> nsq (msub A B) = nsq (msub B A).
Proof.
  intros H1 H2. rewrite !nsq_msub, (mip_sym B A) by (auto; congruence). ring.
Qed.
Lemma msumsq_nsq (A : rmat) : msumsq A = nsq A.
Proof.
  unfold msumsq, msum, nsq, mip. mshape. rewrite nsum_rsum. apply rsum_ext; intros i Hi.
  rewrite nsum_rsum. apply rsum_ext; intros j Hj. apply mget_mhad; assumption.
Qed.
Lemma mnorm_sqrt (A : rmat) : mnorm A = sqrt (nsq A).
Proof. unfold mnorm. rn. now rewrite msumsq_nsq. Qed.

(** msub as madd of the opposite, cancellation *)
Lemma msub_eq_zero (A B : rmat) : mwf A -> mwf B -> mr A = mr B -> mc A = mc B ->
  nsq (msub A B) = 0 -> A = B.
Proof.
  intros WA WB H1 H2 H. apply mat_ext; auto. intros i j Hi Hj.
  pose proof (nsq_zero _ H i j Hi Hj) as E. rewrite mget_msub in E by assumption. lra.
Qed.

(** Orthonormal columns: U^T U = I *)
Definition orthocols (U : rmat) : Prop := mmul (mtrans U) U = meye (mc U).
Lemma orthocols_nsq (U X : rmat) : orthocols U -> mwf X -> mc U = mr X -> nsq (mmul U X) = nsq X.
Proof.
  intros HU WX H. unfold nsq. rewrite mip_mmul_r by mlia. rewrite <- mmul_assoc by mlia.
  rewrite HU, H. rewrite mmul_meye_l by assumption. reflexivity.
Qed.

(** columns and rows *)
Lemma length_mcol (A : rmat) j : mwf A -> length (mcol A j) = mr A.
Proof. intros (H & _). unfold mcol. rewrite map_length. exact H. Qed.
Lemma vg_mcol (A : rmat) i j : mwf A -> (i < mr A)%nat -> vg (mcol A j) i = rget A i j.
Proof.
  intros (H & _) Hi. unfold mcol, vget, mget. rewrite (nth_map_lt _ _ _ _ []) by (rewrite H; assumption).
  reflexivity.
Qed.
Lemma length_mrow (A : rmat) i : mwf A -> (i < mr A)%nat -> length (mrow A i) = mc A.
Proof.
  intros (H1 & H2) Hi. rewrite Forall_forall in H2. unfold mrow. apply H2, nth_In. now rewrite H1.
Qed.
Lemma vg_mrow (A : rmat) i j : vg (mrow A i) j = rget A i j.
Proof. reflexivity. Qed.
