(** C11: soft-thresholding the TV denoised vector is the TV + L1 proximal operator. *)
From Coq Require Import Reals Lra Lia List Arith Bool ZArith.
From Verif Require Import Num Numpy Unimodal RFacts MatFacts Spec SpecFacts Penalties ProxProofs.
Import ListNotations.
Local Open Scope R_scope.

Definition tvn (n : nat) (x : nat -> R) : R := rsum (n - 1) (fun i => Rabs (x (S i) - x i)).

Lemma quad_root S K : 0 < K -> (forall t, 0 <= t * S + K * (t * t)) -> S = 0.
Proof.
  intros HK H. specialize (H (- S / (2 * K))).
  assert (E : - S / (2 * K) * S + K * (- S / (2 * K) * (- S / (2 * K))) = - (S * S) / (4 * K)) by (field; lra).
  rewrite E in H. assert (0 <= S * S) by nra.
  assert (S * S <= 0). { apply Rmult_le_reg_r with (/ (4 * K)); [apply Rinv_0_lt_compat; lra|]. unfold Rdiv in H. lra. }
  nra.
Qed.
(** one-dimensional optimality: |d - t| in the direction t *)
Lemma abs_cert a u K d : 0 <= a -> 0 < K ->
  (forall t, 0 <= a * (Rabs (d - t) - Rabs d) + t * u + K * (t * t)) ->
  Rabs u <= a /\ u * d = a * Rabs d.
Proof.
  intros Ha HK H.
  assert (Key : forall s e, 0 < e -> 0 < s -> s <= e -> forall q, (0 <= s * q + K * (s * s)) -> s <= - q / (2 * K) -> 0 <= q).
  { intros s e He Hs Hse q Hq Hb. apply Rnot_lt_le. intros Hn.
    assert (K * s <= - q / 2). { apply Rmult_le_compat_l with (r := K) in Hb; [|lra]. replace (K * (- q / (2 * K))) with (- q / 2) in Hb by (field; lra). lra. }
    nra. }
  (* directional derivatives *)
  assert (Dir : forall q e, 0 < e -> (forall s, 0 < s -> s <= e -> 0 <= s * q + K * (s * s)) -> 0 <= q).
  { intros q e He Hs. apply Rnot_lt_le. intros Hn.
    set (s := Rmin e (- q / (2 * K))).
    assert (0 < - q / (2 * K)) by (apply Rdiv_lt_0_compat; lra).
    assert (0 < s) by (unfold s; apply Rmin_glb_lt; assumption).
    assert (s <= e) by apply Rmin_l. assert (s <= - q / (2 * K)) by apply Rmin_r.
    specialize (Hs s H1 H2). assert (0 <= q) by (apply (Key s e); assumption). lra. }
  destruct (Rtotal_order d 0) as [L|[->|G]].
  - assert (0 <= u + a).
    { apply (Dir _ (- d)); [lra|]. intros s Hs Hd. specialize (H s).
      rewrite (Rabs_left (d - s)), (Rabs_left d) in H by lra. lra. }
    assert (0 <= - u - a).
    { apply (Dir _ (- d)); [lra|]. intros s Hs Hd. specialize (H (- s)).
      replace (d - - s) with (d + s) in H by ring.
      rewrite (Rabs_left1 (d + s)), (Rabs_left d) in H by lra. lra. }
    assert (u = - a) by lra. subst u. rewrite Rabs_Ropp, (Rabs_left d), (Rabs_right a) by lra. split; lra.
  - assert (0 <= u + a).
    { apply (Dir _ 1); [lra|]. intros s Hs Hd. specialize (H s).
      rewrite (Rabs_left (0 - s)), Rabs_R0 in H by lra. lra. }
    assert (0 <= a - u).
    { apply (Dir _ 1); [lra|]. intros s Hs Hd. specialize (H (- s)).
      replace (0 - - s) with s in H by ring.
      rewrite (Rabs_right s), Rabs_R0 in H by lra. lra. }
    rewrite Rabs_R0. split; [apply Rabs_le; lra|lra].
  - assert (0 <= u - a).
    { apply (Dir _ d); [lra|]. intros s Hs Hd. specialize (H s).
      rewrite (Rabs_right (d - s)), (Rabs_right d) in H by lra. lra. }
    assert (0 <= - u + a).
    { apply (Dir _ d); [lra|]. intros s Hs Hd. specialize (H (- s)).
      replace (d - - s) with (d + s) in H by ring.
      rewrite (Rabs_right (d + s)), (Rabs_right d) in H by lra. lra. }
    assert (u = a) by lra. subst u. rewrite (Rabs_right d), (Rabs_right a) by lra. split; lra.
Qed.

Lemma vsd_shift n x v (e : nat -> R) t :
  vsd n (fun i => x i + t * e i) v = vsd n x v + 2 * t * rsum n (fun i => (x i - v i) * e i) + t * t * rsum n (fun i => e i * e i).
Proof. unfold vsd. rewrite <- !rsum_scal, <- !rsum_add. apply rsum_ext; intros; ring. Qed.

Definition ind (k i : nat) : R := if (i <=? k)%nat then 1 else 0.
Lemma rsum_ind n k f : (k < n)%nat -> rsum n (fun i => f i * ind k i) = rsum (S k) f.
Proof.
  intros H. replace n with (S k + (n - S k))%nat by lia. rewrite rsum_split.
  rewrite (rsum_ext (S k) _ f).
  - rewrite (rsum_zero (n - S k)); [lra|]. intros i Hi. unfold ind. destruct (Nat.leb_spec (S k + i) k); [lia|ring].
  - intros i Hi. unfold ind. destruct (Nat.leb_spec i k); [ring|lia].
Qed.
Lemma tvn_shift n x k t : (k < n - 1)%nat ->
  tvn n (fun i => x i + t * ind k i) = tvn n x + (Rabs (x (S k) - x k - t) - Rabs (x (S k) - x k)).
Proof.
  intros H. unfold tvn.
  assert (E0 : Rabs (x (S k) - x k - t) - Rabs (x (S k) - x k) =
    Rabs (x (S k) + t * ind k (S k) - (x k + t * ind k k)) - Rabs (x (S k) - x k)).
  { unfold ind. destruct (Nat.leb_spec (S k) k); [lia|]. rewrite Nat.leb_refl. do 2 f_equal. ring. }
  rewrite E0, <- (rsum_single (n - 1) k (fun i => Rabs (x (S i) + t * ind k (S i) - (x i + t * ind k i)) - Rabs (x (S i) - x i))).
  - rewrite <- rsum_add. apply rsum_ext. intros. ring.
  - assumption.
  - intros i Hi Hne. unfold ind. destruct (Nat.leb_spec (S i) k), (Nat.leb_spec i k); try lia;
      apply Rminus_diag_eq; f_equal; ring.
Qed.
Lemma tvn_shift_const n x t : tvn n (fun i => x i + t * 1) = tvn n x.
Proof. unfold tvn. apply rsum_ext; intros. f_equal. ring. Qed.
Lemma abel n w (d : nat -> R) :
  rsum n (fun k => rsum (S k) w * (d (S k) - d k)) = d n * rsum (S n) w - rsum (S n) (fun i => d i * w i).
Proof.
  induction n as [|n IH].
  - rewrite !rsum_S, !rsum_0. ring.
  - rewrite rsum_S, IH. rewrite (rsum_S (S n) w), (rsum_S (S n) (fun i => d i * w i)). ring.
Qed.

Section Cert.
Variables (m : nat) (a rho : R) (v x : nat -> R).
Let n := S m.
Hypothesis Ha : 0 < a.
Hypothesis Hr : 0 < rho.
Hypothesis Hopt : forall z, a * tvn n x + rho / 2 * vsd n x v <= a * tvn n z + rho / 2 * vsd n z v.
Let u k := rho * rsum (S k) (fun i => x i - v i).

Lemma cert_total : rsum n (fun i => x i - v i) = 0.
Proof.
  apply (quad_root _ (INR n / 2)); [unfold n; rewrite S_INR; pose proof (pos_INR m); lra|].
  intros t. specialize (Hopt (fun i => x i + t * 1)). rewrite tvn_shift_const, vsd_shift in Hopt.
  rewrite rsum_const in Hopt. rewrite (rsum_ext n (fun i => (x i - v i) * 1) (fun i => x i - v i)) in Hopt by (intros; ring).
  set (q := rsum n (fun i => x i - v i)) in *.
  assert (0 <= rho * (t * q + INR n / 2 * (t * t))) by nra.
  apply Rmult_le_reg_l with rho; [assumption|]. lra.
Qed.
Lemma cert_step k : (k < m)%nat ->
  Rabs (u k) <= a /\ u k * (x (S k) - x k) = a * Rabs (x (S k) - x k).
Proof.
  intros Hk. apply (abs_cert a (u k) (rho / 2 * INR (S k))); [lra| |].
  - pose proof (pos_INR k). rewrite S_INR. nra.
  - intros t. specialize (Hopt (fun i => x i + t * ind k i)).
    rewrite tvn_shift, vsd_shift in Hopt by (unfold n; lia).
    rewrite rsum_ind in Hopt by (unfold n; lia). rewrite rsum_ind in Hopt by (unfold n; lia).
    rewrite (rsum_ext (S k) (ind k) (fun _ => 1)) in Hopt.
    2:{ intros i Hi. unfold ind. destruct (Nat.leb_spec i k); [reflexivity|lia]. }
    rewrite rsum_const in Hopt. unfold u. nra.
Qed.

(** thresholding keeps the certificate *)
Variable b : R.
Hypothesis Hb : 0 <= b.
Let y i := soft (N:=RNum) (b / rho) (x i).

Lemma soft_mono t p q : 0 <= t -> p <= q -> soft (N:=RNum) t p <= soft (N:=RNum) t q.
Proof. intros. rewrite !soft_R by assumption. repeat destruct Rle_dec; lra. Qed.
Lemma soft_cert t p : 0 <= t ->
  Rabs (p - soft (N:=RNum) t p) <= t /\ (p - soft (N:=RNum) t p) * soft (N:=RNum) t p = t * Rabs (soft (N:=RNum) t p).
Proof.
  intros Ht. rewrite soft_R by assumption.
  repeat destruct Rle_dec; unfold Rabs; repeat destruct Rcase_abs; split; nra.
Qed.
Lemma cert_soft k : (k < m)%nat -> u k * (y (S k) - y k) = a * Rabs (y (S k) - y k).
Proof.
  intros Hk. destruct (cert_step k Hk) as (H1 & H2).
  assert (Ht : 0 <= b / rho) by (apply Rdiv_nonneg; assumption).
  destruct (Rtotal_order (x k) (x (S k))) as [L|[E|G]].
  - assert (u k = a). { rewrite Rabs_right in H2 by lra. nra. }
    pose proof (soft_mono _ _ _ Ht (Rlt_le _ _ L)). unfold y. rewrite Rabs_right by lra. rewrite H. reflexivity.
  - unfold y. rewrite E, Rminus_diag_eq, Rabs_R0 by reflexivity. ring.
  - assert (u k = - a). { rewrite Rabs_left in H2 by lra. nra. }
    pose proof (soft_mono _ _ _ Ht (Rlt_le _ _ G)). unfold y. rewrite Rabs_left1 by lra. rewrite H. ring.
Qed.

Theorem tv_l1_vprox :
  vprox n (fun z => a * tvn n z + b * rsum n (fun i => Rabs (z i))) (fun _ => True) rho v y.
Proof.
  assert (Ht : 0 <= b / rho) by (apply Rdiv_nonneg; assumption).
  apply vprox_ip; [exact I|]. intros z _.
  assert (TV : a * tvn n y + rsum m (fun k => u k * ((z (S k) - y (S k)) - (z k - y k))) <= a * tvn n z).
  { unfold tvn, n. replace (S m - 1)%nat with m by lia. rewrite <- !rsum_scal, <- rsum_add.
    apply rsum_le. intros k Hk. destruct (cert_step k Hk) as (H1 & _). rewrite <- (cert_soft k Hk).
    apply Rle_trans with (u k * (z (S k) - z k)); [right; ring|].
    apply Rle_trans with (Rabs (u k * (z (S k) - z k))); [apply Rle_abs|]. rewrite Rabs_mult.
    apply Rmult_le_compat_r; [apply Rabs_pos|assumption]. }
  assert (AB : rsum m (fun k => u k * ((z (S k) - y (S k)) - (z k - y k))) =
               - rho * rsum n (fun i => (z i - y i) * (x i - v i))).
  { unfold u. rewrite (rsum_ext m _ (fun k => rho * (rsum (S k) (fun i => x i - v i) * ((fun i => z i - y i) (S k) - (fun i => z i - y i) k)))).
    2:{ intros; ring. }
    rewrite rsum_scal, (abel m (fun i => x i - v i) (fun i => z i - y i)). fold n. rewrite cert_total. ring. }
  assert (L1 : b * rsum n (fun i => Rabs (y i)) + rho * rsum n (fun i => (z i - y i) * (x i - y i)) <= b * rsum n (fun i => Rabs (z i))).
  { rewrite <- !rsum_scal, <- rsum_add. apply rsum_le. intros i Hi.
    destruct (soft_cert (b / rho) (x i) Ht) as (H1 & H2). fold (y i) in H1, H2.
    assert (Eb : b = rho * (b / rho)) by (field; lra). set (t := b / rho) in *. rewrite Eb.
    assert ((x i - y i) * z i <= t * Rabs (z i)).
    { apply Rle_trans with (Rabs ((x i - y i) * z i)); [apply Rle_abs|]. rewrite Rabs_mult.
      apply Rmult_le_compat_r; [apply Rabs_pos|assumption]. }
    replace ((z i - y i) * (x i - y i)) with ((x i - y i) * z i - (x i - y i) * y i) by ring. rewrite H2. nra. }
  assert (SP : rsum n (fun i => (z i - y i) * (y i - v i)) =
     rsum n (fun i => (z i - y i) * (x i - v i)) - rsum n (fun i => (z i - y i) * (x i - y i))).
  { rewrite <- rsum_sub. apply rsum_ext; intros; ring. }
  rewrite SP. rewrite AB in TV. lra.
Qed.
End Cert.

Lemma tv_l1_vprox' n a rho b v x : 0 < a -> 0 < rho -> 0 <= b ->
  (forall z, a * tvn n x + rho / 2 * vsd n x v <= a * tvn n z + rho / 2 * vsd n z v) ->
  vprox n (fun z => a * tvn n z + b * rsum n (fun i => Rabs (z i))) (fun _ => True) rho v
    (fun i => soft (N:=RNum) (b / rho) (x i)).
Proof.
  intros Ha Hr Hb H. destruct n as [|m].
  - split; [exact I|]. intros z _. unfold tvn, vsd. cbn [Nat.sub]. rewrite !rsum_0. lra.
  - now apply tv_l1_vprox.
Qed.

Lemma soft_zero x : soft (N:=RNum) 0 x = x.
Proof. rewrite soft_R by lra. repeat destruct Rle_dec; lra. Qed.

Lemma tv_update E (V : rmat) rho reg l1 : mwf V -> 0 < reg -> 0 <= l1 -> 0 < rho ->
  (forall j, (j < mc V)%nat ->
     tv_minimiser (mcol V j) (reg * 2 / rho) (x_tv E (mcol V j) (reg * 2 / rho))) ->
  exists X, factor_matrix_update E (TotalVariation (N:=RNum) reg l1) V rho = Ok X /\ mwf X /\ mr X = mr V /\ mc X = mc V /\
    is_prox (mr V) (mc V)
      (fun Z => reg * total_variation (mr V) (mc V) Z + l1 * abs_sum (mr V) (mc V) Z) anywhere rho (rget V) (rget X).
Proof.
  intros W Hg Hl Hr Htv.
  set (lam := reg * 2 / rho) in *.
  set (D := of_cols (N:=RNum) (mr V) (map (fun j => x_tv E (mcol V j) lam) (seq 0 (mc V)))).
  assert (SD : mr D = mr V /\ mc D = mc V).
  { unfold D. mshape. rewrite map_length, seq_length. auto. }
  destruct SD as (SD1 & SD2).
  assert (GD : forall i j, (i < mr V)%nat -> (j < mc V)%nat -> rget D i j = at_ (x_tv E (mcol V j) lam) i).
  { intros i j Hi Hj. unfold D. rewrite mget_of_cols by (rewrite ?map_length, ?seq_length; assumption).
    rewrite nth_seq_map by assumption. reflexivity. }
  set (X := if ntruthy (N:=RNum) l1 then mmap (soft (N:=RNum) (l1 / rho)) D else D).
  assert (GX : forall i j, (i < mr V)%nat -> (j < mc V)%nat -> rget X i j = soft (N:=RNum) (l1 / rho) (rget D i j)).
  { intros i j Hi Hj. unfold X. destruct (ntruthy (N:=RNum) l1) eqn:T.
    - rewrite mget_mmap by mlia. reflexivity.
    - apply ntruthy_R_false in T. subst l1. unfold Rdiv. rewrite Rmult_0_l, soft_zero. reflexivity. }
  exists X. split.
  { assert (EL : @ndiv RNum (@nmul RNum reg (@nlit RNum 2 1)) rho = lam) by (rn; unfold lam; field; lra).
    unfold factor_matrix_update, X. rewrite (ntruthy_pos rho) by assumption. cbn [negb]. rewrite EL. destruct (ntruthy (N:=RNum) l1); reflexivity. }
  split; [unfold X; destruct (ntruthy (N:=RNum) l1); [|unfold D]; auto with mwf|].
  split; [unfold X; destruct (ntruthy (N:=RNum) l1); mlia|]. split; [unfold X; destruct (ntruthy (N:=RNum) l1); mlia|].
  eapply is_prox_ext; [| |apply (lift_cols _ _ (fun z => reg * tvn (mr V) z + l1 * rsum (mr V) (fun i => Rabs (z i)))
     (fun _ => True) (fun Z => rsum (mc V) (fun j => reg * tvn (mr V) (fun i => Z i j) + l1 * rsum (mr V) (fun i => Rabs (Z i j)))))].
  - intros Z. cbv beta. rewrite rsum_add, !rsum_scal. unfold total_variation, abs_sum, tvn. f_equal; f_equal.
    rewrite (Sum_rsum (mr V)), (rsum_ext (mr V) (fun i => Sum _ _) (fun i => rsum (mc V) (fun j => Rabs (Z i j)))) by (intros; apply Sum_rsum).
      apply (rsum_swap (mc V) (mr V) (fun j i => Rabs (Z i j))).
  - unfold anywhere. tauto.
  - reflexivity.
  - intros j Hj. destruct (Htv j Hj) as (L & Hmin). rewrite length_mcol in L, Hmin by assumption.
    set (x := x_tv E (mcol V j) lam) in *. rn. unfold vtv in Hmin. rewrite L in Hmin.
    assert (Hv : forall z w : list R, length w = mr V -> sqdist z w = vsd (mr V) (at_ z) (at_ w)).
    { intros z w Lw. rewrite sqdist_rsum. rewrite Lw. reflexivity. }
    assert (Lc : length (mcol V j) = mr V) by (now apply length_mcol).
    assert (Hcol : forall z, vsd (mr V) z (fun i => rget V i j) = vsd (mr V) z (at_ (mcol V j))).
    { intros z. apply rsum_ext. intros i Hi. rewrite at_vget, vg_mcol by assumption. reflexivity. }
    destruct (tv_l1_vprox' (mr V) reg rho l1 (fun i => rget V i j) (at_ x) Hg Hr Hl) as (_ & HP).
    + intros z. rewrite !Hcol. specialize (Hmin (map z (seq 0 (mr V)))).
      rewrite map_length, seq_length in Hmin. specialize (Hmin eq_refl).
      rewrite !Hv in Hmin by (exact Lc).
      assert (E1 : vsd (mr V) (at_ (map z (seq 0 (mr V)))) (at_ (mcol V j)) = vsd (mr V) z (at_ (mcol V j))).
      { apply rsum_ext. intros i Hi. now rewrite at_map_seq. }
      rewrite E1 in Hmin.
      assert (E2 : Sum (mr V - 1) (fun i => Rabs (at_ (map z (seq 0 (mr V))) (S i) - at_ (map z (seq 0 (mr V))) i)) = tvn (mr V) z).
      { unfold tvn. rewrite Sum_rsum. apply rsum_ext. intros i Hi. now rewrite !at_map_seq by lia. }
      rewrite E2 in Hmin. rewrite Sum_rsum in Hmin. fold (tvn (mr V) (at_ x)) in Hmin.
      assert (EL : reg = rho / 2 * lam) by (unfold lam; field; lra).
      rewrite EL. clear - Hmin Hr.
      assert (0 < rho / 2) by lra.
      apply (Rmult_le_compat_l (rho / 2)) in Hmin; [|lra]. lra.
    + split; [exact I|]. intros z _. specialize (HP z I).
      assert (GX' : forall i, (i < mr V)%nat -> rget X i j = soft (N:=RNum) (l1 / rho) (at_ x i)).
      { intros i Hi. rewrite GX by assumption. now rewrite GD. }
      unfold tvn, vsd in *.
      rewrite (rsum_ext (mr V - 1) (fun i => Rabs (rget X (S i) j - rget X i j)) (fun i => Rabs (soft (N:=RNum) (l1 / rho) (at_ x (S i)) - soft (N:=RNum) (l1 / rho) (at_ x i)))).
      2:{ intros i Hi. rewrite !GX' by lia. reflexivity. }
      rewrite (rsum_ext (mr V) (fun i => Rabs (rget X i j)) (fun i => Rabs (soft (N:=RNum) (l1 / rho) (at_ x i)))).
      2:{ intros i Hi. rewrite !GX' by lia. reflexivity. }
      rewrite (rsum_ext (mr V) (fun i => (rget X i j - rget V i j) ^ 2) (fun i => (soft (N:=RNum) (l1 / rho) (at_ x i) - rget V i j) ^ 2)).
      2:{ intros i Hi. rewrite !GX' by lia. reflexivity. }
      rewrite (rsum_ext (mr V) (fun i => (rget X i j - z i) ^ 2) (fun i => (soft (N:=RNum) (l1 / rho) (at_ x i) - z i) ^ 2)).
      2:{ intros i Hi. rewrite !GX' by lia. reflexivity. }
      exact HP.
Qed.
