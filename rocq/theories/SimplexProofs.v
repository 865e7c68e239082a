(** C10: the unit simplex update. *)
From Coq Require Import Reals Lra Lia List Arith Bool ZArith.
From Verif Require Import Num Numpy Unimodal RFacts MatFacts Spec SpecFacts Penalties ProxProofs UnimodalMain.
Import ListNotations.
Local Open Scope R_scope.

(** ** The multiplier function *)
Section F.
Variables (n : nat) (y : nat -> R).
Definition F (mu : R) : R := rsum n (fun i => Rmax (y i - mu) 0).
Lemma F_decr a b : a <= b -> F b <= F a.
Proof. intros H. apply rsum_le. intros i _. unfold Rmax. repeat destruct Rle_dec; lra. Qed.
Lemma F_lip a b : a <= b -> F a - F b <= INR n * (b - a).
Proof.
  intros H. unfold F. rewrite <- rsum_sub, <- rsum_const. apply rsum_le. intros i _.
  unfold Rmax. repeat destruct Rle_dec; lra.
Qed.
Lemma F_abs a b : Rabs (F a - F b) <= INR n * Rabs (a - b).
Proof.
  destruct (Rle_dec a b) as [H|H].
  - pose proof (F_decr a b H). pose proof (F_lip a b H).
    rewrite (Rabs_right (F a - F b)), (Rabs_left1 (a - b)) by lra. lra.
  - pose proof (F_decr b a ltac:(lra)). pose proof (F_lip b a ltac:(lra)).
    rewrite (Rabs_left1 (F a - F b)), (Rabs_right (a - b)) by lra. lra.
Qed.
Lemma F_cont : continuity (fun mu => F mu - 1).
Proof.
  intros x eps He. exists (eps / (INR n + 1)). pose proof (pos_INR n) as Hn.
  split; [apply Rdiv_lt_0_compat; lra|]. intros z (_ & Hz). simpl in *. unfold R_dist in *.
  replace (F z - 1 - (F x - 1)) with (F z - F x) by ring.
  apply Rle_lt_trans with (INR n * Rabs (z - x)); [apply F_abs|].
  apply Rle_lt_trans with ((INR n + 1) * Rabs (z - x)); [pose proof (Rabs_pos (z - x)); nra|].
  apply Rlt_le_trans with ((INR n + 1) * (eps / (INR n + 1))); [apply Rmult_lt_compat_l; lra|].
  right. field. lra.
Qed.
Lemma F_root a b : a <= b -> 1 <= F a -> F b <= 1 -> exists r, a <= r <= b /\ F r = 1.
Proof.
  intros H Ha Hb. destruct (IVT_cor (fun mu => F mu - 1) a b F_cont H) as (r & Hr & E); [nra|].
  exists r. split; [assumption|]. lra.
Qed.
(** the thresholded vector at the root is the projection *)
Lemma simplex_vprox r : F r = 1 ->
  vprox n (fun _ => 0) (fun z => (forall i, (i < n)%nat -> 0 <= z i) /\ rsum n z = 1) 2 y (fun i => Rmax (y i - r) 0).
Proof.
  intros E. apply vprox_ip.
  - split; [intros; apply Rmax_r|exact E].
  - intros z (Hz & Sz).
    set (x := fun i => Rmax (y i - r) 0).
    assert (D : rsum n (fun i => (z i - x i) * (x i - y i)) =
       - r * (rsum n z - rsum n x) + rsum n (fun i => (z i - x i) * (x i - (y i - r)))).
    { rewrite <- rsum_sub, <- rsum_scal, <- rsum_add. apply rsum_ext; intros; ring. }
    assert (Ex : rsum n x = 1) by exact E.
    assert (P : 0 <= rsum n (fun i => (z i - x i) * (x i - (y i - r)))).
    { apply rsum_nonneg. intros i Hi. specialize (Hz i Hi). unfold x, Rmax. destruct Rle_dec; nra. }
    change (0 <= 0 + 2 * rsum n (fun i => (z i - x i) * (x i - y i))). rewrite D, Ex, Sz. lra.
Qed.
End F.

(** ** Bisection *)
Definition btol (x : R) : R := xtol + rtol * Rabs x.

Section Bisect.
Variable f : R -> R.
Variables (lo hi : R).
Hypothesis root : forall a b, a <= b -> 0 <= f a -> f b <= 0 -> exists r, a <= r <= b /\ f r = 0.

Definition good (xm : R) : Prop := lo <= xm <= hi /\ exists r, f r = 0 /\ Rabs (xm - r) <= btol xm.

Lemma btol_pos x : 0 < btol x.
Proof. unfold btol, xtol, rtol. pose proof (Rabs_pos x). lra. Qed.

Lemma bisect_loop_spec iter : forall xa dm,
  lo <= xa -> xa + dm <= hi -> 0 <= dm -> 0 <= f xa -> f (xa + dm) <= 0 ->
  (exists xm, bisect_loop (N:=RNum) f false iter xa dm = Ok xm /\ good xm) \/
  (bisect_loop (N:=RNum) f false iter xa dm = Err RuntimeError /\
   (iter = 0%nat \/ ~ dm * (1 / 2) ^ iter < xtol)).
Proof.
  induction iter as [|iter IH]; intros xa dm Hlo Hhi Hdm Ha Hb.
  - right. split; [reflexivity|auto].
  - cbn [bisect_loop]. rn. rewrite nhalf_R. set (dm' := dm * (1 / 2)). set (xm := xa + dm').
    assert (Hdm' : 0 <= dm') by (unfold dm'; lra).
    assert (Hxm : lo <= xm <= hi) by (unfold xm, dm' in *; lra).
    assert (Cases : forall c : bool, (c = true -> f xm = 0 \/ dm' < btol xm) ->
        (exists x, (if c then Ok xm else bisect_loop (N:=RNum) f false iter
                (if Bool.eqb (signbit (N:=RNum) (f xm)) false then xm else xa) dm') = Ok x /\ good x) \/
        ((if c then Ok xm else bisect_loop (N:=RNum) f false iter
                (if Bool.eqb (signbit (N:=RNum) (f xm)) false then xm else xa) dm') = Err RuntimeError /\
           c = false /\ (iter = 0%nat \/ ~ dm' * (1 / 2) ^ iter < xtol))).
    { intros c Hc. destruct c.
      - left. exists xm. split; [reflexivity|]. split; [assumption|].
        destruct (Hc eq_refl) as [Hz|Hz].
        + exists xm. split; [assumption|]. rewrite Rminus_diag_eq, Rabs_R0 by reflexivity. apply Rlt_le, btol_pos.
        + destruct (Rle_dec 0 (f xm)) as [P|P].
          * destruct (root xm (xa + dm)) as (r & Hr & Er); [unfold xm, dm'; lra|assumption|assumption|].
            exists r. split; [assumption|]. unfold xm, dm' in *. apply Rabs_le. lra.
          * destruct (root xa xm) as (r & Hr & Er); [unfold xm; lra|assumption|lra|].
            exists r. split; [assumption|]. unfold xm in *. apply Rabs_le. lra.
      - unfold signbit. rn0. destruct (nltb_spec (f xm) 0) as [L|L]; cbn [Bool.eqb].
        + destruct (IH xa dm') as [G|(G1 & G2)]; [lra|unfold dm' in *; lra|lra|lra|fold xm; lra|left; exact G|right; auto].
        + destruct (IH xm dm') as [G|(G1 & G2)]; [lra|unfold xm, dm' in *; lra|lra|lra| | |].
          * replace (xm + dm') with (xa + dm) by (unfold xm, dm'; field). assumption.
          * left; exact G.
          * right; auto. }
    set (c := neqb (N:=RNum) (f xm) 0 || nltb (N:=RNum) (nabs (N:=RNum) dm') (bisect_xtol (N:=RNum) + bisect_rtol (N:=RNum) * nabs (N:=RNum) xm)).
    assert (Ec : c = true <-> f xm = 0 \/ dm' < btol xm).
    { unfold c. rewrite orb_true_iff, neqb_true, nltb_true, !nabs_R. rewrite (Rabs_right dm') by lra. reflexivity. }
    destruct (Cases c) as [G|(G1 & G2 & G3)]; [tauto|left; exact G|].
    right. split; [exact G1|]. right. intros Hlt.
    assert (~ dm' < btol xm). { intros Hc. destruct Ec as (_ & Ec). rewrite Ec in G2 by auto. discriminate. }
    destruct G3 as [->|G3].
    + apply H. rewrite pow_1 in Hlt. fold dm' in Hlt. unfold btol, rtol. pose proof (Rabs_pos xm). lra.
    + apply G3. replace (dm' * (1 / 2) ^ iter) with (dm * (1 / 2) ^ S iter) by (unfold dm'; simpl; ring). exact Hlt.
Qed.

Lemma bisect_spec : lo <= hi -> 0 < f lo -> f hi < 0 ->
  (exists xm, bisect (N:=RNum) f lo hi = Ok xm /\ good xm) \/
  (bisect (N:=RNum) f lo hi = Err RuntimeError /\ ~ (hi - lo) * (1 / 2) ^ 100 < xtol).
Proof.
  intros Hl Ha Hb. unfold bisect. rn.
  destruct (neqb_spec (f lo) 0) as [E|_]; [lra|]. destruct (neqb_spec (f hi) 0) as [E|_]; [lra|].
  unfold signbit. rn0. destruct (nltb_spec (f lo) 0) as [L|_]; [lra|]. destruct (nltb_spec (f hi) 0) as [_|L]; [|lra].
  cbn [Bool.eqb].
  destruct (bisect_loop_spec 100 lo (hi - lo)) as [G|(G1 & [G2|G2])]; try lra.
  - replace (lo + (hi - lo)) with hi by ring. lra.
  - left; exact G.
  - discriminate.
  - right; split; assumption.
Qed.
End Bisect.

(** ** The bracket *)
Lemma fold_min (l : list R) x : fold_left (nmin (N:=RNum)) l x <= x /\ (forall z, In z l -> fold_left (nmin (N:=RNum)) l x <= z) /\
  In (fold_left (nmin (N:=RNum)) l x) (x :: l).
Proof.
  revert x; induction l as [|a l IH]; intros x; cbn [fold_left].
  - split; [lra|]. split; [intros z []|left; reflexivity].
  - destruct (IH (nmin (N:=RNum) x a)) as (H1 & H2 & H3). rewrite nmin_R in *.
    pose proof (Rmin_l x a). pose proof (Rmin_r x a). split; [lra|]. split.
    + intros z [<-|Hz]; [lra|now apply H2].
    + destruct H3 as [H3|H3]; [|right; right; assumption]. rewrite <- H3.
      unfold Rmin. destruct Rle_dec; [left; reflexivity|right; left; reflexivity].
Qed.
Lemma fold_max (l : list R) x : x <= fold_left (nmax (N:=RNum)) l x /\ (forall z, In z l -> z <= fold_left (nmax (N:=RNum)) l x) /\
  In (fold_left (nmax (N:=RNum)) l x) (x :: l).
Proof.
  revert x; induction l as [|a l IH]; intros x; cbn [fold_left].
  - split; [lra|]. split; [intros z []|left; reflexivity].
  - destruct (IH (nmax (N:=RNum) x a)) as (H1 & H2 & H3). rewrite nmax_R in *.
    pose proof (Rmax_l x a). pose proof (Rmax_r x a). split; [lra|]. split.
    + intros z [<-|Hz]; [lra|now apply H2].
    + destruct H3 as [H3|H3]; [|right; right; assumption]. rewrite <- H3.
      unfold Rmax. destruct Rle_dec; [right; left; reflexivity|left; reflexivity].
Qed.
Lemma lmin_spec (l : list R) : l <> [] -> In (lmin (N:=RNum) l) l /\ forall z, In z l -> lmin (N:=RNum) l <= z.
Proof.
  destruct l as [|x l]; [congruence|]. intros _. cbn [lmin]. destruct (fold_min l x) as (H1 & H2 & H3).
  split; [assumption|]. intros z [<-|Hz]; auto.
Qed.
Lemma lmax_spec (l : list R) : l <> [] -> In (lmax (N:=RNum) l) l /\ forall z, In z l -> z <= lmax (N:=RNum) l.
Proof.
  destruct l as [|x l]; [congruence|]. intros _. cbn [lmax]. destruct (fold_max l x) as (H1 & H2 & H3).
  split; [assumption|]. intros z [<-|Hz]; auto.
Qed.

Definition bslack : R := 11 / 10.
Section Col.
Variable col : list R.
Hypothesis Hne : col <> [].
Let n := length col.
Let lo := simplex_lo (N:=RNum) col.
Let hi := simplex_hi (N:=RNum) col.

Lemma simplex_f_F mu : simplex_f (N:=RNum) col mu = F n (at_ col) mu - 1.
Proof.
  unfold simplex_f. rewrite lsum_rsum. rewrite map_length. rn. f_equal. apply rsum_ext. intros i Hi.
  rewrite (nth_map_lt _ _ _ _ 0) by assumption. apply relu_R.
Qed.
Lemma lo_le : lo <= lmin (N:=RNum) col - 1 - 1 / 100000.
Proof.
  unfold lo, simplex_lo. cbv zeta. rewrite nmin_R. rn. set (m := lmin (N:=RNum) col - 1 - 1 / 100000).
  unfold Rmin. destruct Rle_dec; lra.
Qed.
Lemma hi_ge : lmax (N:=RNum) col + 1 / 100000 <= hi.
Proof.
  unfold hi, simplex_hi. cbv zeta. rewrite nmax_R. rn. set (m := lmax (N:=RNum) col + 1 / 100000).
  unfold Rmax. destruct Rle_dec; lra.
Qed.
Lemma lo_pos : 0 < simplex_f (N:=RNum) col lo.
Proof.
  rewrite simplex_f_F. pose proof lo_le as HL. destruct (lmin_spec col Hne) as (Hin & Hmin).
  apply (In_nth _ _ 0) in Hin. destruct Hin as (k & Hk & Ek).
  assert (1 < F n (at_ col) lo); [|lra].
  apply Rlt_le_trans with (Rmax (at_ col k - lo) 0).
  - apply Rlt_le_trans with (at_ col k - lo); [|apply Rmax_l]. unfold at_. rewrite Ek. lra.
  - apply (rsum_le_one n (fun i => Rmax (at_ col i - lo) 0)); [intros; apply Rmax_r|assumption].
Qed.
Lemma hi_neg : simplex_f (N:=RNum) col hi < 0.
Proof.
  rewrite simplex_f_F. pose proof hi_ge as HL. destruct (lmax_spec col Hne) as (_ & Hmax).
  assert (F n (at_ col) hi = 0); [|lra].
  apply rsum_zero. intros i Hi. pose proof (Hmax (at_ col i) (nth_In _ _ Hi)). apply Rmax_right. lra.
Qed.
Lemma lo_hi : lo <= hi.
Proof.
  pose proof lo_le. pose proof hi_ge. destruct (lmin_spec col Hne) as (Hin & _).
  destruct (lmax_spec col Hne) as (_ & Hmax). pose proof (Hmax _ Hin). lra.
Qed.
Lemma bracket_bound B : (forall i, (i < n)%nat -> Rabs (at_ col i) <= B) ->
  - (11 / 10 * (B + 1 + 1 / 100000)) <= lo /\ hi <= 11 / 10 * (B + 1 / 100000).
Proof.
  intros HB. destruct (lmin_spec col Hne) as (Hin & _). destruct (lmax_spec col Hne) as (Hix & _).
  assert (Hall : forall z, In z col -> Rabs z <= B).
  { intros z Hz. apply (In_nth _ _ 0) in Hz. destruct Hz as (k & Hk & <-). now apply HB. }
  pose proof (Hall _ Hin) as H1. pose proof (Hall _ Hix) as H2.
  assert (- B <= lmin (N:=RNum) col <= B) by (unfold Rabs in H1; destruct Rcase_abs in H1; rn; lra).
  assert (- B <= lmax (N:=RNum) col <= B) by (unfold Rabs in H2; destruct Rcase_abs in H2; rn; lra).
  assert (0 <= B) by (pose proof (Rabs_pos (lmin (N:=RNum) col)); rn; lra).
  unfold lo, hi, simplex_lo, simplex_hi. cbv zeta. rewrite nmin_R, nmax_R. rn.
  unfold Rmin, Rmax. split; destruct Rle_dec; lra.
Qed.

(** one column *)
Lemma simplex_col_spec :
  (exists x r, simplex_col (N:=RNum) col = Ok x /\ length x = n /\
     F n (at_ col) r = 1 /\ nonneg x /\
     (forall B, (forall i, (i < n)%nat -> Rabs (at_ col i) <= B) ->
       (forall i, (i < n)%nat -> Rabs (at_ x i - Rmax (at_ col i - r) 0) <= eps_of B) /\
       Rabs (Sum n (at_ x) - 1) <= INR n * eps_of B)) \/
  (simplex_col (N:=RNum) col = Err RuntimeError /\
   forall B, (forall i, (i < n)%nat -> Rabs (at_ col i) <= B) -> ~ B <= 10 ^ 18).
Proof.
  assert (LM : lagrange_multiplier (N:=RNum) col = bisect (simplex_f (N:=RNum) col) lo hi) by (destruct col; [congruence|reflexivity]).
  unfold simplex_col. rewrite LM.
  destruct (bisect_spec (simplex_f (N:=RNum) col) lo hi) as [(xm & E & (Hb & r & Er & Hr))|(E & Hw)].
  - intros a b Hab Ha Hb. rewrite simplex_f_F in *. destruct (F_root n (at_ col) a b) as (r & Hr & Er); try lra.
    exists r. rewrite simplex_f_F. split; [assumption|lra].
  - exact lo_hi.
  - exact lo_pos.
  - exact hi_neg.
  - left. rewrite E. cbn [bind]. exists (map (fun x => relu (N:=RNum) (x - xm)) col), r.
    rewrite simplex_f_F in Er. split; [reflexivity|]. split; [now rewrite map_length|]. split; [lra|].
    split.
    { apply Forall_forall. intros z Hz. apply in_map_iff in Hz. destruct Hz as (w & <- & _). rewrite relu_R. apply Rmax_r. }
    intros B HB. destruct (bracket_bound B HB) as (B1 & B2).
    assert (HB0 : 0 <= B). { destruct col as [|c0 cs]; [congruence|]. specialize (HB 0%nat ltac:(unfold n; cbn; lia)). pose proof (Rabs_pos (at_ (c0 :: cs) 0)). lra. }
    assert (Hx : Rabs xm <= 11 / 10 * (B + 1 + 1 / 100000)) by (apply Rabs_le; lra).
    assert (He : btol xm <= eps_of B).
    { unfold btol, eps_of. apply Rplus_le_compat_l. apply Rmult_le_compat_l; [unfold rtol; lra|assumption]. }
    assert (Ax : forall i, (i < n)%nat -> at_ (map (fun x => relu (N:=RNum) (x - xm)) col) i = Rmax (at_ col i - xm) 0).
    { intros i Hi. unfold at_. rewrite (nth_map_lt _ _ _ _ 0) by assumption. apply relu_R. }
    split.
    + intros i Hi. rewrite Ax by assumption. apply Rle_trans with (Rabs (xm - r)); [|lra].
      unfold Rmax. repeat destruct Rle_dec; unfold Rabs; repeat destruct Rcase_abs; lra.
    + rewrite (Sum_rsum_ext n _ (fun i => Rmax (at_ col i - xm) 0) Ax). fold (F n (at_ col) xm).
      assert (E1 : 1 = F n (at_ col) r) by lra. rewrite E1 at 1.
      apply Rle_trans with (INR n * Rabs (xm - r)); [apply F_abs|].
      apply Rmult_le_compat_l; [apply pos_INR|]. lra.
  - right. rewrite E. split; [reflexivity|]. intros B HB HB18. apply Hw.
    destruct (bracket_bound B HB) as (B1 & B2).
    assert (HB0 : 0 <= B). { destruct col as [|c0 cs]; [congruence|]. specialize (HB 0%nat ltac:(unfold n; cbn; lia)). pose proof (Rabs_pos (at_ (c0 :: cs) 0)). lra. }
    assert (hi - lo <= 23 * 10 ^ 17) by lra.
    unfold xtol. apply Rle_lt_trans with (23 * 10 ^ 17 * (1 / 2) ^ 100).
    + apply Rmult_le_compat_r; [apply pow_le; lra|assumption].
    + assert (EP : (1 / 2) ^ 100 = / IZR (2 ^ 100)).
      { unfold Rdiv. rewrite Rmult_1_l, pow_inv. f_equal. rewrite pow_IZR. f_equal. }
      rewrite EP. apply Rmult_lt_reg_r with (IZR (2 ^ 100)); [apply IZR_lt; reflexivity|].
      rewrite Rmult_assoc, Rinv_l by (apply not_0_IZR; discriminate).
      replace (10 ^ 17) with (IZR (10 ^ 17)) by (rewrite pow_IZR; f_equal).
      assert (IZR (23 * 10 ^ 17 * 1000000000000) < IZR (2 * 2 ^ 100)) by (apply IZR_lt; reflexivity).
      rewrite !mult_IZR in H0. lra.
Qed.
End Col.

(** ** Matrices *)
Section Upd.
Variable E : ext (N:=RNum).
Lemma mapM_cases {A B} (f : A -> res B) (e : exn) (l : list A) (P : A -> B -> Prop) (Q : A -> Prop) :
  (forall x, In x l -> (exists y, f x = Ok y /\ P x y) \/ (f x = Err e /\ Q x)) ->
  (exists r, mapM f l = Ok r /\ Forall2 P l r) \/ (mapM f l = Err e /\ exists x, In x l /\ Q x).
Proof.
  induction l as [|x l IH]; intros H.
  - left. exists []. split; [reflexivity|constructor].
  - cbn [mapM]. destruct (H x (or_introl eq_refl)) as [(y & Ey & Py)|(Ex & Qx)].
    + rewrite Ey. cbn [bind]. destruct IH as [(r & Er & Fr)|(Er & z & Hz & Qz)].
      * intros; apply H; now right.
      * left. rewrite Er. exists (y :: r). split; [reflexivity|constructor; assumption].
      * right. rewrite Er. split; [reflexivity|]. exists z. split; [now right|assumption].
    + right. rewrite Ex. split; [reflexivity|]. exists x. split; [now left|assumption].
Qed.
Lemma Forall2_seq_nth {B} (P : nat -> B -> Prop) (d : B) k (r : list B) :
  Forall2 P (seq 0 k) r -> length r = k /\ forall j, (j < k)%nat -> P j (nth j r d).
Proof.
  intros H. pose proof (Forall2_len H) as L. rewrite seq_length in L. split; [congruence|].
  intros j Hj. assert (G : forall a k r, Forall2 P (seq a k) r -> forall j, (j < k)%nat -> P (a + j)%nat (nth j r d)).
  { clear. intros a k. revert a. induction k as [|k IH]; intros a r H j Hj; [lia|].
    cbn [seq] in H. inversion H as [|? y ? r' H1 H2]; subst. destruct j as [|j]; cbn [nth].
    - now rewrite Nat.add_0_r.
    - replace (a + S j)%nat with (S a + j)%nat by lia. apply IH; [assumption|lia]. }
  exact (G 0%nat k r H j Hj).
Qed.

Lemma simplex_update (V : rmat) rho : mwf V -> (0 < mr V)%nat ->
  (exists X P, factor_matrix_update E UnitSimplex V rho = Ok X /\ mwf X /\ mr X = mr V /\ mc X = mc V /\
     is_proj (mr V) (mc V) (cols_in_simplex (mr V) (mc V)) (rget V) P /\
     entries (mr V) (mc V) (fun x => 0 <= x) (rget X) /\
     (forall B, entries (mr V) (mc V) (fun x => Rabs x <= B) (rget V) ->
        (forall i j, (i < mr V)%nat -> (j < mc V)%nat -> Rabs (rget X i j - P i j) <= eps_of B) /\
        (forall j, (j < mc V)%nat -> Rabs (Sum (mr V) (fun i => rget X i j) - 1) <= INR (mr V) * eps_of B))) \/
  (factor_matrix_update E UnitSimplex V rho = Err RuntimeError /\
     forall B, entries (mr V) (mc V) (fun x => Rabs x <= B) (rget V) -> ~ B <= 10 ^ 18).
Proof.
  intros W Hr. unfold factor_matrix_update.
  assert (LC : forall j, length (mcol V j) = mr V) by (intros; now apply length_mcol).
  assert (GC : forall i j, (i < mr V)%nat -> at_ (mcol V j) i = rget V i j) by (intros; now apply vg_mcol).
  destruct (mapM_cases (fun j => simplex_col (N:=RNum) (mcol V j)) RuntimeError (seq 0 (mc V))
    (fun j x => exists r, length x = mr V /\
       F (mr V) (at_ (mcol V j)) r = 1 /\ nonneg x /\
       (forall B, (forall i, (i < mr V)%nat -> Rabs (at_ (mcol V j) i) <= B) ->
         (forall i, (i < mr V)%nat -> Rabs (at_ x i - Rmax (at_ (mcol V j) i - r) 0) <= eps_of B) /\
         Rabs (Sum (mr V) (at_ x) - 1) <= INR (mr V) * eps_of B))
    (fun j => forall B, (forall i, (i < mr V)%nat -> Rabs (at_ (mcol V j) i) <= B) -> ~ B <= 10 ^ 18))
    as [(cols & EM & HF)|(EM & j & Hj & Hq)].
  - intros j Hj. destruct (simplex_col_spec (mcol V j)) as [(x & r & H1 & H2 & H3 & H4 & H5)|(H1 & H2)].
    + intros Ec. specialize (LC j). rewrite Ec in LC. cbn in LC. lia.
    + rewrite LC in *. left. exists x. split; [assumption|]. exists r. auto.
    + rewrite LC in *. right. auto.
  - left. destruct (Forall2_seq_nth _ [] _ _ HF) as (Lc & Hcol). clear HF.
    assert (HR : exists rr : nat -> R, forall j, (j < mc V)%nat -> let x := nth j cols [] in
       length x = mr V /\ F (mr V) (at_ (mcol V j)) (rr j) = 1 /\ nonneg x /\
       (forall B, (forall i, (i < mr V)%nat -> Rabs (at_ (mcol V j) i) <= B) ->
         (forall i, (i < mr V)%nat -> Rabs (at_ x i - Rmax (at_ (mcol V j) i - rr j) 0) <= eps_of B) /\
         Rabs (Sum (mr V) (at_ x) - 1) <= INR (mr V) * eps_of B)).
    { clear - Hcol. revert Hcol. generalize (mc V) as k. induction k as [|k IH]; intros Hcol.
      - exists (fun _ => 0). intros j Hj. lia.
      - destruct IH as (rr & Hrr); [intros; apply Hcol; lia|].
        destruct (Hcol k ltac:(lia)) as (r & Hk).
        exists (fun j => if (j =? k)%nat then r else rr j). intros j Hj.
        destruct (Nat.eqb_spec j k) as [->|Hne]; [exact Hk|]. apply Hrr. lia. }
    destruct HR as (rr & HR).
    exists (of_cols (N:=RNum) (mr V) cols), (fun i j => Rmax (rget V i j - rr j) 0).
    split; [rewrite EM; reflexivity|]. split; [auto with mwf|]. split; [reflexivity|]. split; [exact Lc|].
    assert (GX : forall i j, (i < mr V)%nat -> (j < mc V)%nat -> rget (of_cols (N:=RNum) (mr V) cols) i j = at_ (nth j cols []) i).
    { intros i j Hi Hj. rewrite mget_of_cols; [reflexivity|assumption|]. rn. lia. }
    split.
    { apply is_proj_prox.
      eapply is_prox_ext; [| |apply (lift_cols _ _ (fun _ => 0) (fun z => (forall i, (i < mr V)%nat -> 0 <= z i) /\ rsum (mr V) z = 1) (fun _ => 0))].
      - reflexivity.
      - intros Z. unfold cols_in_simplex. split; intros HZ j Hj; specialize (HZ j Hj); rewrite Sum_rsum in *; exact HZ.
      - intros Z. symmetry. now apply rsum_zero.
      - intros j Hj. apply (simplex_vprox (mr V) (fun i => rget V i j) (rr j)).
        destruct (HR j Hj) as (_ & H2 & _). rewrite <- H2. apply rsum_ext. intros i Hi. now rewrite GC. }
    split.
    { intros i j Hi Hj. rewrite GX by assumption. destruct (HR j Hj) as (H1 & _ & H3 & _).
      apply (proj1 (nonneg_at _) H3). rn. rewrite H1. exact Hi. }
    intros B HB. split.
    + intros i j Hi Hj. rewrite GX by assumption. destruct (HR j Hj) as (_ & _ & _ & H4).
      destruct (H4 B) as (H5 & _); [intros k Hk; rewrite GC by assumption; now apply HB|].
      specialize (H5 i Hi). rewrite GC in H5 by assumption. exact H5.
    + intros j Hj. destruct (HR j Hj) as (_ & _ & _ & H4).
      destruct (H4 B) as (_ & H5); [intros k Hk; rewrite GC by assumption; now apply HB|].
      rewrite (Sum_ext (mr V) _ (at_ (nth j cols []))); [exact H5|]. intros i Hi. now apply GX.
  - right. rewrite EM. split; [reflexivity|]. intros B HB. apply in_seq in Hj. apply (Hq B).
    intros i Hi. rewrite GC by assumption. apply HB; lia.
Qed.
End Upd.
