(** Proofs about the model of _unimodal_regression.py. *)
From Coq Require Import Reals Lra Lia List Arith Bool ZArith Psatz.
From Verif Require Import Num Numpy Unimodal RFacts.
Import ListNotations.
Local Open Scope R_scope.

Notation vg := (vget (N:=RNum)).
(** [lia] after putting list types in normal form *)
Ltac lia' := Lia.lia.
Ltac lia := first [lia' | (rn; lia')].

(** ** Block sums *)
Definition bs (f : nat -> R) (s e : nat) : R := rsum e f - rsum s f.

Lemma bs_split f s m e : bs f s e = bs f s m + bs f m e.
Proof. unfold bs; lra. Qed.
Lemma bs_nil f s : bs f s s = 0.
Proof. unfold bs; lra. Qed.
Lemma bs_S f s e : bs f s (S e) = bs f s e + f e.
Proof. unfold bs; rewrite rsum_S; lra. Qed.
Lemma bs_one f s : bs f s (S s) = f s.
Proof. rewrite bs_S, bs_nil; lra. Qed.
Lemma bs_le f g s e : (s <= e)%nat ->
  (forall i, (s <= i < e)%nat -> f i <= g i) -> bs f s e <= bs g s e.
Proof.
  induction e as [|e IH]; intros Hs H.
  - replace s with 0%nat by lia. rewrite !bs_nil; lra.
  - destruct (Nat.eq_dec s (S e)) as [->|Hne]; [rewrite !bs_nil; lra|].
    rewrite !bs_S. pose proof (IH ltac:(lia) ltac:(intros; apply H; lia)).
    pose proof (H e ltac:(lia)). lra.
Qed.
Lemma bs_ext f g s e : (s <= e)%nat ->
  (forall i, (s <= i < e)%nat -> f i = g i) -> bs f s e = bs g s e.
Proof.
  intros Hs H. apply Rle_antisym; apply bs_le; auto; intros i Hi; rewrite (H i Hi); lra.
Qed.
Lemma bs_nonneg f s e : (s <= e)%nat -> (forall i, (s <= i < e)%nat -> 0 <= f i) -> 0 <= bs f s e.
Proof.
  intros Hs H. replace 0 with (bs (fun _ => 0) s e); [now apply bs_le|].
  unfold bs; rewrite !rsum_const; lra.
Qed.
Lemma bs_pos f s e : (s < e)%nat -> (forall i, (s <= i < e)%nat -> 0 < f i) -> 0 < bs f s e.
Proof.
  intros Hs H. destruct e as [|e]; [lia|]. rewrite bs_S.
  assert (0 <= bs f s e) by (apply bs_nonneg; [lia|]; intros; left; apply H; lia).
  pose proof (H e ltac:(lia)). lra.
Qed.
Lemma bs_add f g s e : bs (fun i => f i + g i) s e = bs f s e + bs g s e.
Proof. unfold bs; rewrite !rsum_add; lra. Qed.
Lemma bs_sub f g s e : bs (fun i => f i - g i) s e = bs f s e - bs g s e.
Proof. unfold bs; rewrite !rsum_sub; lra. Qed.
Lemma bs_scal c f s e : bs (fun i => c * f i) s e = c * bs f s e.
Proof. unfold bs; rewrite !rsum_scal; lra. Qed.

(** Abel summation: partial sums of [a] are >= 0 and the total is 0, z does not
    decrease, so the sum of a*z is <= 0. *)
Lemma abel_le (a z : nat -> R) s e : (s <= e)%nat ->
  (forall k, (s <= k <= e)%nat -> 0 <= bs a s k) ->
  (forall k, (s <= k)%nat -> (S k < e)%nat -> z k <= z (S k)) ->
  forall k, (s <= k)%nat -> (k < e)%nat -> bs (fun i => a i * z i) s (S k) <= bs a s (S k) * z k.
Proof.
  intros Hse Hp Hz k Hk. induction k as [|k IH]; intros Hke.
  - replace s with 0%nat by lia. rewrite !bs_one. lra.
  - destruct (Nat.eq_dec s (S k)) as [->|Hne].
    + rewrite !bs_one. lra.
    + rewrite (bs_S _ s (S k)), (bs_S a s (S k)).
      pose proof (IH ltac:(lia) ltac:(lia)) as H.
      pose proof (Hp (S k) ltac:(lia)). pose proof (Hz k ltac:(lia) ltac:(lia)).
      assert (bs a s (S k) * z k <= bs a s (S k) * z (S k)) by (apply Rmult_le_compat_l; lra).
      lra.
Qed.

Section Pava.
Variables (y w : list R).
Variable nn : bool.
Let n := length y.
Hypothesis Hlw : length w = n.
Hypothesis Hw : forall i, (i < n)%nat -> 0 < vg w i.

Let fw i := vg w i.
Let fwy i := vg w i * vg y i.
Let fwy2 i := vg w i * vg y i * vg y i.

Definition lv (s : pstate (N:=RNum)) j := vg (p_level s) j.
Definition ix (s : pstate (N:=RNum)) j := iget (p_index s) j.

(** block of j, without the order condition towards the previous block *)
Definition Blk (s : pstate (N:=RNum)) (j : nat) : Prop :=
  (ix s j <= j)%nat /\
  vg (p_sumwy s) j = bs fwy (ix s j) (S j) /\
  vg (p_sumwy2 s) j = bs fwy2 (ix s j) (S j) /\
  vg (p_sumw s) j = bs fw (ix s j) (S j) /\
  lv s j * bs fw (ix s j) (S j) = bs fwy (ix s j) (S j) /\
  (forall k, (ix s j <= k <= S j)%nat ->
     0 <= bs (fun i => vg w i * (vg y i - lv s j)) (ix s j) k).
Definition Good (s : pstate (N:=RNum)) (j : nat) : Prop :=
  Blk s j /\ (ix s j = 0%nat \/ lv s (ix s j - 1) < lv s j).

Definition Lens (s : pstate (N:=RNum)) : Prop :=
  length (p_sumwy s) = n /\ length (p_sumwy2 s) = n /\ length (p_sumw s) = n /\
  length (p_level s) = n /\ length (p_index s) = n /\ length (p_error s) = S n /\
  length (p_thr s) = n.

(** s agrees with s' at all indices but i (sums, level, index) and in error/thr *)
Definition SameBut (i : nat) (s s' : pstate (N:=RNum)) : Prop :=
  (forall j, j <> i -> vg (p_sumwy s') j = vg (p_sumwy s) j /\
     vg (p_sumwy2 s') j = vg (p_sumwy2 s) j /\ vg (p_sumw s') j = vg (p_sumw s) j /\
     lv s' j = lv s j /\ ix s' j = ix s j) /\
  p_error s' = p_error s /\ p_thr s' = p_thr s.

Lemma SameBut_refl i s : SameBut i s s.
Proof. repeat split; auto. Qed.
Lemma SameBut_trans i a b c : SameBut i a b -> SameBut i b c -> SameBut i a c.
Proof.
  intros (H1 & H2 & H3) (K1 & K2 & K3). split; [|split; congruence].
  intros j Hj. destruct (H1 j Hj) as (?&?&?&?&?). destruct (K1 j Hj) as (?&?&?&?&?).
  repeat split; congruence.
Qed.
Lemma Blk_same i s s' j : SameBut i s s' -> j <> i -> Blk s j -> Blk s' j.
Proof.
  intros (H & _) Hj (B1&B2&B3&B4&B5&B6). destruct (H j Hj) as (E1&E2&E3&E4&E5).
  unfold Blk. rewrite E1, E2, E3, E4, E5. auto 10.
Qed.
Lemma Good_same i s s' j : SameBut i s s' -> (j < i)%nat -> Good s j -> Good s' j.
Proof.
  intros HS Hj (B & O). split; [eapply Blk_same; eauto; lia|].
  destruct HS as (H & _). destruct (H j ltac:(lia)) as (_&_&_&E4&E5). rewrite E4, E5.
  destruct O as [O|O]; [now left|right].
  destruct B as (B1 & _).
  destruct (H (ix s j - 1)%nat ltac:(lia)) as (_&_&_&E&_). now rewrite E.
Qed.

Lemma fw_pos s e : (s < e)%nat -> (e <= n)%nat -> 0 < bs fw s e.
Proof. intros H1 H2. apply bs_pos; auto. intros; apply Hw; lia. Qed.

Lemma cert_shift L L' s k :
  bs (fun i => vg w i * (vg y i - L')) s k =
  bs (fun i => vg w i * (vg y i - L)) s k + (L - L') * bs fw s k.
Proof.
  unfold bs. rewrite <- (Rmult_comm (rsum k fw - rsum s fw)), Rmult_minus_distr_r.
  rewrite <- !rsum_scal_r.
  assert (forall m, rsum m (fun i => vg w i * (vg y i - L')) =
    rsum m (fun i => vg w i * (vg y i - L)) + rsum m (fun i => fw i * (L - L'))) as E.
  { intros m. rewrite <- rsum_add. apply rsum_ext; intros. unfold fw; lra. }
  rewrite !E; lra.
Qed.
Lemma cert_total L s e : L * bs fw s e = bs fwy s e ->
  bs (fun i => vg w i * (vg y i - L)) s e = 0.
Proof.
  intros H. rewrite (cert_shift 0 L). replace (bs (fun i => vg w i * (vg y i - 0)) s e) with (bs fwy s e).
  - lra.
  - unfold bs. rewrite (rsum_ext e fwy (fun i => vg w i * (vg y i - 0))) by (intros; unfold fwy; lra).
    rewrite (rsum_ext s fwy (fun i => vg w i * (vg y i - 0))) by (intros; unfold fwy; lra). reflexivity.
Qed.

(** Merging the block of m = ix i - 1 into that of i. *)
Lemma merge_blk s i : Lens s -> (i < n)%nat -> Blk s i -> ix s i <> 0%nat ->
  Blk s (ix s i - 1) -> lv s i <= lv s (ix s i - 1) ->
  let s1 := merge_intervals store_float i (ix s i - 1) s in
  let s2 := PState (N:=RNum) (p_sumwy s1) (p_sumwy2 s1) (p_sumw s1) (p_level s1)
                   (upd (p_index s1) i (iget (p_index s1) (ix s i - 1)))
                   (p_error s1) (p_thr s1) in
  Lens s2 /\ SameBut i s s2 /\ Blk s2 i /\ ix s2 i = ix s (ix s i - 1).
Proof.
  intros HL Hi Bi Hne Bm Hle s1 s2.
  destruct HL as (L1&L2&L3&L4&L5&L6&L7).
  set (m := (ix s i - 1)%nat) in *.
  destruct Bi as (I1&I2&I3&I4&I5&I6). destruct Bm as (M1&M2&M3&M4&M5&M6).
  assert (Em : S m = ix s i) by (unfold m; lia).
  rewrite Em in *.
  assert (Eix : ix s2 i = ix s m).
  { unfold ix, s2, s1, iget; cbn. apply nth_upd_eq. lia. }
  assert (Ewy : vg (p_sumwy s2) i = bs fwy (ix s m) (S i)).
  { unfold s2, s1; cbn. rn; rewrite vg_upd_eq by rlia. rn. rewrite I2, M2.
    rewrite (bs_split fwy (ix s m) (ix s i) (S i)). lra. }
  assert (Ewy2 : vg (p_sumwy2 s2) i = bs fwy2 (ix s m) (S i)).
  { unfold s2, s1; cbn. rn; rewrite vg_upd_eq by rlia. rn. rewrite I3, M3.
    rewrite (bs_split fwy2 (ix s m) (ix s i) (S i)). lra. }
  assert (Ew : vg (p_sumw s2) i = bs fw (ix s m) (S i)).
  { unfold s2, s1; cbn. rn; rewrite vg_upd_eq by rlia. rn. rewrite I4, M4.
    rewrite (bs_split fw (ix s m) (ix s i) (S i)). lra. }
  assert (Elv : lv s2 i = bs fwy (ix s m) (S i) / bs fw (ix s m) (S i)).
  { rewrite <- Ewy, <- Ew. unfold s2, s1, lv, merge_intervals, store_float; cbn [p_level p_sumwy p_sumw].
    rn; rewrite vg_upd_eq by rlia. rn. reflexivity. }
  assert (Hpos : 0 < bs fw (ix s m) (S i)) by (apply fw_pos; lia).
  assert (Hposm : 0 < bs fw (ix s m) (ix s i)) by (apply fw_pos; lia).
  assert (Hposi : 0 < bs fw (ix s i) (S i)) by (apply fw_pos; lia).
  assert (E5 : lv s2 i * bs fw (ix s m) (S i) = bs fwy (ix s m) (S i))
    by (rewrite Elv; field; lra).
  split; [|split; [|split]].
  - unfold s2, s1, Lens; cbn. rewrite !length_upd. auto 10.
  - unfold SameBut, s2, s1, lv, ix, iget, vget; cbn. split; [|auto].
    intros j Hj. rewrite !nth_upd_neq by assumption. auto 10.
  - unfold Blk. rewrite Eix. split; [lia|]. split; [exact Ewy|]. split; [exact Ewy2|].
    split; [exact Ew|]. split; [exact E5|].
    pose proof (bs_split fw (ix s m) (ix s i) (S i)) as Sw.
    pose proof (bs_split fwy (ix s m) (ix s i) (S i)) as Swy.
    set (L' := lv s2 i) in *. set (Li := lv s i) in *. set (Lm := lv s m) in *.
    set (Wm := bs fw (ix s m) (ix s i)) in *. set (Wi := bs fw (ix s i) (S i)) in *.
    assert (HA : Wm * (Lm - L') = Wi * (L' - Li)) by nra.
    assert (HB : 0 <= Lm - L').
    { apply Rnot_lt_le; intros C.
      assert (Wm * (Lm - L') < 0) by nra. assert (L' - Li < 0) by nra. lra. }
    assert (HC : 0 <= L' - Li).
    { apply Rnot_lt_le; intros C. assert (Wi * (L' - Li) < 0) by nra. nra. }
    intros k Hk. destruct (Nat.le_gt_cases k (ix s i)) as [Hkm|Hkm].
    + rewrite (cert_shift Lm L').
      assert (0 <= bs fw (ix s m) k).
      { apply bs_nonneg; [lia|]. intros; left; apply Hw; lia. }
      pose proof (M6 k ltac:(lia)). nra.
    + rewrite (bs_split _ (ix s m) (ix s i) k).
      rewrite (cert_shift Lm L' (ix s m) (ix s i)), (cert_total Lm) by (exact M5).
      rewrite (cert_shift Li L' (ix s i) k).
      pose proof (I6 k ltac:(lia)).
      assert (bs fw (ix s i) k <= Wi).
      { unfold Wi. rewrite (bs_split fw (ix s i) k (S i)).
        assert (0 <= bs fw k (S i)) by (apply bs_nonneg; [lia|]; intros; left; apply Hw; lia). lra. }
      fold Wm. nra.
  - exact Eix.
Qed.

Lemma merge_loop_ok fuel : forall i s, Lens s -> (i < n)%nat -> Blk s i ->
  (ix s i <= fuel)%nat -> (forall j, (j < i)%nat -> Good s j) ->
  exists s', merge_loop store_float fuel i s = Ok s' /\ Lens s' /\ SameBut i s s' /\ Good s' i.
Proof.
  induction fuel as [|f IH]; intros i s HL Hi HB Hf HG; cbn [merge_loop];
    fold (ix s i); fold (lv s i).
  - assert (ix s i = 0)%nat as -> by lia. cbn. exists s. split; [reflexivity|].
    split; [exact HL|]. split; [apply SameBut_refl|]. split; [exact HB|]. left. lia.
  - destruct (Nat.eqb_spec (ix s i) 0) as [E|E]; cbn [negb andb].
    + exists s. split; [reflexivity|]. split; [exact HL|]. split; [apply SameBut_refl|].
      split; [exact HB|]. now left.
    + rn. fold (lv s (ix s i - 1)). destruct (Rleb_spec (lv s i) (lv s (ix s i - 1))) as [Hle|Hgt].
      * assert (Hm : Blk s (ix s i - 1)).
        { apply HG. destruct HB as (HB & _). lia. }
        pose proof (merge_blk s i HL Hi HB E Hm Hle) as HM. cbv zeta in HM.
        set (s2 := PState _ _ _ _ _ _ _) in *.
        destruct HM as (HL2 & HS & HB2 & Hix).
        destruct Hm as (Hm1 & _).
        destruct (IH i s2 HL2 Hi HB2 ltac:(lia)) as (s' & R1 & R2 & R3 & R4).
        { intros j Hj. eapply Good_same; eauto. }
        exists s'. split; [exact R1|]. split; [exact R2|].
        split; [eapply SameBut_trans; eauto|exact R4].
      * exists s. split; [reflexivity|]. split; [exact HL|]. split; [apply SameBut_refl|].
        split; [exact HB|]. right. lra.
Qed.

(** ** The for loop *)
Variable cum : list R.
Hypothesis Hcum : forall i, (i < n)%nat -> vg cum i = rsum (S i) fwy2.

Definition isneg (s : pstate (N:=RNum)) j : bool := nn && nltb (N:=RNum) (lv s j) 0.
Definition ErrOk (s : pstate (N:=RNum)) (j : nat) : Prop :=
  vg (p_error s) (S j) =
    (if isneg s j then rsum (S j) fwy2
     else (vg (p_sumwy2 s) j - (vg (p_sumwy s) j * vg (p_sumwy s) j / vg (p_sumw s) j))
          + vg (p_error s) (ix s j)) /\
  nth j (p_thr s) false = isneg s j.

Definition Inv (i : nat) (s : pstate (N:=RNum)) : Prop :=
  Lens s /\ (forall j, (j < i)%nat -> Good s j /\ ErrOk s j) /\
  vg (p_error s) 0 = 0 /\
  (forall j, (i <= j)%nat -> (j < n)%nat ->
     vg (p_sumwy s) j = fwy j /\ vg (p_sumwy2 s) j = fwy2 j /\ vg (p_sumw s) j = fw j /\
     nth j (p_thr s) false = false).

Lemma step_inv i s : (i < n)%nat -> Inv i s ->
  exists s', prefix_step store_float nn y cum s i = Ok s' /\ Inv (S i) s'.
Proof.
  intros Hi (HL & HG & HE0 & Hrest). pose proof HL as (L1&L2&L3&L4&L5&L6&L7).
  unfold prefix_step.
  set (s0 := PState _ _ _ _ _ _ _).
  assert (HL0 : Lens s0) by (unfold s0, Lens; cbn; rewrite !length_upd; auto 10).
  assert (HS0 : SameBut i s s0).
  { unfold SameBut, s0, lv, ix, iget, vget; cbn. split; [|auto].
    intros j Hj. rewrite !nth_upd_neq by assumption. auto 10. }
  assert (Eix : ix s0 i = i) by (unfold s0, ix, iget; cbn; apply nth_upd_eq; lia).
  assert (Elv : lv s0 i = vg y i) by (unfold s0, lv, vget; cbn; apply nth_upd_eq; lia).
  assert (HB0 : Blk s0 i).
  { destruct (Hrest i ltac:(lia) Hi) as (R1&R2&R3&R4).
    unfold Blk. rewrite Eix, Elv. unfold s0; cbn [p_sumwy p_sumwy2 p_sumw].
    rewrite !bs_one, R1, R2, R3.
    split; [lia|]. do 3 (split; [lra|]). split; [unfold fw, fwy; lra|].
    intros k Hk. destruct (Nat.eq_dec k i) as [->|Hk']; [rewrite bs_nil; lra|].
    replace k with (S i) by lia. rewrite bs_one. lra. }
  destruct (merge_loop_ok i i s0 HL0 Hi HB0 ltac:(lia)) as (s1 & R1 & HL1 & HS1 & HG1).
  { intros j Hj. eapply Good_same; eauto. apply HG; lia. }
  rewrite R1. cbn [bind].
  pose proof (SameBut_trans _ _ _ _ HS0 HS1) as HS. clearbody s0.
  pose proof HL1 as (K1&K2&K3&K4&K5&K6&K7).
  destruct HS as (HS & HSe & HSt).
  match goal with |- exists s', ?e0 = _ /\ _ => set (e := e0) end.
  assert (exists s', e = Ok s' /\ p_sumwy s' = p_sumwy s1 /\ p_sumwy2 s' = p_sumwy2 s1 /\
     p_sumw s' = p_sumw s1 /\ p_level s' = p_level s1 /\ p_index s' = p_index s1 /\
     length (p_error s') = S n /\ length (p_thr s') = n /\
     (forall j, j <> S i -> vg (p_error s') j = vg (p_error s) j) /\
     (forall j, j <> i -> nth j (p_thr s') false = nth j (p_thr s) false) /\
     ErrOk s' i) as (s' & -> & P1 & P2 & P3 & P4 & P5 & P6 & P7 & P8 & P9 & P10).
  { destruct (Hrest i ltac:(lia) Hi) as (_&_&_&Rt).
    unfold e. rn. destruct (nn && _) eqn:En; eexists; (split; [reflexivity|]); cbn;
      rewrite ?length_upd; repeat (split; [solve [auto]|]).
    - split; [|split].
      + intros j Hj. rn; rewrite vg_upd_neq by assumption. now rewrite HSe.
      + intros j Hj. rewrite nth_upd_neq by assumption. now rewrite HSt.
      + unfold ErrOk, isneg, lv; cbn. unfold lv in *. rn. rewrite En.
        split; [|apply nth_upd_eq; lia].
        rn; rewrite vg_upd_eq by rlia. now apply Hcum.
    - split; [|split].
      + intros j Hj. rn; rewrite vg_upd_neq by assumption. now rewrite HSe.
      + intros j Hj. now rewrite HSt.
      + unfold ErrOk, isneg, lv, ix; cbn. unfold lv in *. rn. rewrite En.
        split; [|now rewrite HSt].
        rn; rewrite vg_upd_eq by rlia.
        f_equal. rn; rewrite vg_upd_neq; [reflexivity|].
        destruct HG1 as ((B1 & _) & _). unfold ix, iget in B1. lia. }
  exists s'. split; [reflexivity|].
  assert (HGS : forall j, Good s1 j -> Good s' j).
  { intros j. unfold Good, Blk, lv, ix. now rewrite P1, P2, P3, P4, P5. }
  split; [|split; [|split]].
  - unfold Lens. rewrite P1, P2, P3, P4, P5. auto 10.
  - intros j Hj. destruct (Nat.eq_dec j i) as [->|Hne].
    + split; [now apply HGS|exact P10].
    + destruct (HG j ltac:(lia)) as (G1 & G2). split.
      * apply HGS. eapply (Good_same i s s1); [split; eauto|lia|exact G1].
      * destruct (HS j Hne) as (E1&E2&E3&E4&E5).
        unfold ErrOk, isneg, lv, ix in *. rewrite P1, P2, P3, P4, P5.
        destruct G2 as (G2 & G3).
        rewrite P8, P8 by (destruct G1 as ((B1 & _) & _); unfold ix in B1; rewrite ?E5; lia).
        rewrite P9 by assumption. rewrite E1, E2, E3, E4, E5. split; assumption.
  - rewrite P8 by lia. exact HE0.
  - intros j Hj1 Hj2. destruct (HS j ltac:(lia)) as (E1&E2&E3&E4&E5).
    rewrite P1, P2, P3, P9 by lia. rewrite E1, E2, E3. apply Hrest; lia.
Qed.

Lemma for_inv k : forall i s, (i + k = n)%nat -> Inv i s ->
  exists s', prefix_for store_float nn y cum (seq i k) s = Ok s' /\ Inv n s'.
Proof.
  induction k as [|k IH]; intros i s Hik HI; cbn [seq prefix_for].
  - exists s. replace n with i by lia. auto.
  - destruct (step_inv i s ltac:(lia) HI) as (s1 & R1 & HI1). rewrite R1. cbn [bind].
    apply IH; [lia|exact HI1].
Qed.

(** ** From the final state to the prefix fits *)
(** Post-processed level *)
Definition M (s : pstate (N:=RNum)) j : R := if isneg s j then 0 else lv s j.

(** [Fit s e x]: x is the fit reported for the prefix of length e *)
Inductive Fit (s : pstate (N:=RNum)) : nat -> (nat -> R) -> Prop :=
| Fit0 x : Fit s 0 x
| FitS j x : Fit s (ix s j) x -> (forall i, (ix s j <= i <= j)%nat -> x i = M s j) -> Fit s (S j) x.

Definition feas (e : nat) (z : nat -> R) : Prop :=
  (forall i, (S i < e)%nat -> z i <= z (S i)) /\ (nn = true -> forall i, (i < e)%nat -> 0 <= z i).

Lemma block_opt s j z : Good s j -> (j < n)%nat -> feas (S j) z ->
  0 <= bs (fun i => vg w i * ((vg y i - M s j) * (M s j - z i))) (ix s j) (S j).
Proof.
  intros ((B1&B2&B3&B4&B5&B6) & _) Hj (Hz1 & Hz2).
  set (L := lv s j) in *. set (st := ix s j) in *.
  pose proof (cert_total L st (S j) B5) as CT.
  assert (A1 : bs (fun i => vg w i * (vg y i - L) * z i) st (S j) <= 0).
  { eapply Rle_trans; [apply (abel_le _ z st (S j))|]; try lia.
    - intros k Hk; apply B6; lia.
    - intros k Hk1 Hk2. apply Hz1; lia.
    - rewrite CT; lra. }
  unfold M. destruct (isneg s j) eqn:En.
  - unfold isneg in En. apply andb_true_iff in En. destruct En as [-> En]. apply nltb_true in En.
    fold L in En.
    assert (A2 : bs (fun i => L * (vg w i * z i)) st (S j) <= 0).
    { replace 0 with (bs (fun _ => 0) st (S j)) by (unfold bs; rewrite !rsum_const; lra).
      apply bs_le; [lia|]. intros i Hi. pose proof (Hw i ltac:(lia)).
      pose proof (Hz2 eq_refl i ltac:(lia)). assert (0 <= vg w i * z i) by (apply Rmult_le_pos; lra). nra. }
    assert (E : bs (fun i => vg w i * ((vg y i - 0) * (0 - z i))) st (S j) =
                - (bs (fun i => vg w i * (vg y i - L) * z i) st (S j)
                   + bs (fun i => L * (vg w i * z i)) st (S j))).
    { rewrite <- bs_add. replace (- _) with (-1 * bs (fun i => vg w i * (vg y i - L) * z i + L * (vg w i * z i)) st (S j)) by lra.
      rewrite <- bs_scal. apply bs_ext; [lia|]. intros; lra. }
    rewrite E. lra.
  - fold L.
    assert (E : bs (fun i => vg w i * ((vg y i - L) * (L - z i))) st (S j) =
                L * bs (fun i => vg w i * (vg y i - L)) st (S j)
                - bs (fun i => vg w i * (vg y i - L) * z i) st (S j)).
    { rewrite <- bs_scal, <- bs_sub. apply bs_ext; [lia|]. intros; lra. }
    rewrite E, CT. lra.
Qed.

Lemma sqblk s j : Good s j -> (j < n)%nat ->
  vg (p_sumwy2 s) j - (vg (p_sumwy s) j * vg (p_sumwy s) j / vg (p_sumw s) j) =
  bs (fun i => vg w i * ((vg y i - lv s j) ^ 2)) (ix s j) (S j).
Proof.
  intros ((B1&B2&B3&B4&B5&B6) & _) Hj. rewrite B2, B3, B4.
  set (L := lv s j) in *. set (st := ix s j) in *.
  assert (Hp : 0 < bs fw st (S j)) by (apply fw_pos; lia).
  assert (E : bs (fun i => vg w i * ((vg y i - L) ^ 2)) st (S j) =
      bs fwy2 st (S j) - 2 * L * bs fwy st (S j) + L * L * bs fw st (S j)).
  { rewrite <- !bs_scal, <- bs_sub, <- bs_add. apply bs_ext; [lia|].
    intros; unfold fw, fwy, fwy2; lra. }
  rewrite E. replace (bs fwy st (S j) * bs fwy st (S j) / bs fw st (S j)) with (L * bs fwy st (S j)).
  - rewrite <- B5. lra.
  - rewrite <- B5. field. lra.
Qed.

Lemma M_mono s j : Good s j -> ix s j <> 0%nat -> M s (ix s j - 1) <= M s j.
Proof.
  intros (_ & [O|O]) H; [contradiction|]. unfold M, isneg. destruct nn; cbn; [|lra].
  destruct (nltb_spec (lv s j) 0); destruct (nltb_spec (lv s (ix s j - 1)) 0); lra.
Qed.
Lemma M_nonneg s j : nn = true -> 0 <= M s j.
Proof. intros E. unfold M, isneg. rewrite E; cbn. destruct (nltb_spec (lv s j) 0); lra. Qed.

Lemma Fit_last s j x : Good s j -> Fit s (S j) x -> x j = M s j.
Proof.
  intros ((B1&_)&_) H. inversion H as [|j' x' H1 H2]; subst. apply H2; lia.
Qed.

(** every prefix fit is feasible *)
Lemma Fit_feas s e : Inv n s -> (e <= n)%nat -> forall x, Fit s e x -> feas e x.
Proof.
  intros (HL & HG & HE0 & _). induction e as [e IH] using lt_wf_ind. intros He x HF.
  inversion HF as [|j x' HF' Hx]; subst.
  - split; intros; lia.
  - destruct (HG j ltac:(lia)) as (G & _). pose proof G as ((B1 & _) & _).
    destruct (IH (ix s j) ltac:(lia) ltac:(lia) x HF') as (F1 & F2).
    split.
    + intros i Hi. destruct (Nat.lt_ge_cases (S i) (ix s j)) as [Hlt|Hge].
      * apply F1; lia.
      * destruct (Nat.eq_dec (S i) (ix s j)) as [E|Hne].
        -- rewrite (Hx (S i)) by lia.
           assert (x i = M s (ix s j - 1)) as ->.
           { replace i with (ix s j - 1)%nat by lia.
             apply Fit_last; [apply HG; lia|]. replace (S (ix s j - 1)) with (ix s j) by lia. exact HF'. }
           apply M_mono; [exact G|lia].
        -- rewrite !Hx by lia. lra.
    + intros E i Hi. destruct (Nat.lt_ge_cases i (ix s j)) as [Hlt|Hge].
      * apply F2; auto.
      * rewrite Hx by lia. now apply M_nonneg.
Qed.

(** every prefix fit vanishes when its last level is negative *)
Lemma Fit_neg s j : Inv n s -> (j < n)%nat -> isneg s j = true -> forall x, Fit s (S j) x ->
  forall i, (i <= j)%nat -> x i = 0.
Proof.
  intros (HL & HG & HE0 & _). induction j as [j IH] using lt_wf_ind. intros Hj En x HF i Hi.
  inversion HF as [|j' x' HF' Hx]; subst.
  destruct (HG j Hj) as (((B1 & _) & O) & _).
  destruct (Nat.lt_ge_cases i (ix s j)) as [Hlt|Hge].
  - apply (IH (ix s j - 1)%nat); try lia.
    + destruct O as [O|O]; [lia|]. unfold isneg in *. apply andb_true_iff in En.
      destruct En as [-> En]. cbn. apply nltb_true in En. apply nltb_true. lra.
    + replace (S (ix s j - 1)) with (ix s j) by lia. exact HF'.
  - rewrite Hx by lia. unfold M. now rewrite En.
Qed.

(** the recorded error is the weighted squared error of the prefix fit *)
Lemma Fit_error s e : Inv n s -> (e <= n)%nat -> forall x, Fit s e x ->
  vg (p_error s) e = rsum e (fun i => vg w i * ((vg y i - x i) ^ 2)).
Proof.
  intros HI. pose proof HI as (HL & HG & HE0 & _).
  induction e as [e IH] using lt_wf_ind. intros He x HF.
  inversion HF as [|j x' HF' Hx]; subst; [exact HE0|].
  destruct (HG j ltac:(lia)) as (G & (EO & _)). pose proof G as ((B1 & _) & _).
  rewrite EO. destruct (isneg s j) eqn:En.
  - apply rsum_ext. intros i Hi. rewrite (Fit_neg s j HI ltac:(lia) En x HF i ltac:(lia)).
    unfold fwy2. lra.
  - rewrite (IH (ix s j) ltac:(lia) ltac:(lia) x HF'). rewrite sqblk by (auto; lia).
    assert (E : bs (fun i => vg w i * ((vg y i - lv s j) ^ 2)) (ix s j) (S j)
                = bs (fun i => vg w i * ((vg y i - x i) ^ 2)) (ix s j) (S j)).
    { apply bs_ext; [lia|]. intros i Hi. rewrite Hx by lia. unfold M. now rewrite En. }
    rewrite E. unfold bs. lra.
Qed.

(** ... and the prefix fit is optimal (variational inequality) *)
Lemma Fit_vi s e : Inv n s -> (e <= n)%nat -> forall x, Fit s e x -> forall z, feas e z ->
  0 <= rsum e (fun i => vg w i * ((vg y i - x i) * (x i - z i))).
Proof.
  intros HI. pose proof HI as (HL & HG & HE0 & _).
  induction e as [e IH] using lt_wf_ind. intros He x HF z Hz.
  inversion HF as [|j x' HF' Hx]; subst; [rewrite rsum_0; lra|].
  destruct (HG j ltac:(lia)) as (G & _). pose proof G as ((B1 & _) & _).
  assert (Hz' : feas (ix s j) z).
  { destruct Hz as (Z1 & Z2). split; intros; [apply Z1; lia|apply Z2; auto; lia]. }
  pose proof (IH (ix s j) ltac:(lia) ltac:(lia) x HF' z Hz') as H1.
  pose proof (block_opt s j z G ltac:(lia) Hz) as H2.
  assert (E : bs (fun i => vg w i * ((vg y i - M s j) * (M s j - z i))) (ix s j) (S j)
              = bs (fun i => vg w i * ((vg y i - x i) * (x i - z i))) (ix s j) (S j)).
  { apply bs_ext; [lia|]. intros i Hi. now rewrite Hx by lia. }
  rewrite E in H2. unfold bs in H2. lra.
Qed.

Lemma Fit_opt s e : Inv n s -> (e <= n)%nat -> forall x, Fit s e x -> forall z, feas e z ->
  vg (p_error s) e + rsum e (fun i => vg w i * ((x i - z i) ^ 2))
  <= rsum e (fun i => vg w i * ((vg y i - z i) ^ 2)).
Proof.
  intros HI He x HF z Hz. rewrite (Fit_error s e HI He x HF).
  pose proof (Fit_vi s e HI He x HF z Hz) as H.
  assert (E : rsum e (fun i => vg w i * (vg y i - z i) ^ 2) =
    rsum e (fun i => vg w i * (vg y i - x i) ^ 2) + rsum e (fun i => vg w i * (x i - z i) ^ 2)
    + 2 * rsum e (fun i => vg w i * ((vg y i - x i) * (x i - z i)))).
  { rewrite <- rsum_scal, <- !rsum_add. apply rsum_ext; intros; cbn; lra. }
  rewrite E. lra.
Qed.

(** ** _compute_isotonic_from_index *)
Lemma nth_set_slice {A} (l : list A) lo hi (x d : A) k : (k < length l)%nat ->
  nth k (set_slice l lo hi x) d = if ((lo <=? k) && (k <? hi))%nat then x else nth k l d.
Proof.
  intros Hk. unfold set_slice. rewrite nth_seq_map by assumption.
  destruct (_ && _); [reflexivity|]. now apply nth_indep.
Qed.
Lemma length_set_slice {A} (l : list A) lo hi (x : A) : length (set_slice l lo hi x) = length l.
Proof. unfold set_slice. now rewrite map_length, seq_length. Qed.

Lemma iso_loop_ok s fuel : Inv n s -> forall e acc, (e <= fuel)%nat -> (e <= n)%nat ->
  (e <= length acc)%nat ->
  forall level, (forall j, (j < n)%nat -> vg level j = M s j) ->
  exists x r, Fit s e x /\ iso_loop (N:=RNum) fuel e level (p_index s) acc = Ok r /\
    length r = length acc /\
    (forall k, (k < length acc)%nat ->
       nth k r None = if (k <? e)%nat then Some (x k) else nth k acc None).
Proof.
  intros HI. pose proof HI as (HL & HG & HE0 & _).
  induction fuel as [|f IH]; intros e acc Hf He Ha level Hlev.
  - assert (e = 0)%nat as -> by lia. exists (fun _ => 0), acc. cbn.
    split; [constructor|]. auto.
  - destruct e as [|j].
    + exists (fun _ => 0), acc. cbn. split; [constructor|]. auto.
    + cbn [iso_loop]. fold (ix s j). destruct (HG j ltac:(lia)) as (((B1 & _) & _) & _).
      destruct (IH (ix s j) (set_slice acc (ix s j) (S j) (Some (vg level j)))
                   ltac:(lia) ltac:(lia) ltac:(rewrite length_set_slice; lia) level Hlev)
        as (x & r & F1 & F2 & F3 & F4).
      rewrite length_set_slice in *.
      exists (fun i => if (i <? ix s j)%nat then x i else M s j), r.
      split; [|split; [exact F2|split; [exact F3|]]].
      * constructor.
        -- assert (Hext : forall e u v, Fit s e u -> (forall i, (i < e)%nat -> u i = v i) ->
             (e <= n)%nat -> Fit s e v).
           { clear -HG. induction e as [e IHe] using lt_wf_ind. intros u v H E Hen.
             inversion H as [|j x' H1 H2]; subst; [constructor|].
             destruct (HG j ltac:(lia)) as (((B1 & _) & _) & _).
             constructor.
             - eapply IHe; eauto; try lia. intros; apply E; lia.
             - intros i Hi. rewrite <- E by lia. apply H2; lia. }
           eapply Hext; [exact F1| |lia]. intros i Hi. cbv beta.
           destruct (Nat.ltb_spec i (ix s j)); [reflexivity|lia].
        -- intros i Hi. destruct (Nat.ltb_spec i (ix s j)); [lia|reflexivity].
      * intros k Hk. rewrite F4 by assumption.
        destruct (Nat.ltb_spec k (ix s j)) as [H1|H1].
        -- destruct (Nat.ltb_spec k (S j)); [reflexivity|lia].
        -- rewrite nth_set_slice by assumption.
           destruct (Nat.leb_spec (ix s j) k); [|lia]. cbn [andb].
           destruct (Nat.ltb_spec k (S j)); [|reflexivity].
           now rewrite Hlev by lia.
Qed.

End Pava.

(** ** prefix_isotonic_regression *)
Lemma prefix_ok (y : list R) (wo : option (list R)) (nn : bool) :
  (0 < length y)%nat ->
  let w := match wo with None => repeat 1 (length y) | Some w => w end in
  length w = length y -> (forall i, (i < length y)%nat -> 0 < vg w i) ->
  exists s level,
    prefix_isotonic_regression (N:=RNum) store_float y wo nn = Ok ((level, p_index s), p_error s) /\
    length level = length y /\
    Inv y w nn (length y) s /\
    (forall j, (j < length y)%nat -> vg level j = M nn s j).
Proof.
  intros Hn w Hlw Hw. unfold prefix_isotonic_regression.
  cbv zeta. rn. fold w.
  destruct (Nat.eqb_spec (length y) 0) as [E|_]; [lia|].
  set (cum := cumsum _).
  set (s0 := PState _ _ _ _ _ _ _).
  assert (Lwy : length (vmul (N:=RNum) w y) = length y)
    by (unfold vmul; rewrite length_map2; lia).
  assert (Lwy2 : length (vmul (N:=RNum) (vmul w y) y) = length y)
    by (unfold vmul at 1; rewrite length_map2; lia).
  assert (Gwy : forall j, (j < length y)%nat -> vg (vmul (N:=RNum) w y) j = vg w j * vg y j).
  { intros j Hj. apply vg_vmul; lia. }
  assert (Gwy2 : forall j, (j < length y)%nat -> vg (vmul (N:=RNum) (vmul w y) y) j = vg w j * vg y j * vg y j).
  { intros j Hj. rewrite vg_vmul by lia. rewrite Gwy by lia. reflexivity. }
  assert (Hcum : forall i, (i < length y)%nat ->
            vg cum i = rsum (S i) (fun i => vg w i * vg y i * vg y i)).
  { intros i Hi. unfold cum, cumsum. rewrite vget_vbuild by lia. rewrite nsum_rsum.
    apply rsum_ext. intros k Hk. apply Gwy2; lia. }
  assert (Hlv0 : vg (upd (repeat 0 (length y)) 0 (vg y 0)) 0 = vg y 0).
  { rn; rewrite vg_upd_eq by (rewrite repeat_length; rlia). reflexivity. }
  assert (HI1 : Inv y w nn 1 s0).
  { unfold Inv. split; [|split; [|split]].
    - unfold s0, Lens; cbn -[repeat]. rn. rewrite !length_upd, !repeat_length.
      split; [exact Lwy|]. split; [exact Lwy2|]. split; [exact Hlw|]. split; [reflexivity|].
      split; [reflexivity|].
      destruct (nn && _); rewrite ?length_upd, ?repeat_length; auto 10.
    - intros j Hj. assert (j = 0)%nat as -> by lia.
      assert (Eix : ix s0 0 = 0%nat) by (unfold ix, s0, iget; cbn; now apply nth_repeat_lt).
      assert (Elv : lv s0 0 = vg y 0) by (unfold lv, s0; cbn [p_level]; rn; exact Hlv0).
      split.
      + split; [|now left]. unfold Blk. rewrite Eix, Elv.
        unfold s0; cbn [p_sumwy p_sumwy2 p_sumw]. rewrite !bs_one, Gwy, Gwy2 by lia.
        split; [lia|]. do 4 (split; [lra|]).
        intros k Hk. destruct k as [|[|k]]; [rewrite bs_nil; lra| |lia].
        rewrite bs_one; lra.
      + unfold ErrOk, isneg. rewrite Elv, Eix. unfold s0; cbn [p_error p_thr p_sumwy p_sumwy2 p_sumw].
        rn. rewrite Hlv0. destruct (nn && nltb (N:=RNum) (vg y 0) 0).
        * split.
          -- rn; rewrite vg_upd_eq by (rewrite repeat_length; rlia). now apply Hcum.
          -- apply nth_upd_eq. rewrite repeat_length; lia.
        * split; [|now apply nth_repeat_lt].
          rewrite Gwy, Gwy2 by lia.
          replace (vg (repeat 0 (S (length y))) 1) with 0 by (symmetry; apply (nth_repeat_lt 0 0); lia).
          replace (vg (repeat 0 (S (length y))) 0) with 0 by (symmetry; apply (nth_repeat_lt 0 0); lia).
          pose proof (Hw 0%nat ltac:(lia)). field. lra.
    - unfold s0; cbn [p_error]. unfold vget. destruct (nn && _).
      + rewrite nth_upd_neq by lia. apply nth_repeat_lt; lia.
      + apply nth_repeat_lt; lia.
    - intros j Hj1 Hj2. unfold s0; cbn [p_sumwy p_sumwy2 p_sumw p_thr].
      rewrite Gwy, Gwy2 by lia. repeat (split; [reflexivity|]).
      destruct (nn && _); [rewrite nth_upd_neq by lia|]; now apply nth_repeat_lt. }
  destruct (for_inv y w nn Hlw Hw cum Hcum (length y - 1) 1 s0 ltac:(lia) HI1) as (s & R & HI).
  rewrite R. cbn [bind]. exists s. eexists. split; [reflexivity|].
  pose proof HI as ((L1&L2&L3&L4&L5&L6&L7) & HG & _ & _).
  split; [|split; [exact HI|]].
  - destruct nn; [rewrite length_map2; lia|assumption].
  - intros j Hj. destruct (HG j Hj) as (_ & (_ & Ht)). unfold M. rewrite <- Ht.
    destruct nn.
    + unfold vget. rewrite (nth_map2 _ _ _ _ false 0) by lia. reflexivity.
    + unfold isneg in Ht. cbn in Ht. now rewrite Ht.
Qed.

(** Prefix fit number e as a list of numbers. *)
Lemma compute_ok (y w : list R) nn s level e :
  length w = length y -> (forall i, (i < length y)%nat -> 0 < vg w i) ->
  Inv y w nn (length y) s -> length level = length y ->
  (forall j, (j < length y)%nat -> vg level j = M nn s j) -> (e <= length y)%nat ->
  exists x, Fit nn s e x /\
    compute_isotonic_from_index (N:=RNum) e level (p_index s) = Ok (map (fun k => Some (x k)) (seq 0 e)).
Proof.
  intros Hlw Hw HI Hlen Hlev He. unfold compute_isotonic_from_index.
  rewrite Hlen, (Nat.min_l e) by lia.
  destruct (iso_loop_ok y w nn Hlw s e HI e (repeat None e) (le_n _) He
              ltac:(rewrite repeat_length; lia) level Hlev) as (x & r & F & R & L & H).
  exists x. split; [exact F|]. rewrite R. f_equal.
  rewrite repeat_length in *.
  apply (list_eq_nth _ _ None).
  - now rewrite map_length, seq_length.
  - intros k Hk. rewrite H by lia. rewrite nth_seq_map by lia.
    destruct (Nat.ltb_spec k e); [reflexivity|lia].
Qed.

(** ** _get_best_unimodality_index *)
Lemma best_fold (el er : list R) l : forall acc r,
  fold_left (best_step (N:=RNum) el er) l acc = r ->
  snd r <= snd acc /\ (forall i, In i l -> snd r <= vg el i + vg er (length el - i - 1)) /\
  (r = acc \/ (In (fst r) l /\ snd r = vg el (fst r) + vg er (length el - (fst r) - 1))).
Proof.
  induction l as [|i l IH]; intros acc r Hr; cbn [fold_left] in Hr.
  - subst r. split; [apply Rle_refl|]. split; [intros i []|now left].
  - destruct (IH _ _ Hr) as (H1 & H2 & H3). clear Hr IH.
    set (f := vg el i + vg er (length el - i - 1)).
    set (b := best_step (N:=RNum) el er acc i) in *.
    assert (Hs : snd b <= snd acc /\ snd b <= f /\ (b = acc \/ b = (i, f))).
    { unfold b, best_step. rn. fold f. destruct (nltb_spec f (snd acc)); cbn [snd]; split; try lra.
      - split; [lra|now right].
      - split; [lra|now left]. }
    clearbody b.
    destruct Hs as (Hs1 & Hs2 & Hs3).
    split; [exact (Rle_trans _ _ _ H1 Hs1)|]. split.
    + intros k [<-|Hk]; [exact (Rle_trans _ _ _ H1 Hs2)|]. now apply H2.
    + destruct H3 as [->|(H3 & H4)].
      * destruct Hs3 as [->| ->]; [now left|right]. cbn; auto.
      * right. split; [now right|assumption].
Qed.

Lemma best_ok (el er : list R) n : length el = S n -> length er = S n -> vg el 0 = 0 ->
  let r := get_best_unimodality_index (N:=RNum) el er in
  (fst r <= n)%nat /\ snd r = vg el (fst r) + vg er (n - fst r) /\
  forall i, (i <= n)%nat -> snd r <= vg el i + vg er (n - i).
Proof.
  intros Ll Lr H0 r.
  assert (Er : r = fold_left (best_step (N:=RNum) el er) (seq 0 (S n)) (0%nat, vg er n)).
  { unfold r, get_best_unimodality_index. rn. rewrite Ll, Lr. now rewrite Nat.sub_succ, Nat.sub_0_r. }
  destruct (best_fold el er (seq 0 (S n)) (0%nat, vg er n) r (eq_sym Er)) as (H1 & H2 & H3).
  clear Er. clearbody r. cbn [snd fst] in *.
  assert (Hsub : forall i, (length el - i - 1 = n - i)%nat) by (intros; lia).
  split; [|split].
  - destruct H3 as [E|(H3 & _)]; [rewrite E; cbn; lia|]. apply in_seq in H3. lia.
  - destruct H3 as [E|(H3 & E)].
    + rewrite E; cbn [fst snd]. rewrite H0, Nat.sub_0_r. rn. lra.
    + rewrite Hsub in E. exact E.
  - intros i Hi. specialize (H2 i). rewrite Hsub in H2. apply H2. apply in_seq; lia.
Qed.

(** ** unimodal_regression on a vector *)
(** unimodality of a function on indices 0..n-1 *)
Definition fuimod (n : nat) (z : nat -> R) (t : nat) : Prop :=
  (t < n)%nat /\ (forall i, (S i <= t)%nat -> z i <= z (S i)) /\
  (forall i, (t <= i)%nat -> (S i < n)%nat -> z (S i) <= z i).

Lemma vg_rev (y : list R) i : (i < length y)%nat -> vg (rev y) i = vg y (length y - 1 - i).
Proof. intros H. unfold vget. rn. rewrite rev_nth by assumption. f_equal. lia. Qed.

Lemma unimodal_1d_ok (y : list R) (nn : bool) : (0 < length y)%nat ->
  exists (u : nat -> R) err t,
    unimodal_regression_1d (N:=RNum) store_float y nn
      = Ok (map (fun i => Some (u i)) (seq 0 (length y)), err) /\
    fuimod (length y) u t /\
    (nn = true -> forall i, (i < length y)%nat -> 0 <= u i) /\
    err = rsum (length y) (fun i => (vg y i - u i) ^ 2) /\
    (forall z t', fuimod (length y) z t' ->
       (nn = true -> forall i, (i < length y)%nat -> 0 <= z i) ->
       err <= rsum (length y) (fun i => (vg y i - z i) ^ 2)).
Proof.
  intros Hn. set (n := length y).
  assert (Lr : length (rev y) = n) by (apply rev_length).
  assert (W1 : forall m i, (i < m)%nat -> vg (repeat 1 m) i = 1).
  { intros m i Hi. unfold vget. now apply nth_repeat_lt. }
  destruct (prefix_ok y None nn Hn) as (sl & ll & PL & LLl & IL & ML).
  { apply repeat_length. }
  { intros i Hi. rewrite W1 by assumption. lra. }
  destruct (prefix_ok (rev y) None nn) as (sr & lr & PR & LLr & IR & MR).
  { fold n in Hn. rewrite Lr. exact Hn. }
  { apply repeat_length. }
  { intros i Hi. rewrite W1 by assumption. lra. }
  set (wl := repeat 1 (length y)) in *. set (wr := repeat 1 (length (rev y))) in *.
  unfold unimodal_regression_1d. rn. rewrite PL. cbn [bind]. rewrite PR. cbn [bind fst snd].
  pose proof IL as ((_&_&_&_&_&EL&_) & _ & E0 & _).
  pose proof IR as ((_&_&_&_&_&ER&_) & _ & _ & _).
  rewrite Lr in ER, LLr, MR. fold n in EL, LLl, ML.
  destruct (get_best_unimodality_index (p_error sl) (p_error sr)) as [b err] eqn:Eb.
  pose proof (best_ok (p_error sl) (p_error sr) n EL ER E0) as HB. cbv zeta in HB.
  rn. rewrite Eb in HB. cbn [fst snd] in HB. destruct HB as (Hb & Herr & Hmin).
  assert (Hwl : length wl = length y) by apply repeat_length.
  assert (Hwr : length wr = length (rev y)) by apply repeat_length.
  assert (Hpl : forall i, (i < length y)%nat -> 0 < vg wl i).
  { intros i Hi. unfold wl. rewrite W1 by assumption. lra. }
  assert (Hpr : forall i, (i < length (rev y))%nat -> 0 < vg wr i).
  { intros i Hi. unfold wr. rewrite W1 by assumption. lra. }
  assert (W1l : forall i, (i < n)%nat -> vg wl i = 1) by (intros; apply W1; assumption).
  assert (W1r : forall i, (i < n)%nat -> vg wr i = 1).
  { intros; unfold wr. apply W1. now rewrite Lr. }
  destruct (compute_ok y wl nn sl ll b Hwl Hpl IL LLl ML Hb) as (xl & FL & CL).
  destruct (compute_ok (rev y) wr nn sr lr (n - b) Hwr Hpr IR) as (xr & FR & CR).
  { rewrite Lr; assumption. }
  { rewrite Lr; assumption. }
  { rewrite Lr; lia. }
  rewrite CL. cbn [bind]. fold n. rewrite CR. cbn [bind].
  set (u := fun i => if (i <? b)%nat then xl i else xr (n - 1 - i)%nat).
  pose proof (Fit_feas y wl nn Hwl sl b IL Hb xl FL) as (FL1 & FL2).
  assert (Hnb : (n - b <= length (rev y))%nat) by (rewrite Lr; lia).
  pose proof (Fit_feas (rev y) wr nn Hwr sr (n - b) IR Hnb xr FR) as (FR1 & FR2).
  assert (Hul : forall i, (i < b)%nat -> u i = xl i).
  { intros i Hi. unfold u. destruct (Nat.ltb_spec i b); [reflexivity|lia]. }
  assert (Hur : forall i, (b <= i)%nat -> u i = xr (n - 1 - i)%nat).
  { intros i Hi. unfold u. destruct (Nat.ltb_spec i b); [lia|reflexivity]. }
  assert (HuL : forall i, (S i < b)%nat -> u i <= u (S i)).
  { intros i Hi. rewrite !Hul by lia. now apply FL1. }
  assert (HuR : forall i, (b <= i)%nat -> (S i < n)%nat -> u (S i) <= u i).
  { intros i Hi1 Hi2. rewrite !Hur by lia. replace (n - 1 - i)%nat with (S (n - 1 - S i)) by lia.
    apply FR1. lia. }
  assert (HuN : nn = true -> forall i, (i < n)%nat -> 0 <= u i).
  { intros E i Hi. destruct (Nat.lt_ge_cases i b).
    - rewrite Hul by lia. apply FL2; auto.
    - rewrite Hur by lia. apply FR2; auto; lia. }
  (* errors of the halves *)
  assert (SR : forall z e, (e <= n)%nat ->
     rsum (n - e) (fun i => vg wr i * (vg (rev y) i - z (n - 1 - i)%nat) ^ 2)
     = rsum (n - e) (fun i => (vg y (e + i)%nat - z (e + i)%nat) ^ 2)).
  { intros z e He. rewrite <- (rsum_rev (n - e) (fun i => (vg y (e + i)%nat - z (e + i)%nat) ^ 2)).
    apply rsum_ext. intros i Hi. rewrite W1r by lia. rewrite vg_rev by (fold n; lia).
    fold n. replace (e + (n - e - 1 - i))%nat with (n - 1 - i)%nat by lia. lra. }
  assert (SL : forall z e, (e <= n)%nat ->
     rsum e (fun i => vg wl i * (vg y i - z i) ^ 2) = rsum e (fun i => (vg y i - z i) ^ 2)).
  { intros z e He. apply rsum_ext. intros i Hi. rewrite W1l by lia. lra. }
  assert (SS : forall z e, (e <= n)%nat ->
     rsum n (fun i => (vg y i - z i) ^ 2) =
     rsum e (fun i => (vg y i - z i) ^ 2) + rsum (n - e) (fun i => (vg y (e + i)%nat - z (e + i)%nat) ^ 2)).
  { intros z e He. replace n with (e + (n - e))%nat at 1 by lia. apply rsum_split. }
  assert (Hu : err = rsum n (fun i => (vg y i - u i) ^ 2)).
  { rewrite Herr.
    rewrite (Fit_error y wl nn Hwl Hpl sl b IL Hb xl FL).
    rewrite (Fit_error (rev y) wr nn Hwr Hpr sr (n - b) IR Hnb xr FR).
    rewrite (SS u b Hb). f_equal.
    - rewrite (SL xl b Hb). apply rsum_ext. intros i Hi. now rewrite Hul by lia.
    - rewrite <- (SR u b Hb). apply rsum_ext. intros i Hi.
      rewrite Hur by lia. replace (n - 1 - (n - 1 - i))%nat with i by lia. reflexivity. }
  assert (exists t, fuimod n u t) as [t Ht].
  { unfold fuimod. destruct (Nat.eq_dec b 0) as [->|Hb0].
    { exists 0%nat. split; [lia|]. split; [intros; lia|]. intros; apply HuR; lia. }
    destruct (Nat.eq_dec b n) as [->|Hbn].
    { exists (n - 1)%nat. split; [lia|]. split; [|intros; lia]. intros; apply HuL; lia. }
    destruct (Rle_dec (u (b - 1)%nat) (u b)) as [Hle|Hgt].
    - exists b. split; [lia|]. split; [|intros; apply HuR; lia].
      intros i Hi. destruct (Nat.eq_dec (S i) b) as [E|Hne].
      + replace i with (b - 1)%nat at 1 by lia. now rewrite E.
      + apply HuL; lia.
    - exists (b - 1)%nat. split; [lia|]. split; [intros; apply HuL; lia|].
      intros i Hi1 Hi2. destruct (Nat.eq_dec i (b - 1)) as [->|Hne].
      + replace (S (b - 1)) with b by lia. lra.
      + apply HuR; lia. }
  exists u, err, t. split; [|split; [exact Ht|split; [exact HuN|split; [exact Hu|]]]].
  - f_equal. f_equal. apply (list_eq_nth _ _ None).
    + rewrite app_length, rev_length, !map_length, !seq_length. lia.
    + intros i Hi. rewrite app_length, rev_length, !map_length, !seq_length in Hi.
      rewrite nth_seq_map by lia.
      destruct (Nat.lt_ge_cases i b).
      * rewrite app_nth1 by (rewrite map_length, seq_length; lia).
        rewrite nth_seq_map by lia. now rewrite Hul by lia.
      * rewrite app_nth2 by (rewrite map_length, seq_length; lia).
        rewrite map_length, seq_length.
        rewrite rev_nth by (rewrite map_length, seq_length; lia).
        rewrite map_length, seq_length, nth_seq_map by lia.
        rewrite Hur by lia. f_equal. f_equal. lia.
  - intros z t' (Z1 & Z2 & Z3) ZN.
    pose proof (Hmin (S t') ltac:(lia)) as Hm.
    destruct (compute_ok y wl nn sl ll (S t') Hwl Hpl IL LLl ML ltac:(fold n; lia)) as (xl' & FL' & _).
    destruct (compute_ok (rev y) wr nn sr lr (n - S t') Hwr Hpr IR) as (xr' & FR' & _).
    { rewrite Lr; assumption. }
    { rewrite Lr; assumption. }
    { rewrite Lr; lia. }
    assert (Zl : feas nn (S t') z).
    { split; [intros i Hi; apply Z2; lia|intros E i Hi; apply ZN; [exact E|lia]]. }
    assert (Zr : feas nn (n - S t') (fun i => z (n - 1 - i)%nat)).
    { split.
      - intros i Hi. cbv beta. replace (n - 1 - i)%nat with (S (n - 1 - S i)) by lia. apply Z3; lia.
      - intros E i Hi. apply ZN; [exact E|]. lia. }
    pose proof (Fit_opt y wl nn Hwl Hpl sl (S t') IL ltac:(fold n; lia) xl' FL' z Zl) as OL.
    pose proof (Fit_opt (rev y) wr nn Hwr Hpr sr (n - S t') IR ltac:(rewrite Lr; lia) xr' FR' _ Zr) as OR_.
    cbv beta in OR_. rewrite (SR z (S t') ltac:(lia)) in OR_. rewrite (SL z (S t') ltac:(lia)) in OL.
    rewrite (SS z (S t') ltac:(lia)).
    assert (0 <= rsum (S t') (fun i => vg wl i * (xl' i - z i) ^ 2)).
    { apply rsum_nonneg. intros i Hi. rewrite W1l by lia. rewrite Rmult_1_l. apply pow2_ge_0. }
    assert (0 <= rsum (n - S t') (fun i => vg wr i * (xr' i - z (n - 1 - i)%nat) ^ 2)).
    { apply rsum_nonneg. intros i Hi. rewrite W1r by lia. rewrite Rmult_1_l. apply pow2_ge_0. }
    lra.
Qed.
