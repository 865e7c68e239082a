(** Unimodal regression under any arithmetic. *)
From Coq Require Import Lia List Arith Bool ZArith.
From Verif Require Import Num Numpy RFacts Unimodal Penalties OrderSpec.
Import ListNotations.

Section OrderUni.
Context {N : Num}.
Hypothesis HO : ordered.

Lemma le_total x y : le x y \/ le y x. Proof. apply HO. Qed.
Lemma le_refl x : le x x. Proof. now destruct (le_total x x). Qed.
Lemma le_trans x y z : le x y -> le y z -> le x z. Proof. apply HO. Qed.
Lemma ltb_le x y : nltb x y = true -> le x y.
Proof. unfold nltb. intros H. destruct (le_total x y) as [K|K]; [exact K|]. unfold le in K. rewrite K in H. discriminate. Qed.
Lemma ltb_false x y : nltb x y = false -> le y x.
Proof. unfold nltb, le. now destruct (nleb y x). Qed.
Lemma leb_false x y : nleb x y = false -> le y x.
Proof. intros H. destruct (le_total x y) as [K|K]; [unfold le in K; congruence|exact K]. Qed.
Lemma max_l x y : le x (nmax x y).
Proof. unfold nmax. destruct (nleb x y) eqn:E; [exact E|apply le_refl]. Qed.
Lemma max_r x y : le y (nmax x y).
Proof. unfold nmax. destruct (nleb x y) eqn:E; [apply le_refl|now apply leb_false]. Qed.
Lemma min_l x y : le (nmin x y) x.
Proof. unfold nmin. destruct (nleb x y) eqn:E; [apply le_refl|now apply leb_false]. Qed.
Lemma min_r x y : le (nmin x y) y.
Proof. unfold nmin. destruct (nleb x y) eqn:E; [exact E|apply le_refl]. Qed.
Lemma max_case x y (Q : num -> Prop) : Q x -> Q y -> Q (nmax x y).
Proof. unfold nmax. now destruct (nleb x y). Qed.
Lemma min_case x y (Q : num -> Prop) : Q x -> Q y -> Q (nmin x y).
Proof. unfold nmin. now destruct (nleb x y). Qed.

(** ** The while loop *)
Definition blocks (i : nat) (s : pstate) : Prop := forall k, k < i -> iget (p_index s) k <= k.
Lemma merge_loop_ok store fuel : forall i s, iget (p_index s) i <= fuel -> iget (p_index s) i <= i ->
  i < length (p_level s) -> i < length (p_index s) -> blocks i s ->
  exists s', merge_loop store fuel i s = Ok s' /\
    length (p_level s') = length (p_level s) /\ length (p_index s') = length (p_index s) /\
    p_error s' = p_error s /\ p_thr s' = p_thr s /\
    (forall k, k <> i -> vget (p_level s') k = vget (p_level s) k /\ iget (p_index s') k = iget (p_index s) k) /\
    iget (p_index s') i <= i /\ (iget (p_index s') i <> 0 -> le (vget (p_level s') (iget (p_index s') i - 1)) (vget (p_level s') i)).
Proof.
  induction fuel as [|f IH]; intros i s HF HI HL HX HB; cbn [merge_loop]; cbv zeta.
  - assert (Z : iget (p_index s) i = 0) by lia. rewrite Z. cbn [Nat.eqb negb andb].
    exists s. do 5 (split; [reflexivity|]). split; [auto|]. split; [lia|]. intros K. lia.
  - destruct (iget (p_index s) i =? 0) eqn:E0; cbn [negb andb].
    { apply Nat.eqb_eq in E0. exists s. do 5 (split; [reflexivity|]). split; [auto|]. split; [lia|]. intros K. lia. }
    apply Nat.eqb_neq in E0. set (st := iget (p_index s) i) in *.
    destruct (nleb (vget (p_level s) i) (vget (p_level s) (st - 1))) eqn:EL.
    2:{ exists s. do 5 (split; [reflexivity|]). split; [auto|]. split; [exact HI|]. intros _. apply leb_false. exact EL. }
    match goal with |- context[merge_loop store f i ?x] => set (s2 := x) end.
    assert (EI : p_index s2 = upd (p_index s) i (iget (p_index s) (st - 1))) by reflexivity.
    assert (EV : exists x, p_level s2 = upd (p_level s) i x) by (eexists; reflexivity). destruct EV as (x & EV).
    assert (EE : p_error s2 = p_error s /\ p_thr s2 = p_thr s) by (split; reflexivity). clearbody s2.
    assert (G1 : iget (p_index s2) i = iget (p_index s) (st - 1)) by (rewrite EI; unfold iget; now rewrite nth_upd_eq).
    assert (G2 : forall k, k <> i -> vget (p_level s2) k = vget (p_level s) k /\ iget (p_index s2) k = iget (p_index s) k).
    { intros k Hk. rewrite EI, EV. unfold vget, iget. now rewrite !nth_upd_neq. }
    pose proof (HB (st - 1) ltac:(lia)) as B1.
    destruct (IH i s2) as (s' & K0 & K1 & K2 & K3 & K4 & K5 & K6 & K7).
    + rewrite G1. lia.
    + rewrite G1. lia.
    + rewrite EV, length_upd. exact HL.
    + rewrite EI, length_upd. exact HX.
    + intros k Hk. rewrite (proj2 (G2 k ltac:(lia))). now apply HB.
    + exists s'. split; [exact K0|]. rewrite K1, K2, K3, K4, EI, EV, !length_upd. split; [reflexivity|]. split; [reflexivity|].
      split; [apply EE|]. split; [apply EE|]. split; [|auto]. intros k Hk. destruct (K5 k Hk) as (-> & ->). now apply G2.
Qed.

(** ** The for loop *)
Definition tidy (nn : bool) (n i : nat) (s : pstate) : Prop :=
  length (p_level s) = n /\ length (p_index s) = n /\ length (p_error s) = S n /\ length (p_thr s) = n /\
  (forall k, k < i -> iget (p_index s) k <= k /\
     (iget (p_index s) k <> 0 -> le (vget (p_level s) (iget (p_index s) k - 1)) (vget (p_level s) k)) /\
     nth k (p_thr s) false = (nn && nltb (vget (p_level s) k) n0)) /\
  (forall k, i <= k -> nth k (p_thr s) false = false).
Lemma prefix_step_ok store nn y cum n i s : tidy nn n i s -> i < n ->
  exists s', prefix_step store nn y cum s i = Ok s' /\ tidy nn n (S i) s'.
Proof.
  intros (T1 & T2 & T3 & T4 & T5 & T6) Hi. unfold prefix_step. cbv zeta.
  match goal with |- context[merge_loop store i i ?x] => set (s0 := x) end.
  assert (I0 : iget (p_index s0) i = i) by (cbn [s0 p_index]; unfold iget; apply nth_upd_eq; lia).
  assert (IK : forall k, k <> i -> vget (p_level s0) k = vget (p_level s) k /\ iget (p_index s0) k = iget (p_index s) k).
  { intros k Hk. cbn [s0 p_index p_level]. unfold vget, iget. now rewrite !nth_upd_neq. }
  destruct (merge_loop_ok store i i s0) as (s1 & K0 & K1 & K2 & K3 & K4 & K5 & K6 & K7).
  { lia. } { lia. } { cbn [s0 p_level]. rewrite length_upd. lia. } { cbn [s0 p_index]. rewrite length_upd. lia. }
  { intros k Hk. rewrite (proj2 (IK k ltac:(lia))). now apply T5. }
  rewrite K0. cbn [bind]. cbn [s0 p_level p_index p_error p_thr] in K1, K2, K3, K4. rewrite length_upd in K1. rewrite length_upd in K2.
  assert (OLD : forall k, k <> i -> vget (p_level s1) k = vget (p_level s) k /\ iget (p_index s1) k = iget (p_index s) k).
  { intros k Hk. destruct (K5 k Hk) as (-> & ->). now apply IK. }
  assert (CORE : forall thr err, length thr = n -> length err = S n ->
     nth i thr false = (nn && nltb (vget (p_level s1) i) n0) -> (forall k, k <> i -> nth k thr false = nth k (p_thr s) false) ->
     tidy nn n (S i) (PState (p_sumwy s1) (p_sumwy2 s1) (p_sumw s1) (p_level s1) (p_index s1) err thr)).
  { intros thr err L1 L2 H1 H2. split; [cbn; lia|]. split; [cbn; lia|]. split; [exact L2|]. split; [exact L1|]. cbn [p_level p_index p_thr]. split.
    - intros k Hk. destruct (Nat.eq_dec k i) as [->|NE]; [auto|]. destruct (OLD k NE) as (E1 & E2). destruct (T5 k ltac:(lia)) as (A1 & A2 & A3).
      rewrite E1, E2. split; [exact A1|]. split; [|now rewrite H2]. intros NZ. destruct (OLD (iget (p_index s) k - 1) ltac:(lia)) as (-> & _). auto.
    - intros k Hk. rewrite H2 by lia. apply T6. lia. }
  destruct (nn && nltb (vget (p_level s1) i) n0) eqn:EB.
  - eexists. split; [reflexivity|]. apply CORE.
    + rewrite length_upd, K4. exact T4.
    + rewrite length_upd, K3. exact T3.
    + rewrite nth_upd_eq; [reflexivity|]. rewrite K4. lia.
    + intros k Hk. rewrite nth_upd_neq by exact Hk. now rewrite K4.
  - eexists. split; [reflexivity|]. apply CORE.
    + now rewrite K4.
    + rewrite length_upd, K3. exact T3.
    + rewrite K4. apply T6. lia.
    + intros k Hk. now rewrite K4.
Qed.
Lemma prefix_for_ok store nn y cum n : forall m i s, i + m = n -> tidy nn n i s ->
  exists s', prefix_for store nn y cum (seq i m) s = Ok s' /\ tidy nn n n s'.
Proof.
  induction m as [|m IH]; intros i s Hm T; cbn [seq prefix_for].
  - exists s. split; [reflexivity|]. replace i with n in T by lia. exact T.
  - destruct (prefix_step_ok store nn y cum n i s T ltac:(lia)) as (s1 & E1 & T1). rewrite E1. cbn [bind]. apply IH; [lia|exact T1].
Qed.

(** Levels with block starts: what the regression of prefixes returns. *)
Definition staircase (nn : bool) (n : nat) (lv : list num) (ix : list nat) : Prop :=
  length lv = n /\ forall k, k < n -> iget ix k <= k /\ (iget ix k <> 0 -> le (vget lv (iget ix k - 1)) (vget lv k)) /\ (nn = true -> le n0 (vget lv k)).
Lemma prefix_ok store nn y : y <> [] ->
  exists lv ix err, prefix_isotonic_regression store y None nn = Ok ((lv, ix), err) /\ staircase nn (length y) lv ix /\ length err = S (length y).
Proof.
  intros NE. unfold prefix_isotonic_regression. set (n := length y). assert (Hn : 0 < n) by (destruct y; [easy|cbn in n; lia]).
  destruct (n =? 0) eqn:E0; [apply Nat.eqb_eq in E0; lia|]. cbv zeta.
  match goal with |- context[prefix_for store nn y ?c _ _] => set (cum := c) end.
  match goal with |- context[prefix_for store nn y _ _ ?s] => set (s0 := s) end.
  destruct (prefix_for_ok store nn y cum n (n - 1) 1 s0) as (s & E1 & T).
  - lia.
  - assert (LV : vget (p_level s0) 0 = vget y 0) by (cbn [s0 p_level]; unfold vget at 1; rewrite nth_upd_eq; [reflexivity|rewrite repeat_length; lia]).
    split; [cbn [s0 p_level]; now rewrite length_upd, repeat_length|]. split; [cbn [s0 p_index]; apply repeat_length|].
    split; [cbn [s0 p_error]; destruct (nn && _); rewrite ?length_upd, repeat_length; lia|].
    split; [cbn [s0 p_thr]; destruct (nn && _); rewrite ?length_upd, repeat_length; lia|]. split.
    + intros k Hk. assert (k = 0) by lia. subst k.
      assert (IX : iget (p_index s0) 0 = 0) by (cbn [s0 p_index]; unfold iget; apply nth_repeat).
      rewrite IX. split; [lia|]. split; [lia|]. cbn [s0 p_thr p_level].
      match goal with |- context[if ?b then _ else _] => destruct b eqn:EB end.
      * rewrite nth_upd_eq by (rewrite repeat_length; lia). reflexivity.
      * apply nth_repeat.
    + intros k Hk. cbn [s0 p_thr]. destruct (nn && _); rewrite ?nth_upd_neq by lia; apply nth_repeat.
  - rewrite E1. cbn [bind]. destruct T as (T1 & T2 & T3 & T4 & T5 & _).
    do 3 eexists. split; [reflexivity|]. split; [|exact T3]. destruct nn.
    + split; [rewrite length_map2, T4, T1; lia|].
      assert (LV : forall k, k < n -> vget (map2 (fun (b : bool) x => if b then n0 else x) (p_thr s) (p_level s)) k =
                                    if nltb (vget (p_level s) k) n0 then n0 else vget (p_level s) k).
      { intros k Hk. unfold vget at 1. rewrite (nth_map2 _ _ _ k false n0) by lia. destruct (T5 k Hk) as (_ & _ & ->). reflexivity. }
      intros k Hk. destruct (T5 k Hk) as (A1 & A2 & _). split; [exact A1|]. split.
      * intros NZ. specialize (A2 NZ). rewrite !LV by lia.
        destruct (nltb (vget (p_level s) (iget (p_index s) k - 1)) n0) eqn:B1, (nltb (vget (p_level s) k) n0) eqn:B2.
        -- apply le_refl.
        -- now apply ltb_false.
        -- exfalso. apply ltb_false in B1. unfold nltb in B2. apply negb_true_iff in B2. pose proof (le_trans _ _ _ B1 A2) as C. unfold le in C. congruence.
        -- exact A2.
      * intros _. rewrite LV by exact Hk. destruct (nltb (vget (p_level s) k) n0) eqn:B; [apply le_refl|now apply ltb_false].
    + split; [exact T1|]. intros k Hk. destruct (T5 k Hk) as (A1 & A2 & _). split; [exact A1|]. split; [exact A2|]. discriminate.
Qed.

(** ** Filling the blocks *)
Lemma nth_map_seq {A} (f : nat -> A) n k d : k < n -> nth k (map f (seq 0 n)) d = f k.
Proof.
  intros Hk. rewrite (nth_indep _ d (f 0)) by (rewrite map_length, seq_length; exact Hk). now rewrite map_nth, seq_nth.
Qed.
Lemma length_set_slice {A} (l : list A) lo hi x : length (set_slice l lo hi x) = length l.
Proof. unfold set_slice. now rewrite map_length, seq_length. Qed.
Lemma nth_set_slice {A} (l : list A) lo hi x k d : k < length l ->
  nth k (set_slice l lo hi x) d = if (lo <=? k) && (k <? hi) then x else nth k l d.
Proof.
  intros Hk. unfold set_slice. rewrite nth_map_seq by exact Hk. destruct ((lo <=? k) && (k <? hi)); [reflexivity|now apply nth_indep].
Qed.
Definition filled (nn : bool) (e : nat) (y : list (option num)) : Prop :=
  forall k, e <= k -> k < length y -> exists x, nth k y None = Some x /\ (nn = true -> le n0 x).
Definition rising (e : nat) (y : list (option num)) : Prop :=
  forall i j a b, e <= i -> i <= j -> j < length y -> nth i y None = Some a -> nth j y None = Some b -> le a b.
Lemma iso_loop_ok nn n lv ix : staircase nn n lv ix -> forall fuel e y, e <= fuel -> e <= n -> e <= length y ->
  filled nn e y -> rising e y -> (forall k b, e <> 0 -> e <= k -> k < length y -> nth k y None = Some b -> le (vget lv (e - 1)) b) ->
  exists y', iso_loop fuel e lv ix y = Ok y' /\ length y' = length y /\ filled nn 0 y' /\ rising 0 y'.
Proof.
  intros (L & ST). induction fuel as [|f IH]; intros e y Hf Hn Hy F R B.
  - assert (e = 0) by lia. subst e. exists y. cbn. auto.
  - destruct e as [|idx]; [exists y; cbn; auto|]. cbn [iso_loop]. destruct (ST idx ltac:(lia)) as (A1 & A2 & A3).
    set (st := iget ix idx) in *. set (y1 := set_slice y st (S idx) (Some (vget lv idx))).
    assert (L1 : length y1 = length y) by apply length_set_slice.
    assert (N1 : forall k, k < length y -> nth k y1 None = if (st <=? k) && (k <? S idx) then Some (vget lv idx) else nth k y None) by (intros; now apply nth_set_slice).
    assert (IN : forall k, st <= k -> k < S idx -> ((st <=? k) && (k <? S idx)) = true) by (intros k H1 H2; apply andb_true_intro; split; [now apply Nat.leb_le|now apply Nat.ltb_lt]).
    assert (OUT : forall k, S idx <= k -> ((st <=? k) && (k <? S idx)) = false) by (intros k H1; apply andb_false_iff; right; now apply Nat.ltb_ge).
    destruct (IH st y1) as (y' & K0 & K1 & K2 & K3).
    + lia.
    + lia.
    + lia.
    + intros k H1 H2. rewrite L1 in H2. rewrite N1 by exact H2. destruct (Nat.lt_ge_cases k (S idx)).
      * rewrite IN by assumption. eauto.
      * rewrite OUT by assumption. now apply F.
    + intros i j a b H1 H2 H3. rewrite L1 in H3. rewrite !N1 by lia. destruct (Nat.lt_ge_cases j (S idx)).
      * rewrite !IN by lia. intros E1 E2. injection E1 as <-. injection E2 as <-. apply le_refl.
      * rewrite (OUT j) by assumption. destruct (Nat.lt_ge_cases i (S idx)).
        -- rewrite IN by assumption. intros E1 E2. injection E1 as <-. specialize (B j b). cbn [Nat.sub] in B. rewrite Nat.sub_0_r in B. apply B; auto.
        -- rewrite OUT by assumption. intros E1 E2. now apply (R i j).
    + intros k b NZ H1 H2. rewrite L1 in H2. rewrite N1 by exact H2. destruct (Nat.lt_ge_cases k (S idx)).
      * rewrite IN by assumption. intros E1. injection E1 as <-. now apply A2.
      * rewrite OUT by assumption. intros E1. apply (le_trans _ (vget lv idx)); [now apply A2|].
        specialize (B k b). cbn [Nat.sub] in B. rewrite Nat.sub_0_r in B. apply B; auto.
    + exists y'. split; [exact K0|]. split; [lia|]. auto.
Qed.
Definition nth_le (u : list num) : Prop := forall i j, i <= j -> j < length u -> le (entry u i) (entry u j).
Lemma isotonic_ok nn n lv ix e : staircase nn n lv ix -> e <= n ->
  exists u, compute_isotonic_from_index e lv ix = Ok (map Some u) /\ length u = e /\ nth_le u /\ (nn = true -> Forall (le n0) u).
Proof.
  intros ST He. unfold compute_isotonic_from_index.
  assert (LR : length (repeat (@None num) (Nat.min e (length lv))) = e) by (rewrite repeat_length, (proj1 ST); lia).
  destruct (iso_loop_ok nn n lv ix ST e e (repeat None (Nat.min e (length lv)))) as (y & K0 & K1 & K2 & K3).
  - lia.
  - lia.
  - lia.
  - intros k H1 H2. lia.
  - intros i j a b H1 H2 H3. lia.
  - intros k b _ H1 H2. lia.
  - rewrite LR in K1. exists (map opt_get y).
    assert (E : map Some (map opt_get y) = y).
    { rewrite map_map. rewrite <- (map_id y) at 2. apply map_ext_in. intros o Ho. apply (In_nth _ _ None) in Ho as (k & Hk & <-).
      destruct (K2 k ltac:(lia) Hk) as (x & -> & _). reflexivity. }
    rewrite E. split; [exact K0|]. split; [now rewrite map_length|].
    assert (NTH : forall k, k < length y -> nth k y None = Some (entry (map opt_get y) k)).
    { intros k Hk. destruct (K2 k ltac:(lia) Hk) as (x & EX & _). rewrite EX. unfold entry.
      rewrite (nth_indep _ n0 (opt_get None)) by now rewrite map_length. now rewrite map_nth, EX. }
    split.
    + intros i j H1 H2. rewrite map_length in H2. apply (K3 i j); [lia|lia|lia|apply NTH; lia|apply NTH; lia].
    + intros Hnn. apply Forall_forall. intros x Hx. apply (In_nth _ _ n0) in Hx as (k & Hk & <-). rewrite map_length in Hk.
      destruct (K2 k ltac:(lia) Hk) as (x & EX & P). pose proof (NTH k Hk) as E2. unfold entry in E2. rewrite EX in E2. injection E2 as <-. auto.
Qed.

(** ** The whole regression *)
Lemma best_bound el er : fst (get_best_unimodality_index el er) <= length el - 1.
Proof.
  unfold get_best_unimodality_index. set (acc := (0, _)).
  assert (H : forall l a, fst a <= length el - 1 -> (forall i, In i l -> i < length el) -> fst (fold_left (best_step el er) l a) <= length el - 1).
  { induction l as [|i l IH]; intros a Ha Hl; [exact Ha|]. cbn [fold_left]. apply IH; [|intros; apply Hl; now right].
    unfold best_step. cbv zeta. destruct (nltb _ _); [|exact Ha]. cbn [fst]. specialize (Hl i ltac:(now left)). lia. }
  apply H; [cbn; lia|]. intros i Hi. apply in_seq in Hi. lia.
Qed.
Lemma entry_app u v i : entry (u ++ v) i = if i <? length u then entry u i else entry v (i - length u).
Proof.
  unfold entry. destruct (i <? length u) eqn:E; [apply Nat.ltb_lt in E; now rewrite app_nth1|apply Nat.ltb_ge in E; now rewrite app_nth2].
Qed.
Lemma entry_rev v i : i < length v -> entry (rev v) i = entry v (length v - S i).
Proof. intros H. unfold entry. now rewrite rev_nth. Qed.
Lemma peaked_app u v : nth_le u -> nth_le (rev v) -> peaked (u ++ v).
Proof.
  intros Hu Hv NE.
  assert (Hv' : forall i j, i <= j -> j < length v -> le (entry v j) (entry v i)).
  { intros i j H1 H2. specialize (Hv (length v - S j) (length v - S i)). rewrite rev_length in Hv. specialize (Hv ltac:(lia) ltac:(lia)).
    rewrite !entry_rev in Hv by lia. replace (length v - S (length v - S j)) with j in Hv by lia. now replace (length v - S (length v - S i)) with i in Hv by lia. }
  destruct u as [|u0 u'].
  { exists 0. destruct v as [|v0 v']; [now destruct NE|]. split; [cbn; lia|]. split.
    - intros i j H1 H2. replace i with 0 by lia. replace j with 0 by lia. apply le_refl.
    - intros i j _ H1 H2. now apply Hv'. }
  set (u := u0 :: u') in *. assert (Lu : 0 < length u) by (cbn; lia). clearbody u.
  destruct v as [|v0 v'].
  { rewrite app_nil_r. exists (length u - 1). split; [lia|]. split.
    - intros i j H1 H2. apply Hu; lia.
    - intros i j H1 H2 H3. replace i with (length u - 1) by lia. replace j with (length u - 1) by lia. apply le_refl. }
  set (v := v0 :: v') in *. assert (Lv : 0 < length v) by (cbn; lia). clearbody v.
  assert (GU : forall i, i < length u -> entry (u ++ v) i = entry u i) by (intros i Hi; rewrite entry_app; apply Nat.ltb_lt in Hi; now rewrite Hi).
  assert (GV : forall i, length u <= i -> entry (u ++ v) i = entry v (i - length u)) by (intros i Hi; rewrite entry_app; apply Nat.ltb_ge in Hi; now rewrite Hi).
  assert (X : forall t, le (entry u (length u - 1)) (entry v 0) /\ t = length u \/ le (entry v 0) (entry u (length u - 1)) /\ t = length u - 1 ->
    (forall i j, i <= j -> j <= t -> le (entry (u ++ v) i) (entry (u ++ v) j)) /\
    (forall i j, t <= i -> i <= j -> j < length (u ++ v) -> le (entry (u ++ v) j) (entry (u ++ v) i))).
  { intros t [(K & ->)|(K & ->)]; rewrite app_length; split; intros i j H1 H2.
    - destruct (Nat.eq_dec j (length u)) as [->|NJ].
      + destruct (Nat.eq_dec i (length u)) as [->|NI]; [apply le_refl|]. rewrite (GU i), (GV (length u)), Nat.sub_diag by lia.
        apply (le_trans _ (entry u (length u - 1))); [apply Hu; lia|exact K].
      + rewrite !GU by lia. apply Hu; lia.
    - intros H3. rewrite !GV by lia. apply Hv'; lia.
    - rewrite !GU by lia. apply Hu; lia.
    - intros H3. destruct (Nat.eq_dec i (length u - 1)) as [->|NI].
      + destruct (Nat.eq_dec j (length u - 1)) as [->|NJ]; [apply le_refl|]. rewrite (GV j), (GU (length u - 1)) by lia.
        apply (le_trans _ (entry v 0)); [apply Hv'; lia|exact K].
      + rewrite !GV by lia. apply Hv'; lia. }
  destruct (le_total (entry u (length u - 1)) (entry v 0)) as [K|K].
  - exists (length u). split; [rewrite app_length; lia|]. apply X. auto.
  - exists (length u - 1). split; [rewrite app_length; lia|]. apply X. auto.
Qed.
Theorem regression_peaked (store : num -> num) (y : list num) (nn : bool) : y <> [] ->
  exists u, unimodal_regression_vec store y nn = Ok (map Some u) /\ length u = length y /\ peaked u /\ (nn = true -> no_negatives u).
Proof.
  intros NE. unfold unimodal_regression_vec, unimodal_regression_1d.
  destruct (prefix_ok store nn y NE) as (lv & ix & err & E1 & ST1 & L1). rewrite E1. cbn [bind].
  assert (NE' : rev y <> []) by (intros K; apply (f_equal (@rev num)) in K; rewrite rev_involutive in K; now apply NE).
  destruct (prefix_ok store nn (rev y) NE') as (lv2 & ix2 & err2 & E2 & ST2 & L2). rewrite E2. cbn [bind].
  destruct (get_best_unimodality_index err err2) as [b er] eqn:EB.
  pose proof (best_bound err err2) as BB. rewrite EB, L1 in BB. cbn [fst snd] in *.
  destruct (isotonic_ok nn _ lv ix b ST1 ltac:(lia)) as (ul & K0 & K1 & K2 & K3). rewrite K0. cbn [bind].
  destruct (isotonic_ok nn _ lv2 ix2 (length y - b) ST2 ltac:(rewrite rev_length; lia)) as (ur & J0 & J1 & J2 & J3). rewrite J0. cbn [bind].
  exists (ul ++ rev ur). rewrite map_app, map_rev. split; [reflexivity|].
  assert (LL : length (ul ++ rev ur) = length y) by (rewrite app_length, rev_length; lia).
  split; [exact LL|]. split.
  - apply peaked_app; [exact K2|now rewrite rev_involutive].
  - intros Hn. apply Forall_app. split; [auto|]. apply Forall_rev. auto.
Qed.
End OrderUni.
