(** Multipliers exist for convex problems with a point that lies in one feasible set and
    inside all others (Slater's condition), in the abstract (points as in AdmmConv.v). *)
From Coq Require Import Reals Lra Lia List Arith Bool FinFun.
From Verif Require Import Num Numpy RFacts Spec SpecFacts AdmmConv AdmmRate.
Import ListNotations.
Local Open Scope R_scope.

(** ** Separation: a convex cone over finitely many coordinates *)
Section Cone.
Variable (C : Type).
Hypothesis Cdec : forall a b : C, {a = b} + {a <> b}.
Fixpoint lsum (l : list C) (F : C -> R) : R := match l with [] => 0 | a :: l => F a + lsum l F end.
Lemma lsum_ext l F G : (forall a, In a l -> F a = G a) -> lsum l F = lsum l G.
Proof. induction l as [|a l IH]; intros H; [reflexivity|]. cbn. rewrite (H a (or_introl eq_refl)), IH; [reflexivity|]. intros b Hb. apply H. now right. Qed.
Lemma lsum_app l l' F : lsum (l ++ l') F = lsum l F + lsum l' F.
Proof. induction l as [|a l IH]; cbn; [ring|]. rewrite IH. ring. Qed.
Definition upd (d : C -> R) (a : C) (v : R) : C -> R := fun b => if Cdec a b then v else d b.
Definition cone_of (l : list C) (S : (C -> R) -> R -> Prop) : Prop :=
  (forall d d' s s', S d s -> S d' s' -> S (fun a => d a + d' a) (s + s')) /\
  (forall d s t, 0 < t -> S d s -> S (fun a => t * d a) (t * s)) /\
  (forall d d' s, (forall a, In a l -> d a = d' a) -> S d s -> S d' s) /\
  (forall d, exists s, S d s) /\
  (forall s, S (fun _ => 0) s -> 0 <= s).
Lemma cone_bound l : NoDup l -> forall S, cone_of l S -> exists w : C -> R, forall d s, S d s -> lsum l (fun a => w a * d a) <= s.
Proof.
  induction l as [|x l IH]; intros ND S (SA & SM & SX & SE & S0).
  - exists (fun _ => 0). intros d s H. cbn. apply S0. apply (SX d); [intros a []|assumption].
  - inversion ND as [|? ? Nx ND']; subst. set (e := upd (fun _ => 0) x). 
    assert (E0 : e 0 x = 0 /\ forall v, e v x = v) by (unfold e, upd; split; [|intros]; destruct (Cdec x x); congruence).
    assert (EO : forall v a, a <> x -> e v a = 0) by (intros v a Ha; unfold e, upd; destruct (Cdec x a); congruence).
    assert (B : forall s1 s2, S (e 1) s1 -> S (e (-1)) s2 -> - s2 <= s1).
    { intros s1 s2 H1 H2. specialize (SA _ _ _ _ H1 H2). enough (0 <= s1 + s2) by lra. apply S0. eapply SX; [|exact SA].
      intros a _. cbn. destruct (Cdec x a) as [<-|Ha]; [rewrite !(proj2 E0); ring|]. rewrite !EO by congruence. ring. }
    destruct (SE (e 1)) as (s1 & H1). destruct (SE (e (-1))) as (s2 & H2).
    destruct (completeness (fun v => exists s, S (e (-1)) s /\ v = - s)) as (lam & L1 & L2).
    { exists s1. intros v (s & Hs & ->). now apply B. }
    { now exists (- s2), s2. }
    assert (LE : forall tau s, S (e tau) s -> lam * tau <= s).
    { intros tau s H. destruct (Rtotal_order tau 0) as [L|[->|G]].
      - assert (HT : 0 < - tau) by lra. specialize (SM _ _ (/ - tau) (Rinv_0_lt_compat _ HT) H).
        assert (K : S (e (-1)) (/ - tau * s)).
        { eapply SX; [|exact SM]. intros a _. cbn. destruct (Cdec x a) as [<-|Ha]; [rewrite !(proj2 E0); field; lra|]. rewrite !EO by congruence. ring. }
        specialize (L1 _ (ex_intro _ _ (conj K eq_refl))). apply Rmult_le_compat_l with (r := - tau) in L1; [|lra].
        replace (- tau * - (/ - tau * s)) with (- s) in L1 by (field; lra). nra.
      - rewrite Rmult_0_r. apply S0. eapply SX; [|exact H]. intros a _. destruct (Cdec x a) as [<-|Ha]; [apply E0|]. apply EO. congruence.
      - specialize (SM _ _ (/ tau) (Rinv_0_lt_compat _ G) H).
        assert (K : S (e 1) (/ tau * s)).
        { eapply SX; [|exact SM]. intros a _. cbn. destruct (Cdec x a) as [<-|Ha]; [rewrite !(proj2 E0); field; lra|]. rewrite !EO by congruence. ring. }
        assert (lam <= / tau * s). { apply L2. intros v (s' & Hs' & ->). now apply B. }
        apply Rmult_le_compat_l with (r := tau) in H0; [|lra]. replace (tau * (/ tau * s)) with s in H0 by (field; lra). lra. }
    destruct (IH ND' (fun d s' => exists tau s, S (upd d x tau) s /\ s' = s - lam * tau)) as (w & HW).
    { split; [|split; [|split; [|split]]].
      - intros d d' ? ? (t1 & a1 & A1 & ->) (t2 & a2 & A2 & ->). exists (t1 + t2), (a1 + a2). split; [|ring].
        eapply SX; [|exact (SA _ _ _ _ A1 A2)]. intros a _. unfold upd. destruct (Cdec x a); reflexivity.
      - intros d ? t Ht (t1 & a1 & A1 & ->). exists (t * t1), (t * a1). split; [|ring]. eapply SX; [|exact (SM _ _ _ Ht A1)].
        intros a _. unfold upd. destruct (Cdec x a); reflexivity.
      - intros d d' ? Hd (t1 & a1 & A1 & ->). exists t1, a1. split; [|reflexivity]. eapply SX; [|exact A1].
        intros a [->|Ha]; unfold upd; [destruct (Cdec a a); congruence|]. destruct (Cdec x a); [reflexivity|now apply Hd].
      - intros d. destruct (SE (upd d x 0)) as (s & Hs). exists s, 0, s. split; [assumption|ring].
      - intros s' (t1 & a1 & A1 & ->). specialize (LE t1 a1). unfold e in LE. specialize (LE A1). lra. }
    exists (upd w x lam). intros d s H. specialize (HW d (s - lam * d x)). cbn.
    assert (K : lsum l (fun a => w a * d a) <= s - lam * d x).
    { apply HW. exists (d x), s. split; [|reflexivity]. eapply SX; [|exact H]. intros a _. unfold upd. destruct (Cdec x a) as [<-|]; reflexivity. }
    rewrite (lsum_ext l (fun a => upd w x lam a * d a) (fun a => w a * d a)).
    2:{ intros a Ha. unfold upd. destruct (Cdec x a) as [<-|]; [contradiction|reflexivity]. }
    unfold upd at 1. destruct (Cdec x x); [|congruence]. lra.
Qed.
End Cone.

(** ** The coordinates of Q points *)
Definition coord : Type := (nat * (nat * (nat * nat)))%type.
Lemma coord_dec (a b : coord) : {a = b} + {a <> b}.
Proof. repeat decide equality. Qed.
Definition coords (Q n : nat) (J : nat -> nat) (c : nat) : list coord :=
  flat_map (fun q => flat_map (fun i => flat_map (fun j => map (fun r => (q, (i, (j, r)))) (seq 0 c)) (seq 0 (J i))) (seq 0 n)) (seq 0 Q).
Lemma in_coords Q n J c q i j r : In (q, (i, (j, r))) (coords Q n J c) <-> (q < Q /\ i < n /\ j < J i /\ r < c)%nat.
Proof.
  unfold coords. rewrite in_flat_map. split.
  - intros (q' & Hq & H). rewrite in_flat_map in H. destruct H as (i' & Hi & H). rewrite in_flat_map in H. destruct H as (j' & Hj & H).
    rewrite in_map_iff in H. destruct H as (r' & E & Hr). injection E as -> -> -> ->. rewrite in_seq in *. lia.
  - intros (Hq & Hi & Hj & Hr). exists q. split; [apply in_seq; lia|]. apply in_flat_map. exists i. split; [apply in_seq; lia|].
    apply in_flat_map. exists j. split; [apply in_seq; lia|]. apply in_map_iff. exists r. split; [reflexivity|apply in_seq; lia].
Qed.
Lemma nodup_flat_map {A B} (f : A -> list B) (key : B -> A) l :
  (forall a b, In b (f a) -> key b = a) -> (forall a, In a l -> NoDup (f a)) -> NoDup l -> NoDup (flat_map f l).
Proof.
  intros K. induction l as [|a l IH]; intros H ND; cbn; [constructor|]. inversion ND as [|? ? Na ND']; subst.
  assert (IHl : NoDup (flat_map f l)) by (apply IH; [intros; apply H; now right|assumption]).
  assert (Hd : forall b, In b (f a) -> ~ In b (flat_map f l)).
  { intros b Hb Hin. apply in_flat_map in Hin. destruct Hin as (a' & Ha' & Hb'). apply K in Hb. apply K in Hb'. subst. congruence. }
  specialize (H a (or_introl eq_refl)). induction (f a) as [|b fa IHf]; cbn; [assumption|]. inversion H; subst. constructor.
  - rewrite in_app_iff. intros [|]; [contradiction|]. apply (Hd b); [now left|assumption].
  - apply IHf; [assumption|]. intros b' Hb'. apply Hd. now right.
Qed.
Lemma nodup_coords Q n J c : NoDup (coords Q n J c).
Proof.
  unfold coords. apply (nodup_flat_map _ (fun x => fst x)).
  { intros q b H. apply in_flat_map in H. destruct H as (i & _ & H). apply in_flat_map in H. destruct H as (j & _ & H). apply in_map_iff in H. destruct H as (r & <- & _). reflexivity. }
  2: apply seq_NoDup. intros q _. apply (nodup_flat_map _ (fun x => fst (snd x))).
  { intros i b H. apply in_flat_map in H. destruct H as (j & _ & H). apply in_map_iff in H. destruct H as (r & <- & _). reflexivity. }
  2: apply seq_NoDup. intros i _. apply (nodup_flat_map _ (fun x => fst (snd (snd x)))).
  { intros j b H. apply in_map_iff in H. destruct H as (r & <- & _). reflexivity. }
  2: apply seq_NoDup. intros j _. apply FinFun.Injective_map_NoDup; [|apply seq_NoDup]. intros r r' E. now injection E.
Qed.
Lemma lsum_flat_map {A B} (f : A -> list B) l F : lsum B (flat_map f l) F = lsum A l (fun a => lsum B (f a) F).
Proof. induction l as [|a l IH]; [reflexivity|]. cbn. rewrite lsum_app, IH. reflexivity. Qed.
Lemma lsum_map {A B} (f : A -> B) l F : lsum B (map f l) F = lsum A l (fun a => F (f a)).
Proof. induction l as [|a l IH]; [reflexivity|]. cbn. now rewrite IH. Qed.
Lemma lsum_seq n F : lsum nat (seq 0 n) F = rsum n F.
Proof.
  induction n as [|n IH]; [now rewrite rsum_0|]. rewrite seq_S, lsum_app, IH, rsum_S. cbn. ring.
Qed.
Lemma lsum_coords Q n J c F : lsum coord (coords Q n J c) F =
  rsum Q (fun q => rsum n (fun i => rsum (J i) (fun j => rsum c (fun r => F (q, (i, (j, r))))))).
Proof.
  unfold coords. rewrite lsum_flat_map, lsum_seq. apply rsum_ext; intros q _. rewrite lsum_flat_map, lsum_seq. apply rsum_ext; intros i _.
  rewrite lsum_flat_map, lsum_seq. apply rsum_ext; intros j _. rewrite lsum_map, lsum_seq. reflexivity.
Qed.

Lemma rsum_pick n q v : (q < n)%nat -> rsum n (fun q' => if Nat.eq_dec q' q then v else 0) = v.
Proof.
  intros H. rewrite (rsum_single n q) by (try assumption; intros i Hi Ni; destruct (Nat.eq_dec i q); congruence). destruct (Nat.eq_dec q q); congruence.
Qed.

(** ** Slater's condition *)
Section Slater.
Variables (n : nat) (J : nat -> nat) (c : nat) (rho : nat -> R).
Hypothesis Hrho : forall i, (i < n)%nat -> 0 < rho i.
Notation ws := (wsum n J c rho).
Variables (Q : nat) (f : pt -> R) (pen : nat -> pt -> R) (dom : nat -> pt -> Prop).
Hypothesis Hf : forall x z t, 0 <= t <= 1 -> f (pseg t x z) <= (1 - t) * f x + t * f z.
Hypothesis Hpen : forall q x z t, (q < Q)%nat -> dom q x -> dom q z -> 0 <= t <= 1 -> pen q (pseg t x z) <= (1 - t) * pen q x + t * pen q z.
Hypothesis Hdom : forall q x z t, (q < Q)%nat -> dom q x -> dom q z -> 0 <= t <= 1 -> dom q (pseg t x z).
Hypothesis Hdx : forall q x z, (q < Q)%nat -> psame n J c x z -> dom q x -> dom q z.
Hypothesis Hpx : forall q x z, (q < Q)%nat -> psame n J c x z -> pen q x = pen q z.
Definition near (delta : R) (x z : pt) : Prop :=
  forall i j r, (i < n)%nat -> (j < J i)%nat -> (r < c)%nat -> Rabs (z i j r - x i j r) <= delta.
Variables (x x0 : pt) (q0 : nat) (delta : R).
Hypothesis Hx : forall q, (q < Q)%nat -> dom q x.
Hypothesis Hopt : forall z, (forall q, (q < Q)%nat -> dom q z) -> f x + rsum Q (fun q => pen q x) <= f z + rsum Q (fun q => pen q z).
Hypothesis Hdelta : 0 < delta.
Hypothesis H0 : forall q, (q < Q)%nat -> dom q x0.
Hypothesis Hin : forall q z, (q < Q)%nat -> q <> q0 -> near delta x0 z -> dom q z.
Definition reach (d : coord -> R) (s : R) : Prop :=
  exists (t : R) (w : pt) (y : nat -> pt), 0 < t /\
    (forall q, (q < Q)%nat -> dom q (y q) /\ psame n J c (fun i j r => y q i j r - w i j r) (fun i j r => t * d (q, (i, (j, r))))) /\
    f w - f x + rsum Q (fun q => pen q (y q) - pen q x) <= t * s.
Lemma bounded_coords (d : coord -> R) l : exists M, 0 < M /\ forall a, In a l -> Rabs (d a) <= M.
Proof.
  induction l as [|a l (M & M0 & H)]; [exists 1; split; [lra|intros a []]|]. exists (M + Rabs (d a)). pose proof (Rabs_pos (d a)). split; [lra|].
  intros b [->|Hb]; [lra|]. specialize (H b Hb). lra.
Qed.
Lemma reach_cone : cone_of coord (coords Q n J c) reach.
Proof.
  split; [|split; [|split; [|split]]].
  - intros d d' s s' (t & w & y & Ht & Hy & Hs) (t' & w' & y' & Ht' & Hy' & Hs').
    set (th := t / (t + t')). assert (T1 : 0 <= th <= 1).
    { unfold th. split; [apply Rmult_le_pos; [lra|left; apply Rinv_0_lt_compat; lra]|]. apply Rmult_le_reg_r with (t + t'); [lra|]. field_simplify; lra. }
    assert (T2 : 1 - th = t' / (t + t')) by (unfold th; field; lra).
    exists (t * t' / (t + t')), (pseg th w w'), (fun q => pseg th (y q) (y' q)). split; [|split].
    + apply Rmult_lt_0_compat; [nra|apply Rinv_0_lt_compat; lra].
    + intros q Hq. destruct (Hy q Hq) as (A1 & A2), (Hy' q Hq) as (B1 & B2). split; [now apply Hdom|].
      intros i j r Hi Hj Hr. specialize (A2 i j r Hi Hj Hr). specialize (B2 i j r Hi Hj Hr). cbv beta in A2, B2. unfold pseg. rewrite T2. unfold th.
      replace (t' / (t + t') * y q i j r + t / (t + t') * y' q i j r - (t' / (t + t') * w i j r + t / (t + t') * w' i j r)) with
        (t' / (t + t') * (y q i j r - w i j r) + t / (t + t') * (y' q i j r - w' i j r)) by ring. rewrite A2, B2. field. lra.
    + assert (K : rsum Q (fun q => pen q (pseg th (y q) (y' q)) - pen q x) <= (1 - th) * rsum Q (fun q => pen q (y q) - pen q x) + th * rsum Q (fun q => pen q (y' q) - pen q x)).
      { rewrite <- !rsum_scal, <- rsum_add. apply rsum_le; intros q Hq. pose proof (Hpen q (y q) (y' q) th Hq (proj1 (Hy q Hq)) (proj1 (Hy' q Hq)) T1). nra. }
      pose proof (Hf w w' th T1). set (P := rsum Q (fun q => pen q (y q) - pen q x)) in *. set (P' := rsum Q (fun q => pen q (y' q) - pen q x)) in *.
      apply Rle_trans with ((1 - th) * (t * s) + th * (t' * s')); [|right; rewrite T2; unfold th; field; lra].
      assert ((1 - th) * (f w - f x + P) <= (1 - th) * (t * s)) by (apply Rmult_le_compat_l; lra).
      assert (th * (f w' - f x + P') <= th * (t' * s')) by (apply Rmult_le_compat_l; lra). lra.
  - intros d s a Ha (t & w & y & Ht & Hy & Hs). exists (t / a), w, y. split; [apply Rdiv_lt_0_compat; lra|]. split.
    + intros q Hq. destruct (Hy q Hq) as (A1 & A2). split; [assumption|]. intros i j r Hi Hj Hr. rewrite (A2 i j r Hi Hj Hr). field. lra.
    + replace (t / a * (a * s)) with (t * s) by (field; lra). assumption.
  - intros d d' s Hd (t & w & y & Ht & Hy & Hs). exists t, w, y. split; [assumption|]. split; [|assumption].
    intros q Hq. destruct (Hy q Hq) as (A1 & A2). split; [assumption|]. intros i j r Hi Hj Hr. rewrite (A2 i j r Hi Hj Hr), (Hd (q, (i, (j, r)))); [reflexivity|]. now apply in_coords.
  - intros d. destruct (bounded_coords d (coords (Q + S q0) n J c)) as (M & M0 & HM). set (t := delta / (2 * M)).
    assert (T0 : 0 < t) by (apply Rdiv_lt_0_compat; lra).
    set (w := (fun i j r => x0 i j r - t * d (q0, (i, (j, r)))) : pt).
    set (y := fun q : nat => (if Nat.eq_dec q q0 then x0 else fun i j r => w i j r + t * d (q, (i, (j, r)))) : pt).
    exists (/ t * (f w - f x + rsum Q (fun q => pen q (y q) - pen q x))), t, w, y. split; [assumption|]. split; [|right; field; lra].
    intros q Hq. unfold y. destruct (Nat.eq_dec q q0) as [->|N].
    + split; [now apply H0|]. intros i j r Hi Hj Hr. unfold w. ring.
    + split; [|intros i j r Hi Hj Hr; ring]. apply (Hin q _ Hq N). intros i j r Hi Hj Hr. unfold w.
      replace (x0 i j r - t * d (q0, (i, (j, r))) + t * d (q, (i, (j, r))) - x0 i j r) with (t * (d (q, (i, (j, r))) - d (q0, (i, (j, r))))) by ring.
      rewrite Rabs_mult, (Rabs_pos_eq t) by lra. 
      assert (K1 : Rabs (d (q, (i, (j, r)))) <= M) by (apply HM, in_coords; lia). assert (K2 : Rabs (d (q0, (i, (j, r)))) <= M) by (apply HM, in_coords; lia).
      assert (Rabs (d (q, (i, (j, r))) - d (q0, (i, (j, r)))) <= 2 * M) by (eapply Rle_trans; [apply Rabs_triang|]; rewrite Rabs_Ropp; lra).
      apply Rle_trans with (t * (2 * M)); [apply Rmult_le_compat_l; lra|]. unfold t. right. field. lra.
  - intros s (t & w & y & Ht & Hy & Hs).
    assert (Hw : forall q, (q < Q)%nat -> psame n J c (y q) w).
    { intros q Hq i j r Hi Hj Hr. pose proof (proj2 (Hy q Hq) i j r Hi Hj Hr) as E. cbv beta in E. lra. }
    assert (K := Hopt w (fun q Hq => Hdx q _ _ Hq (Hw q Hq) (proj1 (Hy q Hq)))).
    assert (E : rsum Q (fun q => pen q (y q) - pen q x) = rsum Q (fun q => pen q w) - rsum Q (fun q => pen q x)).
    { rewrite <- rsum_sub. apply rsum_ext; intros q Hq. now rewrite (Hpx q (y q) w Hq (Hw q Hq)). }
    rewrite E in Hs. destruct (Rle_lt_dec 0 s) as [|L]; [assumption|]. nra.
Qed.
Theorem slater_multipliers : exists us, asaddle n J c rho Q f pen dom x us.
Proof.
  destruct (cone_bound coord coord_dec _ (nodup_coords Q n J c) reach reach_cone) as (w & HW).
  exists (fun q i j r => w (q, (i, (j, r))) / rho i).
  assert (E : forall q (h : pt), ws (fun i j r => w (q, (i, (j, r))) / rho i * h i j r) =
    rsum n (fun i => rsum (J i) (fun j => rsum c (fun r => w (q, (i, (j, r))) * h i j r)))).
  { intros q h. unfold wsum. apply rsum_ext; intros i Hi. rewrite <- rsum_scal. apply rsum_ext; intros j Hj. rewrite <- rsum_scal. apply rsum_ext; intros r Hr.
    field. pose proof (Hrho i Hi). lra. }
  split.
  - intros z. assert (K := HW (fun a => match a with (_, (i, (j, r))) => x i j r - z i j r end) (f z - f x)). rewrite lsum_coords in K.
    assert (KR : reach (fun a => match a with (_, (i, (j, r))) => x i j r - z i j r end) (f z - f x)).
    { exists 1, z, (fun _ => x). split; [lra|]. split.
      - intros q Hq. split; [now apply Hx|]. intros i j r Hi Hj Hr. ring.
      - rewrite rsum_zero by (intros; ring). lra. }
    specialize (K KR). assert (EE : rsum Q (fun q => ws (fun i j r => w (q, (i, (j, r))) / rho i * (z i j r - x i j r))) =
      - rsum Q (fun q => rsum n (fun i => rsum (J i) (fun j => rsum c (fun r => w (q, (i, (j, r))) * (x i j r - z i j r)))))).
    { replace (- rsum Q (fun q => rsum n (fun i => rsum (J i) (fun j => rsum c (fun r => w (q, (i, (j, r))) * (x i j r - z i j r)))))) with
        ((-1) * rsum Q (fun q => rsum n (fun i => rsum (J i) (fun j => rsum c (fun r => w (q, (i, (j, r))) * (x i j r - z i j r)))))) by ring.
      rewrite <- rsum_scal. apply rsum_ext; intros q Hq. rewrite (E q (fun i j r => z i j r - x i j r)). rewrite <- rsum_scal. apply rsum_ext; intros i Hi.
      rewrite <- rsum_scal. apply rsum_ext; intros j Hj. rewrite <- rsum_scal. apply rsum_ext; intros r Hr. ring. }
    rewrite EE. lra.
  - intros q Hq. split; [now apply Hx|]. intros z Hz. rewrite (E q (fun i j r => z i j r - x i j r)).
    set (d := fun a : coord => match a with (q', (i, (j, r))) => if Nat.eq_dec q' q then z i j r - x i j r else 0 end).
    assert (K := HW d (pen q z - pen q x)). rewrite lsum_coords in K.
    assert (KR : reach d (pen q z - pen q x)).
    { exists 1, x, (fun q' => if Nat.eq_dec q' q then z else x). split; [lra|]. split.
      - intros q' Hq'. unfold d. destruct (Nat.eq_dec q' q) as [->|]; (split; [auto|]); intros i j r Hi Hj Hr; ring.
      - rewrite (rsum_ext Q _ (fun q' => if Nat.eq_dec q' q then pen q z - pen q x else 0)).
        + rewrite rsum_pick by assumption. lra.
        + intros q' Hq'. destruct (Nat.eq_dec q' q) as [->|]; ring. }
    specialize (K KR). rewrite (rsum_ext Q _ (fun q' => if Nat.eq_dec q' q then
      rsum n (fun i => rsum (J i) (fun j => rsum c (fun r => w (q, (i, (j, r))) * (z i j r - x i j r)))) else 0)) in K.
    + rewrite rsum_pick in K by assumption. lra.
    + intros q' Hq'. unfold d. destruct (Nat.eq_dec q' q) as [->|]; [reflexivity|]. apply rsum_zero; intros. apply rsum_zero; intros. apply rsum_zero; intros. ring.
Qed.
End Slater.
