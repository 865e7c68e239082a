(** Facts about the C3 merge of DocUtils.v. *)
From Coq Require Import List Arith Bool String Lia.
From Verif Require Import Num DocUtils DocSpec.
Import ListNotations.

Lemma precedes_cons h s x y : precedes s x y -> precedes (h :: s) x y.
Proof. intros (a & b & c & ->). exists (h :: a), b, c. reflexivity. Qed.
Lemma precedes_head s x y : In y s -> precedes (x :: s) x y.
Proof. intros H. apply in_split in H as (a & b & ->). exists [], a, b. reflexivity. Qed.
Lemma precedes_inv h s x y : precedes (h :: s) x y -> (x = h /\ In y s) \/ precedes s x y.
Proof.
  intros ([|z a] & b & c & E); cbn in E; injection E as -> E.
  - left. split; [reflexivity|]. rewrite E. apply in_or_app. right. now left.
  - right. exists a, b, c. exact E.
Qed.
Lemma precedes_in s x y : precedes s x y -> In x s /\ In y s.
Proof.
  intros (a & b & c & ->). split; apply in_or_app; right; [now left|]. right. apply in_or_app. right. now left.
Qed.
Lemma precedes_nil x y : ~ precedes [] x y.
Proof. intros (a & b & c & E). destruct a; discriminate E. Qed.

Lemma in_tail_spec c s : in_tail c s = true <-> In c (tl s).
Proof.
  unfold in_tail. rewrite existsb_exists. split.
  - intros (x & H & E). apply Nat.eqb_eq in E. now subst.
  - intros H. exists c. split; [exact H|]. apply Nat.eqb_refl.
Qed.

Definition free (lists : list (list cls)) (c : cls) := forall s, In s lists -> ~ In c (tl s).

Lemma find_candidate_some ne : forall todo c, find_candidate ne todo = Some c ->
  exists pre t post, todo = pre ++ (c :: t) :: post /\ free ne c /\
    forall s, In s pre -> exists h u, s = h :: u /\ ~ free ne h.
Proof.
  induction todo as [|s todo IH]; intros c H; [discriminate H|]. cbn in H. destruct s as [|h u]; [discriminate H|].
  destruct (filter (in_tail h) ne) as [|z zs] eqn:F.
  - injection H as <-. exists [], u, todo. split; [reflexivity|]. split; [|intros ? []].
    intros s Hs K. assert (In s (filter (in_tail h) ne)) as Q by (apply filter_In; split; [exact Hs|now apply in_tail_spec]).
    rewrite F in Q. destruct Q.
  - destruct (IH _ H) as (pre & t & post & -> & FR & K). exists ((h :: u) :: pre), t, post. split; [reflexivity|]. split; [exact FR|].
    intros s [<-|Hs]; [|now apply K]. exists h, u. split; [reflexivity|]. intros FH.
    assert (In z (filter (in_tail h) ne)) as Q by (rewrite F; now left). apply filter_In in Q as (Q1 & Q2). apply (FH _ Q1). now apply in_tail_spec.
Qed.
Lemma find_candidate_none ne : forall todo, find_candidate ne todo = None -> (forall s, In s todo -> s <> []) ->
  forall h u, In (h :: u) todo -> ~ free ne h.
Proof.
  induction todo as [|s todo IH]; intros H NE h u Hin; [destruct Hin|]. cbn in H. destruct s as [|h' u']; [now destruct (NE [] (or_introl eq_refl))|].
  destruct (filter (in_tail h') ne) as [|z zs] eqn:F; [discriminate H|]. destruct Hin as [E|Hin].
  - injection E as -> ->. intros FH. assert (In z (filter (in_tail h) ne)) as Q by (rewrite F; now left). apply filter_In in Q as (Q1 & Q2).
    apply (FH _ Q1). now apply in_tail_spec.
  - apply (IH H (fun s Hs => NE s (or_intror Hs)) h u Hin).
Qed.

Definition nonempty (s : list cls) := negb (is_empty s).
Lemma filter_split {A} (f : A -> bool) : forall l p x q, filter f l = p ++ x :: q ->
  exists p' q', l = p' ++ x :: q' /\ filter f p' = p.
Proof.
  induction l as [|a l IH]; intros p x q H; cbn in H; [destruct p; discriminate H|].
  destruct (f a) eqn:E.
  - destruct p as [|b p]; cbn in H; injection H as -> H.
    + exists [], l. split; reflexivity.
    + destruct (IH _ _ _ H) as (p' & q' & -> & <-). exists (b :: p'), q'. cbn. rewrite E. split; reflexivity.
  - destruct (IH _ _ _ H) as (p' & q' & -> & <-). exists (a :: p'), q'. cbn. rewrite E. split; reflexivity.
Qed.
Lemma free_filter lists c : free (filter nonempty lists) c <-> free lists c.
Proof.
  split; intros H s Hs.
  - destruct s as [|h t]; [intros []|]. apply (H (h :: t)). apply filter_In. split; [exact Hs|reflexivity].
  - apply filter_In in Hs as (Hs & _). now apply H.
Qed.

(** One round of the merge. *)
Lemma drop_in c s x : In x (drop_head c s) -> In x s.
Proof. destruct s as [|h t]; cbn; [auto|]. destruct (h =? c)%nat; cbn; auto. Qed.
Lemma drop_not_in c s : ~ In c (tl s) -> ~ In c (drop_head c s).
Proof.
  destruct s as [|h t]; cbn; [auto|]. intros H. destruct (Nat.eqb_spec h c); [exact H|]. cbn. tauto.
Qed.
Lemma drop_keep c s x : x <> c -> In x s -> In x (drop_head c s).
Proof. destruct s as [|h t]; cbn; [auto|]. destruct (Nat.eqb_spec h c); cbn; [|auto]. intros N [<-|H]; [congruence|exact H]. Qed.
Lemma drop_precedes c s x y : precedes (drop_head c s) x y -> precedes s x y.
Proof.
  destruct s as [|h t]; cbn; [auto|]. destruct (h =? c)%nat; [|auto]. apply precedes_cons.
Qed.
Lemma drop_keep_precedes c s x y : x <> c -> precedes s x y -> precedes (drop_head c s) x y.
Proof.
  intros N. destruct s as [|h t]; cbn; [auto|]. destruct (Nat.eqb_spec h c); [|auto]. subst. intros H.
  apply precedes_inv in H as [(-> & _)|H]; [congruence|exact H].
Qed.

Lemma lin_step lists c l : (exists s t, In s lists /\ s = c :: t) -> free lists c ->
  linearisation (map (drop_head c) lists) l -> linearisation lists (c :: l).
Proof.
  intros (s0 & t0 & Hs0 & E0) FR (ND & MEM & ORD).
  assert (NC : ~ In c l).
  { intros H. apply MEM in H as (s & Hs & Hc). apply in_map_iff in Hs as (s1 & <- & Hs1). now apply (drop_not_in c s1 (FR _ Hs1)). }
  split; [now constructor|]. split.
  - intros x. split.
    + intros [<-|H]; [exists s0; split; [exact Hs0|]; rewrite E0; now left|]. apply MEM in H as (s & Hs & Hx).
      apply in_map_iff in Hs as (s1 & <- & Hs1). exists s1. split; [exact Hs1|]. now apply (drop_in c).
    + intros (s & Hs & Hx). destruct (Nat.eq_dec x c) as [->|N]; [now left|right]. apply MEM. exists (drop_head c s). split; [now apply in_map|].
      now apply drop_keep.
  - intros s x y Hs P. destruct (Nat.eq_dec x c) as [->|N].
    + apply precedes_head. apply MEM. exists (drop_head c s). split; [now apply in_map|].
      destruct s as [|h t]; [now apply precedes_nil in P|]. pose proof (FR _ Hs) as F. cbn in F.
      apply precedes_inv in P as [(-> & Hy)|P]; [|apply precedes_in in P as (P & _); contradiction].
      cbn. rewrite Nat.eqb_refl. exact Hy.
    + apply precedes_cons. apply (ORD (drop_head c s)); [now apply in_map|]. now apply drop_keep_precedes.
Qed.

Lemma precedes_remove c l x y : x <> c -> y <> c -> precedes l x y -> precedes (List.remove Nat.eq_dec c l) x y.
Proof.
  intros Nx Ny (a & b & d & ->). rewrite !remove_app. cbn. destruct (Nat.eq_dec c x); [congruence|]. rewrite remove_app. cbn.
  destruct (Nat.eq_dec c y); [congruence|]. eexists _, _, _. reflexivity.
Qed.
Lemma remove_NoDup c l : NoDup l -> NoDup (List.remove Nat.eq_dec c l).
Proof.
  induction 1 as [|x l Hx ND IH]; cbn; [constructor|]. destruct (Nat.eq_dec c x); [exact IH|]. constructor; [|exact IH].
  intros H. apply in_remove in H as (H & _). contradiction.
Qed.
Lemma lin_unstep lists c l : free lists c -> linearisation lists l ->
  linearisation (map (drop_head c) lists) (List.remove Nat.eq_dec c l).
Proof.
  intros FR (ND & MEM & ORD). split; [now apply remove_NoDup|]. split.
  - intros x. split.
    + intros H. apply in_remove in H as (H & N). apply MEM in H as (s & Hs & Hx). exists (drop_head c s). split; [now apply in_map|]. now apply drop_keep.
    + intros (s & Hs & Hx). apply in_map_iff in Hs as (s1 & <- & Hs1). apply in_in_remove.
      * intros ->. now apply (drop_not_in c s1 (FR _ Hs1)).
      * apply MEM. exists s1. split; [exact Hs1|]. now apply (drop_in c).
  - intros s x y Hs P. apply in_map_iff in Hs as (s1 & <- & Hs1). pose proof (precedes_in _ _ _ P) as (Px & Py).
    assert (NC := drop_not_in c s1 (FR _ Hs1)).
    apply precedes_remove; [intros ->; contradiction|intros ->; contradiction|]. apply (ORD s1 x y Hs1). now apply (drop_precedes c).
Qed.

(** Where some ordering exists, its first element is a free head. *)
Lemma lin_head lists x l : linearisation lists (x :: l) -> free lists x /\ exists t, In (x :: t) lists.
Proof.
  intros (ND & MEM & ORD). inversion_clear ND as [|? ? Nx ND'].
  assert (FR : free lists x).
  { intros s Hs Hx. destruct s as [|h t]; [destruct Hx|]. cbn in Hx. pose proof (ORD _ h x Hs (precedes_head _ _ _ Hx)) as P.
    apply precedes_inv in P as [(_ & P)|P]; [contradiction|]. apply precedes_in in P as (_ & P). contradiction. }
  split; [exact FR|]. destruct (proj1 (MEM x) (or_introl eq_refl)) as (s & Hs & Hx). destruct s as [|h t]; [destruct Hx|].
  destruct Hx as [->|Hx]; [now exists t|]. now apply (FR _ Hs) in Hx.
Qed.

Lemma total_drop c : forall lists, (exists t, In (c :: t) lists) -> total_length (map (drop_head c) lists) < total_length lists.
Proof.
  assert (LE : forall s, List.length (drop_head c s) <= List.length s).
  { intros [|h t]; cbn; [lia|]. destruct (h =? c)%nat; cbn; lia. }
  assert (LEs : forall lists, total_length (map (drop_head c) lists) <= total_length lists).
  { unfold total_length. induction lists as [|s lists IH]; cbn; [lia|]. pose proof (LE s). unfold list_sum in *. lia. }
  induction lists as [|s lists IH]; intros (t & H); [destruct H|]. unfold total_length in *. cbn. destruct H as [->|H].
  - cbn. rewrite Nat.eqb_refl. pose proof (LEs lists). unfold total_length, list_sum in *. lia.
  - assert (exists t, In (c :: t) lists) as Q by now exists t. pose proof (IH Q). pose proof (LE s). unfold list_sum in *. lia.
Qed.

Lemma filter_nil lists : filter nonempty lists = [] -> forall s, In s lists -> s = [].
Proof.
  intros F s Hs. destruct s as [|h t]; [reflexivity|]. assert (In (h :: t) (filter nonempty lists)) as Q by (apply filter_In; split; [exact Hs|reflexivity]).
  rewrite F in Q. destruct Q.
Qed.

Definition chosen (lists : list (list cls)) (l : list cls) :=
  forall done x rest, l = done ++ x :: rest ->
    exists earlier s later, lists = earlier ++ s :: later /\ next_of s done x /\ ~ must_wait lists done x /\
      forall s', In s' earlier -> forall y, next_of s' done y -> must_wait lists done y.

Lemma next_nil s x : next_of s [] x <-> exists t, s = x :: t.
Proof.
  split.
  - intros (s1 & s2 & -> & H & _). destruct s1 as [|z s1]; [now exists s2|]. destruct (H z). now left.
  - intros (t & ->). exists [], t. split; [reflexivity|]. split; [intros ? []|intros []].
Qed.
Lemma wait_nil lists x : must_wait lists [] x <-> ~ free lists x.
Proof.
  split.
  - intros (s & z & Hs & P & _) F. destruct s as [|h t]; [now apply precedes_nil in P|]. apply (F _ Hs). cbn.
    apply precedes_inv in P as [(_ & P)|P]; [exact P|]. now apply precedes_in in P as (_ & P).
  - intros NF. assert (D : forall a b : cls, {a = b} + {a <> b}) by apply Nat.eq_dec.
    induction lists as [|s lists IH].
    + destruct NF. intros s [].
    + destruct (in_dec Nat.eq_dec x (tl s)) as [Hx|Hx].
      * destruct s as [|h t]; [destruct Hx|]. exists (h :: t), h. split; [now left|]. split; [now apply precedes_head|intros []].
      * assert (~ free lists x) as NF'. { intros F. apply NF. intros s' [<-|Hs']; [exact Hx|now apply F]. }
        destruct (IH NF') as (s' & z & Hs' & P & Q). exists s', z. split; [now right|]. split; [exact P|exact Q].
Qed.
Lemma next_drop c s done x : ~ In c (tl s) -> ~ In c done -> (next_of (drop_head c s) done x /\ x <> c <-> next_of s (c :: done) x).
Proof.
  intros T ND. split.
  - intros ((s1 & s2 & E & H & N) & Nx). destruct s as [|h t]; cbn in E; [destruct s1; discriminate E|].
    destruct (Nat.eqb_spec h c) as [->|Nh].
    + exists (c :: s1), s2. cbn. rewrite E. split; [reflexivity|]. split; [|intros [K|K]; [now apply Nx|contradiction]].
      intros z [<-|Hz]; [now left|right; now apply H].
    + exists s1, s2. rewrite E. split; [reflexivity|]. split; [intros z Hz; right; now apply H|intros [K|K]; [now apply Nx|contradiction]].
  - intros (s1 & s2 & -> & H & N). assert (x <> c) as Nx by (intros ->; apply N; now left). split; [|exact Nx].
    destruct s1 as [|h s1].
    + cbn. destruct (Nat.eqb_spec x c); [congruence|]. exists [], s2. split; [reflexivity|]. split; [intros ? []|intros K; apply N; now right].
    + cbn in T |- *. destruct (Nat.eqb_spec h c) as [->|Nh].
      * exists s1, s2. split; [reflexivity|]. split; [|intros K; apply N; now right]. intros z Hz.
        destruct (H z (or_intror Hz)) as [<-|K]; [|exact K]. destruct T. apply in_or_app. now left.
      * exists (h :: s1), s2. split; [reflexivity|]. split; [|intros K; apply N; now right]. intros z Hz.
        destruct (H z Hz) as [<-|K]; [|exact K]. destruct Hz as [->|Hz]; [congruence|]. destruct T. apply in_or_app. now left.
Qed.
Lemma wait_drop lists c done x : free lists c -> ~ In c done ->
  (must_wait (map (drop_head c) lists) done x <-> must_wait lists (c :: done) x).
Proof.
  intros FR ND. split.
  - intros (s & z & Hs & P & Nz). apply in_map_iff in Hs as (s1 & <- & Hs1). exists s1, z. split; [exact Hs1|]. split; [now apply (drop_precedes c)|].
    intros [<-|K]; [|contradiction]. apply precedes_in in P as (P & _). now apply (drop_not_in c s1 (FR _ Hs1)).
  - intros (s & z & Hs & P & Nz). exists (drop_head c s), z. split; [now apply in_map|]. split; [|intros K; apply Nz; now right].
    apply drop_keep_precedes; [|exact P]. intros ->. apply Nz. now left.
Qed.

Lemma chosen_step lists c l pre t post : lists = pre ++ (c :: t) :: post -> free lists c ->
  (forall s, In s pre -> forall h u, s = h :: u -> ~ free lists h) -> ~ In c l ->
  chosen (map (drop_head c) lists) l -> chosen lists (c :: l).
Proof.
  intros EL FR PRE NC CH done x rest E. destruct done as [|d done]; cbn in E; injection E as E1 E2.
  - subst x. exists pre, (c :: t), post. split; [exact EL|]. split; [apply next_nil; now exists t|]. split; [intros W; now apply wait_nil in W|].
    intros s' Hs' y Hy. apply next_nil in Hy as (u & ->). apply wait_nil. eapply PRE; [exact Hs'|reflexivity].
  - subst d. assert (NC' : ~ In c done /\ x <> c).
    { split; [intros K; apply NC; rewrite E2; apply in_or_app; now left|]. intros ->. apply NC. rewrite E2. apply in_or_app. right. now left. }
    destruct NC' as (Nd & Nx). destruct (CH _ _ _ E2) as (ear & s & lat & EM & NX & NW & EAR).
    apply map_eq_app in EM as (ear0 & r0 & E3 & Eear & E4). destruct r0 as [|s0 lat0]; [discriminate E4|]. cbn in E4. injection E4 as E4 E5.
    exists ear0, s0, lat0. split; [exact E3|].
    assert (In s0 lists) as H0 by (rewrite E3; apply in_or_app; right; now left).
    split; [apply (next_drop c); [exact (FR _ H0)|exact Nd|split; [now rewrite E4|exact Nx]]|].
    split; [intros W; apply NW; now apply wait_drop|].
    intros s' Hs' y Hy. apply wait_drop; [exact FR|exact Nd|].
    assert (In s' lists) as Hs'' by (rewrite E3; apply in_or_app; now left).
    apply (next_drop c) in Hy; [|exact (FR _ Hs'')|exact Nd]. apply (EAR (drop_head c s')); [rewrite <- Eear; now apply in_map|apply Hy].
Qed.

Lemma lin_empty lists : (forall s, In s lists -> s = []) -> linearisation lists [].
Proof.
  intros H. split; [constructor|]. split.
  - intros x. split; [intros []|]. intros (s & Hs & Hx). now rewrite (H _ Hs) in Hx.
  - intros s x y Hs P. rewrite (H _ Hs) in P. now apply precedes_nil in P.
Qed.

Lemma loop_spec : forall fuel lists acc, total_length lists < fuel ->
  (exists l, mro_loop fuel lists acc = Ok (acc ++ l) /\ linearisation lists l /\ chosen lists l) \/
  (mro_loop fuel lists acc = Err TypeError /\ forall l, ~ linearisation lists l).
Proof.
  induction fuel as [|fuel IH]; intros lists acc LT; [lia|]. cbn. change (fun s => negb (is_empty s)) with nonempty.
  destruct (filter nonempty lists) as [|n0 ns] eqn:F.
  - left. exists []. rewrite app_nil_r. split; [reflexivity|]. split; [now apply lin_empty, filter_nil|]. intros done x rest E. destruct done; discriminate E.
  - set (ne := n0 :: ns) in *. destruct (find_candidate ne ne) as [c|] eqn:FC.
    + destruct (find_candidate_some _ _ _ FC) as (pre & t & post & E & FR & PRE). rewrite <- F in E. apply filter_split in E as (pre' & post' & E & Epre).
      rewrite <- F in FR. apply (proj1 (free_filter _ _)) in FR.
      assert (HC : exists t, In (c :: t) lists) by (exists t; rewrite E; apply in_or_app; right; now left).
      assert (PRE' : forall s, In s pre' -> forall h u, s = h :: u -> ~ free lists h).
      { intros s Hs h u Es FH. assert (In s pre) as Q by (rewrite <- Epre; apply filter_In; split; [exact Hs|now rewrite Es]).
        destruct (PRE _ Q) as (h' & u' & Es' & NF). rewrite Es in Es'. injection Es' as <- <-. apply NF. rewrite <- F. now apply free_filter. }
      assert (LT' : total_length (map (drop_head c) lists) < fuel) by (pose proof (total_drop c lists HC); lia).
      destruct (IH (map (drop_head c) lists) (acc ++ [c]) LT') as [(l & EQ & LIN & CH)|(EQ & NO)].
      * left. exists (c :: l). rewrite EQ. split; [now rewrite <- app_assoc|].
        assert (LL : linearisation lists (c :: l)). { apply lin_step; [|exact FR|exact LIN]. destruct HC as (t' & HC). exists (c :: t'), t'. split; [exact HC|reflexivity]. }
        split; [exact LL|]. eapply chosen_step; [exact E|exact FR|exact PRE'| |exact CH]. destruct LL as (LL & _). now inversion LL.
      * right. rewrite EQ. split; [reflexivity|]. intros l LIN. apply (NO (List.remove Nat.eq_dec c l)). now apply lin_unstep.
    + right. split; [reflexivity|]. intros [|x l] LIN.
      * assert (In n0 (filter nonempty lists)) as Q by (rewrite F; now left). apply filter_In in Q as (Q1 & Q2). destruct n0 as [|h u]; [discriminate Q2|].
        destruct LIN as (_ & MEM & _). destruct (proj2 (MEM h)). exists (h :: u). split; [exact Q1|now left].
      * apply lin_head in LIN as (FR & t & Ht). apply (find_candidate_none _ _ FC) with (h := x) (u := t).
        -- intros s Hs Es. rewrite <- F in Hs. apply filter_In in Hs as (_ & Hs). rewrite Es in Hs. discriminate Hs.
        -- rewrite <- F. apply filter_In. split; [exact Ht|reflexivity].
        -- rewrite <- F. now apply free_filter.
Qed.

Lemma mro_cases w bases :
  (exists l, mro w bases = Ok l /\ c3 (merged w bases) l) \/ (mro w bases = Err TypeError /\ forall l, ~ linearisation (merged w bases) l).
Proof.
  unfold mro. fold (merged w bases). destruct (loop_spec (S (total_length (merged w bases))) (merged w bases) [] ltac:(lia)) as [(l & E & L & C)|H]; [left|right; exact H].
  exists l. split; [exact E|]. split; [exact L|exact C].
Qed.

(** The C3 rule determines the result. *)
Lemma next_unique s done x y : next_of s done x -> next_of s done y -> x = y.
Proof.
  intros (s1 & s2 & E & H & N) (t1 & t2 & E' & H' & N'). rewrite E in E'. clear E. revert t1 E' H'.
  induction s1 as [|a s1 IH]; intros [|b t1] E' H'; cbn in E'; injection E' as -> E'.
  - reflexivity.
  - destruct N. apply H'. now left.
  - destruct N'. apply H. now left.
  - apply (IH (fun z Hz => H z (or_intror Hz)) t1 E'). intros z Hz. apply H'. now right.
Qed.
Lemma split_order {A} : forall (p p' : list A) s s' q q', p ++ s :: q = p' ++ s' :: q' -> (In s p') \/ (In s' p) \/ s = s'.
Proof.
  induction p as [|a p IH]; intros [|b p'] s s' q q' E; cbn in E; injection E as -> E.
  - right. right. reflexivity.
  - left. now left.
  - right. left. now left.
  - destruct (IH _ _ _ _ _ E) as [H|[H|H]]; [left; now right|right; left; now right|right; right; exact H].
Qed.
Lemma c3_unique lists l l' : c3 lists l -> c3 lists l' -> l = l'.
Proof.
  intros (L & H) (L' & H').
  assert (LEN : forall k, firstn k l = firstn k l').
  { induction k as [|k IH]; [reflexivity|].
    assert (SUB : forall a b, c3 lists a -> c3 lists b -> firstn k a = firstn k b -> forall x rest, skipn k a = x :: rest -> exists rest', skipn k b = x :: rest').
    { clear. intros a b (La & Ha) (Lb & Hb) EQ x rest Ex. assert (Ea : a = firstn k a ++ x :: rest) by (rewrite <- Ex; symmetry; apply firstn_skipn).
      destruct (skipn k b) as [|y rest'] eqn:Ey.
      - assert (Eb : b = firstn k a) by (rewrite EQ, <- (firstn_skipn k b) at 1; rewrite Ey; apply app_nil_r).
        destruct La as (NDa & Ma & _), Lb as (_ & Mb & _). assert (In x b) as Hx by (apply Mb, Ma; rewrite Ea; apply in_or_app; right; now left).
        rewrite Eb in Hx. rewrite Ea in NDa. apply NoDup_remove_2 in NDa. destruct NDa. apply in_or_app. now left.
      - exists rest'. f_equal. assert (Eb : b = firstn k a ++ y :: rest') by (rewrite EQ, <- Ey; symmetry; apply firstn_skipn).
        destruct (Ha _ _ _ Ea) as (e1 & s1 & t1 & E1 & N1 & W1 & B1). destruct (Hb _ _ _ Eb) as (e2 & s2 & t2 & E2 & N2 & W2 & B2).
        rewrite E1 in E2. destruct (split_order _ _ _ _ _ _ E2) as [K|[K|K]].
        + destruct W1. rewrite E1 in B2 |- *. exact (B2 _ K _ N1).
        + destruct W2. exact (B1 _ K _ N2).
        + subst s2. exact (next_unique _ _ _ _ N2 N1). }
    destruct (skipn k l) as [|x rest] eqn:Ex.
    - destruct (skipn k l') as [|y rest'] eqn:Ey.
      + assert (FA : forall m : list cls, skipn k m = [] -> firstn (S k) m = firstn k m).
        { intros m Em. assert (List.length m <= k) as Q by (apply Nat.sub_0_le; rewrite <- skipn_length, Em; reflexivity).
          rewrite !firstn_all2 by lia. reflexivity. }
        rewrite (FA _ Ex), (FA _ Ey). exact IH.
      + destruct (SUB l' l (conj L' H') (conj L H) (eq_sym IH) y rest' Ey) as (r & Er). rewrite Ex in Er. discriminate Er.
    - destruct (SUB l l' (conj L H) (conj L' H') IH x rest Ex) as (r & Er).
      assert (S1 : forall (m : list cls) u v, skipn k m = u :: v -> firstn (S k) m = firstn k m ++ [u]).
      { clear. induction k as [|k IHk]; intros [|a m] u v E; cbn in *; try discriminate E; [injection E as -> _; reflexivity|].
        f_equal. apply (IHk _ _ _ E). }
      rewrite (S1 _ _ _ Ex), (S1 _ _ _ Er), IH. reflexivity. }
  pose proof (LEN (Nat.max (List.length l) (List.length l'))) as Q. now rewrite !firstn_all2 in Q by lia.
Qed.
