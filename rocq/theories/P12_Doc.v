(** Properties of _doc_utils.py: C47, C48. *)
From Coq Require Import List Arith Bool String Lia.
From Verif Require Import Num DocUtils DocSpec DocProofs.
Import ListNotations.

(** ** C47 *)
(** A successful call returns a duplicate-free ordering of all ancestors that keeps the order of
    every base's own MRO and of the bases. *)
Theorem C47_mro_linearises w bases l : mro w bases = Ok l -> linearisation (merged w bases) l.
Proof.
  intros H. destruct (mro_cases w bases) as [(l' & E & C)|(E & _)]; rewrite H in E; [|discriminate E]. injection E as <-. apply C.
Qed.
(** The only failure is TypeError, and it happens exactly when no such ordering exists. *)
Theorem C47_mro_refuses w bases : 
  ((exists l, linearisation (merged w bases) l) <-> exists l, mro w bases = Ok l) /\
  (forall e, mro w bases = Err e -> e = TypeError).
Proof.
  destruct (mro_cases w bases) as [(l' & E & C)|(E & N)]; split.
  - split; intros _; [now exists l'|exists l'; apply C].
  - intros e H. rewrite E in H. discriminate H.
  - split; intros (l & H); [now destruct (N l)|rewrite E in H; discriminate H].
  - intros e H. rewrite E in H. now injection H as <-.
Qed.
(** Of all such orderings it returns the one C3 prescribes. *)
Theorem C47_mro_is_c3 w bases l : mro w bases = Ok l <-> c3 (merged w bases) l.
Proof.
  destruct (mro_cases w bases) as [(l' & E & C)|(E & N)].
  - rewrite E. split; [intros H; now injection H as <-|intros H; f_equal; exact (c3_unique _ _ _ C H)].
  - rewrite E. split; [discriminate|]. intros (H & _). now apply N in H.
Qed.

Definition good_world (w : world) : Prop := forall c, c < w_count w ->
  (exists t, w_mro w c = c :: t) /\ NoDup (w_mro w c) /\ (forall d, In d (w_mro w c) -> d < w_count w /\ incl (w_mro w d) (w_mro w c)).
Lemma created_good w : created w -> 0 < w_count w /\ good_world w.
Proof.
  induction 1 as [dict meta|w bases order dict meta CW (POS & IH) HB (L & _)].
  - split; [cbn; lia|]. intros c Hc. cbn in Hc. assert (c = 0) as -> by lia. cbn. split; [now exists []|]. split; [repeat constructor; intros []|].
    intros d [<-|[]]. split; [lia|intros x Hx; exact Hx].
  - split; [cbn; lia|]. match type of L with linearisation (merged w ?b) _ => set (bs := b) in * end.
    assert (HBS : forall b, In b bs -> b < w_count w).
    { unfold bs. destruct bases as [|b0 bases]; [intros b [<-|[]]; exact POS|exact HB]. }
    clearbody bs. set (k := w_count w) in *. destruct L as (ND & MEM & ORD).
    assert (LT : forall d, In d order -> d < k /\ incl (w_mro w d) order).
    { intros d Hd. apply MEM in Hd as (s & Hs & Hd). unfold merged in Hs. apply in_app_or in Hs as [Hs|Hs].
      - apply in_map_iff in Hs as (b & <- & Hb). destruct (IH b (HBS b Hb)) as (_ & _ & IN). destruct (IN _ Hd) as (H1 & H2). split; [exact H1|].
        intros x Hx. apply MEM. exists (w_mro w b). split; [apply in_or_app; left; now apply in_map|now apply H2].
      - destruct Hs as [<-|[]]. split; [now apply HBS|]. intros x Hx. apply MEM. exists (w_mro w d). split; [apply in_or_app; left; now apply in_map|exact Hx]. }
    assert (OLD : forall d, d < k -> w_mro (add_class w order dict meta) d = w_mro w d).
    { intros d Hd. cbn. fold k. destruct (Nat.eqb_spec d k); [lia|reflexivity]. }
    intros c Hc. cbn in Hc. fold k in Hc. destruct (Nat.eq_dec c k) as [->|N].
    + assert (EK : w_mro (add_class w order dict meta) k = k :: order) by (cbn; fold k; now rewrite Nat.eqb_refl). rewrite EK.
      split; [now exists order|]. split; [constructor; [intros K; apply LT in K; lia|exact ND]|].
      intros d [<-|Hd]; [split; [cbn; fold k; lia|rewrite EK; intros x Hx; exact Hx]|]. destruct (LT d Hd) as (H1 & H2). split; [cbn; fold k; lia|].
      rewrite OLD by exact H1. intros x Hx. right. now apply H2.
    + assert (Hc' : c < k) by lia. rewrite OLD by exact Hc'. destruct (IH c Hc') as (H1 & H2 & H3). split; [exact H1|]. split; [exact H2|].
      intros d Hd. destruct (H3 d Hd) as (K1 & K2). split; [cbn; fold k in K1 |- *; lia|]. rewrite OLD by exact K1. exact K2.
Qed.
(** Passing a single class returns its own MRO. *)
Theorem C47_single_class w c : created w -> c < w_count w -> mro w [c] = Ok (w_mro w c).
Proof.
  intros CW Hc. apply C47_mro_is_c3. destruct (created_good w CW) as (_ & G). destruct (G c Hc) as ((t & E) & ND & _). unfold merged. cbn. rewrite E in ND |- *.
  split.
  - split; [exact ND|]. split.
    + intros x. split; [intros H; exists (c :: t); split; [now left|exact H]|]. intros (s & [<-|[<-|[]]] & Hx); [exact Hx|]. destruct Hx as [<-|[]]. now left.
    + intros s x y [<-|[<-|[]]] P; [exact P|]. apply precedes_inv in P as [(_ & [])|P]. now apply precedes_nil in P.
  - intros done x rest ED. exists [], (c :: t), [[c]]. split; [reflexivity|].
    assert (Nx : ~ In x done). { rewrite ED in ND. apply NoDup_remove_2 in ND. intros K. apply ND. apply in_or_app. now left. }
    split; [exists done, rest; split; [exact ED|]; split; [auto|exact Nx]|]. split; [|intros ? []].
    intros (s & z & [<-|[<-|[]]] & P & Nz).
    + apply Nz. destruct P as (a & b & d & EP). rewrite ED in EP, ND. clear - EP ND.
      revert a EP. induction done as [|h done IH]; intros [|a0 a] EP; cbn in EP; injection EP as E1 EP.
      * exfalso. cbn in ND. inversion_clear ND as [|? ? K _]. apply K. rewrite EP. apply in_or_app. right. rewrite E1. now left.
      * exfalso. cbn in ND. inversion_clear ND as [|? ? K _]. apply K. rewrite EP. apply in_or_app. right. right. apply in_or_app. right. now left.
      * left. exact E1.
      * right. cbn in ND. inversion_clear ND as [|? ? _ K]. exact (IH K _ EP).
    + apply precedes_inv in P as [(_ & [])|P]. now apply precedes_nil in P.
Qed.
Print Assumptions C47_mro_linearises.
Print Assumptions C47_mro_refuses.
Print Assumptions C47_mro_is_c3.
Print Assumptions C47_single_class.

(** ** C48 *)
Lemma lookup_spec w n : forall l, match lookup w l n with Some a => nearest w l n a | None => undefined w l n end.
Proof.
  induction l as [|c l IH]; cbn; [intros ? []|]. destruct (w_dict w c n) as [a|] eqn:E.
  - exists [], c, l. split; [reflexivity|]. split; [exact E|intros ? []].
  - destruct (lookup w l n) as [a|].
    + destruct IH as (l1 & d & l2 & -> & Hd & H). exists (c :: l1), d, l2. split; [reflexivity|]. split; [exact Hd|]. intros c' [<-|K]; [exact E|now apply H].
    + intros c' [<-|K]; [exact E|now apply IH].
Qed.
Lemma nearest_unique w n : forall l a b, nearest w l n a -> nearest w l n b -> a = b.
Proof.
  intros l a b (l1 & c & l2 & E & Ha & Ka) (m1 & d & m2 & E' & Hb & Kb). rewrite E in E'. destruct (split_order _ _ _ _ _ _ E') as [K|[K|K]].
  - rewrite (Kb _ K) in Ha. discriminate Ha.
  - rewrite (Ka _ K) in Hb. discriminate Hb.
  - subst d. rewrite Ha in Hb. now injection Hb.
Qed.
Lemma nearest_undefined w n l a : nearest w l n a -> undefined w l n -> False.
Proof. intros (l1 & c & l2 & -> & Ha & _) U. rewrite (U c) in Ha; [discriminate Ha|]. apply in_or_app. right. now left. Qed.
Lemma getattr_reaches w c n a : getattr w c n = Some a <-> reaches w c n a.
Proof.
  unfold getattr, reaches. pose proof (lookup_spec w n (w_mro w c)) as L. destruct (lookup w (w_mro w c) n) as [b|].
  - split; [intros H; injection H as <-; now left|]. intros [H|(H & _)]; [now rewrite (nearest_unique _ _ _ _ _ L H)|]. now destruct (nearest_undefined _ _ _ _ L H).
  - split; [intros H; right; now split|]. intros [H|(_ & H)]; [now destruct (nearest_undefined _ _ _ _ H L)|exact H].
Qed.
Lemma search_spec w n : forall m,
  (exists d, search_doc w m n = Ok d /\ first_having w m n d) \/
  (search_doc w m n = Err RuntimeError /\ forall c, In c m -> forall a, reaches w c n a -> a = ANone).
Proof.
  induction m as [|c m IH]; cbn; [right; split; [reflexivity|intros ? []]|].
  assert (SKIP : (forall a, reaches w c n a -> a = ANone) ->
    (exists d, search_doc w m n = Ok d /\ first_having w (c :: m) n d) \/
    (search_doc w m n = Err RuntimeError /\ forall c', c = c' \/ In c' m -> forall a, reaches w c' n a -> a = ANone)).
  { intros S. destruct IH as [(d & E & l1 & x & l2 & -> & R1 & R2)|(E & R)].
    - left. exists d. split; [exact E|]. exists (c :: l1), x, l2. split; [reflexivity|]. split; [exact R1|]. intros c' [<-|K]; [exact S|now apply R2].
    - right. split; [exact E|]. intros c' [<-|K]; [exact S|now apply R]. }
  destruct (getattr w c n) as [[|d]|] eqn:G.
  - apply SKIP. intros a K. apply getattr_reaches in K. rewrite G in K. now injection K as <-.
  - left. exists d. split; [reflexivity|]. exists [], c, m. split; [reflexivity|]. split; [now apply getattr_reaches|intros ? []].
  - apply SKIP. intros a K. apply getattr_reaches in K. rewrite G in K. discriminate K.
Qed.
Lemma first_having_unique w m n d d' : first_having w m n d -> first_having w m n d' -> d = d'.
Proof.
  intros (l1 & c & l2 & E & Ha & Ka) (m1 & x & m2 & E' & Hb & Kb). rewrite E in E'. destruct (split_order _ _ _ _ _ _ E') as [K|[K|K]].
  - specialize (Kb _ K _ Ha). discriminate Kb.
  - specialize (Ka _ K _ Hb). discriminate Ka.
  - subst x. apply getattr_reaches in Ha, Hb. rewrite Ha in Hb. now injection Hb.
Qed.

Lemma run_body_app w : forall b1 ns b2, run_body w ns (b1 ++ b2) = (let* ns' := run_body w ns b1 in run_body w ns' b2).
Proof.
  induction b1 as [|s b1 IH]; intros ns b2; cbn; [reflexivity|]. destruct (run_stmt w ns s) as [ns'|]; cbn; [apply IH|reflexivity].
Qed.
Lemma ns_get_cons k v ns n : ns_get ((k, v) :: ns) n = if String.eqb k n then Some v else ns_get ns n.
Proof. reflexivity. Qed.
Lemma stmt_other w ns s ns' n : run_stmt w ns s = Ok ns' -> binds s <> n -> ns_get ns' n = ns_get ns n.
Proof.
  intros H N. destruct s as [k doc []|k a]; cbn in H, N.
  - destruct (ns_get ns decorator_name) as [[m|a]|]; try discriminate H. destruct (copy_ancestor w m k doc); cbn in H; [|discriminate H]. injection H as <-.
    rewrite ns_get_cons. now destruct (String.eqb_spec k n).
  - injection H as <-. rewrite ns_get_cons. now destruct (String.eqb_spec k n).
  - injection H as <-. rewrite ns_get_cons. now destruct (String.eqb_spec k n).
Qed.
Lemma body_other w n : forall b ns ns', run_body w ns b = Ok ns' -> (forall s, In s b -> binds s <> n) -> ns_get ns' n = ns_get ns n.
Proof.
  induction b as [|s b IH]; intros ns ns' H N; cbn in H; [now injection H as <-|].
  destruct (run_stmt w ns s) as [ns1|] eqn:E; cbn in H; [|discriminate H]. rewrite (IH _ _ H (fun s' K => N s' (or_intror K))).
  apply (stmt_other w ns s); [exact E|apply N; now left].
Qed.
Lemma stmt_binds w ns s ns' : run_stmt w ns s = Ok ns' -> exists a, ns_get ns' (binds s) = Some (VAttr a).
Proof.
  intros H. destruct s as [k doc []|k a]; cbn in H |- *.
  - destruct (ns_get ns decorator_name) as [[m|a]|]; try discriminate H. destruct (copy_ancestor w m k doc); cbn in H; [|discriminate H]. injection H as <-.
    rewrite ns_get_cons, String.eqb_refl. eauto.
  - injection H as <-. rewrite ns_get_cons, String.eqb_refl. eauto.
  - injection H as <-. rewrite ns_get_cons, String.eqb_refl. eauto.
Qed.
(** Once the decorator's name is rebound it stays so, and __new__ refuses. *)
Lemma rebound_stays w : forall b ns ns' a, run_body w ns b = Ok ns' -> ns_get ns decorator_name = Some (VAttr a) -> exists a', ns_get ns' decorator_name = Some (VAttr a').
Proof.
  induction b as [|s b IH]; intros ns ns' a H K; cbn in H; [injection H as <-; eauto|].
  destruct (run_stmt w ns s) as [ns1|] eqn:E; cbn in H; [|discriminate H].
  destruct (String.eqb_spec (binds s) decorator_name) as [D|D].
  - destruct (stmt_binds _ _ _ _ E) as (a1 & E1). rewrite D in E1. exact (IH _ _ _ H E1).
  - rewrite <- (stmt_other _ _ _ _ _ E D) in K. exact (IH _ _ _ H K).
Qed.
Lemma ns_get_filter ns n : n <> decorator_name -> ns_get (filter (fun kv => negb (String.eqb (fst kv) decorator_name)) ns) n = ns_get ns n.
Proof.
  intros N. induction ns as [|[k v] ns IH]; [reflexivity|]. cbn [filter fst]. destruct (String.eqb_spec k decorator_name) as [->|D]; cbn [negb].
  - rewrite IH, ns_get_cons. destruct (String.eqb_spec decorator_name n); [congruence|reflexivity].
  - rewrite !ns_get_cons, IH. reflexivity.
Qed.
Lemma ns_get_filter_gone ns : ns_get (filter (fun kv => negb (String.eqb (fst kv) decorator_name)) ns) decorator_name = None.
Proof.
  induction ns as [|[k v] ns IH]; [reflexivity|]. cbn [filter fst]. destruct (String.eqb_spec k decorator_name) as [->|D]; cbn [negb]; [exact IH|].
  rewrite ns_get_cons. destruct (String.eqb_spec k decorator_name); [congruence|exact IH].
Qed.
(** What a successful class statement went through. *)
Lemma class_ok w bases body ns : class_statement w bases body = Ok ns ->
  exists m ns1, mro w bases = Ok m /\ run_body w [(decorator_name, VDecorator m)] body = Ok ns1 /\ ns_get ns decorator_name = None /\
    (forall n, n <> decorator_name -> ns_get ns n = ns_get ns1 n) /\ (forall s, In s body -> binds s <> decorator_name).
Proof.
  unfold class_statement. intros H. destruct (mro w bases) as [m|]; [|discriminate H]. cbn [bind] in H.
  destruct (run_body w [(decorator_name, VDecorator m)] body) as [ns1|] eqn:R; [|discriminate H]. cbn [bind] in H.
  exists m, ns1. split; [reflexivity|]. split; [exact R|].
  assert (NB : forall s, In s body -> binds s <> decorator_name).
  { intros s Hs D. apply in_split in Hs as (b1 & b2 & ->). rewrite run_body_app in R. destruct (run_body w [(decorator_name, VDecorator m)] b1) as [n1|]; [|discriminate R].
    cbn in R. destruct (run_stmt w n1 s) as [n2|] eqn:E2; [|discriminate R]. cbn in R. destruct (stmt_binds _ _ _ _ E2) as (a & Ea). rewrite D in Ea.
    destruct (rebound_stays _ _ _ _ _ R Ea) as (a' & Ea'). unfold check_decorator in H. rewrite Ea' in H. discriminate H. }
  assert (DD : ns_get ns1 decorator_name = Some (VDecorator m)).
  { rewrite (body_other _ decorator_name _ _ _ R NB). reflexivity. }
  unfold check_decorator in H. rewrite DD in H. injection H as <-. split; [apply ns_get_filter_gone|]. split; [|exact NB].
  intros n N. now apply ns_get_filter.
Qed.
(** In a class body with metaclass InheritableDocstrings: the decorator is gone afterwards and its
    name was not rebound; a decorated method had no docstring of its own and ends up with that of
    the first class in the MRO which has the method; all other bindings are kept as they are. *)
Theorem C48_class_statement w bases body ns m : class_statement w bases body = Ok ns -> mro w bases = Ok m ->
  ns_get ns decorator_name = None /\ (forall s, In s body -> binds s <> decorator_name) /\
  (forall n doc, In (SDef n doc true) body -> doc = None) /\
  (forall n doc, last_binding body n (SDef n doc true) -> exists d, ns_attr ns n = Some (AObj d) /\ first_having w m n d) /\
  (forall n doc, last_binding body n (SDef n doc false) -> ns_attr ns n = Some (AObj doc)) /\
  (forall n a, last_binding body n (SBind n a) -> ns_attr ns n = Some a).
Proof.
  intros H HM. destruct (class_ok _ _ _ _ H) as (m' & ns1 & HM' & R & GONE & KEEP & NB). rewrite HM in HM'. injection HM' as <-.
  split; [exact GONE|]. split; [exact NB|].
  assert (STEP : forall b1 s b2, body = b1 ++ s :: b2 -> exists n0 n2, ns_get n0 decorator_name = Some (VDecorator m) /\ run_stmt w n0 s = Ok n2 /\
     ((forall s', In s' b2 -> binds s' <> binds s) -> ns_get ns (binds s) = ns_get n2 (binds s))).
  { intros b1 s b2 E. rewrite E, run_body_app in R. destruct (run_body w [(decorator_name, VDecorator m)] b1) as [n0|] eqn:R1; [|discriminate R]. cbn in R.
    destruct (run_stmt w n0 s) as [n2|] eqn:R2; [|discriminate R]. cbn in R. exists n0, n2. split; [|split; [exact R2|]].
    - rewrite (body_other _ decorator_name _ _ _ R1); [reflexivity|]. intros s' Hs'. apply NB. rewrite E. apply in_or_app. now left.
    - intros K. rewrite (KEEP (binds s)); [|apply NB; rewrite E; apply in_or_app; right; now left]. exact (body_other _ _ _ _ _ R K). }
  split; [|split; [|split]].
  - intros n doc Hin. apply in_split in Hin as (b1 & b2 & E). destruct (STEP _ _ _ E) as (n0 & n2 & D0 & R2 & _). cbn in R2. rewrite D0 in R2.
    destruct doc; [discriminate R2|reflexivity].
  - intros n doc (b1 & b2 & E & _ & K). destruct (STEP _ _ _ E) as (n0 & n2 & D0 & R2 & G). cbn in R2, G. rewrite D0 in R2.
    destruct doc as [d0|]; [discriminate R2|]. cbn in R2. unfold ns_attr. rewrite (G K).
    destruct (search_spec w n m) as [(d & Ed & FH)|(Ed & _)]; rewrite Ed in R2; cbn in R2; [|discriminate R2]. injection R2 as <-.
    rewrite ns_get_cons, String.eqb_refl. now exists d.
  - intros n doc (b1 & b2 & E & _ & K). destruct (STEP _ _ _ E) as (n0 & n2 & D0 & R2 & G). cbn in R2, G. injection R2 as <-. unfold ns_attr. rewrite (G K).
    rewrite ns_get_cons, String.eqb_refl. reflexivity.
  - intros n a (b1 & b2 & E & _ & K). destruct (STEP _ _ _ E) as (n0 & n2 & D0 & R2 & G). cbn in R2, G. injection R2 as <-. unfold ns_attr. rewrite (G K).
    rewrite ns_get_cons, String.eqb_refl. reflexivity.
Qed.
(** Conversely, which class statements are accepted. *)
Definition acceptable (w : world) (m : list cls) (s : stmt) : Prop :=
  binds s <> decorator_name /\
  match s with SDef n doc true => doc = None /\ exists d, first_having w m n d | _ => True end.
Theorem C48_accepted_iff w bases body : 
  (exists ns, class_statement w bases body = Ok ns) <-> exists m, mro w bases = Ok m /\ Forall (acceptable w m) body.
Proof.
  split.
  - intros (ns & H). pose proof H as H0. destruct (class_ok _ _ _ _ H) as (m & ns1 & HM & R & _ & _ & NB). exists m. split; [exact HM|]. apply Forall_forall.
    intros s Hs. split; [now apply NB|]. destruct s as [n doc []|]; try exact Logic.I.
    destruct (C48_class_statement _ _ _ _ _ H0 HM) as (_ & _ & ND & _). pose proof (ND _ _ Hs) as ->. split; [reflexivity|].
    apply in_split in Hs as (b1 & b2 & E). rewrite E, run_body_app in R. destruct (run_body w [(decorator_name, VDecorator m)] b1) as [n0|] eqn:R1; [|discriminate R]. cbn in R.
    rewrite (body_other _ decorator_name _ _ _ R1) in R by (intros s' Hs'; apply NB; rewrite E; apply in_or_app; now left). cbn in R.
    destruct (search_spec w n m) as [(d & Ed & FH)|(Ed & _)]; rewrite Ed in R; cbn in R; [|discriminate R]. now exists d.
  - intros (m & HM & F). unfold class_statement. rewrite HM. cbn [bind].
    assert (RUN : forall b ns, Forall (acceptable w m) b -> ns_get ns decorator_name = Some (VDecorator m) ->
      exists ns', run_body w ns b = Ok ns' /\ ns_get ns' decorator_name = Some (VDecorator m)).
    { clear. induction b as [|s b IH]; intros ns F K; [now exists ns|]. inversion_clear F as [|? ? (NB & A) F'].
      assert (exists ns1, run_stmt w ns s = Ok ns1) as (ns1 & E1).
      { destruct s as [n doc []|n a]; cbn; eauto. rewrite K. destruct A as (-> & d & FH). cbn.
        destruct (search_spec w n m) as [(d' & Ed & _)|(_ & Ed)]; [rewrite Ed; cbn; eauto|]. destruct FH as (l1 & c & l2 & -> & RE & _).
        specialize (Ed c ltac:(apply in_or_app; right; now left) _ RE). discriminate Ed. }
      cbn. rewrite E1. cbn [bind]. apply IH; [exact F'|]. rewrite (stmt_other _ _ _ _ _ E1 NB). exact K. }
    destruct (RUN body [(decorator_name, VDecorator m)] F eq_refl) as (ns1 & R & D). rewrite R. cbn [bind]. unfold check_decorator. rewrite D. eauto.
Qed.

(** With a single base class, the docstring is that of the nearest ancestor defining the method. *)
Theorem C48_single_base_partial w c n body ns : created w -> c < w_count w -> class_statement w [c] body = Ok ns ->
  last_binding body n (SDef n None true) -> not_on_metaclass w (w_mro w c) n -> ~ nearest w (w_mro w c) n ANone ->
  exists d, nearest w (w_mro w c) n (AObj d) /\ ns_attr ns n = Some (AObj d).
Proof.
  intros CW Hc H LB NM NN. pose proof (C47_single_class w c CW Hc) as HM. destruct (C48_class_statement _ _ _ _ _ H HM) as (_ & _ & _ & DEC & _).
  destruct (DEC _ _ LB) as (d & E & FH). destruct (created_good w CW) as (_ & G). destruct (G c Hc) as ((t & EM) & _ & INC).
  pose proof (lookup_spec w n (w_mro w c)) as L. destruct (lookup w (w_mro w c) n) as [[|d']|] eqn:EL.
  - now destruct (NN L).
  - exists d'. split; [exact L|]. rewrite E. f_equal. f_equal. apply (first_having_unique w (w_mro w c) n); [exact FH|].
    exists [], c, t. split; [exact EM|]. split; [now left|intros ? []].
  - exfalso. destruct FH as (l1 & x & l2 & EX & RE & _). assert (In x (w_mro w c)) as Hx by (rewrite EX; apply in_or_app; right; now left).
    destruct RE as [RE|(_ & RE)]; [|rewrite (NM _ Hx) in RE; discriminate RE]. destruct (INC x Hx) as (_ & SUB).
    apply (nearest_undefined _ _ _ _ RE). intros y Hy. apply L. now apply SUB.
Qed.
Print Assumptions C48_class_statement.
Print Assumptions C48_accepted_iff.
Print Assumptions C48_single_base_partial.

(** ** Concrete hierarchies *)
Lemma created_by_mro w bases order dict meta : created w -> (forall b, In b bases -> b < w_count w) ->
  mro w (match bases with [] => [0] | _ => bases end) = Ok order -> created (add_class w order dict meta).
Proof. intros CW HB H. eapply created_class; [exact CW|exact HB|]. now apply C47_mro_is_c3. Qed.
Definition defs (l : list (string * option string)) (n : string) : option attr :=
  match find (fun kv => String.eqb (fst kv) n) l with Some kv => Some (AObj (snd kv)) | None => None end.
Definition no_meta (n : string) : option attr := None.

(** With several bases the nearest definition is not always the one used: D(B, C) with B(A), C(A),
    where A and C define the method. *)
Definition wA := add_class (object_world (defs []) no_meta) [0] (defs [("f", Some "docstring of A")]%string) no_meta.
Definition wB := add_class wA [1; 0] (defs []) no_meta.
Definition wC := add_class wB [1; 0] (defs [("f", Some "docstring of C")]%string) no_meta.
Lemma created_wC : created wC.
Proof.
  assert (A : created wA) by (apply (created_by_mro _ []); [constructor|intros ? []|reflexivity]).
  assert (B : created wB) by (apply (created_by_mro _ [1]); [exact A|intros b [<-|[]]; cbn; lia|reflexivity]).
  apply (created_by_mro _ [1]); [exact B|intros b [<-|[]]; cbn; lia|reflexivity].
Qed.
Theorem C48_nearest_definition_refuted : exists w bases n m ns d d',
  created w /\ mro w bases = Ok m /\ class_statement w bases [SDef n None true] = Ok ns /\
  nearest w m n (AObj (Some d)) /\ ns_attr ns n = Some (AObj (Some d')) /\ d <> d'.
Proof.
  exists wC, [2; 3], "f"%string, [2; 3; 1; 0]. eexists. exists "docstring of C"%string, "docstring of A"%string.
  split; [exact created_wC|]. split; [reflexivity|]. split; [reflexivity|]. split.
  - exists [2], 3, [1; 0]. split; [reflexivity|]. split; [reflexivity|]. intros c [<-|[]]. reflexivity.
  - split; [reflexivity|discriminate].
Qed.
Print Assumptions C48_nearest_definition_refuted.

(** The classes of penalties.py up to NonNegativity: ABC, ADMMPenalty, MatricesPenalty,
    MatrixPenalty, RowVectorPenalty, HardConstraintMixin. *)
Local Open Scope string_scope.
Definition w1 := add_class (object_world (defs []) no_meta) [0] (defs []) no_meta.
Definition w2 := add_class w1 [1; 0] (defs [("penalty", Some "Compute the penalty")]) no_meta.
Definition w3 := add_class w2 [2; 1; 0] (defs [("factor_matrices_update", Some "Update all factor matrices")]) no_meta.
Definition w4 := add_class w3 [3; 2; 1; 0] (defs [("factor_matrix_update", Some "Update a factor matrix")]) no_meta.
Definition w5 := add_class w4 [4; 3; 2; 1; 0] (defs [("factor_matrix_row_update", Some "Update a single row")]) no_meta.
Definition w6 := add_class w5 [0] (defs [("penalty", Some "Returns 0 as there is no penalty for hard constraints")]) no_meta.
Lemma created_w6 : created w6.
Proof.
  assert (A : created w1) by (apply (created_by_mro _ []); [constructor|intros ? []|reflexivity]).
  assert (B : created w2) by (apply (created_by_mro _ [1]); [exact A|intros b [<-|[]]; cbn; lia|reflexivity]).
  assert (C : created w3) by (apply (created_by_mro _ [2]); [exact B|intros b [<-|[]]; cbn; lia|reflexivity]).
  assert (D : created w4) by (apply (created_by_mro _ [3]); [exact C|intros b [<-|[]]; cbn; lia|reflexivity]).
  assert (E : created w5) by (apply (created_by_mro _ [4]); [exact D|intros b [<-|[]]; cbn; lia|reflexivity]).
  apply (created_by_mro _ []); [exact E|intros ? []|reflexivity].
Qed.
Definition nonneg_body := [SBind "x" ANone; SDef "factor_matrix_row_update" None true; SDef "factor_matrix_update" None true; SDef "_helper" (Some "own") false].
Example ex_nonnegativity : mro w6 [6; 5] = Ok [6; 5; 4; 3; 2; 1; 0] /\
  exists ns, class_statement w6 [6; 5] nonneg_body = Ok ns /\
    ns_attr ns "factor_matrix_update" = Some (AObj (Some "Update a factor matrix")) /\
    last_binding nonneg_body "factor_matrix_update" (SDef "factor_matrix_update" None true).
Proof.
  split; [reflexivity|]. eexists. split; [reflexivity|]. split; [reflexivity|].
  exists [SBind "x" ANone; SDef "factor_matrix_row_update" None true], [SDef "_helper" (Some "own") false]. split; [reflexivity|]. split; [reflexivity|].
  intros s [<-|[]]. discriminate.
Qed.
(** Hypotheses of C48_single_base_partial: a subclass of RowVectorPenalty. *)
Example ex_single_base : exists ns, class_statement w6 [5] nonneg_body = Ok ns /\ not_on_metaclass w6 (w_mro w6 5) "factor_matrix_update" /\
  ~ nearest w6 (w_mro w6 5) "factor_matrix_update" ANone /\ nearest w6 (w_mro w6 5) "factor_matrix_update" (AObj (Some "Update a factor matrix")).
Proof.
  assert (N : nearest w6 (w_mro w6 5) "factor_matrix_update" (AObj (Some "Update a factor matrix"))).
  { exists [5], 4, [3; 2; 1; 0]. split; [reflexivity|]. split; [reflexivity|]. intros c [<-|[]]. reflexivity. }
  eexists. split; [reflexivity|]. split; [|split; [|exact N]].
  - intros c Hc. cbn in Hc. repeat (destruct Hc as [<-|Hc]; [reflexivity|]). destruct Hc.
  - intros K. discriminate (nearest_unique _ _ _ _ _ K N).
Qed.
(** Bases in the wrong order: a class and, after it, a subclass... and the reverse. *)
Example ex_inconsistent : mro w6 [4; 5] = Err TypeError /\ mro w6 [5; 4] = Ok [5; 4; 3; 2; 1; 0].
Proof. split; reflexivity. Qed.
(** A method no ancestor has, a method with its own docstring, a rebound decorator. *)
Example ex_rejected : class_statement w6 [5] [SDef "nothing" None true] = Err RuntimeError /\
  class_statement w6 [5] [SDef "penalty" (Some "own") true] = Err RuntimeError /\
  class_statement w6 [5] [SBind decorator_name ANone] = Err RuntimeError.
Proof. repeat split; reflexivity. Qed.
