(** The fit with references computes what the fit with values computes, if the objects are separate. *)
From Coq Require Import List Arith Bool ZArith Lia.
From Verif Require Import Num Numpy Penalties CoupledMatrices Decomp Heap HeapSpec HeapFrame.
Import ListNotations.

Section Refine.
Context {N : Num}.
Implicit Types (h : heap N) (s : hstate N).

Definition agree {A B} (R : A -> heap N -> B -> Prop) (out : res A * heap N) (v : res B) : Prop :=
  match out, v with
  | (Ok x, h'), Ok y => R x h' y
  | (Err e, _), Err e' => e = e'
  | _, _ => False
  end.
Lemma agree_then {A B A' B'} (R : A -> heap N -> B -> Prop) (R' : A' -> heap N -> B' -> Prop) (c : cmd A) k v f h :
  agree R (c h) v -> (forall x h' y, R x h' y -> agree R' (k x h') (f y)) -> agree R' (thenc c k h) (bind v f).
Proof.
  intros H Hk. unfold thenc. destruct (c h) as [[x|e] h'], v as [y|e']; cbn in H |- *; try contradiction; auto.
Qed.
Lemma agree_weak {A B} (R R' : A -> heap N -> B -> Prop) out v : agree R out v -> (forall x h y, R x h y -> R' x h y) -> agree R' out v.
Proof. intros H HR. destruct out as [[x|e] h'], v as [y|e']; cbn in *; auto. Qed.
Lemma agree_lift {A} (r : res A) h : agree (fun x h' y => x = y /\ h' = h) (lift r h) r.
Proof. destruct r; cbn; auto. Qed.
Lemma agree_look {A B} (R : A -> heap N -> B -> Prop) (k : heap N -> cmd A) v h : agree R (k h h) v -> agree R (thenc look k h) v.
Proof. intros H. exact H. Qed.

Lemma agree_map {A B C} (R : A -> heap N -> B -> Prop) (R' : A -> heap N -> C -> Prop) out v f :
  agree R out v -> (forall x h y, R x h y -> R' x h (f y)) -> agree R' out (bind v (fun y => Ok (f y))).
Proof. intros H HR. destruct out as [[x|e] h'], v as [y|e']; cbn in *; auto. Qed.
Lemma agree_bind {A B C} (R : A -> heap N -> B -> Prop) (R' : A -> heap N -> C -> Prop) out v f :
  agree R out v -> (forall x h y, R x h y -> agree R' (Ok x, h) (f y)) -> agree R' out (bind v f).
Proof. intros H HR. destruct out as [[x|e] h'], v as [y|e']; cbn [agree bind] in *; try contradiction; auto. exact (HR _ _ _ H). Qed.

(** ** Writing an object item by item *)
Fixpoint upds {A} (l : list A) (i : nat) (xs : list A) : list A :=
  match xs with [] => l | x :: xs => upds (upd l i x) (S i) xs end.
Lemma length_upd' {A} (l : list A) i x : length (upd l i x) = length l.
Proof. revert i. induction l as [|y l IH]; intros [|i]; cbn; auto. Qed.
Lemma firstn_upd {A} (l : list A) i x : i < length l -> firstn (S i) (upd l i x) = firstn i l ++ [x].
Proof. revert i. induction l as [|y l IH]; intros [|i] H; cbn in *; [lia|lia|reflexivity|]. f_equal. apply IH. lia. Qed.
Lemma upds_firstn {A} (xs l : list A) i : length l = i + length xs -> upds l i xs = firstn i l ++ xs.
Proof.
  revert l i. induction xs as [|x xs IH]; intros l i Hl; cbn [upds length] in *.
  - rewrite app_nil_r, firstn_all2 by lia. reflexivity.
  - rewrite IH by (rewrite length_upd'; lia). rewrite firstn_upd by lia. rewrite <- app_assoc. reflexivity.
Qed.
Lemma upds_all {A} (xs l : list A) : length l = length xs -> upds l 0 xs = xs.
Proof. intros H. rewrite upds_firstn by exact H. reflexivity. Qed.

(** the same heap but for the array [a] *)
Definition but_arr a h h' : Prop := h_next h' = h_next h /\ h_lst h' = h_lst h /\ forall x, x <> a -> h_arr h' x = h_arr h x.
Definition but_lst b h h' : Prop := h_next h' = h_next h /\ h_arr h' = h_arr h /\ forall x, x <> b -> h_lst h' x = h_lst h x.
Lemma write_rows_agree (f : nat -> res (list num)) a i n h :
  agree (fun _ h' rows => but_arr a h h' /\ h_arr h' a = Mat (mr (h_arr h a)) (mc (h_arr h a)) (upds (me (h_arr h a)) i rows) /\ length rows = n)
    (for_each (fun j => thenc (lift (f j)) (fun row => write_row a j row)) (seq i n) h) (mapM f (seq i n)).
Proof.
  revert i h. induction n as [|n IH]; intros i h; cbn [seq for_each mapM].
  - cbn. split; [repeat split|]. split; [destruct (h_arr h a); reflexivity|reflexivity].
  - unfold thenc at 1 2. unfold lift. destruct (f i) as [row|e]; cbn [bind]; [|reflexivity].
    cbn [write_row]. set (h1 := Heap _ _ _). specialize (IH (S i) h1).
    destruct (for_each _ _ h1) as [[u|e] h2], (mapM f (seq (S i) n)) as [rows|e']; cbn [agree bind] in *; try contradiction; auto.
    destruct IH as [[Hn [Hl Ha]] [Hr Hlen]]. subst h1. cbn in *. rewrite Nat.eqb_refl in Hr. split; [|split].
    + split; [exact Hn|split; [exact Hl|]]. intros x Hx. rewrite Ha by exact Hx. destruct (x =? a) eqn:E; [|reflexivity].
      apply Nat.eqb_eq in E. contradiction.
    + exact Hr.
    + lia.
Qed.
Lemma set_items_agree (f : nat -> res mat) b i n h :
  agree (fun _ h' Ms => but_lst b h h' /\ h_lst h' b = upds (h_lst h b) i Ms /\ length Ms = n)
    (for_each (fun j => thenc (lift (f j)) (fun M => set_item b j M)) (seq i n) h) (mapM f (seq i n)).
Proof.
  revert i h. induction n as [|n IH]; intros i h; cbn [seq for_each mapM].
  - cbn. repeat split.
  - unfold thenc at 1 2. unfold lift. destruct (f i) as [M|e]; cbn [bind]; [|reflexivity].
    cbn [set_item]. set (h1 := Heap _ _ _). specialize (IH (S i) h1).
    destruct (for_each _ _ h1) as [[u|e] h2], (mapM f (seq (S i) n)) as [Ms|e']; cbn [agree bind] in *; try contradiction; auto.
    destruct IH as [[Hn [Hl Ha]] [Hr Hlen]]. subst h1. cbn in *. rewrite Nat.eqb_refl in Hr. split; [|split].
    + split; [exact Hn|split; [exact Hl|]]. intros x Hx. rewrite Ha by exact Hx. destruct (x =? b) eqn:E; [|reflexivity].
      apply Nat.eqb_eq in E. contradiction.
    + exact Hr.
    + lia.
Qed.

(** ** Update of A *)
(** array of the shape [r] times [c] *)
Definition shaped2 (r c : nat) (M : mat) : Prop := mr M = r /\ mc M = c /\ length (me M) = r.
(** the objects of mode 0 that an update with the buffer [a] uses *)
Definition sep1 (constant : bool) h (a : nat) (regs : list (hreg N)) : Prop :=
  a < h_next h /\ Forall (fun g => r_aux g < h_next h /\ r_dual g < h_next h /\ r_aux g <> a /\ r_dual g <> a) regs.
Definition sepr (constant : bool) h (r c : nat) (regs : list (hreg N)) : Prop :=
  constant = false -> NoDup (map r_aux regs) /\ Forall (fun g => shaped2 r c (h_arr h (r_aux g)) /\ ~ In (r_dual g) (map r_aux regs)) regs.

Definition fresh_reg (constant : bool) h h' (g g' : hreg N) : Prop :=
  (if constant then h_next h <= r_aux g' < h_next h' else r_aux g' = r_aux g) /\ h_next h <= r_dual g' < h_next h'.
(** nothing but new objects and, unless [constant], the arrays [l] *)
Definition but_aux (constant : bool) (l : list nat) h h' : Prop :=
  h_next h <= h_next h' /\ h_lst h' = h_lst h /\ forall x, x < h_next h -> (constant = false -> ~ In x l) -> h_arr h' x = h_arr h x.
Lemma but_aux_trans constant l l' h h1 h2 : but_aux constant l h h1 -> but_aux constant l' h1 h2 -> but_aux constant (l ++ l') h h2.
Proof.
  intros [Hn [Hl Ha]] [Hn' [Hl' Ha']]. split; [lia|]. split; [congruence|]. intros x Hx Hc.
  rewrite Ha'; [apply Ha; [exact Hx|]|lia|]; intros Hf Hi; apply (Hc Hf); apply in_or_app; auto.
Qed.

Lemma alloc_then {A} M (k : nat -> cmd A) h : thenc (alloc M) k h =
  k (h_next h) (Heap (fun x => if (x =? h_next h) then M else h_arr h x) (h_lst h) (S (h_next h))).
Proof. reflexivity. Qed.

Lemma hA_reg_step_agree E constant fps a g h r c :
  a < h_next h -> r_aux g < h_next h -> r_dual g < h_next h -> r_aux g <> a -> r_dual g <> r_aux g \/ constant = true ->
  shaped2 r c (h_arr h a) -> (constant = false -> length fps = r /\ shaped2 r c (h_arr h (r_aux g))) ->
  agree (fun g' h' m => view h' g' = m /\ fresh_reg constant h h' g g' /\ but_aux constant [r_aux g] h h' /\
           (constant = false -> shaped2 r c (h_arr h' (r_aux g'))))
    (hA_reg_step E constant fps a g h) (A_reg_step E constant fps (h_arr h a) (view h g)).
Proof.
  intros Ha Hx Hd Hxa Hxd HA Hs. unfold hA_reg_step, A_reg_step. apply agree_look. cbn [g_pen g_dual view].
  set (V := madd (h_arr h a) (h_arr h (r_dual g))).
  apply (agree_then (fun x h1 M => h_arr h1 x = M /\ (if constant then x = h_next h /\ h_next h1 = S (h_next h) else x = r_aux g /\ h_next h1 = h_next h /\ shaped2 r c M) /\
    h_lst h1 = h_lst h /\ forall y, y < h_next h -> (constant = false -> y <> r_aux g) -> h_arr h1 y = h_arr h y)).
  { destruct constant.
    - unfold thenc, lift. destruct (factor_matrix_update _ _ _ _) as [M|e]; cbn; [|reflexivity]. rewrite Nat.eqb_refl.
      repeat split; try reflexivity. intros y Hy _. destruct (y =? h_next h) eqn:Ey; [|reflexivity]. apply Nat.eqb_eq in Ey. lia.
    - destruct (Hs eq_refl) as [Hfps Haux]. unfold rows_update.
      apply (agree_then _ _ _ _ _ _ _ (write_rows_agree (fun i => row_update (r_pen g) (mrow V i) (nth i fps n0)) (r_aux g) 0 (length fps) h)).
      intros u h1 rows [[Hn [Hl Hb]] [Hr Hlen]]. cbn. split; [|split; [split; [reflexivity|split; [exact Hn|]]|split; [exact Hl|]]].
      + rewrite Hr. destruct Haux as [H1 [H2 H3]]. destruct HA as [H4 [H5 H6]]. subst V. cbn. rewrite upds_all by lia. congruence.
      + destruct HA as [H4 [H5 H6]]. subst V. unfold shaped2. cbn. repeat split; lia.
      + intros y _ Hy. apply Hb. apply Hy. reflexivity. }
  intros x h1 M [HM [Hx1 [Hl1 Hk1]]]. apply agree_look.
  assert (h_arr h1 (r_dual g) = h_arr h (r_dual g)) as Hd1.
  { apply Hk1; [exact Hd|]. intros Hc. destruct Hxd; [assumption|congruence]. }
  assert (h_arr h1 a = h_arr h a) as Ha1. { apply Hk1; [exact Ha|]. intros _. congruence. }
  rewrite HM, Hd1. eapply agree_then; [apply agree_lift|]. intros sh h2 sh' [-> ->]. rewrite alloc_then. cbn. rewrite Ha1.
  assert (x <> h_next h1) as Hxn. { destruct constant; destruct Hx1 as [-> Hn1]; [lia|]. destruct Hn1 as [Hn1 _]. lia. }
  split; [|split; [|split]].
  - unfold view. cbn. rewrite Nat.eqb_refl. replace (x =? h_next h1) with false by (symmetry; apply Nat.eqb_neq; exact Hxn). rewrite HM. reflexivity.
  - split; cbn; destruct constant; destruct Hx1 as [-> Hn1]; lia.
  - split; [cbn; destruct constant; destruct Hx1 as [-> Hn1]; [lia|destruct Hn1; lia]|]. split; [exact Hl1|]. intros y Hy Hc. cbn.
    replace (y =? h_next h1) with false by (symmetry; apply Nat.eqb_neq; destruct constant; destruct Hx1 as [_ Hn1]; [lia|destruct Hn1; lia]).
    apply Hk1; [exact Hy|]. intros Hf Hq. apply (Hc Hf). left. congruence.
  - intros Hf. cbn. replace (x =? h_next h1) with false by (symmetry; apply Nat.eqb_neq; exact Hxn). rewrite HM. rewrite Hf in Hx1. apply Hx1.
Qed.

Lemma F2_weak {A B} (R R' : A -> B -> Prop) l m : (forall x y, R x y -> R' x y) -> Forall2 R l m -> Forall2 R' l m.
Proof. intros H. induction 1; constructor; auto. Qed.
(** names exist and are not [a] *)
Definition away h (a : nat) (g : hreg N) : Prop := r_aux g < h_next h /\ r_dual g < h_next h /\ r_aux g <> a /\ r_dual g <> a.
Lemma fresh_reg_mono constant h h1 h2 h3 g g' : h_next h <= h_next h1 -> h_next h2 <= h_next h3 -> fresh_reg constant h1 h2 g g' -> fresh_reg constant h h3 g g'.
Proof. intros H1 H2 [Ha Hd]. split; [|lia]. destruct constant; [lia|exact Ha]. Qed.

Lemma hA_regs_agree E constant fps a regs h r c :
  a < h_next h -> shaped2 r c (h_arr h a) -> Forall (away h a) regs -> sepr constant h r c regs -> (constant = false -> length fps = r) ->
  agree (fun regs' h' ms => map (view h') regs' = ms /\ Forall2 (fresh_reg constant h h') regs regs' /\ but_aux constant (map r_aux regs) h h' /\
           (constant = false -> Forall (fun g => shaped2 r c (h_arr h' (r_aux g))) regs'))
    (map_each (hA_reg_step E constant fps a) regs h) (mapM (A_reg_step E constant fps (h_arr h a)) (map (view h) regs)).
Proof.
  revert h. induction regs as [|g regs IH]; intros h Ha HA Haw Hs Hf; cbn [map_each map mapM].
  { cbn. split; [reflexivity|]. split; [constructor|]. split; [|intros _; constructor]. split; [lia|]. split; [reflexivity|]. reflexivity. }
  inversion Haw as [|? ? [Hx [Hd [Hxa Hda]]] Haw']; subst.
  eapply agree_then.
  { apply (hA_reg_step_agree E constant fps a g h r c); auto.
    - destruct constant; [right; reflexivity|left]. destruct (Hs eq_refl) as [_ Hs2]. inversion Hs2 as [|? ? [_ Hn] _]; subst. cbn in Hn. intros Hq. apply Hn. left. symmetry. exact Hq.
    - intros Hc. split; [apply Hf; exact Hc|]. destruct (Hs Hc) as [_ Hs2]. inversion Hs2 as [|? ? [Hsh _] _]; subst. exact Hsh. }
  intros g' h1 m [Hm [Hg [Hb Hsh]]].
  (* the other penalties see what they saw *)
  assert (h_arr h1 a = h_arr h a) as Ha1. { apply Hb; [exact Ha|]. intros _ [Hq|[]]. congruence. }
  assert (map (view h1) regs = map (view h) regs) as Hv.
  { apply map_ext_in. intros q Hq. rewrite Forall_forall in Haw'. destruct (Haw' q Hq) as [Hqx [Hqd _]]. unfold view.
    destruct Hb as [_ [_ Hb]]. rewrite !Hb; auto; intros Hc; destruct (Hs Hc) as [Hnd Hs2]; cbn in Hnd; inversion Hnd as [|? ? Hni _]; subst.
    - rewrite Forall_forall in Hs2. destruct (Hs2 q (or_intror Hq)) as [_ Hn]. intros [Hi|[]]. apply Hn. left. exact Hi.
    - intros [Hi|[]]. apply Hni. rewrite Hi. apply in_map. exact Hq. }
  assert (h_next h <= h_next h1) as Hn1 by apply Hb.
  assert (Forall (away h1 a) regs) as Haw1. { eapply Forall_impl; [|exact Haw']. intros q [Hq1 [Hq2 Hq3]]. split; [lia|split; [lia|exact Hq3]]. }
  assert (sepr constant h1 r c regs) as Hs1.
  { intros Hc. destruct (Hs Hc) as [Hnd Hs2]. cbn in Hnd. inversion Hnd as [|? ? Hni Hnd']; subst. inversion Hs2 as [|? ? _ Hs2']; subst.
    split; [exact Hnd'|]. rewrite Forall_forall in Hs2', Haw'. apply Forall_forall. intros q Hq. destruct (Hs2' q Hq) as [Hq1 Hq2]. split.
    - destruct Hb as [_ [_ Hb]]. rewrite Hb; [exact Hq1|apply (Haw' q Hq)|]. intros _ [Hi|[]]. apply Hni. rewrite Hi. apply in_map. exact Hq.
    - intros Hi. apply Hq2. right. exact Hi. }
  specialize (IH h1 ltac:(lia) ltac:(rewrite Ha1; exact HA) Haw1 Hs1 Hf). rewrite Ha1, Hv in IH.
  eapply agree_then; [exact IH|]. intros regs' h2 ms [Hms [Hgs [Hbs Hshs]]]. cbn.
  assert (h_next h1 <= h_next h2) as Hn2 by apply Hbs.
  assert (r_aux g' < h_next h1) as Hx1. { destruct Hg as [Hg _]. destruct constant; lia. }
  assert (h_arr h2 (r_aux g') = h_arr h1 (r_aux g')) as Hax.
  { apply Hbs; [exact Hx1|]. intros Hc Hi. destruct (Hs Hc) as [Hnd _]. cbn in Hnd. inversion Hnd as [|? ? Hni _]; subst. apply Hni.
    destruct Hg as [Hg _]. rewrite Hg in Hi. exact Hi. }
  split; [|split; [|split]].
  - rewrite Hms. f_equal. rewrite <- Hm. unfold view. rewrite Hax. f_equal. apply Hbs; [destruct Hg; lia|].
    intros Hc Hi. rewrite in_map_iff in Hi. destruct Hi as [q [Hq1 Hq2]]. rewrite Forall_forall in Haw'. destruct (Haw' q Hq2) as [Hq3 _]. destruct Hg as [_ Hg]. lia.
  - constructor; [eapply fresh_reg_mono; [|exact Hn2|exact Hg]; lia|].
    eapply F2_weak; [|exact Hgs]. intros x y Hxy. eapply fresh_reg_mono; [exact Hn1| |exact Hxy]. lia.
  - change (r_aux g :: map r_aux regs) with ([r_aux g] ++ map r_aux regs). eapply but_aux_trans; eassumption.
  - intros Hc. constructor; [|apply Hshs; exact Hc]. rewrite Hax. apply Hsh. exact Hc.
Qed.

(** ** One inner iteration *)
Definition but_A (constant : bool) (a : nat) (l : list nat) h h' : Prop :=
  h_next h <= h_next h' /\ h_lst h' = h_lst h /\ forall x, x < h_next h -> x <> a -> (constant = false -> ~ In x l) -> h_arr h' x = h_arr h x.
Lemma hA_step_agree E constant svds fps rhses a regs h r c A :
  a < h_next h -> shaped2 r c (h_arr h a) -> shaped2 r c A -> Forall (away h a) regs -> sepr constant h r c regs -> (constant = false -> length fps = r) ->
  agree (fun regs' h' out => h_arr h' a = fst out /\ map (view h') regs' = snd out /\ shaped2 r c (fst out) /\ Forall2 (fresh_reg constant h h') regs regs' /\
           but_A constant a (map r_aux regs) h h' /\ (constant = false -> Forall (fun g => shaped2 r c (h_arr h' (r_aux g))) regs'))
    (hA_step E constant svds fps rhses a regs h) (A_step E constant svds fps rhses (A, map (view h) regs)).
Proof.
  intros Ha Hsa HA Haw Hs Hf. unfold hA_step, A_step. apply agree_look.
  eapply agree_then; [apply agree_lift|]. intros shifted h1 sh' [-> ->].
  eapply agree_then.
  { unfold hA_rows. apply agree_look. replace (mr A) with (mr (h_arr h a)) by (destruct HA, Hsa; congruence).
    replace (mc A) with (mc (h_arr h a)) by (destruct HA as [_ [? _]], Hsa as [_ [? _]]; congruence).
    apply write_rows_agree. }
  intros u h1 rows [[Hn [Hl Hb]] [Hr Hlen]]. cbv zeta.
  assert (h_arr h1 a = Mat (mr A) (mc A) rows) as Ha1.
  { rewrite Hr. destruct HA as [H1 [H2 H3]], Hsa as [H4 [H5 H6]]. rewrite upds_all by lia. f_equal; congruence. }
  assert (shaped2 r c (h_arr h1 a)) as Hsa1.
  { rewrite Ha1. destruct HA as [H1 [H2 H3]], Hsa as [H4 [H5 H6]]. repeat split; cbn; lia. }
  assert (map (view h1) regs = map (view h) regs) as Hv.
  { apply map_ext_in. intros g Hg. rewrite Forall_forall in Haw. destruct (Haw g Hg) as [_ [_ [H1 H2]]]. unfold view. rewrite !Hb by assumption. reflexivity. }
  rewrite <- Ha1, <- Hv. eapply agree_map.
  { apply (hA_regs_agree E constant fps a regs h1 r c); auto; try (rewrite Hn; assumption).
    - eapply Forall_impl; [|exact Haw]. intros g Hg. unfold away. rewrite Hn. exact Hg.
    - intros Hc. destruct (Hs Hc) as [Hnd Hs2]. split; [exact Hnd|]. rewrite Forall_forall in Hs2, Haw. apply Forall_forall. intros g Hg.
      destruct (Hs2 g Hg) as [H1 H2]. split; [|exact H2]. rewrite Hb by apply (Haw g Hg). exact H1. }
  intros regs' h2 ms [Hms [Hgs [Hbs Hshs]]]. cbn [fst snd].
  assert (h_arr h2 a = h_arr h1 a) as Ha2.
  { apply Hbs; [lia|]. intros Hc Hi. rewrite in_map_iff in Hi. destruct Hi as [g [H1 H2]]. rewrite Forall_forall in Haw. destruct (Haw g H2) as [_ [_ [H3 _]]]. exact (H3 H1). }
  split; [exact Ha2|]. split; [exact Hms|]. split; [exact Hsa1|]. split; [|split; [|exact Hshs]].
  - eapply F2_weak; [|exact Hgs]. intros x y Hxy. eapply fresh_reg_mono; [|apply Nat.le_refl|exact Hxy]. lia.
  - destruct Hbs as [H1 [H2 H3]]. split; [lia|]. split; [congruence|]. intros x Hx Hxa Hxc. rewrite H3; [apply Hb; exact Hxa|lia|exact Hxc].
Qed.

(** what is left after an iteration *)
Lemma away_after constant h h' b regs regs' : b < h_next h -> h_next h <= h_next h' -> Forall2 (fresh_reg constant h h') regs regs' ->
  Forall (away h b) regs -> Forall (away h' b) regs'.
Proof.
  intros Hb Hn Hf. induction Hf as [|g g' l l' Hg Hl IH]; intros Haw; constructor; inversion Haw as [|? ? Hag Haw']; subst; [|apply IH; assumption].
  destruct Hg as [Hx Hd]. destruct Hag as [H1 [H2 [H3 H4]]]. unfold away. destruct constant; repeat split; lia.
Qed.
Lemma names_after h h' regs regs' : Forall2 (fresh_reg false h h') regs regs' -> map r_aux regs' = map r_aux regs.
Proof. induction 1 as [|g g' l l' [Hg _] Hl IH]; cbn; [reflexivity|congruence]. Qed.
Lemma sepr_after constant h h' b regs regs' r c : Forall (away h b) regs -> Forall2 (fresh_reg constant h h') regs regs' ->
  (constant = false -> Forall (fun g => shaped2 r c (h_arr h' (r_aux g))) regs') -> sepr constant h r c regs -> sepr constant h' r c regs'.
Proof.
  intros Haw Hf Hsh Hs Hc. subst constant. rewrite (names_after _ _ _ _ Hf). destruct (Hs eq_refl) as [Hnd _]. split; [exact Hnd|].
  specialize (Hsh eq_refl). rewrite Forall_forall in Hsh, Haw. apply Forall_forall. intros g' Hg'. split; [apply Hsh; exact Hg'|].
  assert (h_next h <= r_dual g') as Hd.
  { clear - Hf Hg'. induction Hf as [|g q l l' [_ Hg] Hl IH]; [destruct Hg'|destruct Hg' as [<-|Hg']; [lia|apply IH; exact Hg']]. }
  intros Hi. rewrite in_map_iff in Hi. destruct Hi as [g [H1 H2]]. destruct (Haw g H2) as [H3 _]. lia.
Qed.

(** ** The inner loop *)
Definition loop_sep (constant : bool) h (a old : nat) regs (r c : nat) : Prop :=
  a <> old /\ a < h_next h /\ old < h_next h /\ shaped2 r c (h_arr h a) /\ shaped2 r c (h_arr h old) /\
  Forall (away h a) regs /\ Forall (away h old) regs /\ sepr constant h r c regs.
Lemma hA_loop_agree E constant svds fps rhses tol n r c : (constant = false -> length fps = r) ->
  forall a old regs h, loop_sep constant h a old regs r c ->
  agree (fun out h' y => h_arr h' (fst out) = fst y /\ map (view h') (snd out) = snd y /\
           (fst out = a \/ fst out = old) /\ h_next h <= h_next h' /\ h_lst h' = h_lst h /\ loop_sep constant h' (fst out) (if (fst out =? a) then old else a) (snd out) r c)
    (hA_loop E constant svds fps rhses tol n a old regs h)
    (inner_loop (A_step E constant svds fps rhses) (conv_mat tol) n (h_arr h a, map (view h) regs)).
Proof.
  intros Hf. induction n as [|k IH]; intros a old regs h Hl; cbn [hA_loop inner_loop].
  { cbn. rewrite Nat.eqb_refl. do 5 (split; [solve [auto]|]). exact Hl. }
  destruct Hl as [Hao [Ha [Ho [HA [HO [Hwa [Hwo Hs]]]]]]].
  eapply agree_then; [apply (hA_step_agree E constant svds fps rhses old regs h r c (h_arr h a)); assumption|].
  intros regs' h1 [A1 ms] [H1 [H2 [H3 [H4 [H5 H6]]]]]. cbn [fst snd] in *. subst A1 ms. apply agree_look.
  assert (h_arr h1 a = h_arr h a) as Ha1.
  { apply H5; [exact Ha|exact Hao|]. intros _ Hi. rewrite in_map_iff in Hi. destruct Hi as [g [Hg1 Hg2]]. rewrite Forall_forall in Hwa.
    destruct (Hwa g Hg2) as [_ [_ [Hg3 _]]]. exact (Hg3 Hg1). }
  assert (h_next h <= h_next h1) as Hn by apply H5. assert (h_lst h1 = h_lst h) as Hl1 by apply H5.
  assert (loop_sep constant h1 old a regs' r c) as Hl.
  { split; [congruence|]. split; [lia|]. split; [lia|]. split; [exact H3|]. split; [rewrite Ha1; exact HA|].
    split; [eapply away_after; eassumption|]. split; [eapply away_after; eassumption|]. eapply sepr_after; eassumption. }
  eapply agree_then.
  { unfold conv_mat. cbn [fst snd]. rewrite Ha1. apply agree_lift. }
  intros b h2 b' [-> ->]. destruct b'.
  - cbn. replace (old =? a) with false by (symmetry; apply Nat.eqb_neq; congruence). do 5 (split; [solve [auto]|]). exact Hl.
  - eapply agree_weak; [apply IH; exact Hl|]. intros out h2 y [G1 [G2 [G3 [G4 [G5 G6]]]]].
    split; [exact G1|]. split; [exact G2|]. split; [tauto|]. split; [lia|]. split; [congruence|].
    destruct G3 as [G3|G3]; rewrite G3 in *.
    + rewrite Nat.eqb_refl in G6. replace (old =? a) with false by (symmetry; apply Nat.eqb_neq; congruence). exact G6.
    + rewrite Nat.eqb_refl. replace (a =? old) with false in G6 by (symmetry; apply Nat.eqb_neq; congruence). exact G6.
Qed.

(** ** The update of A *)
Definition sepA (constant : bool) h (a : nat) regs (r c : nat) : Prop :=
  a < h_next h /\ shaped2 r c (h_arr h a) /\ Forall (away h a) regs /\ sepr constant h r c regs.
Lemma feas_length scale constant l fps : feas_penalties scale constant l = Ok fps -> length fps = length l.
Proof.
  unfold feas_penalties. destruct constant; [|intros H; injection H as <-; apply map_length].
  destruct (map _ l) eqn:Em; [discriminate|]. intros H. injection H as <-. cbn [map length]. rewrite map_length. apply (f_equal (@length _)) in Em. rewrite map_length in Em. symmetry. exact Em.
Qed.
Lemma length_map2' {A B C} (f : A -> B -> C) l m : length l = length m -> length (map2 f l m) = length l.
Proof. revert m. induction l as [|x l IH]; intros [|y m] H; cbn in *; auto; discriminate. Qed.
(** the heap after the copy of A *)
Definition copied h (a : nat) : heap N := Heap (fun x => if (x =? h_next h) then h_arr h a else h_arr h x) (h_lst h) (S (h_next h)).
Lemma copy_sep constant h a regs r c : sepA constant h a regs r c ->
  map (view (copied h a)) regs = map (view h) regs /\ h_arr (copied h a) a = h_arr h a /\ loop_sep constant (copied h a) a (h_next h) regs r c.
Proof.
  intros [Ha [HA [Haw Hs]]]. set (h1 := copied h a).
  assert (map (view h1) regs = map (view h) regs) as Hv.
  { apply map_ext_in. intros g Hg. rewrite Forall_forall in Haw. destruct (Haw g Hg) as [G1 [G2 _]]. unfold view. subst h1. cbn.
    replace (r_aux g =? h_next h) with false by (symmetry; apply Nat.eqb_neq; lia).
    replace (r_dual g =? h_next h) with false by (symmetry; apply Nat.eqb_neq; lia). reflexivity. }
  assert (h_arr h1 a = h_arr h a) as Ha1. { subst h1. cbn. replace (a =? h_next h) with false by (symmetry; apply Nat.eqb_neq; lia). reflexivity. }
  split; [exact Hv|]. split; [exact Ha1|].
  assert (h_next h1 = S (h_next h)) as Hn by reflexivity.
  split; [lia|]. split; [lia|]. split; [lia|]. split; [rewrite Ha1; exact HA|]. split; [subst h1; cbn; rewrite Nat.eqb_refl; exact HA|].
  split; [|split].
  - eapply Forall_impl; [|exact Haw]. intros g Hg. unfold away in *. rewrite Hn. destruct Hg as [G1 [G2 [G3 G4]]]. repeat split; try lia; assumption.
  - eapply Forall_impl; [|exact Haw]. intros g Hg. unfold away in *. rewrite Hn. destruct Hg as [G1 [G2 [G3 G4]]]. repeat split; lia.
  - intros Hc. destruct (Hs Hc) as [S1 S2]. split; [exact S1|]. rewrite Forall_forall in S2, Haw. apply Forall_forall. intros g Hg.
    destruct (S2 g Hg) as [S3 S4]. split; [|exact S4]. destruct (Haw g Hg) as [G1 _]. subst h1. cbn.
    replace (r_aux g =? h_next h) with false by (symmetry; apply Nat.eqb_neq; lia). exact S3.
Qed.
Lemma hadmm_update_A_agree E Xs a Bs C regs l2 n tol scale constant h r c w :
  sepA constant h a regs r c -> length Xs = r -> length Bs = r ->
  agree (fun out h' y => y = (Cmf None (h_arr h' (fst (fst out))) Bs C, map (view h') (snd (fst out)), snd out) /\
           sepA constant h' (fst (fst out)) (snd (fst out)) r c /\ h_next h <= h_next h' /\ h_lst h' = h_lst h)
    (hadmm_update_A E Xs a Bs C regs l2 n tol scale constant h)
    (admm_update_A E Xs (Cmf w (h_arr h a) Bs C) (map (view h) regs) l2 n tol scale constant).
Proof.
  intros [Ha [HA [Haw Hs]]] HX HB. unfold hadmm_update_A, admm_update_A. cbn [cA cBs cC].
  destruct (feas_penalties scale constant (A_cross Bs C Xs)) as [fps|e] eqn:Ef; [|reflexivity].
  change (thenc (lift (Ok fps)) ?k h) with (k fps h). cbn [bind]. apply agree_look. rewrite alloc_then, map_length.
  change (Heap _ _ _) with (copied h a). destruct (copy_sep constant h a regs r c (conj Ha (conj HA (conj Haw Hs)))) as [Hv [Ha1 Hl]].
  rewrite <- Hv, <- Ha1. eapply agree_then.
  { apply (hA_loop_agree E constant _ fps _ tol n r c); [|exact Hl].
    intros _. rewrite (feas_length _ _ _ _ Ef). unfold A_cross. rewrite length_map2'; congruence. }
  intros [a' regs'] h2 [A' ms] [G1 [G2 [G3 [G4 [G5 G6]]]]]. cbn in *. subst A' ms. split; [reflexivity|].
  destruct G6 as [_ [F1 [_ [F2 [_ [F3 [_ F4]]]]]]]. split; [split; [exact F1|split; [exact F2|split; assumption]]|]. split; [lia|]. exact G5.
Qed.

(** ** The update of the B_i *)
Lemma hB_step_agree E svds fps rhses b regs h Bs : length Bs = length (h_lst h b) ->
  agree (fun regs' h' y => h_lst h' b = fst y /\ regs' = snd y /\ length (fst y) = length Bs /\ but_lst b h h')
    (hB_step E svds fps rhses b regs h) (B_step E svds fps rhses (Bs, regs)).
Proof.
  intros Hlen. unfold hB_step, B_step. eapply agree_then; [apply agree_lift|]. intros sh h1 sh' [-> ->]. apply agree_look.
  eapply agree_then; [rewrite <- Hlen; apply set_items_agree|]. intros u h1 Ms [Hb [Hr Hl]]. apply agree_look.
  rewrite upds_all in Hr by congruence. rewrite Hr. eapply agree_map; [apply agree_lift|]. intros regs' h2 ms [-> ->]. cbn. auto.
Qed.
Lemma hB_loop_agree E svds fps rhses tol n : forall b old regs h, b <> old -> b < h_next h -> old < h_next h -> length (h_lst h b) = length (h_lst h old) ->
  agree (fun out h' y => h_lst h' (fst out) = fst y /\ snd out = snd y /\ length (fst y) = length (h_lst h b) /\ h_arr h' = h_arr h /\ h_next h' = h_next h /\
      (fst out = b \/ fst out = old))
    (hB_loop E svds fps rhses tol n b old regs h) (inner_loop (B_step E svds fps rhses) (conv_list tol) n (h_lst h b, regs)).
Proof.
  induction n as [|k IH]; intros b old regs h Hbo Hb Ho Hl; cbn [hB_loop inner_loop].
  { cbn. auto 10. }
  eapply agree_then; [apply (hB_step_agree E svds fps rhses old regs h (h_lst h b)); exact Hl|].
  intros regs' h1 [Bs1 ms] [H1 [H2 [H3 [H4 [H5 H6]]]]]. cbn [fst snd] in *. subst Bs1 ms. apply agree_look.
  assert (h_lst h1 b = h_lst h b) as Hb1 by (apply H6; exact Hbo).
  eapply agree_then.
  { unfold conv_list. cbn [fst snd]. rewrite Hb1. apply agree_lift. }
  intros stop h2 stop' [-> ->]. destruct stop'.
  - cbn. auto 10.
  - eapply agree_weak; [apply IH; [congruence|lia|lia|congruence]|]. intros out h2 y [G1 [G2 [G3 [G4 [G5 G6]]]]].
    split; [exact G1|]. split; [exact G2|]. split; [congruence|]. split; [congruence|]. split; [lia|]. tauto.
Qed.
Lemma hadmm_update_B_agree E Xs A b C regs l2 n tol scale constant h w : b < h_next h ->
  agree (fun out h' y => y = (Cmf None A (h_lst h' (fst out)) C, snd out) /\ h_arr h' = h_arr h /\ h_next h <= h_next h' /\ fst out < h_next h' /\
           length (h_lst h' (fst out)) = length (h_lst h b))
    (hadmm_update_B E Xs A b C regs l2 n tol scale constant h)
    (admm_update_B E Xs (Cmf w A (h_lst h b) C) regs l2 n tol scale constant).
Proof.
  intros Hb. unfold hadmm_update_B, admm_update_B. cbn [cA cBs cC].
  eapply agree_then; [apply agree_lift|]. intros fps h1 fps' [-> ->]. apply agree_look.
  change (thenc (alloc_list ?M) ?k h) with (k (h_next h) (Heap (h_arr h) (fun x => if (x =? h_next h) then M else h_lst h x) (S (h_next h)))). cbv beta.
  set (h1 := Heap _ _ _).
  assert (h_lst h1 b = h_lst h b) as Hb1. { subst h1. cbn. replace (b =? h_next h) with false by (symmetry; apply Nat.eqb_neq; lia). reflexivity. }
  rewrite <- Hb1. assert (h_next h1 = S (h_next h)) as Hn by reflexivity.
  eapply agree_bind.
  { apply hB_loop_agree; [lia|lia|lia|]. rewrite Hb1. subst h1. cbn. rewrite Nat.eqb_refl. reflexivity. }
  intros [b' regs'] h2 [Bs ms] [G1 [G2 [G3 [G4 [G5 G6]]]]]. cbn in *. subst Bs ms. split; [reflexivity|]. split; [exact G4|]. split; [lia|].
  split; [destruct G6; lia|]. congruence.
Qed.

(** ** The outer loop *)
Definition good (P : params) (Xs : list mat) (r c : nat) h s : Prop :=
  sepA (p_constA P) h (s_A s) (s_rA s) r c /\ s_Bs s < h_next h /\ length Xs = r /\ length (h_lst h (s_Bs s)) = r.
Lemma good_view P Xs r c h h' s s' : good P Xs r c h s -> h_arr h' = h_arr h -> h_next h <= h_next h' -> s_A s' = s_A s -> s_rA s' = s_rA s ->
  s_Bs s' < h_next h' -> length (h_lst h' (s_Bs s')) = r -> good P Xs r c h' s' /\ map (view h') (s_rA s') = map (view h) (s_rA s).
Proof.
  intros [[H1 [H2 [H3 H4]]] [H5 [H6 H7]]] Ha Hn Hs Hr Hb Hl. unfold view. rewrite Hr. split.
  - unfold good, sepA, sepr. rewrite Hs, Hr, Ha. split; [|auto]. split; [lia|]. split; [exact H2|]. split; [|exact H4].
    eapply Forall_impl; [|exact H3]. intros g [G1 [G2 G3]]. split; [lia|]. split; [lia|exact G3].
  - apply map_ext. intros g. rewrite Ha. reflexivity.
Qed.
Definition same_state (P : params) (Xs : list mat) (r c : nat) (s' : hstate N) h' (y : state) : Prop := view_state h' s' = y /\ good P Xs r c h' s'.
Lemma hupd_B_agree E P Xs s h r c : good P Xs r c h s -> agree (same_state P Xs r c) (hupd_B E P Xs s h) (upd_B E P Xs (view_state h s)).
Proof.
  intros Hg. unfold hupd_B, upd_B. destruct (p_updB P).
  - apply agree_look. eapply agree_then.
    { unfold view_state, view_cmf. cbn [st_cmf st_rB]. apply hadmm_update_B_agree. apply Hg. }
    intros [b' regs'] h1 y [-> [G1 [G2 [G3 G4]]]]. cbn in *.
    destruct (good_view P Xs r c h h1 s (HSt None (s_A s) b' (s_C s) (s_rA s) regs' (s_rC s) None) Hg G1 G2 eq_refl eq_refl) as [F1 F2];
      [exact G3|cbn; rewrite G4; apply Hg|]. split; [|exact F1]. unfold view_state, view_cmf. cbn in *. rewrite F2, G1. reflexivity.
  - cbn. split; [reflexivity|]. exact Hg.
Qed.
Lemma update_C_keeps E Xs c regs l2 n tol scale c' r : admm_update_C E Xs c regs l2 n tol scale = Ok (c', r) -> c' = Cmf None (cA c) (cBs c) (cC c').
Proof.
  unfold admm_update_C. destruct (msum_list _) as [lhs|]; [|discriminate]. destruct (msum_list _) as [rhs|]; [|discriminate]. cbn zeta.
  destruct (inner_loop _ _ _ _) as [[C r']|e]; [|discriminate]. cbn. intros H. injection H as <- _. reflexivity.
Qed.
Lemma hupd_C_agree E P Xs s h r c : good P Xs r c h s -> agree (same_state P Xs r c) (hupd_C E P Xs s h) (upd_C E P Xs (view_state h s)).
Proof.
  intros Hg. unfold hupd_C, upd_C. destruct (p_updC P).
  - apply agree_look. unfold thenc, lift. unfold view_state at 1 2. cbn [st_cmf st_rC].
    destruct (admm_update_C _ _ _ _ _ _ _ _) as [[c' r']|e] eqn:Eu; cbn; [|reflexivity]. split; [|exact Hg].
    rewrite (update_C_keeps _ _ _ _ _ _ _ _ _ _ Eu). reflexivity.
  - cbn. split; [reflexivity|exact Hg].
Qed.
Lemma hupd_A_agree E P Xs s h r c : good P Xs r c h s -> agree (same_state P Xs r c) (hupd_A E P Xs s h) (upd_A E P Xs (view_state h s)).
Proof.
  intros Hg. unfold hupd_A, upd_A. destruct (p_updA P).
  - apply agree_look. destruct Hg as [H1 [H2 [H3 H4]]]. eapply agree_then.
    { unfold view_state, view_cmf. cbn [st_cmf st_rA]. apply (hadmm_update_A_agree E Xs (s_A s) (h_lst h (s_Bs s)) (s_C s) (s_rA s) (p_l2A P) (p_inner P) (p_inner_tol P) (p_scale P) (p_constA P) h r c (s_w s)); assumption. }
    intros [[a' regs'] i] h1 y [-> [G1 [G2 G3]]]. cbn in *. split.
    + unfold view_state, view_cmf. cbn. rewrite G3. reflexivity.
    + split; [exact G1|]. cbn. split; [lia|]. split; [exact H3|]. rewrite G3. exact H4.
  - cbn. split; [reflexivity|exact Hg].
Qed.
Lemma houter_step_agree E P Xs s h r c : good P Xs r c h s -> agree (same_state P Xs r c) (houter_step E P Xs s h) (outer_step E P Xs (view_state h s)).
Proof.
  intros Hg. unfold houter_step, outer_step. eapply agree_then; [apply hupd_B_agree; exact Hg|]. intros s1 h1 y1 [<- Hg1].
  eapply agree_then; [apply hupd_C_agree; exact Hg1|]. intros s2 h2 y2 [<- Hg2]. apply hupd_A_agree. exact Hg2.
Qed.
Definition same_loop (P : params) (Xs : list mat) (r c : nat) (out : hstate N * hist * nat * message) h' (y : state * hist * nat * message) : Prop :=
  let '(s', hs, it, msg) := out in y = (view_state h' s', hs, it, msg) /\ good P Xs r c h' s'.
Lemma hao_loop_agree E P Xs n r c : forall it s hs h, good P Xs r c h s ->
  agree (same_loop P Xs r c) (hao_loop E P Xs n it s hs h) (ao_loop E P Xs n it (view_state h s) hs).
Proof.
  induction n as [|k IH]; intros it s hs h Hg; cbn [hao_loop ao_loop].
  { cbn. split; [reflexivity|exact Hg]. }
  eapply agree_then; [apply houter_step_agree; exact Hg|]. intros s1 h1 y1 [<- Hg1]. apply agree_look. cbv zeta.
  match goal with |- agree _ ((if ?b then _ else _) _) _ => destruct b end; [|apply IH; exact Hg1].
  eapply agree_then; [apply agree_lift|]. intros g h2 g' [-> ->].
  match goal with |- agree _ ((if ?b then _ else _) _) _ => destruct b end; [apply IH; exact Hg1|].
  eapply agree_then; [apply agree_lift|]. intros l h2 l' [-> ->].
  destruct (p_tol P) as [tol|]; [|apply IH; exact Hg1]. destruct (ntruthy tol); [|apply IH; exact Hg1].
  destruct (p_abs_tol P) as [ab|]; [|reflexivity].
  match goal with |- agree _ ((if ?b then _ else _) _) _ => destruct b end; [cbn; split; [reflexivity|exact Hg1]|].
  match goal with |- agree _ ((if ?b then _ else _) _) _ => destruct b end; [cbn; split; [reflexivity|exact Hg1]|].
  apply IH; exact Hg1.
Qed.
(** the returned factorization, auxiliary and dual variables, and diagnostics *)
Definition same_out (out : hstate N * cmf * option diagnostics) h' (y : state * option diagnostics) : Prop :=
  let '(s', c, d) := out in y = (St c (map (view h') (s_rA s')) (s_rB s') (s_rC s') (s_inter s'), d).
Lemma hrun_agree E P Xs n s h r c : good P Xs r c h s -> agree same_out (hrun E P Xs n s h) (run E P Xs n (view_state h s)).
Proof.
  intros Hg. unfold hrun, run. apply agree_look. eapply agree_then; [apply agree_lift|]. intros h0 h1 h0' [-> ->].
  eapply agree_then; [apply hao_loop_agree; exact Hg|]. intros [[[s' hs] it] msg] h1 y [-> Hg1]. apply agree_look. cbv zeta.
  eapply (agree_then (fun x h2 y => x = y /\ h2 = h1)).
  { destruct (p_feas_tol P) as [t|]; [|cbn; auto]. destruct (ntruthy t && p_return_errors P); [|cbn; auto].
    eapply agree_then; [apply agree_lift|]. intros g h2 g' [-> ->]. cbn. auto. }
  intros feas h2 feas' [-> ->]. eapply agree_then; [apply agree_lift|]. intros c1 h2 c1' [-> ->].
  destruct (p_return_errors P); cbn; reflexivity.
Qed.
(** the starting point, with the weights of [init] multiplied into A *)
Definition started (st : state) : state :=
  St (Cmf None (scaled_A (st_cmf st)) (cBs (st_cmf st)) (cC (st_cmf st))) (st_rA st) (st_rB st) (st_rC st) (st_inter st).
Lemma hfit_agree E P Xs n s h r c : good P Xs r c h s -> agree same_out (hfit E P Xs n s h) (run E P Xs n (started (view_state h s))).
Proof.
  intros Hg. unfold hfit, hstart, started, scaled_A. cbn [view_state view_cmf st_cmf cw cA cBs cC st_rA st_rB st_rC st_inter].
  destruct (s_w s) as [w|] eqn:Ew.
  - unfold thenc at 1 2 3, look. cbn. set (h1 := Heap _ _ _). set (s1 := HSt _ _ _ _ _ _ _ _).
    destruct Hg as [[H1 [H2 [H3 H4]]] [H5 [H6 H7]]].
    assert (forall x, x < h_next h -> h_arr h1 x = h_arr h x) as Ha.
    { intros x Hx. subst h1. cbn. replace (x =? h_next h) with false by (symmetry; apply Nat.eqb_neq; lia). reflexivity. }
    assert (view_state h1 s1 = St (Cmf None (mcolscale (h_arr h (s_A s)) w) (h_lst h (s_Bs s)) (s_C s)) (map (view h) (s_rA s)) (s_rB s) (s_rC s) (s_inter s)) as Hv.
    { unfold view_state, view_cmf. subst s1. cbn [s_w s_A s_Bs s_C s_rA s_rB s_rC s_inter]. f_equal.
      - subst h1. cbn. rewrite Nat.eqb_refl. reflexivity.
      - apply map_ext_in. intros g Hg. rewrite Forall_forall in H3. destruct (H3 g Hg) as [G1 [G2 _]]. unfold view. rewrite !Ha by assumption. reflexivity. }
    rewrite <- Hv. apply hrun_agree with (r := r) (c := c). split; [|split; [cbn; lia|split; [exact H6|exact H7]]].
    assert (h_next h1 = S (h_next h)) as Hn by reflexivity.
    subst s1. cbn [s_A s_rA]. split; [lia|]. split; [|split].
    + subst h1. cbn. rewrite Nat.eqb_refl. destruct H2 as [G1 [G2 G3]]. split; [exact G1|]. split; [exact G2|]. cbn. rewrite map_length, seq_length. exact G1.
    + eapply Forall_impl; [|exact H3]. intros g [G1 [G2 _]]. unfold away. rewrite Hn. repeat split; lia.
    + intros Hc. destruct (H4 Hc) as [S1 S2]. split; [exact S1|]. rewrite Forall_forall in S2, H3. apply Forall_forall. intros g Hg.
      destruct (S2 g Hg) as [S3 S4]. split; [|exact S4]. rewrite Ha by apply (H3 g Hg). exact S3.
  - unfold thenc, ret. replace (St _ _ _ _ _) with (view_state h s); [apply hrun_agree with (r := r) (c := c); exact Hg|].
    unfold view_state, view_cmf. rewrite Ew. reflexivity.
Qed.
End Refine.
