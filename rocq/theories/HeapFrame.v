(** Which objects a fit writes. *)
From Coq Require Import List Arith Bool ZArith Lia.
From Verif Require Import Num Numpy Penalties CoupledMatrices Decomp Heap HeapSpec.
Import ListNotations.

Section Frame.
Context {N : Num}.
Implicit Types (h : heap N) (s : hstate N) (W L : nat -> Prop).

Definition kept W L h h' : Prop := h_next h <= h_next h' /\ only_changes W L h h'.

Lemma kept_refl W L h : kept W L h h.
Proof. split; [lia|]. split; reflexivity. Qed.
Lemma kept_trans W L W2 L2 h h1 h2 : kept W L h h1 -> kept W2 L2 h1 h2 ->
  (forall x, x < h_next h -> W2 x -> W x) -> (forall x, x < h_next h -> L2 x -> L x) -> kept W L h h2.
Proof.
  intros [Hn [Ha Hl]] [Hn' [Ha' Hl']] HW HL. split; [lia|]. split; intros x Hx Hw.
  - rewrite Ha'; [|lia|intros Hq; apply Hw; apply HW; assumption]. apply Ha; assumption.
  - rewrite Hl'; [|lia|intros Hq; apply Hw; apply HL; assumption]. apply Hl; assumption.
Qed.
Lemma kept_weak W L W2 L2 h h' : kept W2 L2 h h' ->
  (forall x, x < h_next h -> W2 x -> W x) -> (forall x, x < h_next h -> L2 x -> L x) -> kept W L h h'.
Proof. intros Hk HW HL. apply (kept_trans W L W2 L2 h h h'); [apply kept_refl|assumption..]. Qed.

(** a command that writes only [W] and [L], and the values it returns *)
Definition writes {A} W L (Q : A -> heap N -> Prop) (c : cmd A) h : Prop :=
  kept W L h (snd (c h)) /\ forall x, fst (c h) = Ok x -> Q x (snd (c h)).

Lemma writes_lift {A} W L (r : res A) h : writes W L (fun x h' => r = Ok x /\ h' = h) (lift r) h.
Proof. split; [apply kept_refl|]. intros x H. split; [exact H|reflexivity]. Qed.
Lemma writes_ret {A} W L (x : A) h : writes W L (fun y h' => y = x /\ h' = h) (ret x) h.
Proof. split; [apply kept_refl|]. intros y H. injection H as H. subst. split; reflexivity. Qed.
Lemma writes_look W L h : writes W L (fun y h' => y = h /\ h' = h) look h.
Proof. split; [apply kept_refl|]. intros y H. injection H as H. subst. split; reflexivity. Qed.
Lemma writes_then {A B} W L Q (Q2 : B -> heap N -> Prop) (c : cmd A) (k : A -> cmd B) h :
  writes W L Q c h -> (forall x h1, kept W L h h1 -> Q x h1 ->
    exists W2 L2, writes W2 L2 Q2 (k x) h1 /\ (forall y, y < h_next h -> W2 y -> W y) /\ (forall y, y < h_next h -> L2 y -> L y)) ->
  writes W L Q2 (thenc c k) h.
Proof.
  intros [Hk Hq] H. unfold writes, thenc. destruct (c h) as [[x|e] h1] eqn:Ec; cbn [fst snd] in *.
  - destruct (H x h1 Hk (Hq x eq_refl)) as [W2 [L2 [[Hk2 Hq2] [HW HL]]]]. split; [|exact Hq2].
    apply (kept_trans W L W2 L2 h h1); assumption.
  - split; [exact Hk|]. discriminate.
Qed.
Lemma writes_same {A B} W L Q (Q2 : B -> heap N -> Prop) (c : cmd A) (k : A -> cmd B) h :
  writes W L Q c h -> (forall x h1, kept W L h h1 -> Q x h1 -> writes W L Q2 (k x) h1) -> writes W L Q2 (thenc c k) h.
Proof. intros H Hk. apply (writes_then W L Q); [exact H|]. intros x h1 Hk1 Hq. exists W, L. repeat split; auto; apply Hk; assumption. Qed.
Lemma writes_cons {A} W L (Q Q2 : A -> heap N -> Prop) (c : cmd A) h :
  writes W L Q c h -> (forall x h1, kept W L h h1 -> Q x h1 -> Q2 x h1) -> writes W L Q2 c h.
Proof. intros [Hk Hq] H. split; [exact Hk|]. intros x Hx. apply H; auto. Qed.
Lemma writes_weak {A} W L W2 L2 (Q : A -> heap N -> Prop) (c : cmd A) h :
  writes W2 L2 Q c h -> (forall x, x < h_next h -> W2 x -> W x) -> (forall x, x < h_next h -> L2 x -> L x) -> writes W L Q c h.
Proof. intros [Hk Hq] HW HL. split; [apply (kept_weak W L W2 L2); assumption|exact Hq]. Qed.
Lemma writes_alloc W L M h : writes W L (fun x h' => x = h_next h /\ h_next h' = S x /\ h_arr h' x = M /\
  (forall y, y <> x -> h_arr h' y = h_arr h y) /\ h_lst h' = h_lst h) (alloc M) h.
Proof.
  split.
  - cbn. split; [cbn; lia|]. split; intros x Hx _; cbn; [|reflexivity].
    destruct (x =? h_next h) eqn:E; [|reflexivity]. apply Nat.eqb_eq in E. lia.
  - intros x Hx. cbn in Hx. injection Hx as Hx. subst x. cbn. rewrite Nat.eqb_refl. repeat split; try reflexivity.
    intros y Hy. destruct (y =? h_next h) eqn:E; [|reflexivity]. apply Nat.eqb_eq in E. contradiction.
Qed.
Lemma writes_alloc_list W L M h : writes W L (fun x h' => x = h_next h /\ h_next h' = S x /\ h_lst h' x = M /\
  (forall y, y <> x -> h_lst h' y = h_lst h y) /\ h_arr h' = h_arr h) (alloc_list M) h.
Proof.
  split.
  - cbn. split; [cbn; lia|]. split; intros x Hx _; cbn; [reflexivity|].
    destruct (x =? h_next h) eqn:E; [|reflexivity]. apply Nat.eqb_eq in E. lia.
  - intros x Hx. cbn in Hx. injection Hx as Hx. subst x. cbn. rewrite Nat.eqb_refl. repeat split; try reflexivity.
    intros y Hy. destruct (y =? h_next h) eqn:E; [|reflexivity]. apply Nat.eqb_eq in E. contradiction.
Qed.
Lemma writes_row W L a i row h : W a -> writes W L (fun _ h' => True) (write_row a i row) h.
Proof.
  intros Ha. split; [|trivial]. cbn. split; [cbn; lia|]. split; intros x Hx Hw; cbn; [|reflexivity].
  destruct (x =? a) eqn:E; [|reflexivity]. apply Nat.eqb_eq in E. subst. contradiction.
Qed.
Lemma writes_item W L b i M h : L b -> writes W L (fun _ h' => True) (set_item b i M) h.
Proof.
  intros Ha. split; [|trivial]. cbn. split; [cbn; lia|]. split; intros x Hx Hw; cbn; [reflexivity|].
  destruct (x =? b) eqn:E; [|reflexivity]. apply Nat.eqb_eq in E. subst. contradiction.
Qed.
Lemma writes_for {A} W L (f : A -> cmd unit) l h : (forall x h, In x l -> writes W L (fun _ _ => True) (f x) h) ->
  writes W L (fun _ _ => True) (for_each f l) h.
Proof.
  revert h. induction l as [|x l IH]; intros h Hf; cbn [for_each].
  - eapply writes_cons; [apply writes_ret|trivial].
  - eapply writes_same; [apply Hf; left; reflexivity|]. intros _ h1 _ _. apply IH. intros y h2 Hy. apply Hf. right. exact Hy.
Qed.
Lemma writes_map {A B} W L (f : A -> cmd B) (Q : A -> B -> Prop) l h :
  (forall x h1, In x l -> h_next h <= h_next h1 -> writes W L (fun y _ => Q x y) (f x) h1) ->
  writes W L (fun ys _ => Forall2 Q l ys) (map_each f l) h.
Proof.
  revert h. induction l as [|x l IH]; intros h Hf; cbn [map_each].
  - eapply writes_cons; [apply writes_ret|]. intros ys h1 _ [-> _]. constructor.
  - eapply writes_same; [apply Hf; [left; reflexivity|lia]|]. intros y h1 [Hk _] Hq.
    eapply writes_same; [apply IH; intros z h2 Hz Hn; apply Hf; [right; exact Hz|lia]|]. intros ys h2 _ Hqs.
    eapply writes_cons; [apply writes_ret|]. intros zs h3 _ [-> _]. constructor; assumption.
Qed.

(** ** Updates *)
(** the mode-0 arrays written by an update *)
Definition aux_of (constant : bool) (regs : list (hreg N)) (x : nat) : Prop := constant = false /\ In x (map r_aux regs).
(** names after an update: as before, or new *)
Definition aux_from (constant : bool) (n : nat) (g g' : hreg N) : Prop :=
  (if constant then n <= r_aux g' else r_aux g' = r_aux g) /\ n <= r_dual g'.

Lemma hA_reg_step_writes E constant fps a g h (n : nat) W L : n <= h_next h -> (constant = false -> W (r_aux g)) ->
  writes W L (fun g' _ => aux_from constant n g g') (hA_reg_step E constant fps a g) h.
Proof.
  intros Hn HW. unfold hA_reg_step. eapply writes_same; [apply writes_look|]. intros h0 h1 [Hk1 _] [-> ->].
  eapply (writes_same _ _ (fun x _ => if constant then n <= x else x = r_aux g)).
  { destruct constant.
    - eapply writes_same; [apply writes_lift|]. intros M h1 [Hk2 _] [_ ->].
      eapply writes_cons; [apply writes_alloc|]. intros x h2 [Hk3 _] [-> _]. lia.
    - eapply (writes_same _ _ (fun _ _ => True)).
      + apply writes_for. intros i h1 _. eapply writes_same; [apply writes_lift|]. intros row h2 _ _. apply writes_row. apply HW. reflexivity.
      + intros _ h1 _ _. eapply writes_cons; [apply writes_ret|]. intros x h2 _ [-> _]. reflexivity. }
  intros x h2 [Hk2 _] Hx. eapply writes_same; [apply writes_look|]. intros h3 h4 _ [-> ->].
  eapply writes_same; [apply writes_lift|]. intros sh h5 _ [_ ->].
  eapply writes_same; [apply writes_alloc|]. intros d h6 [Hk3 _] [-> _].
  eapply writes_cons; [apply writes_ret|]. intros g' h7 _ [-> _]. unfold aux_from. cbn [r_aux r_dual]. split; [exact Hx|lia].
Qed.
Lemma hA_step_writes E constant svds fps rhses a regs h W L : W a -> (forall x, aux_of constant regs x -> W x) ->
  writes W L (fun regs' _ => Forall2 (aux_from constant (h_next h)) regs regs') (hA_step E constant svds fps rhses a regs) h.
Proof.
  intros Ha HW. unfold hA_step. eapply writes_same; [apply writes_look|]. intros h0 h1 _ [-> ->].
  eapply writes_same; [apply writes_lift|]. intros sh h2 _ [_ ->].
  eapply (writes_same _ _ (fun _ _ => True)).
  { unfold hA_rows. eapply writes_same; [apply writes_look|]. intros h0 h3 _ [-> ->]. apply writes_for. intros i h3 _.
    eapply writes_same; [apply writes_lift|]. intros row h4 _ _. apply writes_row. exact Ha. }
  intros _ h2 [Hn _] _. apply writes_map. intros g h3 Hg Hn3. apply hA_reg_step_writes; [lia|].
  intros Hc. apply HW. split; [exact Hc|]. apply in_map. exact Hg.
Qed.
Lemma aux_from_trans constant n m g g' g2 : n <= m -> aux_from constant n g g' -> aux_from constant m g' g2 -> aux_from constant n g g2.
Proof. intros Hnm [Ha Hd] [Ha' Hd']. split; [|lia]. destruct constant; [lia|congruence]. Qed.
Lemma aux_from_trans_all constant n m l l' l2 : n <= m -> Forall2 (aux_from constant n) l l' -> Forall2 (aux_from constant m) l' l2 ->
  Forall2 (aux_from constant n) l l2.
Proof.
  intros Hnm H. revert l2. induction H as [|g g' l l' Hg Hl IH]; intros l2 H2; inversion H2; subst; constructor; auto.
  eapply aux_from_trans; eassumption.
Qed.
(** names of the auxiliary arrays, with [n] the first new address *)
Definition aux_kept (constant : bool) (n : nat) (l l' : list (hreg N)) : Prop :=
  if constant then forall x, In x (map r_aux l') -> In x (map r_aux l) \/ n <= x else map r_aux l' = map r_aux l.
Lemma aux_kept_refl constant n l : aux_kept constant n l l.
Proof. destruct constant; cbn; auto. Qed.
Lemma aux_from_kept constant n l l' : Forall2 (aux_from constant n) l l' -> aux_kept constant n l l'.
Proof.
  intros H. unfold aux_kept, aux_from in *. destruct constant.
  - intros x Hx. right. induction H as [|g g' l l' [Hg _] Hl IH]; cbn in Hx; [contradiction|]. destruct Hx as [<-|Hx]; [exact Hg|exact (IH Hx)].
  - induction H as [|g g' l l' [Hg _] Hl IH]; cbn; [reflexivity|]. congruence.
Qed.
Lemma aux_kept_trans constant n m l l' l2 : n <= m -> aux_kept constant n l l' -> aux_kept constant m l' l2 -> aux_kept constant n l l2.
Proof.
  unfold aux_kept. destruct constant; [|congruence]. intros Hnm H1 H2 x Hx. destruct (H2 x Hx) as [Hx'|Hx']; [auto|right; lia].
Qed.
Lemma aux_kept_of constant n l l' : aux_kept constant n l l' -> forall x, x < n -> aux_of constant l' x -> aux_of constant l x.
Proof. unfold aux_kept, aux_of. intros H x Hx [Hc Hi]. rewrite Hc in *. rewrite <- H. split; [reflexivity|exact Hi]. Qed.

Lemma hA_loop_writes E constant svds fps rhses tol n a old regs h :
  writes (fun x => (1 <= n /\ x = old) \/ (2 <= n /\ x = a) \/ (1 <= n /\ aux_of constant regs x)) (fun _ => False)
    (fun out _ => ((fst out = a /\ n <> 1) \/ (1 <= n /\ fst out = old)) /\ aux_kept constant (h_next h) regs (snd out))
    (hA_loop E constant svds fps rhses tol n a old regs) h.
Proof.
  revert a old regs h. induction n as [|k IH]; intros a old regs h; cbn [hA_loop].
  - eapply writes_cons; [apply writes_ret|]. intros out h1 _ [-> _]. cbn. split; [left; split; [reflexivity|lia]|apply aux_kept_refl].
  - eapply writes_same; [apply hA_step_writes; [left; split; [lia|reflexivity]|intros x Hx; right; right; split; [lia|exact Hx]]|].
    intros regs' h1 [Hn1 _] Hr. apply aux_from_kept in Hr.
    eapply writes_same; [apply writes_look|]. intros h0 h2 _ [-> ->].
    eapply writes_same; [apply writes_lift|]. intros b h2 _ [_ ->]. destruct b.
    + eapply writes_cons; [apply writes_ret|]. intros out h2 _ [-> _]. cbn. split; [right; split; [lia|reflexivity]|exact Hr].
    + eapply writes_weak; [eapply writes_cons; [apply IH|]| |].
      * intros out h2 _ [Ho Hk]. split.
        -- destruct Ho as [[Ho Hk1]|[Hk1 Ho]]; [right; split; [lia|exact Ho]|left; split; [exact Ho|lia]].
        -- eapply aux_kept_trans; eassumption.
      * intros x _ [[Hk Hx]|[[Hk Hx]|[Hk Hx]]]; [right; left; split; [lia|exact Hx]|left; split; [lia|exact Hx]|].
        right; right; split; [lia|]. unfold aux_kept, aux_of in *. destruct constant; [destruct Hx; discriminate|]. rewrite <- Hr. exact Hx.
      * intros x _ [].
Qed.

Lemma hadmm_update_A_writes E Xs a Bs C regs l2 n tol scale constant h : a < h_next h ->
  writes (fun x => (2 <= n /\ x = a) \/ (1 <= n /\ aux_of constant regs x)) (fun _ => False)
    (fun out h' => (fst (fst out) = a \/ h_next h <= fst (fst out)) /\ fst (fst out) < h_next h' /\ aux_kept constant (h_next h) regs (snd (fst out)))
    (hadmm_update_A E Xs a Bs C regs l2 n tol scale constant) h.
Proof.
  intros Ha. unfold hadmm_update_A. eapply writes_same; [apply writes_lift|]. intros fps h1 _ [_ ->].
  eapply writes_same; [apply writes_look|]. intros h0 h1 _ [-> ->].
  eapply writes_then; [apply writes_alloc|]. intros old h1 _ [-> [Hn1 _]].
  do 2 eexists. split; [eapply writes_same; [apply hA_loop_writes|]|split].
  - intros out h2 [Hn2 _] [Ho Hk]. eapply writes_cons; [apply writes_ret|]. intros out' h3 _ [-> ->]. cbn [fst snd]. split; [|split].
    + destruct Ho as [[Ho Hn]|[Hn Ho]]; [left; auto|right; lia].
    + destruct Ho as [[Ho Hn]|[Hn Ho]]; rewrite Ho; lia.
    + eapply aux_kept_trans; [|apply aux_kept_refl|exact Hk]. lia.
  - cbn beta. intros y Hy [[_ H]|[H|H]]; [lia|left; exact H|right; exact H].
  - intros y _ [].
Qed.

Lemma hB_step_writes E svds fps rhses b regs h W L : L b ->
  writes W L (fun _ _ => True) (hB_step E svds fps rhses b regs) h.
Proof.
  intros Hb. unfold hB_step. eapply writes_same; [apply writes_lift|]. intros sh h1 _ [_ ->].
  eapply writes_same; [apply writes_look|]. intros h0 h1 _ [-> ->].
  eapply writes_same.
  { apply writes_for. intros i h1 _. eapply writes_same; [apply writes_lift|]. intros M h2 _ _. apply writes_item. exact Hb. }
  intros _ h1 _ _. eapply writes_same; [apply writes_look|]. intros h0 h2 _ [-> ->].
  eapply writes_cons; [apply writes_lift|trivial].
Qed.
Lemma hB_loop_writes E svds fps rhses tol n b old regs h :
  writes (fun _ => False) (fun x => (1 <= n /\ x = old) \/ (2 <= n /\ x = b))
    (fun out _ => (fst out = b /\ n <> 1) \/ (1 <= n /\ fst out = old)) (hB_loop E svds fps rhses tol n b old regs) h.
Proof.
  revert b old regs h. induction n as [|k IH]; intros b old regs h; cbn [hB_loop].
  - eapply writes_cons; [apply writes_ret|]. intros out h1 _ [-> _]. cbn. left; split; [reflexivity|lia].
  - eapply writes_same; [apply hB_step_writes; left; split; [lia|reflexivity]|].
    intros regs' h1 _ _. eapply writes_same; [apply writes_look|]. intros h0 h2 _ [-> ->].
    eapply writes_same; [apply writes_lift|]. intros stop h2 _ [_ ->]. destruct stop.
    + eapply writes_cons; [apply writes_ret|]. intros out h2 _ [-> _]. cbn. right; split; [lia|reflexivity].
    + eapply writes_weak; [eapply writes_cons; [apply IH|]| |].
      * intros out h2 _ Ho. destruct Ho as [[Ho Hk1]|[Hk1 Ho]]; [right; split; [lia|exact Ho]|left; split; [exact Ho|lia]].
      * intros x _ [].
      * intros x _ [[Hk Hx]|[Hk Hx]]; [right; split; [lia|exact Hx]|left; split; [lia|exact Hx]].
Qed.
Lemma hadmm_update_B_writes E Xs A b C regs l2 n tol scale constant h : b < h_next h ->
  writes (fun _ => False) (fun x => 2 <= n /\ x = b)
    (fun out h' => (fst out = b \/ h_next h <= fst out) /\ fst out < h_next h')
    (hadmm_update_B E Xs A b C regs l2 n tol scale constant) h.
Proof.
  intros Ha. unfold hadmm_update_B. eapply writes_same; [apply writes_lift|]. intros fps h1 _ [_ ->].
  eapply writes_same; [apply writes_look|]. intros h0 h1 _ [-> ->].
  eapply writes_then; [apply writes_alloc_list|]. intros old h1 _ [-> [Hn1 _]].
  do 2 eexists. split; [eapply writes_cons; [apply hB_loop_writes|]|split].
  - intros out h2 [Hn2 _] [[Ho Hn]|[Hn Ho]]; rewrite Ho; (split; [|lia]); [left; reflexivity|right; lia].
  - intros y _ [].
  - cbn beta. intros y Hy [[_ H]|H]; [lia|exact H].
Qed.

(** ** The fit *)
(** the arrays and lists that an outer iteration may write *)
Definition wr (P : params) (s : hstate N) (x : nat) : Prop :=
  p_updA P = true /\ ((2 <= p_inner P /\ x = s_A s) \/ (1 <= p_inner P /\ aux_of (p_constA P) (s_rA s) x)).
Definition wrl (P : params) (s : hstate N) (x : nat) : Prop := p_updB P = true /\ 2 <= p_inner P /\ x = s_Bs s.
(** names after some updates: as before, or at least [n] *)
Definition names (P : params) (n : nat) (s s' : hstate N) : Prop :=
  (s_A s' = s_A s \/ n <= s_A s') /\ (s_Bs s' = s_Bs s \/ n <= s_Bs s') /\ aux_kept (p_constA P) n (s_rA s) (s_rA s').
Lemma names_refl P n s : names P n s s.
Proof. repeat split; auto. apply aux_kept_refl. Qed.
Lemma names_trans P n m s s1 s2 : n <= m -> names P n s s1 -> names P m s1 s2 -> names P n s s2.
Proof.
  intros Hn [Ha [Hb Hr]] [Ha' [Hb' Hr']]. repeat split; [destruct Ha, Ha'; try (right; lia); left; congruence|
    destruct Hb, Hb'; try (right; lia); left; congruence|eapply aux_kept_trans; eassumption].
Qed.
Lemma names_wr P n s s' x : names P n s s' -> x < n -> wr P s' x -> wr P s x.
Proof.
  intros [Ha [Hb Hr]] Hx [Hu [[Hi Hq]|[Hi Hq]]]; split; [exact Hu| |exact Hu|].
  - left. split; [exact Hi|]. destruct Ha; [congruence|lia].
  - right. split; [exact Hi|]. eapply aux_kept_of; eassumption.
Qed.
Lemma names_wrl P n s s' x : names P n s s' -> x < n -> wrl P s' x -> wrl P s x.
Proof. intros [Ha [Hb Hr]] Hx [Hu [Hi Hq]]; split; [exact Hu|split; [exact Hi|]]. destruct Hb; [congruence|lia]. Qed.
(** [A] and the list exist *)
Definition here h s : Prop := s_A s < h_next h /\ s_Bs s < h_next h.

Lemma writes_next {A} W L Q (c : cmd A) h : writes W L Q c h -> h_next h <= h_next (snd (c h)).
Proof. intros [[H _] _]. exact H. Qed.

Definition returns P h s (s' : hstate N) h' : Prop := names P (h_next h) s s' /\ here h' s'.
Lemma hupd_B_writes E P Xs s h : here h s ->
  writes (fun _ => False) (wrl P s) (returns P h s) (hupd_B E P Xs s) h.
Proof.
  intros [HA HB]. unfold hupd_B. destruct (p_updB P) eqn:Eu.
  - eapply writes_same; [apply writes_look|]. intros h0 h1 _ [-> ->].
    eapply writes_same.
    { eapply writes_weak; [apply hadmm_update_B_writes; exact HB|intros x _ []|].
      intros x _ [Hi Hx]. split; [exact Eu|split; assumption]. }
    intros [b r] h1 [Hn1 _] [Hb Hb']. eapply writes_cons; [apply writes_ret|]. intros s' h2 _ [-> ->]. cbn [fst] in Hb, Hb'.
    split; [|split; cbn; lia]. split; [left; reflexivity|split; [exact Hb|apply aux_kept_refl]].
  - eapply writes_cons; [apply writes_ret|]. intros s' h1 _ [-> ->]. split; [|split; assumption].
    split; [left; reflexivity|split; [left; reflexivity|apply aux_kept_refl]].
Qed.
Lemma hupd_C_writes E P Xs s h : here h s ->
  writes (fun _ => False) (fun _ => False) (returns P h s) (hupd_C E P Xs s) h.
Proof.
  intros [HA HB]. unfold hupd_C. destruct (p_updC P).
  - eapply writes_same; [apply writes_look|]. intros h0 h1 _ [-> ->].
    eapply writes_same; [apply writes_lift|]. intros [c r] h1 _ [_ ->]. eapply writes_cons; [apply writes_ret|].
    intros s' h1 _ [-> ->]. split; [|split; assumption]. split; [left; reflexivity|split; [left; reflexivity|apply aux_kept_refl]].
  - eapply writes_cons; [apply writes_ret|]. intros s' h1 _ [-> ->]. split; [apply names_refl|split; assumption].
Qed.
Lemma hupd_A_writes E P Xs s h : here h s ->
  writes (wr P s) (fun _ => False) (returns P h s) (hupd_A E P Xs s) h.
Proof.
  intros [HA HB]. unfold hupd_A. destruct (p_updA P) eqn:Eu.
  - eapply writes_same; [apply writes_look|]. intros h0 h1 _ [-> ->].
    eapply writes_same.
    { eapply writes_weak; [apply hadmm_update_A_writes; exact HA| |intros x _ []].
      intros x _ H. split; [exact Eu|exact H]. }
    intros [[a r] i] h1 [Hn1 _] [Ha [Ha' Hr]]. eapply writes_cons; [apply writes_ret|]. intros s' h2 _ [-> ->]. cbn [fst snd] in *.
    split; [|split; cbn; lia]. split; [exact Ha|split; [left; reflexivity|exact Hr]].
  - eapply writes_cons; [apply writes_ret|]. intros s' h1 _ [-> ->]. split; [apply names_refl|split; assumption].
Qed.
Lemma houter_step_writes E P Xs s h : here h s -> writes (wr P s) (wrl P s) (returns P h s) (houter_step E P Xs s) h.
Proof.
  intros H0. unfold houter_step. eapply writes_then.
  { eapply writes_weak; [apply hupd_B_writes; exact H0|intros x _ []|intros x _ H; exact H]. }
  intros s1 h1 [Hn1 _] [Hs1 H1]. exists (wr P s1), (wrl P s1). split; [|split; intros y Hy Hw].
  - eapply writes_then.
    { eapply writes_weak; [apply hupd_C_writes; exact H1|intros x _ []|intros x _ []]. }
    intros s2 h2 [Hn2 _] [Hs2 H2].
    assert (names P (h_next h) s s2) as Hs by (eapply names_trans; [|exact Hs1|exact Hs2]; lia).
    exists (wr P s2), (fun _ => False). split; [eapply writes_cons; [apply hupd_A_writes; exact H2|]|split; intros y Hy Hw].
    + intros s3 h3 _ [Hs3 H3]. split; [|exact H3]. eapply names_trans; [|exact Hs|exact Hs3]. lia.
    + eapply names_wr; eassumption.
    + destruct Hw.
  - eapply names_wr; eassumption.
  - eapply names_wrl; eassumption.
Qed.
Lemma hao_loop_writes E P Xs n it s hs h : here h s ->
  writes (wr P s) (wrl P s) (fun out h' => returns P h s (fst (fst (fst out))) h') (hao_loop E P Xs n it s hs) h.
Proof.
  revert it s hs h. induction n as [|k IH]; intros it s hs h H0; cbn [hao_loop].
  - eapply writes_cons; [apply writes_ret|]. intros out h1 _ [-> ->]. split; [apply names_refl|exact H0].
  - eapply writes_then; [apply houter_step_writes; exact H0|]. intros s1 h1 [Hn1 _] [Hs1 H1].
    exists (wr P s1), (wrl P s1). split; [|split; intros y Hy Hw; [eapply names_wr|eapply names_wrl]; eassumption].
    assert (forall it' hs', writes (wr P s1) (wrl P s1) (fun out h' => returns P h s (fst (fst (fst out))) h') (hao_loop E P Xs k it' s1 hs') h1) as Hrec.
    { intros it' hs'. eapply writes_cons; [apply IH; exact H1|]. intros out h2 _ [Hs2 H2]. split; [|exact H2].
      eapply names_trans; [|exact Hs1|exact Hs2]. lia. }
    assert (forall out, fst (fst (fst out)) = s1 ->
      writes (wr P s1) (wrl P s1) (fun out h' => returns P h s (fst (fst (fst out))) h') (ret (out : hstate N * hist * nat * message)) h1) as Hret.
    { intros out Ho. eapply writes_cons; [apply writes_ret|]. intros out' h2 _ [-> ->]. rewrite Ho. split; assumption. }
    eapply writes_same; [apply writes_look|]. intros h0 h2 _ [-> ->].
    destruct ((otruthy (p_tol P) || otruthy (p_abs_tol P)) || p_return_errors P); [|apply Hrec].
    eapply writes_same; [apply writes_lift|]. intros g h2 _ [_ ->]. cbv zeta.
    match goal with |- writes _ _ _ (if ?b then _ else _) _ => destruct b end; [apply Hrec|].
    eapply writes_same; [apply writes_lift|]. intros l h2 _ [_ ->].
    destruct (p_tol P) as [tol|]; [|apply Hrec]. destruct (ntruthy tol); [|apply Hrec].
    destruct (p_abs_tol P) as [ab|].
    + match goal with |- writes _ _ _ (if ?b then _ else _) _ => destruct b end; [apply Hret; reflexivity|].
      match goal with |- writes _ _ _ (if ?b then _ else _) _ => destruct b end; [apply Hret; reflexivity|]. apply Hrec.
    + eapply writes_cons; [apply writes_lift|]. intros out h2 _ [Hq _]. discriminate.
Qed.
Lemma hrun_writes E P Xs n s h : here h s ->
  writes (wr P s) (wrl P s) (fun out h' => returns P h s (fst (fst out)) h') (hrun E P Xs n s) h.
Proof.
  intros H0. unfold hrun. eapply writes_same; [apply writes_look|]. intros h0 h1 _ [-> ->].
  eapply writes_same; [apply writes_lift|]. intros hs h1 _ [_ ->].
  eapply writes_same; [apply hao_loop_writes; exact H0|]. intros [[[s' hs'] it] msg] h1 _ Hr. cbn [fst] in Hr.
  eapply writes_same; [apply writes_look|]. intros h0 h2 _ [-> ->].
  eapply (writes_same _ _ (fun _ h' => h' = h1)).
  { destruct (p_feas_tol P) as [t|]; [|eapply writes_cons; [apply writes_ret|intros x h2 _ [_ H]; exact H]].
    destruct (ntruthy t && p_return_errors P); [|eapply writes_cons; [apply writes_ret|intros x h2 _ [_ H]; exact H]].
    eapply writes_same; [apply writes_lift|]. intros g h2 _ [_ ->].
    eapply writes_cons; [apply writes_ret|intros x h2 _ [_ H]; exact H]. }
  intros feas h2 _ ->. eapply writes_same; [apply writes_lift|]. intros c h2 _ [_ ->].
  destruct (p_return_errors P); (eapply writes_cons; [apply writes_ret|]; intros out h2 _ [-> ->]; exact Hr).
Qed.

(** what a call may write *)
Definition call_wr (P : params) (s : hstate N) (x : nat) : Prop :=
  p_updA P = true /\ ((2 <= p_inner P /\ s_w s = None /\ x = s_A s) \/ (1 <= p_inner P /\ p_constA P = false /\ In x (map r_aux (s_rA s)))).
Lemma hfit_writes E P Xs n s h : here h s ->
  writes (call_wr P s) (wrl P s) (fun out h' => True) (hfit E P Xs n s) h.
Proof.
  intros H0. unfold hfit.
  eapply (writes_then _ _ (fun s1 h1 => here h1 s1 /\ (forall y, y < h_next h -> wr P s1 y -> call_wr P s y) /\ s_Bs s1 = s_Bs s)).
  - unfold hstart. destruct (s_w s) as [w|] eqn:Ew.
    + eapply writes_same; [apply writes_look|]. intros h0 h1 _ [-> ->].
      eapply writes_same; [apply writes_alloc|]. intros a h1 _ [-> [Hn1 _]].
      eapply writes_cons; [apply writes_ret|]. intros s1 h2 _ [-> ->]. destruct H0 as [HA HB]. split; [split; cbn; lia|].
      split; [|reflexivity]. intros y Hy [Hu [[Hi Hq]|Hq]]; cbn in Hq; [lia|]. split; [exact Hu|]. right. exact Hq.
    + eapply writes_cons; [apply writes_ret|]. intros s1 h2 _ [-> ->]. split; [exact H0|]. split; [|reflexivity].
      intros y Hy [Hu [[Hi Hq]|Hq]]; (split; [exact Hu|]); [left; auto|right; exact Hq].
  - intros s1 h1 _ [H1 [Hw Hb]]. exists (wr P s1), (wrl P s1). split; [|split].
    + eapply writes_cons; [apply hrun_writes; exact H1|trivial].
    + exact Hw.
    + intros y _ [Hu [Hi Hq]]. split; [exact Hu|split; [exact Hi|congruence]].
Qed.
End Frame.
