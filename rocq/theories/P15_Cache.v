(** Properties of the cache of the etch data: C45, C46, C55. *)
From Coq Require Import List String Arith ZArith Bool Lia.
From Verif Require Import Num DataCache CacheSpec.
Import ListNotations.
Local Open Scope string_scope.

Section Proofs.
Context {byte value : Type} (loadmat : list byte -> res value).
Notation world := (world byte). Notation env := (env byte). Notation bytes := (list byte).

(** ** Executions *)
(** [Q] holds in every world an execution goes through. *)
Fixpoint always {A} (e : env) (Q : world -> Prop) (p : prog byte A) (w : world) : Prop :=
  Q w /\
  match p with
  | Ret _ => True
  | Exists f k => always e Q (k (match w_files w f with Some _ => true | None => false end)) (tick w)
  | Read f k => always e Q (k (w_files w f)) (tick w)
  | Get u k => always e Q (k (e_net e (w_time w) u)) (tick (request u w))
  | Mkdir k => if e_fault e (w_time w) then always e Q (k false) (tick w) else always e Q (k true) (tick (make_dir w))
  | Open f k => if e_fault e (w_time w) || negb (w_dir w) then always e Q (k false) (tick w)
                else always e Q (k true) (tick (set_file f [] w))
  | Put f b k => if e_fault e (w_time w) then always e Q (k false) (tick w)
                 else always e Q (k true) (tick (set_file f (match w_files w f with Some c => c ++ [b] | None => [b] end) w))
  end.
Lemma always_now {A} e Q (p : prog byte A) w : always e Q p w -> Q w.
Proof. destruct p; cbn; tauto. Qed.
Lemma always_crash {A} e Q : forall n (p : prog byte A) w, always e Q p w -> Q (crash e n p w).
Proof.
  induction n as [|n IH]; intros p w H; [exact (always_now _ _ _ _ H)|]. cbn [crash].
  destruct p; cbn [step]; cbn [always] in H; destruct H as (Hw & H); try exact Hw; try (apply IH; exact H).
  - destruct (e_fault e (w_time w)); apply IH; exact H.
  - destruct (e_fault e (w_time w) || negb (w_dir w)); apply IH; exact H.
  - destruct (e_fault e (w_time w)); apply IH; exact H.
Qed.
Lemma exec_crash {A} e : forall (p : prog byte A) w, exists n, crash e n p w = snd (exec e p w).
Proof.
  induction p as [r|f k IH|f k IH|u k IH|k IH|f k IH|f b k IH]; intros w.
  - exists 0%nat. reflexivity.
  - cbn [exec]. edestruct IH as (n & E). exists (S n). cbn [crash step]. exact E.
  - cbn [exec]. edestruct IH as (n & E). exists (S n). cbn [crash step]. exact E.
  - cbn [exec]. edestruct IH as (n & E). exists (S n). cbn [crash step]. exact E.
  - cbn [exec]. destruct (e_fault e (w_time w)) eqn:F; edestruct IH as (n & E); exists (S n); cbn [crash step]; rewrite F; exact E.
  - cbn [exec]. destruct (e_fault e (w_time w) || negb (w_dir w)) eqn:F; edestruct IH as (n & E); exists (S n); cbn [crash step]; rewrite F; exact E.
  - cbn [exec]. destruct (e_fault e (w_time w)) eqn:F; edestruct IH as (n & E); exists (S n); cbn [crash step]; rewrite F; exact E.
Qed.
Lemma always_exec {A} e Q (p : prog byte A) w : always e Q p w -> Q (snd (exec e p w)).
Proof. intros H. destruct (exec_crash e p w) as (n & <-). now apply always_crash. Qed.

(** ** Saving *)
Definition wrote (f : string) (c : bytes) (w w' : world) : Prop :=
  (forall g, w_files w' g = if (g =? f)%string then Some c else w_files w g) /\ w_log w' = w_log w /\ w_dir w' = true.
Lemma wrote_trans f c d w w1 w2 : wrote f c w w1 -> wrote f d w1 w2 -> wrote f d w w2.
Proof.
  intros (F1 & L1 & D1) (F2 & L2 & D2). split; [|split; [congruence|assumption]]. intros g. rewrite F2, F1. now destruct (g =? f).
Qed.
Lemma wrote_same f c w : local w f c -> w_dir w = true -> wrote f c w w.
Proof. intros H D. split; [|split; [reflexivity|exact D]]. intros g. destruct (String.eqb_spec g f) as [->|]; [exact H|reflexivity]. Qed.
Lemma wrote_set f c w : w_dir w = true -> wrote f c w (tick (set_file f c w)).
Proof. intros D. repeat split; assumption. Qed.
Lemma wrote_tick f c w w' : wrote f c w w' -> wrote f c w (tick w').
Proof. exact (fun H => H). Qed.
Lemma wrote_local f c w w' : wrote f c w w' -> local w' f c.
Proof. intros (F & _). unfold local. rewrite F, String.eqb_refl. reflexivity. Qed.

Lemma exec_write {A} e f (k : prog byte A) : forall c d w, local w f d -> w_dir w = true ->
  (exists c1 c2 w', c = (c1 ++ c2)%list /\ c2 <> [] /\ (exists t, e_fault e t = true) /\ exec e (write_all f c k) w = (Err OSError, w') /\ wrote f (d ++ c1)%list w w') \/
  (exists w', exec e (write_all f c k) w = exec e k w' /\ wrote f (d ++ c)%list w w').
Proof.
  induction c as [|b c IH]; intros d w Hd D.
  - right. exists w. split; [reflexivity|]. rewrite app_nil_r. now apply wrote_same.
  - cbn [write_all exec]. destruct (e_fault e (w_time w)) eqn:F.
    + left. exists [], (b :: c), (tick w). split; [reflexivity|]. split; [discriminate|]. split; [eauto|]. split; [reflexivity|]. rewrite app_nil_r. apply wrote_tick. now apply wrote_same.
    + rewrite Hd. set (w1 := tick (set_file f (d ++ [b])%list w)). assert (W1 : wrote f (d ++ [b])%list w w1) by now apply wrote_set.
      destruct (IH (d ++ [b])%list w1 (wrote_local _ _ _ _ W1) D) as [(c1 & c2 & w' & E1 & E2 & E0 & E3 & E4)|(w' & E3 & E4)]; rewrite <- app_assoc in E4; cbn [app] in E4.
      * left. exists (b :: c1), c2, w'. split; [cbn; now rewrite E1|]. split; [exact E2|]. split; [exact E0|]. split; [exact E3|]. exact (wrote_trans _ _ _ _ _ _ W1 E4).
      * right. exists w'. split; [exact E3|]. exact (wrote_trans _ _ _ _ _ _ W1 E4).
Qed.
Definition made_dir (w w' : world) : Prop := (forall g, w_files w' g = w_files w g) /\ w_log w' = w_log w /\ (w_dir w' = w_dir w \/ w_dir w' = true).
Lemma exec_save {A} e f c (k : prog byte A) w :
  (exists w', (exists t, e_fault e t = true) /\ exec e (save f c k) w = (Err OSError, w') /\ (made_dir w w' \/ exists c1 c2, c = (c1 ++ c2)%list /\ c2 <> [] /\ wrote f c1 w w')) \/
  (exists w', exec e (save f c k) w = exec e k w' /\ wrote f c w w').
Proof.
  unfold save. cbn [exec]. destruct (e_fault e (w_time w)) eqn:F1; [left; exists (tick w); split; [eauto|]; split; [reflexivity|left; repeat split; now left]|].
  cbn [exec]. set (w1 := tick (make_dir w)). change (negb (w_dir w1)) with false. rewrite orb_false_r. destruct (e_fault e (w_time w1)) eqn:F2.
  - left. exists (tick w1). split; [eauto|]. split; [reflexivity|]. left. repeat split. now right.
  - set (w2 := tick (set_file f [] w1)). assert (W2 : wrote f [] w w2) by (split; [reflexivity|split; reflexivity]).
    destruct (exec_write e f k c [] w2 (wrote_local _ _ _ _ W2) eq_refl) as [(c1 & c2 & w' & E1 & E2 & E0 & E3 & E4)|(w' & E3 & E4)].
    + left. exists w'. split; [exact E0|]. split; [exact E3|]. right. exists c1, c2. split; [exact E1|]. split; [exact E2|]. exact (wrote_trans _ _ _ _ _ _ W2 E4).
    + right. exists w'. split; [exact E3|]. exact (wrote_trans _ _ _ _ _ _ W2 E4).
Qed.
Lemma exec_save_ok {A} e f c (k : prog byte A) w : (forall t, e_fault e t = false) -> exists w', exec e (save f c k) w = exec e k w' /\ wrote f c w w'.
Proof. intros NF. destruct (exec_save e f c k w) as [(w' & (t & T) & _)|H]; [rewrite NF in T; discriminate T|exact H]. Qed.

Lemma always_write {A} e (Q : world -> Prop) f (k : prog byte A) : forall c d w, local w f d -> w_dir w = true ->
  (forall c1 c2 w', c = (c1 ++ c2)%list -> wrote f (d ++ c1)%list w w' -> Q w') ->
  (forall w', wrote f (d ++ c)%list w w' -> always e Q k w') -> always e Q (write_all f c k) w.
Proof.
  induction c as [|b c IH]; intros d w Hd D HQ HK.
  - cbn [write_all]. apply HK. rewrite app_nil_r. now apply wrote_same.
  - assert (NOW : wrote f (d ++ [])%list w w) by (rewrite app_nil_r; now apply wrote_same). cbn [write_all always]. split; [now apply (HQ [] (b :: c))|]. destruct (e_fault e (w_time w)) eqn:F.
    + cbn [always]. split; [|exact Logic.I]. apply (HQ [] (b :: c)); [reflexivity|]. now apply wrote_tick.
    + rewrite Hd. set (w1 := tick (set_file f (d ++ [b])%list w)). assert (W1 : wrote f (d ++ [b])%list w w1) by now apply wrote_set.
      apply (IH (d ++ [b])%list w1 (wrote_local _ _ _ _ W1) D).
      * intros c1 c2 w' E W. rewrite <- app_assoc in W. apply (HQ (b :: c1) c2); [cbn; now rewrite E|]. exact (wrote_trans _ _ _ _ _ _ W1 W).
      * intros w' W. rewrite <- app_assoc in W. apply HK. exact (wrote_trans _ _ _ _ _ _ W1 W).
Qed.
Lemma always_save {A} e (Q : world -> Prop) f c (k : prog byte A) w :
  (forall w', made_dir w w' -> Q w') -> (forall c1 c2 w', c = (c1 ++ c2)%list -> wrote f c1 w w' -> Q w') ->
  (forall w', wrote f c w w' -> always e Q k w') -> always e Q (save f c k) w.
Proof.
  intros HM HQ HK. assert (M0 : made_dir w w) by (repeat split; now left). unfold save. cbn [always]. split; [now apply HM|]. destruct (e_fault e (w_time w)) eqn:F1; [cbn [always]; split; [now apply HM|exact Logic.I]|].
  set (w1 := tick (make_dir w)). assert (M1 : made_dir w w1) by (repeat split; now right). cbn [always]. split; [now apply HM|].
  change (negb (w_dir w1)) with false. rewrite orb_false_r. destruct (e_fault e (w_time w1)) eqn:F2; [cbn [always]; split; [now apply HM|exact Logic.I]|].
  set (w2 := tick (set_file f [] w1)). assert (W2 : wrote f [] w w2) by (split; [reflexivity|split; reflexivity]).
  apply (always_write e Q f k c [] w2 (wrote_local _ _ _ _ W2) eq_refl).
  - intros c1 c2 w' E W. apply (HQ c1 c2); [exact E|]. exact (wrote_trans _ _ _ _ _ _ W2 W).
  - intros w' W. apply HK. exact (wrote_trans _ _ _ _ _ _ W2 W).
Qed.

(** ** One file *)
Definition unchanged (w w' : world) : Prop := (forall g, w_files w' g = w_files w g) /\ w_dir w' = w_dir w.
(** What a completed step for one file leaves behind. *)
Definition fetched (e : env) (dl sv : bool) (f u : string) (v : value) (w w' : world) : Prop := exists c, loadmat c = Ok v /\
  ((local w f c /\ unchanged w w' /\ w_log w' = w_log w) \/
   (absent w f /\ dl = true /\ (exists t, e_net e t u = Response 200 c) /\ w_log w' = (w_log w ++ [u])%list /\
    if sv then (forall g, w_files w' g = if (g =? f)%string then Some c else w_files w g) /\ w_dir w' = true else unchanged w w')).
Definition left_by (e : env) (f u : string) (w w' : world) : Prop := (forall g, g <> f -> w_files w' g = w_files w g) /\
  (w_files w' f = w_files w f \/ (exists c t, local w' f c /\ e_net e t u = Response 200 c) \/ exists t, e_fault e t = true).
Lemma exec_file {A} e dl sv f u (k : value -> prog byte A) w :
  (exists v w', exec e (load_file loadmat dl sv f u k) w = exec e (k v) w' /\ fetched e dl sv f u v w w') \/
  (exists x w', exec e (load_file loadmat dl sv f u k) w = (Err x, w') /\ left_by e f u w w' /\ (u = url_of f -> reason loadmat e dl sv f x w)).
Proof.
  assert (SAME : forall w', (forall g, w_files w' g = w_files w g) -> left_by e f u w w') by (intros w' H; split; [intros; apply H|left; apply H]).
  unfold load_file. cbn [exec]. destruct (w_files w f) as [c|] eqn:F.
  - cbn [exec w_files tick]. rewrite F. destruct (loadmat c) as [v|x] eqn:L.
    + left. exists v, (tick (tick w)). split; [reflexivity|]. exists c. split; [exact L|]. left. repeat split. exact F.
    + right. exists x, (tick (tick w)). split; [reflexivity|]. split; [now apply SAME|]. intros _. left. eauto.
  - destruct dl; [|right; exists RuntimeError, (tick w); split; [reflexivity|]; split; [now apply SAME|]; intros _; right; left; repeat split; exact F].
    cbn [exec]. set (w1 := tick (request u (tick w))). set (t := w_time (tick w)).
    destruct (e_net e t u) as [|s c] eqn:G; [right; exists OSError, w1; split; [reflexivity|]; split; [now apply SAME|]; intros ->; right; right; split; [exact F|]; split; [reflexivity|]; left; eauto|].
    destruct (Z.eqb_spec s 200) as [->|NS]; cbn [negb]; [|right; exists RuntimeError, w1; split; [reflexivity|]; split; [now apply SAME|]; intros ->; right; right; split; [exact F|]; split; [reflexivity|]; right; left; eauto 10].
    destruct sv.
    + match goal with |- context[exec e (save f c ?k0) w1] => destruct (exec_save e f c k0 w1) as [(w' & T & E & W)|(w' & E & (WF & WL & WD))]; rewrite E end.
      * right. exists OSError, w'. split; [reflexivity|]. split.
        -- split; [|right; right; exact T]. intros g NE. destruct W as [(WF & _)|(c1 & c2 & _ & _ & (WF & _))]; rewrite WF; [reflexivity|]. destruct (String.eqb_spec g f); [contradiction|reflexivity].
        -- intros ->. right. right. split; [exact F|]. split; [reflexivity|]. right. right. left. auto.
      * destruct (loadmat c) as [v|x] eqn:L.
        -- left. exists v, w'. split; [reflexivity|]. exists c. split; [exact L|]. right. split; [exact F|]. split; [reflexivity|]. split; [eauto|]. split; [exact WL|]. split; [exact WF|exact WD].
        -- right. exists x, w'. split; [reflexivity|]. split.
           ++ split; [intros g NE; rewrite WF; destruct (String.eqb_spec g f); [contradiction|reflexivity]|]. right. left. exists c, t. split; [|exact G]. unfold local. now rewrite WF, String.eqb_refl.
           ++ intros ->. right. right. split; [exact F|]. split; [reflexivity|]. right. right. right. exists c. split; [exists t; exact G|exact L].
    + destruct (loadmat c) as [v|x] eqn:L.
      * left. exists v, w1. split; [reflexivity|]. exists c. split; [exact L|]. right. split; [exact F|]. split; [reflexivity|]. split; [eauto|]. repeat split.
      * right. exists x, w1. split; [reflexivity|]. split; [now apply SAME|]. intros ->. right. right. split; [exact F|]. split; [reflexivity|]. right. right. right. exists c. split; [exists t; exact G|exact L].
Qed.
Definition cut (e : env) (u : string) (dl sv : bool) (w w' : world) (f : string) : Prop :=
  (forall g, g <> f -> w_files w' g = w_files w g) /\ (w_dir w' = w_dir w \/ dl = true /\ sv = true /\ w_dir w' = true) /\
  (w_log w' = w_log w \/ absent w f /\ dl = true /\ w_log w' = (w_log w ++ [u])%list) /\
  (w_files w' f = w_files w f \/ absent w f /\ dl = true /\ sv = true /\ exists b c t, local w' f b /\ begins b c /\ e_net e t u = Response 200 c).
Lemma always_file {A} e (Q : world -> Prop) dl sv f u (k : value -> prog byte A) w :
  (forall w', cut e u dl sv w w' f -> Q w') -> (forall v w', fetched e dl sv f u v w w' -> always e Q (k v) w') -> always e Q (load_file loadmat dl sv f u k) w.
Proof.
  intros HQ HK. assert (SAME : forall w', (forall g, w_files w' g = w_files w g) -> w_dir w' = w_dir w -> w_log w' = w_log w -> Q w').
  { intros w' F D L. apply HQ. split; [intros; apply F|]. split; [now left|]. split; [now left|]. left. apply F. }
  unfold load_file. cbn [always]. split; [now apply SAME|]. destruct (w_files w f) as [c|] eqn:F.
  - cbn [always w_files tick]. split; [now apply SAME|]. rewrite F. destruct (loadmat c) as [v|x] eqn:L.
    + apply HK. exists c. split; [exact L|]. left. repeat split. exact F.
    + cbn [always]. split; [now apply SAME|exact Logic.I].
  - destruct dl; [|cbn [always]; split; [now apply SAME|exact Logic.I]]. cbn [always]. split; [now apply SAME|].
    set (w1 := tick (request u (tick w))). set (t := w_time (tick w)).
    assert (Q1 : forall w', (forall g, w_files w' g = w_files w g) -> (w_dir w' = w_dir w \/ true = true /\ sv = true /\ w_dir w' = true) -> w_log w' = (w_log w ++ [u])%list -> Q w').
    { intros w' F' D L. apply HQ. split; [intros; apply F'|]. split; [exact D|]. split; [right; repeat split; assumption|]. left. apply F'. }
    assert (QW1 : Q w1) by (apply Q1; [reflexivity|now left|reflexivity]).
    destruct (e_net e t u) as [|s c] eqn:G; [cbn [always]; auto|].
    destruct (Z.eqb_spec s 200) as [->|NS]; cbn [negb]; [|cbn [always]; auto]. destruct sv.
    + assert (W0 : forall c1 c2 w', c = (c1 ++ c2)%list -> wrote f c1 w1 w' -> Q w').
      { intros c1 c2 w' Ec (WF & WL & WD). apply HQ. split; [intros g NE; rewrite WF; destruct (String.eqb_spec g f); [contradiction|reflexivity]|].
        split; [right; auto|]. split; [right; repeat split; assumption|]. right. split; [exact F|]. split; [reflexivity|]. split; [reflexivity|]. exists c1, c, t. split; [unfold local; rewrite WF, String.eqb_refl; reflexivity|].
        split; [exists c2; exact Ec|exact G]. }
      apply always_save.
      * intros w' (WF & WL & WD). apply Q1; [exact WF| |exact WL]. destruct WD as [WD|WD]; [left; exact WD|right; auto].
      * exact W0.
      * intros w' W. pose proof W as (WF & WL & WD). destruct (loadmat c) as [v|x] eqn:L.
        -- apply HK. exists c. split; [exact L|]. right. split; [exact F|]. split; [reflexivity|]. split; [eauto|]. split; [exact WL|]. split; [exact WF|exact WD].
        -- cbn [always]. split; [|exact Logic.I]. apply (W0 c [] w'); [now rewrite app_nil_r|exact W].
    + destruct (loadmat c) as [v|x] eqn:L; [|cbn [always]; auto]. apply HK. exists c. split; [exact L|]. right. split; [exact F|]. split; [reflexivity|]. split; [eauto|]. repeat split.
Qed.

(** ** All files *)
Lemma always_mono {A} e (Q Q' : world -> Prop) : (forall w, Q w -> Q' w) -> forall (p : prog byte A) w, always e Q p w -> always e Q' p w.
Proof.
  intros H. induction p as [r|f k IH|f k IH|u k IH|k IH|f k IH|f b k IH]; intros w; cbn [always]; intros (Hw & R); (split; [now apply H|]); try (now apply IH).
  - exact R.
  - destruct (e_fault e (w_time w)); now apply IH.
  - destruct (e_fault e (w_time w) || negb (w_dir w)); now apply IH.
  - destruct (e_fault e (w_time w)); now apply IH.
Qed.
Notation urls names := (map (fun f => (f, url_of f)) names).
Lemma missing_ext (w w' : world) l : (forall f, In f l -> w_files w' f = w_files w f) -> missing w' l = missing w l.
Proof.
  induction l as [|f l IH]; intros H; [reflexivity|]. cbn [missing filter]. rewrite (H f (or_introl eq_refl)). fold (missing w' l). fold (missing w l). rewrite IH; [reflexivity|].
  intros g Hg. apply H. now right.
Qed.
Lemma fetched_other e dl sv f u v w w' g : fetched e dl sv f u v w w' -> g <> f -> w_files w' g = w_files w g.
Proof.
  intros (c & _ & [(_ & (F & _) & _)|(_ & _ & _ & _ & K)]) NE; [apply F|]. destruct sv; [|apply K]. destruct K as (K & _). rewrite K. destruct (String.eqb_spec g f); [contradiction|reflexivity].
Qed.
Definition got (e : env) (dl sv : bool) (w w' : world) (f : string) (fv : string * value) : Prop := fst fv = f /\ exists c, loadmat c = Ok (snd fv) /\
  (local w f c /\ local w' f c \/ absent w f /\ dl = true /\ served e f c /\ if sv then local w' f c else absent w' f).
Lemma exec_files e dl sv : forall names acc w, NoDup names ->
  (exists vals w', exec e (load_files loadmat dl sv (urls names) acc) w = (Ok (acc ++ vals)%list, w') /\ Forall2 (got e dl sv w w') names vals /\
     (forall g, ~ In g names -> w_files w' g = w_files w g) /\ w_log w' = (w_log w ++ map url_of (missing w names))%list) \/
  (exists x w' pre f post, exec e (load_files loadmat dl sv (urls names) acc) w = (Err x, w') /\ names = (pre ++ f :: post)%list /\ reason loadmat e dl sv f x w /\
     (forall g, w_files w' g = w_files w g \/ (In g names /\ exists c, local w' g c /\ served e g c) \/ exists t, e_fault e t = true)).
Proof.
  induction names as [|f names IH]; intros acc w ND.
  - left. exists [], w. cbn. rewrite !app_nil_r. repeat split; constructor.
  - inversion ND as [|? ? NI ND']; subst. cbn [map load_files].
    destruct (exec_file e dl sv f (url_of f) (fun v => load_files loadmat dl sv (urls names) (acc ++ [(f, v)])%list) w) as [(v & w1 & E & FE)|(x & w1 & E & LB & BR)]; rewrite E.
    + assert (OTHER : forall g, g <> f -> w_files w1 g = w_files w g) by (intros g NE; eapply fetched_other; eassumption).
      assert (OTH : forall g, In g names -> w_files w1 g = w_files w g) by (intros g Hg; apply OTHER; intros ->; contradiction).
      destruct (IH (acc ++ [(f, v)])%list w1 ND') as [(vals & w' & E2 & GV & FR & LG)|(x & w' & pre & f' & post & E2 & EN & BR & LV)].
      * left. exists ((f, v) :: vals), w'. rewrite E2, <- app_assoc. split; [reflexivity|]. split; [|split].
        -- constructor.
           ++ split; [reflexivity|]. destruct FE as (c & L & K). exists c. split; [exact L|]. unfold local, absent. rewrite (FR f NI). destruct K as [(F & (FF & _) & _)|(AB & D & SV & LG1 & K)].
              ** left. split; [exact F|]. rewrite FF. exact F.
              ** right. split; [exact AB|]. split; [exact D|]. split; [exact SV|]. destruct sv; [destruct K as (K & _)|destruct K as (K & _)]; rewrite K; [now rewrite String.eqb_refl|exact AB].
           ++ assert (G : Forall2 (fun f0 fv => In f0 names -> got e dl sv w w' f0 fv) names vals).
              { clear - GV OTH. assert (H : forall l vals, Forall2 (got e dl sv w1 w') l vals -> Forall2 (fun f0 fv => In f0 names -> got e dl sv w w' f0 fv) l vals).
                { induction 1 as [|f0 fv l l' Hh Ht IHt]; constructor; [|exact IHt]. intros IN. destruct Hh as (EQ & c & L & K). split; [exact EQ|]. exists c. split; [exact L|]. unfold local, absent in *. rewrite (OTH f0 IN) in K. exact K. }
                now apply H. }
              clear - G. assert (H : forall l vals, incl l names -> Forall2 (fun f0 fv => In f0 names -> got e dl sv w w' f0 fv) l vals -> Forall2 (got e dl sv w w') l vals).
              { intros l vs IN H. induction H as [|f0 fv l l' Hh Ht IHt]; constructor; [apply Hh, IN; now left|]. apply IHt. intros z Hz. apply IN. now right. }
              apply H; [apply incl_refl|exact G].
        -- intros g NG. rewrite FR by (intros X; apply NG; now right). apply OTHER. intros ->. apply NG. now left.
        -- rewrite LG, (missing_ext w w1 names OTH). cbn [missing filter]. fold (missing w names). destruct FE as (c & L & [(F & _ & LG1)|(AB & _ & _ & LG1 & _)]); rewrite LG1.
           ++ rewrite F. reflexivity.
           ++ rewrite AB. cbn [map]. now rewrite <- app_assoc.
      * right. exists x, w', (f :: pre), f', post. rewrite E2. split; [reflexivity|]. split; [now rewrite EN|]. assert (IN : In f' names) by (rewrite EN; apply in_or_app; right; now left).
        split.
        -- destruct BR as [(c & F & L)|[(AB & R)|(AB & R)]]; unfold local, absent in *; rewrite (OTH f' IN) in *; [left; eauto|right; left; auto|right; right; auto].
        -- intros g. destruct (LV g) as [EQ|[(IG & K)|K]]; [|right; left; split; [now right|exact K]|now right; right].
           destruct (String.eqb_spec g f) as [->|NE]; [|left; rewrite EQ; now apply OTHER].
           destruct FE as (c & L & [(F & (FF & _) & _)|(AB & _ & SV & _ & K)]); [left; rewrite EQ; apply FF|]. destruct sv; destruct K as (K & _); [|left; rewrite EQ; apply K].
           right. left. split; [now left|]. exists c. split; [|exact SV]. unfold local. rewrite EQ, K, String.eqb_refl. reflexivity.
    + right. exists x, w1, [], f, names. split; [reflexivity|]. split; [reflexivity|]. split; [now apply BR|]. intros g. destruct LB as (O & K). destruct (String.eqb_spec g f) as [->|NE]; [|left; now apply O].
      destruct K as [K|[(c & t & K1 & K2)|K]]; [now left|right; left; split; [now left|]; exists c; split; [exact K1|exists t; exact K2]|now right; right].
Qed.

Definition complete (e : env) (w' : world) (f : string) : Prop := exists c v, local w' f c /\ served e f c /\ loadmat c = Ok v.
Definition between (e : env) (dl sv : bool) (names : list string) (w w' : world) : Prop :=
  (forall g, ~ In g names -> w_files w' g = w_files w g) /\ (forall g c, local w g c -> local w' g c) /\
  (forall g, In g names -> absent w g -> absent w' g \/ dl = true /\ sv = true /\ exists b c, local w' g b /\ begins b c /\ served e g c) /\
  (w_dir w' = w_dir w \/ dl = true /\ sv = true /\ w_dir w' = true) /\
  (exists l, w_log w' = (w_log w ++ l)%list /\ begins l (map url_of (missing w names)) /\ (dl = false -> l = [])) /\
  (exists f0, forall g, In g names -> g <> f0 -> absent w g -> absent w' g \/ complete e w' g).
Lemma begins_nil {A} (l : list A) : begins [] l. Proof. exists l. reflexivity. Qed.
Lemma always_files e dl sv : forall names acc w, NoDup names -> always e (between e dl sv names w) (load_files loadmat dl sv (urls names) acc) w.
Proof.
  induction names as [|f names IH]; intros acc w ND.
  - cbn. split; [|exact Logic.I]. split; [reflexivity|]. split; [tauto|]. split; [intros g []|]. split; [now left|]. split; [|exists ""; intros g []].
    exists []. rewrite app_nil_r. repeat split. apply begins_nil.
  - inversion ND as [|? ? NI ND']; subst. cbn [map load_files]. apply always_file.
    + intros w' (O & D & LG & F). split; [intros g NG; apply O; intros ->; apply NG; now left|]. split; [|split; [|split; [exact D|split]]].
      * intros g c Hc. destruct (String.eqb_spec g f) as [->|NE]; [|unfold local; rewrite O by exact NE; exact Hc]. destruct F as [F|(AB & _)]; [unfold local; rewrite F; exact Hc|].
        unfold absent, local in *. congruence.
      * intros g _ AB. destruct (String.eqb_spec g f) as [->|NE]; [|left; unfold absent; rewrite O by exact NE; exact AB].
        destruct F as [F|(_ & D1 & S1 & b & c & t & Hb & Hc & N)]; [left; unfold absent; rewrite F; exact AB|]. right. split; [exact D1|]. split; [exact S1|]. exists b, c. split; [exact Hb|]. split; [exact Hc|]. exists t. exact N.
      * destruct LG as [LG|(AB & D1 & LG)].
        -- exists []. rewrite app_nil_r. split; [exact LG|]. split; [apply begins_nil|reflexivity].
        -- exists [url_of f]. split; [exact LG|]. split; [|intros; congruence]. cbn [missing filter]. rewrite AB. fold (missing w names). cbn [map]. exists (map url_of (missing w names)). reflexivity.
      * exists f. intros g _ NE AB. left. unfold absent. rewrite O by exact NE. exact AB.
    + intros v w1 FE. assert (OTHER : forall g, g <> f -> w_files w1 g = w_files w g) by (intros g NE; eapply fetched_other; eassumption).
      assert (OTH : forall g, In g names -> w_files w1 g = w_files w g) by (intros g Hg; apply OTHER; intros ->; contradiction).
      eapply always_mono; [|apply (IH _ w1 ND')]. intros w' (O & KL & KA & D & (l & LG & BL & LD) & (f0 & CO)).
      assert (LF : w_files w' f = w_files w1 f) by now apply O.
      split; [intros g NG; rewrite O by (intros X; apply NG; now right); apply OTHER; intros ->; apply NG; now left|]. split; [|split; [|split; [|split]]].
      * intros g c Hc. apply KL. destruct (String.eqb_spec g f) as [->|NE]; [|unfold local; rewrite OTHER by exact NE; exact Hc].
        destruct FE as (c' & L & [(F & (FF & _) & _)|(AB & _)]); [unfold local; rewrite FF; exact Hc|unfold absent, local in *; congruence].
      * intros g IG AB. destruct (String.eqb_spec g f) as [->|NE].
        -- destruct FE as (c' & L & [(F & _)|(_ & D1 & SV & _ & K)]); [unfold absent, local in *; congruence|]. destruct sv; destruct K as (K & _).
           ++ right. split; [exact D1|]. split; [reflexivity|]. exists c', c'. split; [unfold local; rewrite LF, K, String.eqb_refl; reflexivity|]. split; [exists []; now rewrite app_nil_r|exact SV].
           ++ left. unfold absent. rewrite LF, K. exact AB.
        -- destruct IG as [->|IG]; [contradiction|]. apply KA; [exact IG|]. unfold absent. rewrite OTH by exact IG. exact AB.
      * assert (D1 : w_dir w1 = w_dir w \/ dl = true /\ sv = true /\ w_dir w1 = true).
        { destruct FE as (c' & L & [(F & (_ & FD) & _)|(_ & D1 & SV & _ & K)]); [now left|]. destruct sv; [right; repeat split; tauto|left; apply K]. }
        destruct D as [D|D]; [rewrite D; exact D1|now right].
      * rewrite (missing_ext w w1 names OTH) in BL. cbn [missing filter]. fold (missing w names). destruct FE as (c' & L & [(F & _ & LG1)|(AB & DL & _ & LG1 & _)]).
        -- rewrite F. exists l. rewrite LG, LG1. auto.
        -- rewrite AB. exists (url_of f :: l). rewrite LG, LG1, <- app_assoc. split; [reflexivity|]. split; [|intros; congruence]. destruct BL as (d & BL). exists d. cbn [map app]. now rewrite BL.
      * exists f0. intros g IG NE AB. destruct (String.eqb_spec g f) as [->|NF].
        -- destruct FE as (c' & L & [(F & _)|(_ & D1 & SV & _ & K)]); [unfold absent, local in *; congruence|]. destruct sv; destruct K as (K & _).
           ++ right. exists c', v. split; [unfold local; rewrite LF, K, String.eqb_refl; reflexivity|]. split; [exact SV|exact L].
           ++ left. unfold absent. rewrite LF, K. exact AB.
        -- destruct IG as [->|IG]; [contradiction|]. apply CO; [exact IG|exact NE|]. unfold absent. rewrite OTH by exact IG. exact AB.
Qed.
Lemma data_urls_names : data_urls = urls etch_files.
Proof. reflexivity. Qed.
Lemma nodup_files : NoDup etch_files.
Proof. repeat constructor; cbn; intros H; repeat (destruct H as [H|H]; [discriminate H|]); exact H. Qed.
Notation raw := (get_semiconductor_etch_raw_data loadmat).
Lemma crash_between e n dl sv w : between e dl sv etch_files w (crash e n (raw dl sv) w).
Proof. unfold get_semiconductor_etch_raw_data. rewrite data_urls_names. apply always_crash, always_files, nodup_files. Qed.

(** ** C45 *)
(** At every moment of every call: existing files keep their content; new files are among the three, are
    only made if downloading and saving are allowed and hold a beginning of what the server sent; requests
    are only made for files that do not exist, in order and at most once each. *)
Theorem C45_disk e n dl sv w : let w' := crash e n (raw dl sv) w in
  (forall f c, local w f c -> local w' f c) /\
  (forall f, absent w f -> absent w' f \/ In f etch_files /\ dl = true /\ sv = true /\ exists b c, local w' f b /\ begins b c /\ served e f c) /\
  (dl = false \/ sv = false -> same_disk w w') /\
  exists l, w_log w' = (w_log w ++ l)%list /\ begins l (map url_of (missing w etch_files)) /\ (dl = false -> l = []).
Proof.
  cbv zeta. destruct (crash_between e n dl sv w) as (O & KL & KA & D & LG & _).
  assert (A1 : forall f, absent w f -> absent (crash e n (raw dl sv) w) f \/ In f etch_files /\ dl = true /\ sv = true /\ exists b c, local (crash e n (raw dl sv) w) f b /\ begins b c /\ served e f c).
  { intros f AB. destruct (in_dec String.string_dec f etch_files) as [IF|NF]; [|left; unfold absent; rewrite O by exact NF; exact AB]. destruct (KA f IF AB) as [A|A]; [now left|right; tauto]. }
  split; [exact KL|]. split; [exact A1|]. split; [|exact LG]. intros N. split.
  - intros f. destruct (w_files w f) as [c|] eqn:F; [now apply KL|]. destruct (A1 f F) as [A|(_ & A & B & _)]; [exact A|]. destruct N; congruence.
  - destruct D as [D|(D1 & D2 & _)]; [exact D|]. destruct N; congruence.
Qed.

(** A successful call returns the three files in order, each parsed from the local copy if there was one
    and from what the server sent otherwise; what was downloaded is saved if and only if requested. *)
Theorem C45_result e dl sv w vals w' : exec e (raw dl sv) w = (Ok vals, w') ->
  map fst vals = etch_files /\
  (forall f v, In (f, v) vals -> exists c, loadmat c = Ok v /\
     (local w f c /\ local w' f c \/ absent w f /\ dl = true /\ served e f c /\ if sv then local w' f c else absent w' f)) /\
  (forall f, ~ In f etch_files -> w_files w' f = w_files w f) /\
  w_log w' = (w_log w ++ map url_of (missing w etch_files))%list.
Proof.
  unfold get_semiconductor_etch_raw_data. rewrite data_urls_names. intros H. destruct (exec_files e dl sv etch_files [] w nodup_files) as [(vs & w1 & E & GV & FR & LG)|(x & w1 & pre & f & post & E & _)]; rewrite E in H; [|discriminate H].
  cbn [app] in H. injection H as H1 H2. subst vs w1. split; [|split; [|split; [exact FR|exact LG]]].
  - clear - GV. induction GV as [|f fv l l' (H & _) _ IH]; [reflexivity|]. cbn. now rewrite H, IH.
  - clear - GV. intros f v IN. induction GV as [|f0 fv l l' Hh Ht IH]; [destruct IN|]. destruct IN as [->|IN]; [|now apply IH]. destruct Hh as (EQ & K). cbn [fst snd] in *. subst f0. exact K.
Qed.

(** Every exception has one of the documented reasons. *)
Theorem C45_errors e dl sv w x w' : exec e (raw dl sv) w = (Err x, w') -> exists f, In f etch_files /\ reason loadmat e dl sv f x w.
Proof.
  unfold get_semiconductor_etch_raw_data. rewrite data_urls_names. intros H. destruct (exec_files e dl sv etch_files [] w nodup_files) as [(vs & w1 & E & _)|(y & w1 & pre & f & post & E & EN & BR & _)]; rewrite E in H; [discriminate H|].
  injection H as H1 H2. subst y w1. exists f. split; [rewrite EN; apply in_or_app; right; now left|exact BR].
Qed.
Theorem C45_succeeds e dl sv w :
  (forall f, In f etch_files -> (exists c v, local w f c /\ loadmat c = Ok v) \/ absent w f /\ dl = true /\ serves loadmat e f) ->
  (sv = true -> reliable_disk e) -> exists vals w', exec e (raw dl sv) w = (Ok vals, w').
Proof.
  intros H RD. destruct (exec e (raw dl sv) w) as [[vals|x] w'] eqn:E; [eauto|exfalso]. destruct (C45_errors _ _ _ _ _ _ E) as (f & IF & BR).
  destruct (H f IF) as [(c & v & F & L)|(AB & D & SV)].
  - destruct BR as [(c' & F' & L')|[(AB & _)|(AB & _)]]; unfold local, absent in *; congruence.
  - destruct BR as [(c' & F' & L')|[(_ & D' & _)|(_ & _ & [((t & N) & _)|[((t & s & c & N & NS) & _)|[(S1 & _ & (t & N))|(c & (t & N) & L)]]])]].
    + unfold local, absent in *; congruence.
    + congruence.
    + destruct (SV t) as (c' & v & E' & _). congruence.
    + destruct (SV t) as (c' & v & E' & _). congruence.
    + rewrite (RD S1) in N. discriminate N.
    + destruct (SV t) as (c' & v & E' & L'). congruence.
Qed.

(** After a successful saving call, every later call returns the same data without network access and
    without touching the disk, whatever calls (complete or interrupted) are made in between. *)
Lemma later_keeps w w' : later loadmat w w' -> forall f c, local w f c -> local w' f c.
Proof.
  induction 1 as [w|w w1 e dl sv _ IH|w w1 e n dl sv _ IH]; intros f c H; [exact H| |].
  - destruct (exec_crash e (raw dl sv) w1) as (n & <-). apply (proj1 (C45_disk e n dl sv w1)). now apply IH.
  - apply (proj1 (C45_disk e n dl sv w1)). now apply IH.
Qed.
Lemma all_local e dl sv w : (forall f, In f etch_files -> exists c v, local w f c /\ loadmat c = Ok v) ->
  exists vals w', exec e (raw dl sv) w = (Ok vals, w') /\ same_disk w w' /\ w_log w' = w_log w /\ map fst vals = etch_files /\
  forall f v, In (f, v) vals -> exists c, local w f c /\ loadmat c = Ok v.
Proof.
  intros H. assert (X : exists vals w', exec e (raw dl sv) w = (Ok vals, w')).
  { destruct (exec e (raw dl sv) w) as [[vals|x] w'] eqn:E; [eauto|exfalso]. destruct (C45_errors _ _ _ _ _ _ E) as (f & IF & BR). destruct (H f IF) as (c & v & F & L).
    destruct BR as [(c' & F' & L')|[(AB & _)|(AB & _)]]; unfold local, absent in *; congruence. }
  destruct X as (vals & w' & E). exists vals, w'. split; [exact E|]. pose proof (C45_result _ _ _ _ _ _ E) as (MF & KV & FR & LG).
  assert (NM : missing w etch_files = []).
  { clear - H. assert (G : forall l, incl l etch_files -> missing w l = []).
    { induction l as [|f l IH]; intros IN; [reflexivity|]. cbn [missing filter]. destruct (H f (IN f (or_introl eq_refl))) as (c & v & F & _). rewrite F. apply IH. intros z Hz. apply IN. now right. }
    apply G, incl_refl. }
  assert (SD : same_disk w w').
  { destruct (exec_crash e (raw dl sv) w) as (n & EC). rewrite E in EC. cbn [snd] in EC. destruct (C45_disk e n dl sv w) as (KL & _). rewrite EC in KL. split.
    - intros f. destruct (in_dec String.string_dec f etch_files) as [IF|NF]; [|now apply FR]. destruct (H f IF) as (c & v & F & _). rewrite F. now apply KL.
    - clear - E H. unfold get_semiconductor_etch_raw_data in E. cbn [load_files data_urls] in E. unfold load_file in E.
      destruct (H "MACHINE_Data.mat" ltac:(cbn; tauto)) as (c1 & v1 & F1 & L1). destruct (H "OES_DATA.mat" ltac:(cbn; tauto)) as (c2 & v2 & F2 & L2). destruct (H "RFM_DATA.mat" ltac:(cbn; tauto)) as (c3 & v3 & F3 & L3).
      unfold local in *. cbn [exec w_files tick] in E. rewrite F1 in E. cbn [exec w_files tick] in E. rewrite F1, L1 in E. cbn [exec w_files tick] in E. rewrite F2 in E. cbn [exec w_files tick] in E. rewrite F2, L2 in E.
      cbn [exec w_files tick] in E. rewrite F3 in E. cbn [exec w_files tick] in E. rewrite F3, L3 in E. cbn [exec] in E. injection E as _ E. rewrite <- E. reflexivity. }
  split; [exact SD|]. split; [rewrite LG, NM; apply app_nil_r|]. split; [exact MF|]. intros f v IN. destruct (KV f v IN) as (c & L & [(F & _)|(AB & _)]); [eauto|exfalso].
  assert (IF : In f etch_files) by (rewrite <- MF; change f with (fst (f, v)); now apply in_map). destruct (H f IF) as (c' & v' & F' & _). unfold local, absent in *. congruence.
Qed.
Theorem C45_cached e dl w vals w1 : exec e (raw dl true) w = (Ok vals, w1) ->
  forall w2, later loadmat w1 w2 -> forall e' dl' sv', exists w3, exec e' (raw dl' sv') w2 = (Ok vals, w3) /\ same_disk w2 w3 /\ w_log w3 = w_log w2.
Proof.
  intros E w2 LT e' dl' sv'. destruct (C45_result _ _ _ _ _ _ E) as (MF & KV & _).
  assert (LOC : forall f v, In (f, v) vals -> exists c, local w2 f c /\ loadmat c = Ok v).
  { intros f v IN. destruct (KV f v IN) as (c & L & [(_ & F)|(_ & _ & _ & F)]); exists c; (split; [now apply (later_keeps _ _ LT)|exact L]). }
  destruct (all_local e' dl' sv' w2) as (vals' & w3 & E3 & SD & LG & MF' & KV').
  { intros f IF. rewrite <- MF in IF. apply in_map_iff in IF as ((f' & v) & EQ & IN). cbn in EQ. subst f'. destruct (LOC f v IN) as (c & F & L). eauto. }
  exists w3. split; [|split; [exact SD|exact LG]]. rewrite E3. do 2 f_equal.
  assert (G : forall l l' : list (string * value), map fst l = map fst l' -> (forall f v v', In (f, v) l -> In (f, v') l' -> v = v') -> l = l').
  { induction l as [|(f & v) l IH]; intros [|(f' & v') l'] EM K; cbn in EM; try discriminate EM; [reflexivity|]. injection EM as EF EM. subst f'. f_equal; [|apply IH; [exact EM|]].
    - f_equal. apply (K f v v'); now left.
    - intros g x y Hx Hy. apply (K g x y); now right. }
  apply G; [congruence|]. intros f v v' I1 I2. destruct (KV' f v I1) as (c & F & L). destruct (LOC f v' I2) as (c' & F' & L'). unfold local in *. congruence.
Qed.

(** ** C46 *)
(** An interruption can cut at most one file short: every other file is as before or complete. *)
Theorem C46_interrupted_partial e n dl sv w : let w' := crash e n (raw dl sv) w in
  exists f0, forall f, In f etch_files -> f <> f0 -> w_files w' f = w_files w f \/ exists c v, local w' f c /\ served e f c /\ loadmat c = Ok v.
Proof.
  cbv zeta. destruct (crash_between e n dl sv w) as (_ & KL & _ & _ & _ & (f0 & K)). exists f0. intros f IF NE. destruct (w_files w f) as [c|] eqn:F; [left; now apply KL|].
  destruct (K f IF NE F) as [A|A]; [now left|now right].
Qed.
(** But a file that was cut short is taken for the real one for ever: for every place [k] in the content
    the process can die so that the file holds the first [k] bytes, and then no later call of any kind
    requests the file again; if the beginning is unreadable, every later call fails. *)
Lemma crash_write {A} e f (k : prog byte A) : reliable_disk e -> forall i c d w, (i <= List.length c)%nat -> local w f d -> w_dir w = true ->
  local (crash e i (write_all f c k) w) f (d ++ firstn i c)%list.
Proof.
  intros RD. induction i as [|i IH]; intros c d w Hi Hd D; [cbn [firstn crash]; rewrite app_nil_r; exact Hd|]. destruct c as [|b c]; [cbn in Hi; lia|].
  cbn [write_all crash step firstn]. rewrite RD, Hd. replace (d ++ b :: firstn i c)%list with ((d ++ [b]) ++ firstn i c)%list by (rewrite <- app_assoc; reflexivity).
  apply IH; [cbn in Hi; lia| |exact D]. unfold local, tick, set_file. cbn [w_files]. now rewrite String.eqb_refl.
Qed.
Theorem C46_interrupted_refuted e w c k : let f := "MACHINE_Data.mat" in
  absent w f -> (forall t, e_net e t (url_of f) = Response 200 c) -> reliable_disk e -> (k <= List.length c)%nat ->
  exists n, let w1 := crash e n (raw true true) w in local w1 f (firstn k c) /\
    forall w2, later loadmat w1 w2 -> local w2 f (firstn k c) /\ forall e' dl sv,
      (forall x, loadmat (firstn k c) = Err x -> exists w3, exec e' (raw dl sv) w2 = (Err x, w3) /\ same_disk w2 w3 /\ w_log w3 = w_log w2) /\
      (forall v vals w3, loadmat (firstn k c) = Ok v -> exec e' (raw dl sv) w2 = (Ok vals, w3) -> In (f, v) vals).
Proof.
  cbv zeta. intros AB SV RD Hk. exists (4 + k)%nat.
  assert (L1 : local (crash e (4 + k) (raw true true) w) "MACHINE_Data.mat" (firstn k c)).
  { unfold get_semiconductor_etch_raw_data. cbn [data_urls load_files]. unfold load_file at 1. cbn [Nat.add crash step]. rewrite AB. cbn [crash step].
    match goal with |- context[e_net e ?t ?u] => change u with (url_of "MACHINE_Data.mat"); rewrite (SV t) end. cbn [Z.eqb Pos.eqb negb]. unfold save at 1. cbn [crash step]. rewrite RD. cbn [crash step]. rewrite RD. cbn [orb w_dir tick make_dir negb].
    apply (crash_write e "MACHINE_Data.mat" _ RD k c []); [exact Hk| |reflexivity]. unfold local, tick, set_file. cbn [w_files]. now rewrite String.eqb_refl. }
  split; [exact L1|]. intros w2 LT. pose proof (later_keeps _ _ LT _ _ L1) as L2. split; [exact L2|]. intros e' dl sv. split.
  - intros x Hx. unfold get_semiconductor_etch_raw_data. cbn [data_urls load_files]. unfold load_file at 1. cbn [exec]. rewrite L2. cbn [exec tick w_files]. rewrite L2, Hx. cbn [exec].
    eexists. split; [reflexivity|]. repeat split.
  - intros v vals w3 Hv E. destruct (C45_result _ _ _ _ _ _ E) as (MF & KV & _). assert (IF : In "MACHINE_Data.mat" (map fst vals)) by (rewrite MF; now left).
    apply in_map_iff in IF as ((f & v') & EQ & IN). cbn in EQ. subst f. destruct (KV _ _ IN) as (c' & L & [(F & _)|(A2 & _)]); unfold local, absent in *; [|congruence].
    replace v with v'; [exact IN|]. congruence.
Qed.

(** ** C55 *)
(** A call that failed although everything the server sent with status 200 was readable can be repeated:
    once the server works, the call succeeds. *)
Theorem C55_retry_partial e dl sv w r w1 : exec e (raw dl sv) w = (r, w1) -> reliable_disk e ->
  (forall f c, In f etch_files -> local w f c -> exists v, loadmat c = Ok v) -> (forall f c, In f etch_files -> served e f c -> exists v, loadmat c = Ok v) ->
  forall e' sv', (forall f, In f etch_files -> serves loadmat e' f) -> reliable_disk e' -> exists vals w2, exec e' (raw true sv') w1 = (Ok vals, w2).
Proof.
  intros E RD RL RS e' sv' SV RD'. apply C45_succeeds; [|intros _; exact RD']. intros f IF.
  destruct (w_files w1 f) as [c|] eqn:F; [left|right; split; [exact F|]; split; [reflexivity|now apply SV]]. exists c.
  assert (X : local w f c \/ served e f c).
  { unfold get_semiconductor_etch_raw_data in E. rewrite data_urls_names in E. destruct (exec_files e dl sv etch_files [] w nodup_files) as [(vs & w' & E1 & GV & FR & LG)|(x & w' & pre & f' & post & E1 & EN & BR & LV)]; rewrite E1 in E; injection E as _ E; subst w'.
    - clear - GV F IF. induction GV as [|f0 fv l l' Hh Ht IH]; [destruct IF|]. destruct IF as [->|IF]; [|now apply IH]. destruct Hh as (_ & c0 & L & [(A & B)|(A & _ & S & B)]); unfold local, absent in *.
      + left. congruence.
      + right. destruct sv; [|congruence]. replace c with c0 by congruence. exact S.
    - destruct (LV f) as [EQ|[(_ & c0 & A & S)|(t & T)]].
      + left. unfold local. congruence.
      + right. unfold local in A. replace c with c0 by congruence. exact S.
      + rewrite RD in T. discriminate T. }
  destruct X as [X|X]; [destruct (RL f c IF X) as (v & L)|destruct (RS f c IF X) as (v & L)]; exists v; auto.
Qed.
(** But an unreadable answer with status 200 is saved before it is parsed: the call fails and so does
    every later call of any kind, even when the server works. *)
Theorem C55_bad_download_refuted e w c x : let f := "MACHINE_Data.mat" in
  absent w f -> (forall t, e_net e t (url_of f) = Response 200 c) -> loadmat c = Err x -> reliable_disk e ->
  exists w1, exec e (raw true true) w = (Err x, w1) /\ local w1 f c /\
    forall w2, later loadmat w1 w2 -> forall e' dl sv, fst (exec e' (raw dl sv) w2) = Err x.
Proof.
  cbv zeta. intros AB SV BAD RD.
  assert (X : exists w1, exec e (raw true true) w = (Err x, w1) /\ local w1 "MACHINE_Data.mat" c).
  { unfold get_semiconductor_etch_raw_data. cbn [data_urls load_files]. unfold load_file at 1. cbn [exec]. rewrite AB. cbn [exec].
    match goal with |- context[e_net e ?t ?u] => change u with (url_of "MACHINE_Data.mat"); rewrite (SV t) end. cbn [Z.eqb Pos.eqb negb]. rewrite BAD.
    match goal with |- context[exec e (save ?f ?c ?k0) ?w0] => destruct (exec_save_ok e f c k0 w0 RD) as (w' & E & W); rewrite E end. cbn [exec]. exists w'. split; [reflexivity|]. exact (wrote_local _ _ _ _ W). }
  destruct X as (w1 & E & L1). exists w1. split; [exact E|]. split; [exact L1|]. intros w2 LT e' dl sv. pose proof (later_keeps _ _ LT _ _ L1) as L2.
  unfold get_semiconductor_etch_raw_data. cbn [data_urls load_files]. unfold load_file at 1. cbn [exec]. rewrite L2. cbn [exec tick w_files]. rewrite L2, BAD. reflexivity.
Qed.
End Proofs.
Print Assumptions C45_disk.
Print Assumptions C45_result.
Print Assumptions C45_errors.
Print Assumptions C45_succeeds.
Print Assumptions C45_cached.
Print Assumptions C46_interrupted_partial.
Print Assumptions C46_interrupted_refuted.
Print Assumptions C55_retry_partial.
Print Assumptions C55_bad_download_refuted.

(** ** Concrete cases: a file is readable if it ends with a zero byte *)
Definition ex_loadmat (c : list nat) : res nat := match rev c with 0%nat :: _ => Ok (List.length c) | _ => Err ValueError end.
Definition ex_env : env nat := {| e_net := fun _ u => if (u =? url_of "OES_DATA.mat")%string then Response 200 [7; 7; 0]%nat else Response 200 [5; 0]%nat; e_fault := fun _ => false |}.
Definition ex_world : world nat := {| w_files := fun f => if (f =? "OES_DATA.mat")%string then Some [9; 9; 9; 0]%nat else None; w_dir := true; w_log := []; w_time := 3 |}.
Example ex_call : exists w1, exec ex_env (get_semiconductor_etch_raw_data ex_loadmat true true) ex_world =
    (Ok [("MACHINE_Data.mat", 2%nat); ("OES_DATA.mat", 4%nat); ("RFM_DATA.mat", 2%nat)], w1) /\ w_log w1 = [url_of "MACHINE_Data.mat"; url_of "RFM_DATA.mat"].
Proof. eexists. split; [vm_compute; reflexivity|reflexivity]. Qed.
Example ex_cut : absent ex_world "MACHINE_Data.mat" /\ (forall t, e_net ex_env t (url_of "MACHINE_Data.mat") = Response 200 [5; 0]%nat) /\ reliable_disk ex_env /\
  ex_loadmat (firstn 1 [5; 0]%nat) = Err ValueError.
Proof. repeat split. Qed.
