(** C81: calls of get_semiconductor_etch_raw_data at the same time. *)
From Coq Require Import List String Arith ZArith Bool Lia.
From Verif Require Import Num DataCache CacheSpec P15_Cache DataConcurrent ConcurrentSpec.
Import ListNotations.
Local Open Scope string_scope.

(** *** lists *)
Lemma replace_length {B} i (x : B) l : (i < List.length l)%nat -> List.length (replace i x l) = List.length l.
Proof. intros H. unfold replace. rewrite app_length. cbn [List.length]. rewrite firstn_length, skipn_length. lia. Qed.
Lemma replace_same {B} i (x : B) l : (i < List.length l)%nat -> nth_error (replace i x l) i = Some x.
Proof. intros H. unfold replace. rewrite nth_error_app2; rewrite firstn_length; [|lia]. now replace (i - Nat.min i (List.length l))%nat with 0%nat by lia. Qed.
Lemma nth_error_firstn_lt {B} : forall (l : list B) i j, (j < i)%nat -> nth_error (firstn i l) j = nth_error l j.
Proof. induction l as [|x l IH]; intros [|i] [|j] H; try lia; try reflexivity. cbn. apply IH. lia. Qed.
Lemma nth_error_skipn_add {B} : forall i (l : list B) j, nth_error (skipn i l) j = nth_error l (i + j).
Proof. induction i as [|i IH]; intros [|x l] j; try reflexivity; [now destruct j|]. apply IH. Qed.
Lemma replace_other {B} i j (x : B) l : (i < List.length l)%nat -> j <> i -> nth_error (replace i x l) j = nth_error l j.
Proof.
  intros H N. unfold replace. destruct (Nat.lt_ge_cases j i) as [L|L].
  - rewrite nth_error_app1 by (rewrite firstn_length; lia). now apply nth_error_firstn_lt.
  - rewrite nth_error_app2 by (rewrite firstn_length; lia). rewrite firstn_length. replace (j - Nat.min i (List.length l))%nat with (S (j - S i)) by lia.
    cbn [nth_error]. rewrite nth_error_skipn_add. f_equal. lia.
Qed.

Section Proofs.
Context {byte value : Type} (zero : byte) (loadmat : list byte -> res value).
Notation world := (world byte). Notation env := (env byte). Notation bytes := (list byte).
Notation raw := (get_semiconductor_etch_raw_data loadmat).
Notation write_at := (write_at zero). Notation pstep := (pstep zero). Notation schedule := (schedule zero).
Notation damaged := (damaged zero).

(** *** writing at a position *)
Lemma write_len o b c : List.length (write_at o b c) = Nat.max (S o) (List.length c).
Proof. unfold DataConcurrent.write_at. rewrite app_length. cbn [List.length]. rewrite firstn_length, skipn_length, app_length, repeat_length. lia. Qed.
Lemma write_here o b c : nth_error (write_at o b c) o = Some b.
Proof.
  unfold DataConcurrent.write_at. rewrite nth_error_app2; rewrite firstn_length, app_length, repeat_length; [|lia].
  now replace (o - Nat.min o (List.length c + (o - List.length c)))%nat with 0%nat by lia.
Qed.
Lemma write_there o b c i : i <> o -> (i < List.length c)%nat -> nth_error (write_at o b c) i = nth_error c i.
Proof.
  intros N L. unfold DataConcurrent.write_at. destruct (Nat.lt_ge_cases i o) as [H|H].
  - rewrite nth_error_app1 by (rewrite firstn_length, app_length, repeat_length; lia). rewrite nth_error_firstn_lt by exact H. now apply nth_error_app1.
  - rewrite nth_error_app2 by (rewrite firstn_length, app_length, repeat_length; lia). rewrite firstn_length, app_length, repeat_length.
    replace (i - Nat.min o (List.length c + (o - List.length c)))%nat with (S (i - S o)) by lia. cbn [nth_error]. rewrite nth_error_skipn_add. f_equal. lia.
Qed.
Lemma write_gap o b c i : i <> o -> (List.length c <= i)%nat -> forall x, nth_error (write_at o b c) i = Some x -> x = zero.
Proof.
  intros N L x. unfold DataConcurrent.write_at. destruct (Nat.lt_ge_cases i o) as [H|H].
  - rewrite nth_error_app1 by (rewrite firstn_length, app_length, repeat_length; lia). rewrite nth_error_firstn_lt by exact H. rewrite nth_error_app2 by exact L.
    intros K. apply nth_error_In in K. now apply repeat_spec in K.
  - rewrite nth_error_app2 by (rewrite firstn_length, app_length, repeat_length; lia). rewrite firstn_length, app_length, repeat_length.
    replace (i - Nat.min o (List.length c + (o - List.length c)))%nat with (S (i - S o)) by lia. cbn [nth_error]. rewrite nth_error_skipn_add.
    intros K. assert (X : nth_error c (S o + (i - S o)) <> None) by congruence. apply nth_error_Some in X. lia.
Qed.
Lemma write_end b c : write_at (List.length c) b c = (c ++ [b])%list.
Proof. unfold DataConcurrent.write_at. rewrite Nat.sub_diag. cbn [repeat]. rewrite app_nil_r, firstn_all, skipn_all2 by lia. reflexivity. Qed.

(** *** one process: turns and complete executions *)
(** [tidy st p]: with [st] the open file and the number of bytes written to it, the program writes to no other file. *)
Fixpoint tidy {A} (st : option (string * nat)) (p : prog byte A) : Prop :=
  match p with
  | Ret _ => True
  | Exists f k => forall b, tidy None (k b)
  | Read f k => forall c, tidy None (k c)
  | Get u k => forall a, tidy None (k a)
  | Mkdir k => forall b, tidy None (k b)
  | Open f k => tidy None (k false) /\ tidy (Some (f, 0%nat)) (k true)
  | Put f b k => exists n, st = Some (f, n) /\ tidy None (k false) /\ tidy (Some (f, S n)) (k true)
  end.
Lemma tidy_any {A} (p : prog byte A) : tidy None p -> forall st, tidy st p.
Proof. destruct p; cbn; auto. intros (n & H & _). discriminate. Qed.
Lemma tidy_write {A} f (k : prog byte A) : tidy None k -> forall c n, tidy (Some (f, n)) (write_all f c k).
Proof. intros H. induction c as [|b c IH]; intros n; cbn; [now apply tidy_any|]. exists n. split; [reflexivity|]. split; [exact I|apply IH]. Qed.
Lemma tidy_save {A} f c (k : prog byte A) : tidy None k -> tidy None (save f c k).
Proof. intros H [|]; cbn; [|exact I]. split; [exact I|]. now apply tidy_write. Qed.
Lemma tidy_files dl sv : forall l acc, tidy None (load_files loadmat dl sv l acc).
Proof.
  induction l as [|(f & u) l IH]; intros acc; [exact I|]. cbn [load_files]. unfold load_file. intros [|]; cbn [tidy].
  - intros [c|]; [|exact I]. destruct (loadmat c); [apply IH|exact I].
  - destruct dl; [|exact I]. intros [|s c]; [exact I|]. destruct (negb _); [exact I|]. cbv zeta.
    assert (T : tidy None (match loadmat c with Ok v => load_files loadmat true sv l (acc ++ [(f, v)]) | Err x => Ret (Err x) end)) by (destruct (loadmat c); [apply IH|exact I]).
    destruct sv; [now apply tidy_save|exact T].
Qed.
Definition in_step {A} (q : proc byte A) (st : option (string * nat)) (w : world) : Prop :=
  tidy st (p_rest q) /\ forall f n, st = Some (f, n) -> p_pos q = n /\ exists c, w_files w f = Some c /\ List.length c = n.
Lemma alone_step {A} e (q : proc byte A) st w : in_step q st w ->
  match pstep e q w, step e (p_rest q) w with
  | Some (q', w1), Some (p', w2) => p_rest q' = p' /\ w1 = w2 /\ exists st', in_step q' st' w1
  | None, None => True
  | _, _ => False
  end.
Proof.
  intros (T & L). destruct q as [p pos]. cbn [p_rest p_pos] in *. unfold DataConcurrent.pstep, in_step. cbn [p_rest p_pos].
  assert (N : forall (p' : prog byte A) w' pos', tidy None p' -> exists st' : option (string * nat), tidy st' p' /\ forall f n, st' = Some (f, n) -> pos' = n /\ exists c : bytes, w_files w' f = Some c /\ List.length c = n)
    by (intros; exists None; split; [assumption|discriminate]).
  destruct p as [r|f k|f k|u k|k|f k|f b k]; cbn [step tidy] in *; [exact I| | | | | |].
  1-3: (split; [reflexivity|]; split; [reflexivity|]; apply N, T).
  - destruct (e_fault e (w_time w)); (split; [reflexivity|]; split; [reflexivity|]; apply N, T).
  - destruct T as (T1 & T2). destruct (e_fault e (w_time w) || negb (w_dir w)); (split; [reflexivity|]; split; [reflexivity|]); [apply N, T1|].
    exists (Some (f, 0%nat)). split; [exact T2|]. intros f' n H. injection H as <- <-. split; [reflexivity|]. exists []. split; [|reflexivity]. cbn. now rewrite String.eqb_refl.
  - destruct T as (n & -> & T1 & T2). destruct (L f n eq_refl) as (-> & c & EC & LC). destruct (e_fault e (w_time w)); [split; [reflexivity|]; split; [reflexivity|]; apply N, T1|]. rewrite EC. rewrite <- LC, write_end, LC.
    split; [reflexivity|]. split; [reflexivity|]. exists (Some (f, S n)). split; [exact T2|]. intros f' m H. injection H as <- <-. split; [reflexivity|]. eexists.
    split; [cbn; now rewrite String.eqb_refl|]. rewrite app_length. cbn. lia.
Qed.
(** With a single process: the same worlds as in DataCache.v. *)
Theorem C81_alone e dl sv w q w' :
  schedule e (calls loadmat [(dl, sv)], w) ([q], w') ->
  exists n, w' = crash e n (raw dl sv) w /\ (ended q -> p_rest q = Ret (fst (exec e (raw dl sv) w)) /\ w' = snd (exec e (raw dl sv) w)).
Proof.
  assert (EX : forall A (p : prog byte A) (v : world) p' v', step e p v = Some (p', v') -> exec e p v = exec e p' v').
  { intros A p v p' v'. destruct p; cbn [step exec]; intros H; try discriminate H; try (injection H as <- <-; reflexivity).
    - destruct (e_fault e (w_time v)); injection H as <- <-; reflexivity.
    - destruct (e_fault e (w_time v) || negb (w_dir v)); injection H as <- <-; reflexivity.
    - destruct (e_fault e (w_time v)); injection H as <- <-; reflexivity. }
  assert (K : forall s s', schedule e s s' -> s = (calls loadmat [(dl, sv)], w) -> exists q st n, fst s' = [q] /\ in_step q st (snd s') /\ exec e (p_rest q) (snd s') = exec e (raw dl sv) w /\
     forall m, crash e (n + m) (raw dl sv) w = crash e m (p_rest q) (snd s')).
  { induction 1 as [s|s ps w1 i q0 q' w1' H IH E1 E2]; intros ES; subst s.
    - eexists _, None, 0%nat. split; [reflexivity|]. split; [split; [apply tidy_files|discriminate]|]. split; reflexivity.
    - destruct (IH eq_refl) as (q1 & st & n & EP & IS & EE & CR). cbn [fst snd] in *. subst ps. destruct i as [|[|i]]; try discriminate E1. cbn in E1. injection E1 as <-.
      pose proof (alone_step e q1 st w1 IS) as AS. rewrite E2 in AS. destruct (step e (p_rest q1) w1) as [(p' & w2)|] eqn:ST; [|contradiction]. destruct AS as (R1 & <- & st' & IS').
      exists q', st', (S n). split; [reflexivity|]. split; [exact IS'|]. split; [rewrite <- EE, R1; symmetry; now apply EX|].
      intros m. replace (S n + m)%nat with (n + S m)%nat by lia. rewrite CR. cbn [crash]. rewrite ST, R1. reflexivity. }
  intros H. destruct (K _ _ H eq_refl) as (q1 & st & n & EP & IS & EE & CR). cbn [fst snd] in *. injection EP as <-. exists n. split.
  - specialize (CR 0%nat). rewrite Nat.add_0_r in CR. cbn [crash] in CR. now symmetry.
  - intros (r & ER). rewrite ER in EE |- *. cbn [exec] in EE. rewrite <- EE. auto.
Qed.

(** *** many processes *)
Section Many.
Variables (e : env) (content : string -> bytes) (w0 : world) (l0 : list (bool * bool)).
Hypothesis OV : one_version e content.
(** Where a value can come from. *)
Definition origin (f : string) (v : value) : Prop :=
  exists b, loadmat b = Ok v /\ (local w0 f b \/ absent w0 f /\ damaged b (content f)).
Definition result_fine (r : res (list (string * value))) : Prop :=
  match r with Ok vals => map fst vals = etch_files /\ forall f v, In (f, v) vals -> origin f v | Err _ => True end.
Definition closed (st : option (string * nat)) : Prop := match st with None => True | Some (f, n) => n = List.length (content f) end.
Definition may_write (f : string) : Prop := In f etch_files /\ absent w0 f /\ In (true, true) l0.
Fixpoint fine (st : option (string * nat)) (p : prog byte (list (string * value))) : Prop :=
  match p with
  | Ret r => closed st /\ result_fine r
  | Exists f k => closed st /\ forall b, (b = false -> absent w0 f) -> fine None (k b)
  | Read f k => closed st /\ forall c, (forall b, c = Some b -> local w0 f b \/ absent w0 f /\ damaged b (content f)) -> fine None (k c)
  | Get u k => closed st /\ forall a, (forall f c, In f etch_files -> u = url_of f -> a = Response 200 c -> c = content f) -> fine None (k a)
  | Mkdir k => closed st /\ forall b, fine None (k b)
  | Open f k => closed st /\ may_write f /\ fine None (k false) /\ fine (Some (f, 0%nat)) (k true)
  | Put f b k => exists n, st = Some (f, n) /\ may_write f /\ nth_error (content f) n = Some b /\ fine None (k false) /\ fine (Some (f, S n)) (k true)
  end.
Lemma fine_closed p : fine None p -> forall st, closed st -> fine st p.
Proof. destruct p; cbn; try tauto. intros (n & H & _). discriminate. Qed.
Lemma fine_write f k : may_write f -> fine None k -> forall c n, content f = (firstn n (content f) ++ c)%list -> (n <= List.length (content f))%nat -> fine (Some (f, n)) (write_all f c k).
Proof.
  intros MW H. induction c as [|b c IH]; intros n EC LN; cbn [write_all].
  - apply fine_closed; [exact H|]. cbn. apply (f_equal (@List.length _)) in EC. rewrite app_length, firstn_length in EC. cbn in EC. lia.
  - assert (NB : nth_error (content f) n = Some b). { rewrite EC, nth_error_app2; rewrite firstn_length; [|lia]. now replace (n - Nat.min n (List.length (content f)))%nat with 0%nat by lia. }
    cbn [fine]. exists n. split; [reflexivity|]. split; [exact MW|]. split; [exact NB|]. split; [split; exact I|].
    assert (LN' : (n < List.length (content f))%nat) by (apply nth_error_Some; congruence).
    apply IH; [|lia]. assert (SK : skipn n (content f) = b :: c). { rewrite EC at 1. rewrite skipn_app, skipn_all2 by (rewrite firstn_length; lia). rewrite firstn_length. now replace (n - Nat.min n (List.length (content f)))%nat with 0%nat by lia. }
    rewrite <- (firstn_skipn (S n) (content f)) at 1. f_equal. replace (S n) with (1 + n)%nat by lia. assert (SS : forall (l : bytes) m, skipn (1 + m) l = skipn 1 (skipn m l)). { induction l as [|x l IHl]; intros [|m]; try reflexivity. cbn [skipn Nat.add]. destruct m; [reflexivity|]. exact (IHl (S m)). }
    rewrite SS, SK. reflexivity.
Qed.
Lemma fine_files dl sv : In (dl, sv) l0 -> forall l acc, (forall f, In f l -> In f etch_files) -> (map fst acc ++ l)%list = etch_files -> (forall f v, In (f, v) acc -> origin f v) ->
  fine None (load_files loadmat dl sv (map (fun f => (f, url_of f)) l) acc).
Proof.
  intros HI. induction l as [|f l IH]; intros acc HL HM HO; cbn [map load_files].
  - split; [exact I|]. cbn. rewrite app_nil_r in HM. auto.
  - assert (NEXT : forall b v, loadmat b = Ok v -> local w0 f b \/ absent w0 f /\ damaged b (content f) -> fine None (load_files loadmat dl sv (map (fun f => (f, url_of f)) l) (acc ++ [(f, v)]))).
    { intros b v LB OB. apply IH.
      - intros g Hg. apply HL. now right.
      - rewrite map_app, <- app_assoc. exact HM.
      - intros g x Hx. apply in_app_or in Hx. destruct Hx as [Hx|[Hx|[]]]; [now apply HO|]. injection Hx as <- <-. exists b. auto. }
    unfold load_file. split; [exact I|]. intros [|] AB; cbn [fine].
    + split; [exact I|]. intros [b|] HB; [|split; exact I]. specialize (HB b eq_refl). destruct (loadmat b) as [v|x] eqn:LB; [|split; exact I]. now apply (NEXT b).
    + specialize (AB eq_refl). destruct dl; [|split; exact I]. split; [exact I|]. intros [|s c] HA; [split; exact I|]. destruct (Z.eqb_spec s 200) as [->|NS]; cbn [negb]; [|split; exact I].
      assert (EC : c = content f) by (apply (HA f c); [apply HL; now left|reflexivity|reflexivity]). cbv zeta.
      assert (FI : fine None (match loadmat c with Ok v => load_files loadmat true sv (map (fun f => (f, url_of f)) l) (acc ++ [(f, v)]) | Err x => Ret (Err x) end)).
      { destruct (loadmat c) as [v|x] eqn:LC; [|split; exact I]. apply (NEXT c); [exact LC|]. right. split; [exact AB|]. subst c. split; [lia|]. auto. }
      destruct sv; [|exact FI]. split; [exact I|]. intros [|]; [|split; exact I]. cbn [fine]. assert (MW : may_write f) by (split; [apply HL; now left|]; split; [exact AB|exact HI]).
      split; [exact I|]. split; [exact MW|]. split; [split; exact I|]. apply fine_write; [exact MW|exact FI|subst c; reflexivity|lia].
Qed.
Lemma fine_raw dl sv : In (dl, sv) l0 -> fine None (raw dl sv).
Proof. intros HI. unfold get_semiconductor_etch_raw_data. rewrite data_urls_names. apply fine_files; auto. intros f v []. Qed.

(** The invariant. *)
Definition covered (sts : list (option (string * nat))) (f : string) (b : bytes) : Prop :=
  forall i x, nth_error (content f) i = Some x -> nth_error b i = Some x \/ exists j n, nth_error sts j = Some (Some (f, n)) /\ (n <= i)%nat.
Definition file_fine (sts : list (option (string * nat))) (w : world) (f : string) : Prop :=
  match w_files w0 f with
  | Some c => w_files w f = Some c
  | None => match w_files w f with
            | None => forall j n, nth_error sts j <> Some (Some (f, n))
            | Some b => (In f etch_files /\ In (true, true) l0) /\ damaged b (content f) /\ (reliable_disk e -> covered sts f b)
            end
  end.
Definition invariant (ps : list (proc byte (list (string * value)))) (w : world) : Prop :=
  exists sts, Forall2 (fun q st => fine st (p_rest q) /\ forall f n, st = Some (f, n) -> p_pos q = n) ps sts /\ forall f, file_fine sts w f.
Lemma Forall2_nth {A B} (Q : A -> B -> Prop) l l' i x : Forall2 Q l l' -> nth_error l i = Some x -> exists y, nth_error l' i = Some y /\ Q x y.
Proof. intros H. revert i. induction H as [|a b l l' H _ IH]; intros [|i] E; cbn in *; try discriminate; [injection E as <-; eauto|auto]. Qed.
Lemma Forall2_replace {A B} (Q : A -> B -> Prop) l l' i x y : Forall2 Q l l' -> Q x y -> Forall2 Q (replace i x l) (replace i y l').
Proof.
  intros H HQ. revert i. unfold replace. induction H as [|a b l l' H F IH]; intros [|i]; [constructor; [exact HQ|constructor]|constructor; [exact HQ|constructor]|constructor; assumption|]. constructor; [exact H|apply IH].
Qed.
Lemma invariant_step ps w i q q' w' : invariant ps w -> nth_error ps i = Some q -> pstep e q w = Some (q', w') -> invariant (replace i q' ps) w'.
Proof.
  intros (sts & FP & FF) EI ES. destruct (Forall2_nth _ _ _ _ _ FP EI) as (st & ET & FQ & PQ). assert (LI : (i < List.length sts)%nat) by (apply nth_error_Some; congruence).
  (* the cases in which no file changes *)
  assert (QUIET : forall p' pos', fine None p' -> (forall f, w_files w' f = w_files w f) -> q' = Proc p' pos' -> (reliable_disk e -> closed st) -> invariant (replace i q' ps) w').
  { intros p' pos' FN FW -> CL. exists (replace i None sts). split; [apply Forall2_replace; [exact FP|]; split; [exact FN|discriminate]|].
    intros f. specialize (FF f). unfold file_fine in *. rewrite FW. destruct (w_files w0 f); [exact FF|].
    destruct (w_files w f) as [b|]; [|intros j n; destruct (Nat.eq_dec j i) as [->|NE]; [rewrite replace_same by exact LI; discriminate|rewrite replace_other by assumption; apply FF]].
    destruct FF as (H1 & H2 & H3). split; [exact H1|]. split; [exact H2|].
    intros RD k x Hk. destruct (H3 RD k x Hk) as [L|(j & n & EJ & LN)]; [now left|]. destruct (Nat.eq_dec j i) as [->|NE].
    - rewrite ET in EJ. injection EJ as ->. specialize (CL RD). cbn in CL. subst n. assert (X : nth_error (content f) k <> None) by congruence. apply nth_error_Some in X. lia.
    - right. exists j, n. split; [|exact LN]. rewrite replace_other; auto. }
  destruct q as [p pos]. cbn [p_rest p_pos] in *. unfold DataConcurrent.pstep in ES. cbn [p_rest p_pos] in ES.
  destruct p as [r|f k|f k|u k|k|f k|f b k]; cbn [step fine] in *.
  - discriminate.
  - destruct FQ as (CL & FQ). injection ES as <- <-. eapply QUIET; [apply FQ| |reflexivity|auto].
    + specialize (FF f). unfold file_fine in FF. unfold absent. destruct (w_files w0 f) as [c|]; [|reflexivity]. rewrite FF. discriminate.
    + reflexivity.
  - destruct FQ as (CL & FQ). injection ES as <- <-. eapply QUIET; [apply FQ| |reflexivity|auto].
    + intros b EB. specialize (FF f). unfold file_fine in FF. unfold absent, local. destruct (w_files w0 f) as [c|]; [left; congruence|]. rewrite EB in FF. right. tauto.
    + reflexivity.
  - destruct FQ as (CL & FQ). injection ES as <- <-. eapply QUIET; [apply FQ| |reflexivity|auto].
    + intros f c IF -> EA. exact (OV _ f c IF EA).
    + reflexivity.
  - destruct FQ as (CL & FQ). destruct (e_fault e (w_time w)); injection ES as <- <-; (eapply QUIET; [apply FQ|reflexivity|reflexivity|auto]).
  - destruct FQ as (CL & (IF & AB & IT) & FA & FB). destruct (e_fault e (w_time w) || negb (w_dir w)); injection ES as <- <-; [eapply QUIET; [exact FA|reflexivity|reflexivity|auto]|].
    exists (replace i (Some (f, 0%nat)) sts). split; [apply Forall2_replace; [exact FP|]; split; [exact FB|]; intros g n H; injection H as <- <-; reflexivity|].
    intros g. unfold file_fine. cbn [w_files tick set_file]. destruct (String.eqb_spec g f) as [->|NG].
    + unfold absent in AB. rewrite AB. split; [split; [exact IF|exact IT]|]. split; [split; [cbn; lia|intros [|k'] x H; discriminate]|]. intros _ k' x Hk. right. exists i, 0%nat. split; [now apply replace_same|lia].
    + specialize (FF g). unfold file_fine in FF. destruct (w_files w0 g); [exact FF|]. destruct (w_files w g) as [b|]; [|intros j n; destruct (Nat.eq_dec j i) as [->|NE]; [rewrite replace_same by exact LI; congruence|rewrite replace_other by assumption; apply FF]].
      destruct FF as (H1 & H2 & H3). split; [exact H1|]. split; [exact H2|].
      intros RD k' x Hk. destruct (H3 RD k' x Hk) as [L|(j & n & EJ & LN)]; [now left|]. destruct (Nat.eq_dec j i) as [->|NE].
      * rewrite ET in EJ. injection EJ as ->. cbn in CL. subst n. assert (X : nth_error (content g) k' <> None) by congruence. apply nth_error_Some in X. lia.
      * right. exists j, n. split; [|exact LN]. rewrite replace_other; auto.
  - destruct FQ as (n & -> & (IF & AB & IT) & NB & FA & FB). specialize (PQ f n eq_refl). subst pos.
    destruct (e_fault e (w_time w)) eqn:FT; injection ES as <- <-; [eapply QUIET; [exact FA|reflexivity|reflexivity|intros RD; rewrite RD in FT; discriminate FT]|].
    exists (replace i (Some (f, S n)) sts). split; [apply Forall2_replace; [exact FP|]; split; [exact FB|]; intros g m H; injection H as <- <-; reflexivity|].
    intros g. unfold file_fine. cbn [w_files tick set_file]. destruct (String.eqb_spec g f) as [->|NG].
    + specialize (FF f). unfold file_fine in FF. unfold absent in AB. rewrite AB in *. split; [split; [exact IF|exact IT]|].
      set (c := match w_files w f with Some c => c | None => [] end).
      assert (DC : damaged c (content f)) by (unfold c; destruct (w_files w f); [apply FF|split; [cbn; lia|intros [|k'] x H; discriminate]]).
      assert (LN : (n < List.length (content f))%nat) by (apply nth_error_Some; congruence). split.
      * destruct DC as (D1 & D2). split; [rewrite write_len; lia|]. intros k' x Hx. destruct (Nat.eq_dec k' n) as [->|NE]; [right; rewrite write_here in Hx; congruence|].
        destruct (Nat.lt_ge_cases k' (List.length c)) as [L|L]; [rewrite write_there in Hx by assumption; auto|]. left. eapply write_gap; eauto.
      * intros RD k' x Hk. destruct (Nat.eq_dec k' n) as [->|NE]; [left; rewrite write_here; congruence|]. 
        assert (OLD : nth_error c k' = Some x \/ exists j m, nth_error sts j = Some (Some (f, m)) /\ (m <= k')%nat).
        { unfold c. destruct (w_files w f) as [b'|] eqn:EF; [now apply FF|]. destruct (FF i n ET). }
        destruct OLD as [L|(j & m & EJ & LM)].
        -- left. rewrite write_there; [exact L|exact NE|]. apply nth_error_Some. congruence.
        -- right. destruct (Nat.eq_dec j i) as [->|NJ].
           ++ rewrite ET in EJ. injection EJ as <-. exists i, (S n). split; [now apply replace_same|lia].
           ++ exists j, m. split; [|exact LM]. rewrite replace_other; auto.
    + specialize (FF g). unfold file_fine in FF. destruct (w_files w0 g); [exact FF|].
      destruct (w_files w g) as [b'|]; [|intros j m; destruct (Nat.eq_dec j i) as [->|NE]; [rewrite replace_same by exact LI; congruence|rewrite replace_other by assumption; apply FF]].
      destruct FF as (H1 & H2 & H3). split; [exact H1|]. split; [exact H2|].
      intros RD k' x Hk. destruct (H3 RD k' x Hk) as [L|(j & m & EJ & LM)]; [now left|]. right. destruct (Nat.eq_dec j i) as [->|NE]; [congruence|].
      exists j, m. split; [|exact LM]. rewrite replace_other; auto.
Qed.
Lemma invariant_start : invariant (calls loadmat l0) w0.
Proof.
  exists (map (fun _ => None) l0). split.
  - unfold calls. assert (K : forall l, (forall a, In a l -> In a l0) -> Forall2 (fun q st => fine st (p_rest q) /\ forall f n, st = Some (f, n) -> p_pos q = n) (map (fun a => starting (raw (fst a) (snd a))) l) (map (fun _ => None) l)); [|apply K; auto].
    induction l as [|a l IH]; intros HL; cbn [map]; constructor; [|apply IH; intros b Hb; apply HL; now right]. split; [apply fine_raw; destruct a; apply HL; now left|discriminate].
  - intros f. unfold file_fine. destruct (w_files w0 f); [reflexivity|]. intros j n H. apply nth_error_In, in_map_iff in H. destruct H as (? & H & _). discriminate.
Qed.
Lemma invariant_all ps w : schedule e (calls loadmat l0, w0) (ps, w) -> invariant ps w.
Proof.
  assert (K : forall s s', schedule e s s' -> s = (calls loadmat l0, w0) -> invariant (fst s') (snd s')).
  { induction 1 as [s|s ps' w1 i q0 q' w1' H IH E1 E2]; intros ES; subst s; [apply invariant_start|]. eapply invariant_step; eauto. }
  intros H. exact (K _ _ H eq_refl).
Qed.
End Many.

Lemma Forall2_len {A B} (Q : A -> B -> Prop) l l' : Forall2 Q l l' -> List.length l = List.length l'.
Proof. induction 1; cbn; congruence. Qed.
Lemma same_list : forall (b c : bytes), (List.length b <= List.length c)%nat -> (forall i x, nth_error c i = Some x -> nth_error b i = Some x) -> b = c.
Proof.
  induction b as [|x b IH]; intros [|y c] L H; cbn in L; try lia; [reflexivity| |].
  - specialize (H 0%nat y eq_refl). discriminate.
  - pose proof (H 0%nat y eq_refl) as E. injection E as ->. f_equal. apply IH; [lia|]. intros i z Hz. exact (H (S i) z Hz).
Qed.
(** Any number of calls with any arguments, any schedule, processes dying anywhere: existing files keep their
    content, no file but the three appears, a file that appears is a damaged copy at worst; and once every
    process has come to its end and the disk did not fail, every file that appeared is complete.  Without a
    call that may download and save, no file appears. *)
Theorem C81_files_partial e content w0 l ps w : one_version e content -> schedule e (calls loadmat l, w0) (ps, w) ->
  (forall f c, local w0 f c -> local w f c) /\
  (forall f, absent w0 f -> absent w f \/ In f etch_files /\ In (true, true) l /\ exists b, local w f b /\ damaged b (content f)) /\
  (reliable_disk e -> Forall ended ps -> forall f, absent w0 f -> absent w f \/ In f etch_files /\ local w f (content f)).
Proof.
  intros OV H. destruct (invariant_all e content w0 l OV ps w H) as (sts & FP & FF). unfold local, absent. repeat split.
  - intros f c L. specialize (FF f). unfold file_fine in FF. rewrite L in FF. exact FF.
  - intros f A. specialize (FF f). unfold file_fine in FF. rewrite A in FF. destruct (w_files w f) as [b|]; [|now left]. right. split; [apply FF|]. split; [apply FF|]. exists b. split; [reflexivity|]. apply FF.
  - intros RD EN f A. specialize (FF f). unfold file_fine in FF. rewrite A in FF. destruct (w_files w f) as [b|]; [|now left]. destruct FF as ((IF & _) & (LB & _) & CV). right. split; [exact IF|]. f_equal.
    apply same_list; [exact LB|]. intros i x Hx. destruct (CV RD i x Hx) as [K|(j & n & EJ & LN)]; [exact K|]. exfalso.
    assert (LJ : (j < List.length ps)%nat) by (rewrite (Forall2_len _ _ _ FP); apply nth_error_Some; congruence). apply nth_error_Some in LJ. destruct (nth_error ps j) as [q|] eqn:EQ; [|contradiction].
    destruct (Forall2_nth _ _ _ _ _ FP EQ) as (st & ES & FQ & _). rewrite EJ in ES. injection ES as <-. rewrite Forall_forall in EN. destruct (EN q (nth_error_In _ _ EQ)) as (r & ER). rewrite ER in FQ.
    destruct FQ as (CL & _). cbn in CL. subst n. assert (X : nth_error (content f) i <> None) by congruence. apply nth_error_Some in X. lia.
Qed.
(** What the calls return: for every file the value of the copy that was there before, or of the copy of the
    server, or of a damaged copy of it.  If damaged copies are refused when they are loaded, the calls
    that return, return what a call alone would return. *)
Theorem C81_results_partial e content w0 l ps w q vals : one_version e content -> schedule e (calls loadmat l, w0) (ps, w) ->
  In q ps -> returned q vals ->
  map fst vals = etch_files /\
  (forall f v, In (f, v) vals -> exists b, loadmat b = Ok v /\ (local w0 f b \/ absent w0 f /\ damaged b (content f))) /\
  ((forall f b v, damaged b (content f) -> loadmat b = Ok v -> b = content f) ->
   forall f v, In (f, v) vals -> exists b, loadmat b = Ok v /\ (local w0 f b \/ absent w0 f /\ b = content f)).
Proof.
  intros OV H IQ RQ. destruct (invariant_all e content w0 l OV ps w H) as (sts & FP & FF). apply In_nth_error in IQ. destruct IQ as (i & EQ).
  destruct (Forall2_nth _ _ _ _ _ FP EQ) as (st & ES & FQ & _). unfold returned in RQ. rewrite RQ in FQ. destruct FQ as (_ & RF). cbn in RF. destruct RF as (E1 & E2). split; [exact E1|]. split; [exact E2|].
  intros RE f v Hv. destruct (E2 f v Hv) as (b & LB & [L|(A & D)]); exists b; (split; [exact LB|]); [now left|]. right. split; [exact A|]. eapply RE; eauto.
Qed.

(** *** Two calls at the same time that fail *)
Lemma sched_trans {A} e (s1 s2 s3 : system byte A) : schedule e s1 s2 -> schedule e s2 s3 -> schedule e s1 s3.
Proof. intros H K. revert H. induction K as [|s ps w i q q' w' K IH E1 E2]; intros H; [exact H|]. eapply sched_turn; eauto. Qed.
Lemma first_turn {A} e (q r q' : proc byte A) w w' s : pstep e q w = Some (q', w') -> schedule e ([q'; r], w') s -> schedule e ([q; r], w) s.
Proof. intros H. apply sched_trans. apply (sched_turn zero e _ [q; r] w 0 q q' w'); [constructor|reflexivity|exact H]. Qed.
Lemma second_turn {A} e (q r r' : proc byte A) w w' s : pstep e r w = Some (r', w') -> schedule e ([q; r'], w') s -> schedule e ([q; r], w) s.
Proof. intros H. apply sched_trans. apply (sched_turn zero e _ [q; r] w 1 r r' w'); [constructor|reflexivity|exact H]. Qed.
(** The first process writes some bytes where it is, the file having length [d]. *)
Lemma first_exec {A} e : forall (p : prog byte A) st pos w r, in_step (Proc p pos) st w -> exists pos',
  schedule e ([Proc p pos; r], w) ([Proc (Ret (fst (exec e p w))) pos'; r], snd (exec e p w)).
Proof.
  assert (EX : forall (p : prog byte A) (v : world) p' v', step e p v = Some (p', v') -> exec e p v = exec e p' v').
  { intros p v p' v'. destruct p; cbn [step exec]; intros H; try discriminate H; try (injection H as <- <-; reflexivity).
    - destruct (e_fault e (w_time v)); injection H as <- <-; reflexivity.
    - destruct (e_fault e (w_time v) || negb (w_dir v)); injection H as <- <-; reflexivity.
    - destruct (e_fault e (w_time v)); injection H as <- <-; reflexivity. }
  assert (GO : forall (p : prog byte A) st pos w r, in_step (Proc p pos) st w ->
    (forall p' w', step e p w = Some (p', w') -> forall st' pos', in_step (Proc p' pos') st' w' -> exists pos'', schedule e ([Proc p' pos'; r], w') ([Proc (Ret (fst (exec e p' w'))) pos''; r], snd (exec e p' w'))) ->
    (exists x, p = Ret x) \/ exists pos', schedule e ([Proc p pos; r], w) ([Proc (Ret (fst (exec e p w))) pos'; r], snd (exec e p w))).
  { intros p st pos w r IS IH. pose proof (alone_step e _ st w IS) as AS. cbn [p_rest] in AS. destruct (pstep e (Proc p pos) w) as [(q' & w1)|] eqn:EP; destruct (step e p w) as [(p' & w2)|] eqn:ST; try contradiction.
    - destruct AS as (E1 & <- & st' & IS'). destruct q' as [p1 pos']. cbn [p_rest] in E1. subst p1. destruct (IH p' w1 eq_refl st' pos' IS') as (pos'' & SC). right. exists pos''. rewrite (EX _ _ _ _ ST). eapply first_turn; eauto.
    - left. destruct p; cbn [step] in ST; try discriminate ST; [eauto|..]; repeat match type of ST with context [if ?b then _ else _] => destruct b end; discriminate ST. }
  induction p as [x|f k IH|f k IH|u k IH|k IH|f k IH|f b k IH]; intros st pos w r IS.
  - exists pos. cbn [exec fst snd]. constructor.
  - destruct (GO _ st pos w r IS) as [(x & X)|G]; [|discriminate X|exact G]. cbn [step]. intros p' w' E. injection E as <- <-. intros st' pos' IS'. eapply IH; eauto.
  - destruct (GO _ st pos w r IS) as [(x & X)|G]; [|discriminate X|exact G]. cbn [step]. intros p' w' E. injection E as <- <-. intros st' pos' IS'. eapply IH; eauto.
  - destruct (GO _ st pos w r IS) as [(x & X)|G]; [|discriminate X|exact G]. cbn [step]. intros p' w' E. injection E as <- <-. intros st' pos' IS'. eapply IH; eauto.
  - destruct (GO _ st pos w r IS) as [(x & X)|G]; [|discriminate X|exact G]. cbn [step]. intros p' w' E. destruct (e_fault e (w_time w)); injection E as <- <-; intros st' pos' IS'; eapply IH; eauto.
  - destruct (GO _ st pos w r IS) as [(x & X)|G]; [|discriminate X|exact G]. cbn [step]. intros p' w' E. destruct (e_fault e (w_time w) || negb (w_dir w)); injection E as <- <-; intros st' pos' IS'; eapply IH; eauto.
  - destruct (GO _ st pos w r IS) as [(x & X)|G]; [|discriminate X|exact G]. cbn [step]. intros p' w' E. destruct (e_fault e (w_time w)); injection E as <- <-; intros st' pos' IS'; eapply IH; eauto.
Qed.
Lemma first_write {A} e f (k : prog byte A) r : reliable_disk e -> forall c d w, local w f d ->
  exists w', schedule e ([Proc (write_all f c k) (List.length d); r], w) ([Proc k (List.length d + List.length c); r], w') /\ local w' f (d ++ c) /\ (forall g, g <> f -> w_files w' g = w_files w g) /\ w_dir w' = w_dir w.
Proof.
  intros RD. induction c as [|b c IH]; intros d w L.
  - exists w. cbn [write_all List.length]. rewrite Nat.add_0_r, app_nil_r. split; [constructor|auto].
  - destruct (IH (d ++ [b])%list (tick (set_file f (d ++ [b])%list w))) as (w' & S1 & L1 & O1 & D1); [unfold local; cbn; now rewrite String.eqb_refl|]. exists w'. split; [|split; [|split; [|exact D1]]].
    + cbn [write_all]. eapply first_turn; [unfold DataConcurrent.pstep; cbn [p_rest p_pos]; rewrite RD; unfold local in L; rewrite L, write_end; reflexivity|].
      rewrite app_length in S1. cbn [List.length] in S1. replace (List.length d + 1)%nat with (S (List.length d)) in S1 by lia. replace (List.length d + List.length (b :: c))%nat with (S (List.length d) + List.length c)%nat by (cbn [List.length]; lia). exact S1.
    + rewrite <- app_assoc in L1. exact L1.
    + intros g NG. rewrite O1 by exact NG. cbn. destruct (String.eqb_spec g f); [contradiction|reflexivity].
Qed.
Lemma write_all_app {A} f (k : prog byte A) : forall c d, write_all f (c ++ d) k = write_all f c (write_all f d k).
Proof. induction c as [|b c IH]; intros d; [reflexivity|]. cbn. now rewrite IH. Qed.

Notation M := "MACHINE_Data.mat".
Notation later_files v := (load_files loadmat true true (map (fun f => (f, url_of f)) ["OES_DATA.mat"; "RFM_DATA.mat"]) [(M, v)]).
Lemma rest_ok e content v w : reliable_disk e -> good_server loadmat e content -> absent w "OES_DATA.mat" -> absent w "RFM_DATA.mat" ->
  loadmat (content M) = Ok v -> exists vals w', exec e (later_files v) w = (Ok vals, w') /\ map fst vals = etch_files /\
    (forall f x, In (f, x) vals -> loadmat (content f) = Ok x) /\ w_files w' M = w_files w M.
Proof.
  intros RD (GS & GL) A1 A2 LV. assert (ND : NoDup ["OES_DATA.mat"; "RFM_DATA.mat"]) by (repeat constructor; cbn; intros H; repeat (destruct H as [H|H]; [discriminate H|]); exact H).
  assert (IF : forall f, In f ["OES_DATA.mat"; "RFM_DATA.mat"] -> In f etch_files /\ absent w f) by (intros f [<-|[<-|[]]]; (split; [cbn; tauto|assumption])).
  destruct (exec_files loadmat e true true ["OES_DATA.mat"; "RFM_DATA.mat"] [(M, v)] w ND) as [(vals & w' & E & GF & OT & _)|(x & w' & pre & f & post & E & EN & RE & _)].
  - exists ([(M, v)] ++ vals)%list, w'. split; [exact E|].
    assert (V : map fst vals = ["OES_DATA.mat"; "RFM_DATA.mat"]). { clear - GF. induction GF as [|f fv l l' (H & _) _ IH]; [reflexivity|]. cbn. now rewrite H, IH. }
    split; [cbn; now rewrite V|]. split.
    + intros f x [H|H]; [injection H as <- <-; exact LV|]. assert (KV : forall l, (forall g, In g l -> In g etch_files /\ absent w g) -> Forall2 (got loadmat e true true w w') l vals -> loadmat (content f) = Ok x).
      { clear - H GS. intros l. revert H. revert l. induction vals as [|fv vals IH]; intros l H HL GF; [destruct H|]. inversion GF as [|g ? l' ? (E1 & c & LC & K) G2]; subst. destruct H as [->|H].
        - cbn [fst snd] in *. destruct (HL f (or_introl eq_refl)) as (IE & AB). destruct K as [(L & _)|(_ & _ & (t & SV) & _)]; [unfold local, absent in *; congruence|]. rewrite GS in SV by exact IE. injection SV as <-. exact LC.
        - apply (IH l'); auto. intros g' Hg'. apply HL. now right. }
      exact (KV _ IF GF).
    + apply OT. intros [H|[H|[]]]; discriminate H.
  - exfalso. assert (HF : In f ["OES_DATA.mat"; "RFM_DATA.mat"]) by (rewrite EN; apply in_or_app; right; now left). destruct (IF f HF) as (IE & AB).
    destruct RE as [(c & L & _)|[(_ & D & _)|(_ & _ & [((t & U) & _)|[((t & s & c & U & NS) & _)|[(_ & _ & t & FT)|(c & (t & SV) & LC)]]])]].
    + unfold local, absent in *. congruence.
    + discriminate D.
    + rewrite GS in U by exact IE. discriminate U.
    + rewrite GS in U by exact IE. injection U as <- <-. now apply NS.
    + rewrite RD in FT. discriminate FT.
    + rewrite GS in SV by exact IE. injection SV as <-. destruct (GL f IE) as (y & Y). congruence.
Qed.
(** The first process up to the point where it has opened the file, the second up to the creation of the directory. *)
Ltac turn := unfold DataConcurrent.pstep; cbn [p_rest p_pos step].
Lemma raw_first : raw true true = load_file loadmat true true M (url_of M) (fun v => later_files v).
Proof. reflexivity. Qed.
Lemma opened e content w v (r : proc byte (list (string * value))) pos : reliable_disk e -> good_server loadmat e content -> absent w M -> loadmat (content M) = Ok v ->
  exists w', schedule e ([Proc (raw true true) pos; r], w) ([Proc (write_all M (content M) (later_files v)) 0; r], w') /\ local w' M [] /\ w_dir w' = true /\ forall g, g <> M -> w_files w' g = w_files w g.
Proof.
  intros RD (GS & GL) AB LV. rewrite raw_first. unfold load_file. eexists. split; [|split; [|split]].
  - eapply first_turn; [turn; unfold absent in AB; rewrite AB; reflexivity|]. eapply first_turn; [turn; rewrite GS by (cbn; tauto); reflexivity|]. cbn [Z.eqb Pos.eqb negb]. rewrite LV. unfold save.
    eapply first_turn; [turn; rewrite RD; reflexivity|]. eapply first_turn; [turn; rewrite RD; cbn [orb negb tick make_dir w_dir]; reflexivity|]. constructor.
  - reflexivity.
  - reflexivity.
  - intros g NG. cbn. destruct (String.eqb_spec g "MACHINE_Data.mat"); [contradiction|reflexivity].
Qed.
(** A call alone succeeds... *)
Theorem C81_alone_succeeds e content w0 : reliable_disk e -> good_server loadmat e content -> nothing_yet w0 ->
  exists vals w', exec e (raw true true) w0 = (Ok vals, w') /\ (forall f v, In (f, v) vals -> loadmat (content f) = Ok v) /\ forall f, In f etch_files -> local w' f (content f).
Proof.
  intros RD (GS & GL) NY. destruct (exec e (raw true true) w0) as [[vals|x] w'] eqn:E.
  - exists vals, w'. split; [reflexivity|]. destruct (C45_result loadmat e true true w0 vals w' E) as (MF & KV & _).
    assert (K : forall f v, In (f, v) vals -> loadmat (content f) = Ok v /\ local w' f (content f)).
    { intros f v H. assert (IF : In f etch_files) by (rewrite <- MF; exact (in_map fst _ _ H)). destruct (KV f v H) as (c & LC & [(L & _)|(_ & _ & (t & SV) & LW)]).
      - specialize (NY f IF). unfold local, absent in *. congruence.
      - rewrite GS in SV by exact IF. injection SV as <-. auto. }
    split; [intros f v H; apply (K f v H)|]. intros f IF. rewrite <- MF in IF. apply in_map_iff in IF. destruct IF as ((g & v) & EG & IV). cbn in EG. subst g. apply (K f v IV).
  - exfalso. destruct (C45_errors loadmat e true true w0 x w' E) as (f & IE & RE). specialize (NY f IE).
    destruct RE as [(c & L & _)|[(_ & D & _)|(_ & _ & [((t & U) & _)|[((t & s & c & U & NS) & _)|[(_ & _ & t & FT)|(c & (t & SV) & LC)]]])]].
    + unfold local, absent in *. congruence.
    + discriminate D.
    + rewrite GS in U by exact IE. discriminate U.
    + rewrite GS in U by exact IE. injection U as <- <-. now apply NS.
    + rewrite RD in FT. discriminate FT.
    + rewrite GS in SV by exact IE. injection SV as <-. destruct (GL f IE) as (y & Y). congruence.
Qed.
(** ... but of two calls at the same time the second can find the file half written, and fail. *)
Theorem C81_half_written_refuted e content w0 k x : reliable_disk e -> good_server loadmat e content -> nothing_yet w0 ->
  loadmat (firstn k (content M)) = Err x ->
  exists q0 q1 w, schedule e (calls loadmat [(true, true); (true, true)], w0) ([q0; q1], w) /\ raised q1 x.
Proof.
  intros RD GS NY LX. destruct (proj2 GS M) as (v & LV); [cbn; tauto|]. unfold calls. cbn [map fst snd]. unfold starting.
  destruct (opened e content w0 v (Proc (raw true true) 0) 0 RD GS (NY M ltac:(cbn; tauto)) LV) as (w1 & S1 & L1 & D1 & O1).
  rewrite <- (firstn_skipn k (content M)), write_all_app in S1.
  destruct (first_write e M (write_all M (skipn k (content M)) (later_files v)) (Proc (raw true true) 0) RD (firstn k (content M)) [] w1 L1) as (w2 & S2 & L2 & _). cbn [List.length app] in *.
  eexists _, _, _. split; [eapply sched_trans; [exact S1|]; eapply sched_trans; [exact S2|]|].
  - rewrite raw_first. unfold load_file. unfold local in L2. eapply second_turn; [turn; rewrite L2; reflexivity|]. eapply second_turn; [turn; cbn [tick w_files]; rewrite L2, LX; reflexivity|]. constructor.
  - reflexivity.
Qed.
(** Or the second opens the file while the first is writing, and dies: the first call returns the right
    values, and leaves a file whose first bytes are zero; calls later on load that file. *)
Theorem C81_hole_refuted e content w0 k : reliable_disk e -> good_server loadmat e content -> nothing_yet w0 -> (k < List.length (content M))%nat ->
  exists q0 q1 w vals, schedule e (calls loadmat [(true, true); (true, true)], w0) ([q0; q1], w) /\
    returned q0 vals /\ map fst vals = etch_files /\ (forall f v, In (f, v) vals -> loadmat (content f) = Ok v) /\
    local w M (repeat zero k ++ skipn k (content M)) /\
    forall x e' dl sv w', loadmat (repeat zero k ++ skipn k (content M)) = Err x -> later loadmat w w' -> fst (exec e' (raw dl sv) w') = Err x.
Proof.
  intros RD GS NY LK. destruct (proj2 GS M) as (v & LV); [cbn; tauto|]. pose proof (NY M ltac:(cbn; tauto)) as AB. unfold absent in AB.
  assert (SP : exists b c, skipn k (content M) = b :: c) by (destruct (skipn k (content M)) as [|b c] eqn:E; [apply (f_equal (@List.length _)) in E; rewrite skipn_length in E; cbn in E; lia|eauto]).
  destruct SP as (b & c & SK).
  set (r := Proc (Open M (fun ok => if ok then write_all M (content M) (later_files v) else Ret (Err OSError))) 0 : proc byte (list (string * value))).
  assert (S0 : exists w1, schedule e (calls loadmat [(true, true); (true, true)], w0) ([Proc (raw true true) 0; r], w1) /\ forall g, w_files w1 g = w_files w0 g).
  { eexists. split.
    - unfold calls. cbn [map fst snd]. unfold starting. rewrite raw_first at 2. unfold load_file. eapply second_turn; [turn; rewrite AB; reflexivity|].
      eapply second_turn; [turn; rewrite (proj1 GS) by (cbn; tauto); reflexivity|]. cbn [Z.eqb Pos.eqb negb]. rewrite LV. unfold save. eapply second_turn; [turn; rewrite RD; reflexivity|]. constructor.
    - reflexivity. }
  destruct S0 as (w1 & S0 & F0).
  destruct (opened e content w1 v r 0 RD GS) as (w2 & S1 & L1 & D1 & O1); [unfold absent; now rewrite F0|exact LV|].
  rewrite <- (firstn_skipn k (content M)), write_all_app in S1.
  destruct (first_write e M (write_all M (skipn k (content M)) (later_files v)) r RD (firstn k (content M)) [] w2 L1) as (w3 & S2 & L2 & O2 & D2). cbn [List.length app Nat.add] in *.
  assert (LF : List.length (firstn k (content M)) = k) by (rewrite firstn_length; lia). rewrite LF, SK in S2. rewrite SK in S1.
  (* the second opens; the first writes one byte after a hole *)
  set (w4 := tick (set_file M [] w3)). set (w5 := tick (set_file M (repeat zero k ++ [b])%list w4)).
  set (p := write_all M c (later_files v)).
  assert (S3 : exists r', schedule e ([Proc (write_all M (b :: c) (later_files v)) k; r], w3) ([Proc p (S k); r'], w5)).
  { eexists. unfold r. eapply second_turn; [turn; rewrite RD; cbn [orb]; rewrite D2, D1; cbn [negb]; reflexivity|]. fold w4. cbn [write_all].
    eapply first_turn; [turn; rewrite RD; reflexivity|]. cbn [w_files w4 tick set_file]. rewrite String.eqb_refl. unfold DataConcurrent.write_at. cbn [app List.length skipn]. rewrite Nat.sub_0_r, firstn_all2 by (rewrite repeat_length; lia). fold w4. fold w5. constructor. }
  destruct S3 as (r' & S3).
  assert (L5 : local w5 M (repeat zero k ++ [b])%list) by (unfold local, w5; cbn; reflexivity).
  assert (D5 : w_dir w5 = true) by (cbn; congruence).
  assert (IS : in_step (Proc p (S k)) (Some (M, S k)) w5).
  { split; [apply tidy_write, tidy_files|]. intros f n H. injection H as <- <-. split; [reflexivity|]. eexists. split; [exact L5|]. rewrite app_length, repeat_length. cbn. lia. }
  destruct (first_exec e p _ _ w5 r' IS) as (pos' & S4).
  destruct (exec_write e M (later_files v) c _ w5 L5 D5) as [(c1 & c2 & w' & _ & _ & (t & FT) & _)|(w6 & E6 & W6)]; [rewrite RD in FT; discriminate FT|]. fold p in E6.
  rewrite <- app_assoc in W6. cbn [app] in W6. rewrite <- SK in W6.
  assert (A6 : forall g, g <> M -> w_files w6 g = w_files w0 g).
  { intros g NG. destruct W6 as (F6 & _). rewrite F6. destruct (String.eqb_spec g "MACHINE_Data.mat"); [contradiction|]. cbn. destruct (String.eqb_spec g "MACHINE_Data.mat"); [contradiction|]. rewrite O2, O1 by exact NG. apply F0. }
  destruct (rest_ok e content v w6 RD GS) as (vals & w7 & E7 & MF & KV & M7).
  { unfold absent. rewrite A6 by discriminate. apply NY. cbn; tauto. }
  { unfold absent. rewrite A6 by discriminate. apply NY. cbn; tauto. }
  { exact LV. }
  rewrite E7 in E6. rewrite E6 in S4. cbn [fst snd] in S4. exists (Proc (Ret (Ok vals)) pos'), r', w7, vals.
  assert (L7 : local w7 M (repeat zero k ++ skipn k (content M))%list) by (unfold local; rewrite M7; exact (wrote_local _ _ _ _ W6)).
  split; [eapply sched_trans; [exact S0|]; eapply sched_trans; [exact S1|]; eapply sched_trans; [exact S2|]; eapply sched_trans; [exact S3|]; exact S4|].
  split; [reflexivity|]. split; [exact MF|]. split; [exact KV|]. split; [exact L7|].
  intros x e' dl sv w' LX LT. pose proof (later_keeps loadmat w7 w' LT M _ L7) as L8. unfold local in L8.
  unfold get_semiconductor_etch_raw_data, data_urls. cbn [load_files]. unfold load_file at 1. cbn [exec]. rewrite L8. cbn [exec tick w_files]. rewrite L8, LX. reflexivity.
Qed.
End Proofs.
Print Assumptions C81_alone.
Print Assumptions C81_files_partial.
Print Assumptions C81_results_partial.
Print Assumptions C81_alone_succeeds.
Print Assumptions C81_half_written_refuted.
Print Assumptions C81_hole_refuted.

(** Files that end with the byte 9 and have no zero byte can be loaded, with their length as value. *)
Definition ex_load (c : list nat) : res nat := match existsb (Nat.eqb 0) c, rev c with false, 9%nat :: _ => Ok (List.length c) | _, _ => Err ValueError end.
Definition ex_content (f : string) : list nat := if (f =? "OES_DATA.mat")%string then [7; 7; 9]%nat else [5; 9]%nat.
Definition ex_online : env nat := {| e_net := fun _ u => if (u =? url_of "OES_DATA.mat")%string then Response 200 [7; 7; 9]%nat else Response 200 [5; 9]%nat; e_fault := fun _ => false |}.
Definition ex_empty : world nat := {| w_files := fun _ => None; w_dir := false; w_log := []; w_time := 0 |}.
Example ex_concurrent : reliable_disk ex_online /\ good_server ex_load ex_online ex_content /\ one_version ex_online ex_content /\ nothing_yet ex_empty /\
  ex_load (firstn 1 (ex_content "MACHINE_Data.mat")) = Err ValueError /\ ex_load (repeat 0%nat 1 ++ skipn 1 (ex_content "MACHINE_Data.mat")) = Err ValueError /\
  (1 < List.length (ex_content "MACHINE_Data.mat"))%nat.
Proof.
  split; [intros t; reflexivity|]. split; [split; [intros t f [<-|[<-|[<-|[]]]]; reflexivity|intros f [<-|[<-|[<-|[]]]]; eexists; reflexivity]|].
  split; [intros t f c [<-|[<-|[<-|[]]]] H; injection H as <-; reflexivity|]. split; [intros f _; reflexivity|]. split; [reflexivity|]. split; [reflexivity|]. cbn. lia.
Qed.
(** Damaged copies of these files are refused. *)
Example ex_refuses : forall f b v, damaged 0%nat b (ex_content f) -> ex_load b = Ok v -> b = ex_content f.
Proof.
  intros f b v (L & D) E. unfold ex_content in *.
  assert (Z : forall i x c, nth_error b i = Some x -> c = nth_error (if (f =? "OES_DATA.mat")%string then [7; 7; 9]%nat else [5; 9]%nat) i -> c = Some x).
  { intros i x c H ->. destruct (D i x H) as [->|K]; [|exact K]. unfold ex_load in E. replace (existsb (Nat.eqb 0) b) with true in E; [discriminate E|]. symmetry. apply existsb_exists. exists 0%nat. split; [exact (nth_error_In _ _ H)|reflexivity]. }
  destruct (f =? "OES_DATA.mat")%string; cbn in L.
  - destruct b as [|x [|y [|z [|u b]]]]; cbn in L; try lia; try discriminate E; pose proof (Z 0%nat x _ eq_refl eq_refl) as X; injection X as <-; [discriminate E|..]; pose proof (Z 1%nat y _ eq_refl eq_refl) as Y; injection Y as <-; [discriminate E|].
    pose proof (Z 2%nat z _ eq_refl eq_refl) as W. injection W as <-. reflexivity.
  - destruct b as [|x [|y [|z b]]]; cbn in L; try lia; try discriminate E; pose proof (Z 0%nat x _ eq_refl eq_refl) as X; injection X as <-; [discriminate E|]; pose proof (Z 1%nat y _ eq_refl eq_refl) as Y; injection Y as <-; reflexivity.
Qed.
