(** C62: the bike sharing tables.  Documented: "Each row represents a station, and each column represents an hour;
    the element x_jk is the number of trips that ended in station j during hour k." *)
From Coq Require Import List String Arith ZArith Bool Lia Permutation.
From Verif Require Import Num BikeData.
Import ListNotations.
Local Open Scope string_scope.

(** ** Specification *)
Section Spec.
Context {value : Type}.
(** The file has [v] for column [h] and row [s] of the table [name]. *)
Definition in_file (file : dict (dict (dict value))) (name h s : string) (v : value) : Prop :=
  exists table column, In (name, table) file /\ In (h, column) table /\ In (s, v) column.
(** Column [h] is one of the columns of the table, and [s] is a row of the table. *)
Definition table_column (file : dict (dict (dict value))) (name h : string) : Prop := exists table column, In (name, table) file /\ In (h, column) table.
Definition table_row (file : dict (dict (dict value))) (name s : string) : Prop := exists h v, in_file file name h s v.
(** The data frame has [v] in a column labelled [t] and a row labelled [j]. *)
Definition shows {C R} (d : df value C R) (t : C) (j : R) (v : value) : Prop :=
  exists c r row, nth_error (columns d) c = Some t /\ nth_error (index d) r = Some j /\ nth_error (cells d) r = Some row /\ nth_error row c = Some (Some v).
(** Every row has one cell for each column, and there is one row for each label. *)
Definition rectangular {C R} (d : df value C R) : Prop :=
  List.length (cells d) = List.length (index d) /\ forall row, In row (cells d) -> List.length row = List.length (columns d).
(** What [json.load] guarantees: no key twice in a dictionary. *)
Definition json (file : dict (dict (dict value))) : Prop :=
  NoDup (map fst file) /\ forall name table, In (name, table) file -> NoDup (map fst table) /\ forall h column, In (h, column) table -> NoDup (map fst column).
(** The hours of a table, in the order of the file. *)
Definition hours (file : dict (dict (dict value))) (name : string) (hs : list string) : Prop := exists table, In (name, table) file /\ hs = map fst table.
Definition cities : list string := ["oslo"; "trondheim"; "bergen"].
End Spec.

(** ** Proofs *)
Section Proofs.
Context {value : Type} (int : string -> res Z).
Notation dict := BikeData.dict.

Lemma lookup_In {V} k (v : V) (d : dict V) : lookup k d = Some v -> In (k, v) d.
Proof. induction d as [|(k' & v') d IH]; [discriminate|]. cbn. destruct (String.eqb_spec k k') as [->|N]; [intros H; injection H as ->; now left|intros H; right; auto]. Qed.
Lemma In_lookup {V} k (v : V) (d : dict V) : NoDup (map fst d) -> In (k, v) d -> lookup k d = Some v.
Proof.
  induction d as [|(k' & v') d IH]; [intros _ []|]. cbn. intros ND. inversion ND as [|? ? N1 N2]. subst. intros [H|H].
  - injection H as -> ->. now rewrite String.eqb_refl.
  - destruct (String.eqb_spec k k') as [->|N]; [|auto]. exfalso. apply N1. change k' with (fst (k', v)). now apply in_map.
Qed.
Lemma lookup_map {V W} (f : V -> W) k (d : dict V) : lookup k (map (fun kv => (fst kv, f (snd kv))) d) = option_map f (lookup k d).
Proof. induction d as [|(k' & v') d IH]; [reflexivity|]. cbn. now destruct (k =? k')%string. Qed.
Lemma mapM_all {A B} (f : A -> res B) : forall l l', mapM f l = Ok l' -> List.length l' = List.length l /\ forall i x, nth_error l i = Some x -> exists y, nth_error l' i = Some y /\ f x = Ok y.
Proof.
  induction l as [|a l IH]; intros l' H; [injection H as <-; split; [reflexivity|intros [|i] x K; discriminate]|].
  cbn in H. destruct (f a) as [b|] eqn:E; [|discriminate]. cbn in H. destruct (mapM f l) as [m|]; [|discriminate]. injection H as <-.
  destruct (IH m eq_refl) as (L & K). split; [cbn; now rewrite L|]. intros [|i] x Hx; [injection Hx as <-; exists b; auto|exact (K i x Hx)].
Qed.
Lemma mapM_ok {A B} (f : A -> res B) : forall l, (forall x, In x l -> exists y, f x = Ok y) -> exists l', mapM f l = Ok l'.
Proof.
  induction l as [|a l IH]; intros H; [eexists; reflexivity|]. destruct (H a (or_introl eq_refl)) as (b & E). destruct IH as (m & EM); [intros x Hx; apply H; now right|].
  cbn. rewrite E. cbn. rewrite EM. eexists. reflexivity.
Qed.
Lemma existsb_In k l : existsb (String.eqb k) l = true <-> In k l.
Proof. rewrite existsb_exists. split; [intros (x & H & E); apply String.eqb_eq in E; now subst|intros H; exists k; split; [exact H|apply String.eqb_refl]]. Qed.
Lemma add_new_spec : forall ks seen, NoDup seen -> NoDup (add_new seen ks) /\ forall k, In k (add_new seen ks) <-> In k seen \/ In k ks.
Proof.
  induction ks as [|a ks IH]; intros seen ND; cbn [add_new]; [split; [exact ND|intros k; cbn; tauto]|].
  destruct (existsb (String.eqb a) seen) eqn:E.
  - apply existsb_In in E. destruct (IH seen ND) as (H1 & H2). split; [exact H1|]. intros k. rewrite H2. cbn. intuition (subst; auto).
  - assert (NI : ~ In a seen) by (intros K; apply existsb_In in K; congruence).
    destruct (IH (seen ++ [a])%list) as (H1 & H2). { apply (Permutation_NoDup (Permutation_cons_append seen a)). now constructor. }
    split; [exact H1|]. intros k. rewrite H2, in_app_iff. cbn. tauto.
Qed.
Lemma row_labels_spec (d : dict (dict value)) : NoDup (row_labels d) /\ forall s, In s (row_labels d) <-> exists h column, In (h, column) d /\ In s (map fst column).
Proof.
  unfold row_labels. assert (G : forall (d : dict (dict value)) seen, NoDup seen -> let l := fold_left (fun seen col => add_new seen (map fst (snd col))) d seen in
    NoDup l /\ forall s, In s l <-> In s seen \/ exists h column, In (h, column) d /\ In s (map fst column)).
  { clear d. induction d as [|(h & col) d IH]; intros seen ND; cbn [fold_left snd].
    - split; [exact ND|]. intros s. split; [auto|intros [K|(h & c & [] & _)]; exact K].
    - destruct (add_new_spec (map fst col) seen ND) as (N1 & N2). destruct (IH _ N1) as (M1 & M2). split; [exact M1|]. intros s. rewrite M2, N2. split.
      + intros [[K|K]|(h' & c & K1 & K2)]; [now left|right; exists h, col; split; [now left|exact K]|right; exists h', c; split; [now right|exact K2]].
      + intros [K|(h' & c & [K1|K1] & K2)]; [auto|injection K1 as -> ->; auto|right; eauto]. }
  destruct (G d [] (NoDup_nil _)) as (H1 & H2). split; [exact H1|]. intros s. rewrite H2. split; [intros [[]|K]; exact K|auto].
Qed.
Lemma frame_rect (d : dict (dict value)) : rectangular (data_frame d).
Proof. split; [cbn; apply map_length|]. cbn. intros row H. apply in_map_iff in H as (s & <- & _). now rewrite !map_length. Qed.

(** The cell of row [s] and the [c]-th column. *)
Lemma frame_cell (d : dict (dict value)) r c s col h : nth_error (row_labels d) r = Some s -> nth_error d c = Some (h, col) ->
  exists row, nth_error (cells (data_frame d)) r = Some row /\ nth_error row c = Some (lookup s col).
Proof.
  intros Hr Hc. exists (map (fun col => lookup s (snd col)) d). cbn. split; [now apply (map_nth_error (fun s => map (fun col => lookup s (snd col)) d))|].
  exact (map_nth_error (fun col => lookup s (snd col)) c d Hc).
Qed.

Lemma city_ok datasets time city d : one_city (value:=value) int datasets time city = Ok d ->
  exists (t : df value string string) l, lookup city datasets = Some t /\ List.length time = List.length (columns t) /\ mapM int (index t) = Ok l /\ d = (city, DF time l (cells t)).
Proof.
  unfold one_city, item, set_columns, index_to_int. destruct (lookup city datasets) as [t|]; [|discriminate]. cbn [bind].
  destruct (Nat.eqb_spec (List.length time) (List.length (columns t))) as [E|]; [|discriminate]. cbn [bind index columns cells].
  destruct (mapM int (index t)) as [l|] eqn:EI; [|discriminate]. cbn [bind]. intros H. injection H as <-. exists t, l. auto.
Qed.
(** The pieces of a successful call. *)
Lemma call_ok file out m : get_bike_data (value:=value) int (Ok file) = Ok (out, m) ->
  exists oslo time mt ml, lookup "oslo" file = Some oslo /\ mapM int (map fst oslo) = Ok time /\
  map fst out = cities /\
  (forall city d, In (city, d) out -> exists t l, lookup city file = Some t /\ List.length time = List.length t /\ mapM int (row_labels t) = Ok l /\ d = DF time l (cells (data_frame t))) /\
  lookup "station_metadata" file = Some mt /\ mapM int (row_labels mt) = Ok ml /\ m = DF (map fst mt) ml (cells (data_frame mt)).
Proof.
  unfold get_bike_data. cbn [bind]. set (ds := map _ file). assert (LK : forall k, lookup k ds = option_map data_frame (lookup k file)) by (intros k; apply lookup_map).
  unfold item at 1. rewrite LK. destruct (lookup "oslo" file) as [oslo|]; [|discriminate]. cbn [option_map bind data_frame columns].
  destruct (mapM int (map fst oslo)) as [time|] eqn:ET; [|discriminate]. cbn [bind].
  destruct (mapM (one_city int ds time) _) as [l|] eqn:EC; [|discriminate]. cbn [bind].
  unfold item. rewrite LK. destruct (lookup "station_metadata" file) as [mt|]; [|discriminate]. cbn [option_map bind]. unfold index_to_int. cbn [data_frame index columns].
  destruct (mapM int (row_labels mt)) as [ml|] eqn:EM; [|discriminate]. cbn [bind]. intros H. injection H as <- <-.
  exists oslo, time, mt, ml. split; [reflexivity|]. split; [exact ET|].
  destruct (mapM_all _ _ _ EC) as (LC & KC).
  assert (CT : forall i city, nth_error cities i = Some city -> exists t ll, nth_error l i = Some (city, DF time ll (cells (data_frame t))) /\ lookup city file = Some t /\ List.length time = List.length t /\ mapM int (row_labels t) = Ok ll).
  { intros i city Hi. destruct (KC i city Hi) as (y & Hy & E). apply city_ok in E as (t & ll & E1 & E2 & E3 & ->). rewrite LK in E1. destruct (lookup city file) as [tt|]; [|discriminate]. injection E1 as <-.
    cbn in E2, E3. rewrite map_length in E2. exists tt, ll. auto. }
  split.
  - destruct (CT 0 _ eq_refl) as (t0 & l0 & N0 & _), (CT 1 _ eq_refl) as (t1 & l1 & N1 & _), (CT 2 _ eq_refl) as (t2 & l2 & N2 & _).
    destruct l as [|x0 [|x1 [|x2 [|]]]]; cbn in *; try discriminate. injection N0 as ->. injection N1 as ->. injection N2 as ->. reflexivity.
  - split; [|auto]. intros city d Hin. apply In_nth_error in Hin as (i & Hi). assert (LI : i < List.length cities) by (change (List.length cities) with (List.length ["oslo"; "trondheim"; "bergen"]); rewrite <- LC; apply nth_error_Some; congruence).
    destruct (nth_error cities i) as [c'|] eqn:Ec; [|apply nth_error_None in Ec; lia]. destruct (CT i c' Ec) as (t & ll & N & K1 & K2 & K3). rewrite Hi in N. injection N as -> ->. exists t, ll. auto.
Qed.

(** The cities are the documented ones; every table has one row for each station of its city and one
    cell for each hour; the labels are the hours of the file for Oslo, and entries are those of the
    file if the city's hours are the same as Oslo's.  Missing: the last condition, see below. *)
Theorem C62_bike_tables_partial file out m : json file -> get_bike_data (value:=value) int (Ok file) = Ok (out, m) ->
  map fst out = cities /\
  forall city d, In (city, d) out ->
    rectangular d /\
    (exists hs, hours file "oslo" hs /\ Forall2 (fun h t => int h = Ok t) hs (columns d)) /\
    (forall j, In j (index d) <-> exists s, table_row file city s /\ int s = Ok j) /\
    ((exists hs, hours file "oslo" hs /\ hours file city hs) ->
     (forall h s v, in_file file city h s v -> exists t j, int h = Ok t /\ int s = Ok j /\ shows d t j v) /\
     (forall t j v, shows d t j v -> exists h s, int h = Ok t /\ int s = Ok j /\ in_file file city h s v)).
Proof.
  intros (J1 & J2) H. destruct (call_ok _ _ _ H) as (oslo & time & mt & ml & LO & ET & CO & CT & _). split; [exact CO|]. intros city d Hin.
  destruct (CT city d Hin) as (t & l & LT & LEN & EL & ->). destruct (mapM_all _ _ _ EL) as (LL & KL), (mapM_all _ _ _ ET) as (LTM & KT).
  destruct (row_labels_spec t) as (RN & RI). apply lookup_In in LO, LT. destruct (J2 _ _ LT) as (T1 & T2). cbn [columns index cells].
  split; [|split; [|split]].
  - split; [cbn; rewrite map_length; now rewrite LL|]. cbn. intros row Hr. apply in_map_iff in Hr as (s & <- & _). now rewrite map_length.
  - exists (map fst oslo). split; [exists oslo; auto|]. clear -ET. revert time ET. induction (map fst oslo) as [|h hs IH]; intros time ET; [injection ET as <-; constructor|].
    cbn in ET. destruct (int h) as [x|] eqn:E; [|discriminate]. cbn in ET. destruct (mapM int hs) as [xs|]; [|discriminate]. injection ET as <-. constructor; [exact E|now apply IH].
  - intros j. assert (TR : forall s, In s (row_labels t) <-> table_row file city s).
    { intros s. rewrite RI. split.
      - intros (h & col & K1 & K2). apply in_map_iff in K2 as ((s' & v) & <- & K2). exists h, v, t, col. auto.
      - intros (h & v & t' & col & K1 & K2 & K3). assert (t' = t) by (apply (In_lookup _ _ _ J1) in K1, LT; congruence). subst t'. exists h, col. split; [exact K2|]. change s with (fst (s, v)). now apply in_map. }
    split.
    + intros K. apply In_nth_error in K as (i & Hi). assert (LI : i < List.length (row_labels t)) by (rewrite <- LL; apply nth_error_Some; congruence).
      destruct (nth_error (row_labels t) i) as [s|] eqn:Es; [|apply nth_error_None in Es; lia]. destruct (KL i s Es) as (y & K1 & K2). exists s. split; [apply TR; eapply nth_error_In; exact Es|congruence].
    + intros (s & K1 & K2). apply TR in K1. apply In_nth_error in K1 as (i & Hi). destruct (KL i s Hi) as (y & K3 & K4). rewrite K2 in K4. injection K4 as <-. eapply nth_error_In; exact K3.
  - intros (hs & (o' & HO & ->) & (t' & HT & HS)). assert (o' = oslo) by (apply (In_lookup _ _ _ J1) in HO, LO; congruence). assert (t' = t) by (apply (In_lookup _ _ _ J1) in HT, LT; congruence). subst o' t'.
    rewrite HS in KT. split.
    + intros h s v (t' & col & K1 & K2 & K3). assert (t' = t) by (apply (In_lookup _ _ _ J1) in K1, LT; congruence). subst t'.
      destruct (In_nth_error _ _ K2) as (c & Hc). destruct (KT c h (map_nth_error fst _ _ Hc)) as (th & E1 & E2).
      assert (IS : In s (row_labels t)) by (apply RI; exists h, col; split; [exact K2|]; change s with (fst (s, v)); now apply in_map).
      destruct (In_nth_error _ _ IS) as (r & Hr). destruct (KL r s Hr) as (j & E3 & E4). destruct (frame_cell t r c s col h Hr Hc) as (row & E5 & E6).
      exists th, j. split; [exact E2|]. split; [exact E4|]. exists c, r, row. cbn [columns index cells]. rewrite (In_lookup s v col (T2 _ _ K2) K3) in E6. auto.
    + intros th j v (c & r & row & K1 & K2 & K3 & K4). cbn [columns index cells] in *.
      assert (LC : c < List.length t) by (rewrite <- LEN; apply nth_error_Some; congruence). assert (LR : r < List.length (row_labels t)) by (rewrite <- LL; apply nth_error_Some; congruence).
      destruct (nth_error t c) as [(h & col)|] eqn:Ec; [|apply nth_error_None in Ec; lia]. destruct (nth_error (row_labels t) r) as [s|] eqn:Er; [|apply nth_error_None in Er; lia].
      destruct (frame_cell t r c s col h Er Ec) as (row' & E5 & E6). rewrite K3 in E5. injection E5 as <-. rewrite K4 in E6. injection E6 as E6. symmetry in E6. apply lookup_In in E6.
      destruct (KT c h (map_nth_error fst _ _ Ec)) as (y & E7 & E8). rewrite K1 in E7. injection E7 as <-. destruct (KL r s Er) as (z & E9 & E10). rewrite K2 in E9. injection E9 as <-.
      exists h, s. split; [exact E8|]. split; [exact E10|]. exists t, col. split; [exact LT|]. split; [eapply nth_error_In; exact Ec|exact E6].
Qed.

(** The metadata is that of the file. *)
Theorem C62_metadata file out m : json file -> get_bike_data (value:=value) int (Ok file) = Ok (out, m) ->
  hours file "station_metadata" (columns m) /\ rectangular m /\
  (forall h s v, in_file file "station_metadata" h s v -> exists j, int s = Ok j /\ shows m h j v) /\
  (forall h j v, shows m h j v -> exists s, int s = Ok j /\ in_file file "station_metadata" h s v).
Proof.
  intros (J1 & J2) H. destruct (call_ok _ _ _ H) as (_ & _ & t & l & _ & _ & _ & _ & LT & EL & ->). destruct (mapM_all _ _ _ EL) as (LL & KL).
  destruct (row_labels_spec t) as (RN & RI). apply lookup_In in LT. destruct (J2 _ _ LT) as (T1 & T2). cbn [columns index cells].
  split; [exists t; auto|]. split; [|split].
  - split; [cbn; rewrite map_length; now rewrite LL|]. cbn. intros row Hr. apply in_map_iff in Hr as (s & <- & _). now rewrite !map_length.
  - intros h s v (t' & col & K1 & K2 & K3). assert (t' = t) by (apply (In_lookup _ _ _ J1) in K1, LT; congruence). subst t'.
    destruct (In_nth_error _ _ K2) as (c & Hc).
    assert (IS : In s (row_labels t)) by (apply RI; exists h, col; split; [exact K2|]; change s with (fst (s, v)); now apply in_map).
    destruct (In_nth_error _ _ IS) as (r & Hr). destruct (KL r s Hr) as (j & E3 & E4). destruct (frame_cell t r c s col h Hr Hc) as (row & E5 & E6).
    exists j. split; [exact E4|]. exists c, r, row. cbn [columns index cells]. rewrite (In_lookup s v col (T2 _ _ K2) K3) in E6. split; [exact (map_nth_error fst _ _ Hc)|auto].
  - intros h j v (c & r & row & K1 & K2 & K3 & K4). cbn [columns index cells] in *.
    assert (LC : c < List.length t) by (rewrite <- (map_length fst t); apply nth_error_Some; congruence). assert (LR : r < List.length (row_labels t)) by (rewrite <- LL; apply nth_error_Some; congruence).
    destruct (nth_error t c) as [(h' & col)|] eqn:Ec; [|apply nth_error_None in Ec; lia]. destruct (nth_error (row_labels t) r) as [s|] eqn:Er; [|apply nth_error_None in Er; lia].
    destruct (frame_cell t r c s col h' Er Ec) as (row' & E5 & E6). rewrite K3 in E5. injection E5 as <-. rewrite K4 in E6. injection E6 as E6. symmetry in E6. apply lookup_In in E6.
    rewrite (map_nth_error fst _ _ Ec) in K1. injection K1 as <-. destruct (KL r s Er) as (z & E9 & E10). rewrite K2 in E9. injection E9 as <-.
    exists s. split; [exact E10|]. exists t, col. split; [exact LT|]. split; [eapply nth_error_In; exact Ec|exact E6].
Qed.

(** When the call returns. *)
Theorem C62_succeeds file : json file ->
  (exists r, get_bike_data (value:=value) int (Ok file) = Ok r) <->
  (exists hs, hours file "oslo" hs /\ (forall h, In h hs -> exists t, int h = Ok t) /\
     forall city, In city cities -> (exists hs', hours file city hs' /\ List.length hs' = List.length hs)) /\
  (exists hs, hours file "station_metadata" hs) /\
  forall name s, In name ("station_metadata" :: cities) -> table_row file name s -> exists j, int s = Ok j.
Proof.
  intros (J1 & J2).
  assert (ROW : forall name t s, In (name, t) file -> table_row file name s <-> In s (row_labels t)).
  { intros name t s HT. rewrite (proj2 (row_labels_spec t)). split.
    - intros (h & v & t' & col & K1 & K2 & K3). assert (t' = t) by (apply (In_lookup _ _ _ J1) in K1, HT; congruence). subst t'. exists h, col. split; [exact K2|]. change s with (fst (s, v)). now apply in_map.
    - intros (h & col & K1 & K2). apply in_map_iff in K2 as ((s' & v) & <- & K2). exists h, v, t, col. auto. }
  assert (MI : forall (A : Type) (f : A -> res Z) l l', mapM f l = Ok l' -> forall x, In x l -> exists y, f x = Ok y).
  { intros A f l l' E x Hx. destruct (mapM_all _ _ _ E) as (_ & K). apply In_nth_error in Hx as (i & Hi). destruct (K i x Hi) as (y & _ & Ey). eauto. }
  split.
  - intros ((out & m) & H). destruct (call_ok _ _ _ H) as (oslo & time & mt & ml & LO & ET & CO & CT & LM & EM & _).
    assert (CC : forall city, In city cities -> exists t l, lookup city file = Some t /\ List.length time = List.length t /\ mapM int (row_labels t) = Ok l).
    { intros city Hc. rewrite <- CO in Hc. apply in_map_iff in Hc as ((c & d) & <- & Hd). destruct (CT c d Hd) as (t & l & E1 & E2 & E3 & _). exists t, l. auto. }
    split; [|split].
    + exists (map fst oslo). split; [exists oslo; split; [now apply lookup_In|reflexivity]|]. split; [intros h Hh; exact (MI _ _ _ _ ET h Hh)|].
      intros city Hc. destruct (CC city Hc) as (t & l & E1 & E2 & E3). exists (map fst t). split; [exists t; split; [now apply lookup_In|reflexivity]|].
      destruct (mapM_all _ _ _ ET) as (LL & _). rewrite !map_length in *. congruence.
    + exists (map fst mt), mt. split; [now apply lookup_In|reflexivity].
    + intros name s [<-|Hn] Hs.
      * apply (ROW _ mt) in Hs; [|now apply lookup_In]. exact (MI _ _ _ _ EM s Hs).
      * destruct (CC name Hn) as (t & l & E1 & E2 & E3). apply (ROW _ t) in Hs; [|now apply lookup_In]. exact (MI _ _ _ _ E3 s Hs).
  - intros ((hs & (oslo & HO & ->) & HI & HC) & (hm & mt & HM & ->) & HR). unfold get_bike_data. cbn [bind]. set (ds := map _ file).
    assert (LK : forall k, lookup k ds = option_map data_frame (lookup k file)) by (intros k; apply lookup_map).
    unfold item at 1. rewrite LK, (In_lookup _ _ _ J1 HO). cbn [option_map bind data_frame columns].
    destruct (mapM_ok int (map fst oslo) HI) as (time & ET). rewrite ET. cbn [bind]. destruct (mapM_all _ _ _ ET) as (LL & _).
    destruct (mapM_ok (one_city int ds time) cities) as (out & EO).
    { intros city Hc. destruct (HC city Hc) as (hs' & (t & HT & ->) & HL). unfold one_city, item. rewrite LK, (In_lookup _ _ _ J1 HT). cbn [option_map bind]. unfold set_columns. cbn [data_frame columns index cells].
      rewrite LL, HL, Nat.eqb_refl. cbn [bind]. unfold index_to_int. cbn [index columns cells].
      destruct (mapM_ok int (row_labels t)) as (l & EL). { intros s Hs. apply (HR city); [now right|]. now apply (ROW _ t). }
      rewrite EL. cbn [bind]. eexists. reflexivity. }
    change ["oslo"; "trondheim"; "bergen"] with cities. rewrite EO. cbn [bind]. unfold item. rewrite LK, (In_lookup _ _ _ J1 HM). cbn [option_map bind]. unfold index_to_int. cbn [data_frame index columns cells].
    destruct (mapM_ok int (row_labels mt)) as (l & EL). { intros s Hs. apply (HR "station_metadata"); [now left|]. now apply (ROW _ mt). }
    rewrite EL. cbn [bind]. eexists. reflexivity.
Qed.

(** If all labels are numbers, a call fails with KeyError because a table is missing, or with ValueError because
    a city has more or fewer hours than Oslo. *)
Lemma mapM_err {A B} (f : A -> res B) : forall l e, mapM f l = Err e -> exists x, In x l /\ f x = Err e.
Proof.
  induction l as [|a l IH]; intros e H; [discriminate|]. cbn in H. destruct (f a) as [b|e'] eqn:E.
  - cbn in H. destruct (mapM f l) as [m|e'']; [discriminate|]. injection H as <-. destruct (IH _ eq_refl) as (x & H1 & H2). exists x. split; [now right|exact H2].
  - injection H as <-. exists a. split; [now left|exact E].
Qed.
Theorem C62_failures file e : json file ->
  (forall h, table_column file "oslo" h -> exists t, int h = Ok t) ->
  (forall name s, In name ("station_metadata" :: cities) -> table_row file name s -> exists j, int s = Ok j) ->
  get_bike_data (value:=value) int (Ok file) = Err e ->
  (e = KeyError /\ exists name, In name ("station_metadata" :: cities) /\ ~ exists hs, hours file name hs) \/
  (e = ValueError /\ exists city hs hs', In city cities /\ hours file "oslo" hs /\ hours file city hs' /\ List.length hs' <> List.length hs).
Proof.
  intros (J1 & J2) HH HR H.
  assert (MISS : forall name, lookup name file = None -> ~ exists hs, hours file name hs).
  { intros name E (hs & t & K & _). apply (In_lookup _ _ _ J1) in K. congruence. }
  assert (RL : forall name t e', In name ("station_metadata" :: cities) -> lookup name file = Some t -> mapM int (row_labels t) = Err e' -> False).
  { intros name t e' Hn HT K. apply mapM_err in K as (s & K1 & K2). apply lookup_In in HT. apply (proj2 (row_labels_spec t)) in K1 as (h & col & K3 & K4). apply in_map_iff in K4 as ((s' & v) & <- & K4).
    destruct (HR name s' Hn) as (j & E); [exists h, v, t, col; auto|]. cbn in K2. congruence. }
  revert H. unfold get_bike_data. cbn [bind]. set (ds := map _ file). assert (LK : forall k, lookup k ds = option_map data_frame (lookup k file)) by (intros k; apply lookup_map).
  unfold item at 1. rewrite LK. destruct (lookup "oslo" file) as [oslo|] eqn:LO; [|intros H; injection H as <-; left; split; [reflexivity|]; exists "oslo"; split; [right; now left|exact (MISS _ LO)]].
  cbn [option_map bind data_frame columns]. destruct (mapM int (map fst oslo)) as [time|e'] eqn:ET.
  2:{ intros _. exfalso. apply mapM_err in ET as (h & K1 & K2). apply in_map_iff in K1 as ((h' & col) & <- & K1). apply lookup_In in LO. destruct (HH h') as (z & E); [exists oslo, col; auto|]. cbn in K2. congruence. }
  cbn [bind]. destruct (mapM_all _ _ _ ET) as (LT & _). destruct (mapM (one_city int ds time) _) as [l|e'] eqn:EC; cbn [bind].
  - unfold item. rewrite LK. destruct (lookup "station_metadata" file) as [mt|] eqn:LM; [|intros H; injection H as <-; left; split; [reflexivity|]; eexists; split; [now left|exact (MISS _ LM)]].
    cbn [option_map bind]. unfold index_to_int. cbn [data_frame index columns]. destruct (mapM int (row_labels mt)) as [ml|e'] eqn:EM; [discriminate|]. intros _. exfalso. apply (RL _ _ _ (or_introl eq_refl) LM EM).
  - intros H. injection H as <-. apply mapM_err in EC as (city & Hc & E). unfold one_city, item in E. rewrite LK in E. destruct (lookup city file) as [t|] eqn:LC.
    + cbn [option_map bind] in E. unfold set_columns in E. cbn [data_frame columns index cells] in E. destruct (Nat.eqb_spec (List.length time) (List.length (map fst t))) as [EQ|NE].
      * cbn [bind] in E. unfold index_to_int in E. cbn [index columns cells] in E. destruct (mapM int (row_labels t)) as [ll|e''] eqn:EL; [discriminate|]. exfalso. apply (RL city _ _ (or_intror Hc) LC EL).
      * injection E as <-. right. split; [reflexivity|]. exists city, (map fst oslo), (map fst t). split; [exact Hc|]. apply lookup_In in LO, LC. split; [exists oslo; auto|]. split; [exists t; auto|]. rewrite LT in NE. congruence.
    + injection E as <-. left. split; [reflexivity|]. exists city. split; [now right|exact (MISS _ LC)].
Qed.
End Proofs.
Print Assumptions C62_failures.
Print Assumptions C62_bike_tables_partial.
Print Assumptions C62_metadata.
Print Assumptions C62_succeeds.

(** Stations and hours of a small file, digits only. *)
Definition digit (s : string) : res Z := if (s =? "1")%string then Ok 1%Z else if (s =? "2")%string then Ok 2%Z else if (s =? "3")%string then Ok 3%Z else Err ValueError.
Definition small_file (bergen_first : string) : dict (dict (dict Z)) :=
  [("oslo", [("1", [("1", 10%Z); ("2", 20%Z)]); ("2", [("3", 30%Z)])]);
   ("bergen", [(bergen_first, [("2", 40%Z)]); ("2", [("1", 50%Z)])]);
   ("trondheim", [("1", [("2", 60%Z)]); ("2", [("2", 70%Z)])]);
   ("station_metadata", [("name", [("1", 100%Z); ("2", 200%Z)])])].
Lemma small_json b : b <> "2" -> json (small_file b).
Proof.
  intros Hb. split; [repeat constructor; cbn; intuition discriminate|]. intros name t [H|[H|[H|[H|[]]]]]; injection H as <- <-;
    (split; [repeat constructor; cbn; intuition congruence|]); intros h col K; cbn in K;
    repeat match type of K with _ \/ _ => destruct K as [K|K] | False => destruct K end; injection K as <- <-; repeat constructor; cbn; intuition discriminate.
Qed.
(** Bergen's file starts with hour 3: its trips are shown as trips of hour 1, the first hour of Oslo. *)
Theorem C62_other_hours_refuted : exists (file : dict (dict (dict Z))) out m d, json file /\ get_bike_data digit (Ok file) = Ok (out, m) /\ In ("bergen", d) out /\
  in_file file "bergen" "3" "2" 40%Z /\ (forall s v, ~ in_file file "bergen" "1" s v) /\ shows d 1%Z 2%Z 40%Z /\ (forall j v, ~ shows d 3%Z j v).
Proof.
  exists (small_file "3"). eexists. eexists. eexists. split; [now apply small_json|]. split; [vm_compute; reflexivity|]. split; [right; right; left; reflexivity|]. split; [|split; [|split]].
  - exists [("3", [("2", 40%Z)]); ("2", [("1", 50%Z)])], [("2", 40%Z)]. cbn. tauto.
  - intros s v (t & col & [K|[K|[K|[K|[]]]]] & K2 & K3); try discriminate. injection K as <-. cbn in K2. destruct K2 as [K2|[K2|[]]]; discriminate.
  - exists 0, 0, [Some 40%Z; None]. repeat split; reflexivity.
  - intros j v (c & r & row & K & _). cbn in K. destruct c as [|[|c]]; try discriminate. destruct c; discriminate.
Qed.
Print Assumptions C62_other_hours_refuted.

Example C62_case : exists out m d, json (small_file "1") /\ get_bike_data digit (Ok (small_file "1")) = Ok (out, m) /\ In ("bergen", d) out /\
  (exists hs, hours (small_file "1") "oslo" hs /\ hours (small_file "1") "bergen" hs) /\ shows d 2%Z 1%Z 50%Z /\ shows m "name" 2%Z 200%Z.
Proof.
  eexists. eexists. eexists. split; [now apply small_json|]. split; [vm_compute; reflexivity|]. split; [right; right; left; reflexivity|]. split; [|split].
  - exists ["1"; "2"]. split; eexists; (split; [|]); [left; reflexivity|reflexivity|right; left; reflexivity|reflexivity].
  - exists 1, 1, [None; Some 50%Z]. repeat split; reflexivity.
  - exists 0, 1, [Some 200%Z]. repeat split; reflexivity.
Qed.
