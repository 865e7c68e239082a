(** Properties of the etch machine data: C56. *)
From Coq Require Import List String Ascii Arith ZArith Bool Lia.
From Verif Require Import Num DataCache CacheSpec P15_Cache EtchMachine EtchSpec.
Import ListNotations.
Local Open Scope string_scope.

(** The model's string functions are those of the specification. *)
Lemma take_substring : forall n s, take n s = String.substring 0 n s.
Proof. induction n as [|n IH]; intros [|a s]; cbn; try reflexivity. now rewrite IH. Qed.
Lemma substring_all : forall s n, (String.length s <= n)%nat -> String.substring 0 n s = s.
Proof. induction s as [|a s IH]; intros [|n] H; cbn in *; try reflexivity; try lia. rewrite IH by lia. reflexivity. Qed.
Lemma drop_substring : forall n s, drop n s = String.substring n (String.length s - n) s.
Proof.
  induction n as [|n IH]; intros s.
  - rewrite Nat.sub_0_r, substring_all by lia. destruct s; reflexivity.
  - destruct s as [|a s]; [reflexivity|]. cbn. apply IH.
Qed.
Lemma prefix_dot a s : String.prefix "." (String a s) = Ascii.eqb a "."%char.
Proof.
  destruct (Ascii.eqb_spec a "."%char) as [->|N]; [now destruct s|]. unfold String.prefix. destruct (Ascii.ascii_dec "."%char a) as [E|]; [congruence|reflexivity].
Qed.
Lemma before_dot_index : forall s, before_dot s = match String.index 0 "." s with Some n => String.substring 0 n s | None => s end.
Proof.
  induction s as [|a s IH]; [reflexivity|]. cbn [before_dot]. change (String.index 0 "." (String a s)) with (if String.prefix "." (String a s) then Some 0%nat else match String.index 0 "." s with Some n => Some (S n) | None => None end).
  rewrite prefix_dot. destruct (Ascii.eqb a "."%char) eqn:E; [reflexivity|]. rewrite IH. destruct (String.index 0 "." s); reflexivity.
Qed.
Lemma drop_one_substring : forall n s, drop 1 (String.substring 0 n s) = String.substring 1 (n - 1) s.
Proof. intros [|n] [|a s]; cbn; try reflexivity; rewrite ?Nat.sub_0_r; [|reflexivity]. destruct s; reflexivity. Qed.
Lemma sample_name_id file : sample_name file = sample_id file.
Proof.
  unfold sample_name, sample_id. rewrite before_dot_index. destruct (String.index 0 "." file) as [n|]; [apply drop_one_substring|apply drop_substring].
Qed.
Lemma take_two s : take 2 s = first_two s.
Proof. apply take_substring. Qed.
Lemma drop_two s : drop 2 s = from_third s.
Proof. apply drop_substring. Qed.
Lemma removelast_In {T} (l : list T) x : In x (removelast l) -> In x l.
Proof. induction l as [|a l IH]; [auto|]. cbn. destruct l; [intros []|]. intros [->|H]; [now left|right; now apply IH]. Qed.
Lemma metadata_columns {T} (rows : list (list T)) : (forall row, In row rows -> 2 <= List.length row)%nat ->
  forall row, In row (map (firstn 2) (removelast rows)) -> List.length row = 2%nat.
Proof. intros H row Hr. apply in_map_iff in Hr as (r & <- & Hr). apply removelast_In in Hr. specialize (H r Hr). rewrite firstn_length. lia. Qed.

Section Proofs.
Context {entry : Type} (int : string -> res Z).
Notation table := (table entry). Notation frame := (frame entry). Notation meta := (meta entry).

Lemma dict_set_new {V} k (v : V) : forall d, ~ In k (map fst d) -> dict_set k v d = (d ++ [(k, v)])%list.
Proof.
  induction d as [|(k' & v') d IH]; intros N; [reflexivity|]. cbn [dict_set]. destruct (String.eqb_spec k k') as [->|NE]; [exfalso; apply N; now left|].
  cbn [app]. rewrite IH; [reflexivity|]. intros X. apply N. now right.
Qed.
Lemma measurements_spec vars (X : table) F : measurements vars X = Ok F -> F = {| f_columns := vars; f_rows := map (skipn 2) (removelast (t_rows X)) |}.
Proof. unfold measurements. destruct (_ =? _)%nat; [|discriminate]. intros H. now injection H as <-. Qed.
Lemma build_data_spec vars : forall names (Xs : list table) d data, build_data vars names Xs d = Ok data -> NoDup (map fst d ++ names) ->
  exists new, data = (d ++ new)%list /\ List.length new = Nat.min (List.length names) (List.length Xs) /\
  forall i name X, nth_error names i = Some name -> nth_error Xs i = Some X -> nth_error new i = Some (name, {| f_columns := vars; f_rows := map (skipn 2) (removelast (t_rows X)) |}).
Proof.
  induction names as [|name names IH]; intros Xs d data H ND.
  - cbn in H. injection H as <-. exists []. rewrite app_nil_r. split; [reflexivity|]. split; [reflexivity|]. intros [|i] ? ? K; discriminate K.
  - destruct Xs as [|X Xs]; [cbn in H; injection H as <-; exists []; rewrite app_nil_r; split; [reflexivity|]; split; [reflexivity|]; intros [|i] ? ? _ K; discriminate K|].
    cbn [build_data] in H. destruct (measurements vars X) as [F|] eqn:M; [|discriminate H]. cbn [bind] in H. apply measurements_spec in M. subst F.
    assert (NI : ~ In name (map fst d)) by (apply NoDup_remove_2 in ND; intros K; apply ND, in_or_app; now left).
    rewrite dict_set_new in H by exact NI. destruct (IH _ _ _ H) as (new & E & L & K).
    { rewrite map_app, <- app_assoc. exact ND. }
    exists ((name, {| f_columns := vars; f_rows := map (skipn 2) (removelast (t_rows X)) |}) :: new). rewrite E, <- app_assoc. split; [reflexivity|]. split; [cbn; now rewrite L|].
    intros [|i] nm Y Hn HY; cbn [nth_error] in *; [injection Hn as <-; injection HY as <-; reflexivity|]. now apply K.
Qed.
Lemma build_data_short vars : forall names names' (Xs : list table) d, firstn (List.length Xs) names = firstn (List.length Xs) names' -> build_data vars names Xs d = build_data vars names' Xs d.
Proof.
  induction names as [|a names IH]; intros [|b names'] [|X Xs] d H; cbn in H; try reflexivity; try discriminate H.
  injection H as -> H. cbn [build_data]. destruct (measurements vars X); [|reflexivity]. cbn [bind]. now apply IH.
Qed.
Lemma build_meta_spec (Xs : list table) faults : forall names i d md, build_meta int Xs faults i names d = Ok md -> NoDup (map fst d ++ names) ->
  exists new, md = (d ++ new)%list /\ List.length new = List.length names /\
  forall j name, nth_error names j = Some name -> exists m, nth_error new j = Some (name, m) /\ metadata int Xs faults (i + j) name = Ok m.
Proof.
  induction names as [|name names IH]; intros i d md H ND.
  - cbn in H. injection H as <-. exists []. rewrite app_nil_r. split; [reflexivity|]. split; [reflexivity|]. intros [|j] ? K; discriminate K.
  - cbn [build_meta] in H. destruct (metadata int Xs faults i name) as [m|] eqn:M; [|discriminate H]. cbn [bind] in H.
    assert (NI : ~ In name (map fst d)) by (apply NoDup_remove_2 in ND; intros K; apply ND, in_or_app; now left).
    rewrite dict_set_new in H by exact NI. destruct (IH _ _ _ H) as (new & E & L & K).
    { rewrite map_app, <- app_assoc. exact ND. }
    exists ((name, m) :: new). rewrite E, <- app_assoc. split; [reflexivity|]. split; [cbn; now rewrite L|].
    intros [|j] nm Hn; cbn [nth_error] in *; [injection Hn as <-; exists m; rewrite Nat.add_0_r; auto|]. rewrite Nat.add_succ_r. now apply (K j).
Qed.
Lemma glued_split (rows : list (list entry)) : glued (map (firstn 2) rows) (map (skipn 2) rows) = rows.
Proof. unfold glued. induction rows as [|r rows IH]; [reflexivity|]. cbn [map combine]. rewrite IH. cbn [fst snd]. now rewrite firstn_skipn. Qed.
Lemma nth_error_fst {V} (l : list (string * V)) i : nth_error (map fst l) i = option_map fst (nth_error l i).
Proof. revert i. induction l as [|x l IH]; intros [|i]; cbn; auto. Qed.
Lemma prepare_aligned vars names (Xs : list table) faults data md : prepare int vars names Xs faults = Ok (data, md) -> distinct (firstn (List.length Xs) names) ->
  aligned int vars names Xs faults data md.
Proof.
  unfold prepare, distinct. intros H ND. rewrite <- (map_ext _ _ sample_name_id) in ND. rewrite (build_data_short vars _ (map sample_name (firstn (List.length Xs) names))) in H.
  2: { rewrite <- firstn_map, firstn_firstn, Nat.min_id. reflexivity. }
  destruct (build_data vars (map sample_name (firstn (List.length Xs) names)) Xs []) as [dt|] eqn:E1; [|discriminate H]. cbn [bind] in H.
  destruct (build_meta int Xs faults 0 (map fst dt) []) as [mm|] eqn:E2; [|discriminate H]. cbn [bind] in H. injection H as <- <-.
  destruct (build_data_spec _ _ _ _ _ E1) as (new & E & L & K); [exact ND|]. cbn [app] in E. subst new. rewrite map_length, firstn_length in L.
  assert (EF : map fst dt = map sample_name (firstn (List.length Xs) names)).
  {
    assert (G : forall (a b : list string), List.length a = List.length b -> (forall i, (i < List.length b)%nat -> nth_error a i = nth_error b i) -> a = b).
    { induction a as [|x a IH]; intros [|y b] HL HE; cbn in HL; try lia; [reflexivity|]. pose proof (HE 0%nat ltac:(cbn; lia)) as H0. cbn in H0. injection H0 as ->. f_equal. apply IH; [lia|]. intros i Hi. apply (HE (S i)). cbn. lia. }
    apply G; [rewrite !map_length, firstn_length; lia|]. intros i Hi. rewrite map_length, firstn_length in Hi. rewrite nth_error_fst.
    destruct (nth_error Xs i) as [X|] eqn:EX; [|apply nth_error_None in EX; lia]. destruct (nth_error (map sample_name (firstn (List.length Xs) names)) i) as [nm|] eqn:EN.
    - now rewrite (K i nm X EN EX).
    - apply nth_error_None in EN. rewrite map_length, firstn_length in EN. lia. }
  destruct (build_meta_spec _ _ _ _ _ _ E2) as (new & E & L2 & K2); [cbn [map app]; rewrite EF; exact ND|]. cbn [app] in E. subst new. rewrite map_length in L2.
  split; [lia|]. split; [exact L2|]. intros i name X Hn HX.
  assert (HN : nth_error (map sample_name (firstn (List.length Xs) names)) i = Some (sample_name name)).
  { apply map_nth_error. assert (Hi : (i < List.length Xs)%nat) by (apply nth_error_Some; congruence). clear - Hn Hi. revert names Hn Hi. generalize (List.length Xs). intros n. revert i.
    induction n as [|n IH]; intros i names Hn Hi; [lia|]. destruct i as [|i], names as [|a names]; cbn in *; try discriminate; auto. apply IH; [exact Hn|lia]. }
  pose proof (K i _ _ HN HX) as KD. destruct (K2 i (sample_name name)) as (m & KM & EM); [rewrite EF; exact HN|]. cbn [Nat.add] in EM.
  unfold metadata in EM. rewrite HX in EM. destruct (t_cols X <? 2)%nat; [discriminate EM|]. destruct (int (take 2 (sample_name name))) as [ex|] eqn:I1; [|discriminate EM]. cbn [bind] in EM.
  destruct (int (drop 2 (sample_name name))) as [sm|] eqn:I2; [|discriminate EM]. cbn [bind] in EM.
  unfold describes. rewrite <- sample_name_id, <- take_two, <- drop_two. eexists _, m, (m_fault m). split; [exact KD|]. split; [exact KM|]. destruct faults as [fs|].
  - destruct (nth_error fs i) as [x|] eqn:EFS; [|discriminate EM]. injection EM as <-. split; [|exists x; auto]. repeat split; [cbn; now rewrite !map_length|cbn [m_rows f_rows]; apply glued_split|apply metadata_columns|exact I1|exact I2].
  - injection EM as <-. split; [|reflexivity]. repeat split; [cbn; now rewrite !map_length|cbn [m_rows f_rows]; apply glued_split|apply metadata_columns|exact I1|exact I2].
Qed.
(** The preparation succeeds for arrays with the two metadata columns and one column per variable, names with
    numbers, and a fault name for every test sample. *)
Lemma build_data_ok vars : forall names (Xs : list table) d, (forall X, In X Xs -> (t_cols X - 2)%nat = List.length vars) -> exists data, build_data vars names Xs d = Ok data.
Proof.
  induction names as [|name names IH]; intros [|X Xs] d H; cbn [build_data]; eauto. unfold measurements. rewrite (H X (or_introl eq_refl)), Nat.eqb_refl. cbn [bind]. apply IH. intros Y HY. apply H. now right.
Qed.
Lemma dict_set_keys {V} k (v : V) d x : In x (map fst (dict_set k v d)) -> x = k \/ In x (map fst d).
Proof.
  induction d as [|(k' & v') d IH]; cbn; [intros [|[]]; auto|]. destruct (k =? k')%string; cbn; [intros [|]; auto|]. intros [|H]; [auto|]. destruct (IH H); auto.
Qed.
Lemma dict_set_length {V} k (v : V) d : (List.length (dict_set k v d) <= S (List.length d))%nat.
Proof. induction d as [|(k' & v') d IH]; cbn; [lia|]. destruct (k =? k')%string; cbn; lia. Qed.
Lemma build_data_keys vars : forall names (Xs : list table) d data, build_data vars names Xs d = Ok data ->
  (List.length data <= List.length d + Nat.min (List.length names) (List.length Xs))%nat /\ forall x, In x (map fst data) -> In x (map fst d) \/ In x names.
Proof.
  induction names as [|name names IH]; intros [|X Xs] d data H; cbn [build_data] in H; try (injection H as <-; split; [cbn; lia|auto]).
  destruct (measurements vars X) as [F|]; [|discriminate H]. cbn [bind] in H. destruct (IH _ _ _ H) as (L & K). pose proof (dict_set_length name F d). split; [cbn; lia|].
  intros x Hx. destruct (K x Hx) as [Hd|Hn]; [|right; now right]. apply dict_set_keys in Hd as [->|Hd]; [right; now left|now left].
Qed.
Lemma build_meta_ok (Xs : list table) faults : forall names i d, (forall j, (j < List.length names)%nat -> exists X, nth_error Xs (i + j) = Some X /\ (2 <= t_cols X)%nat) ->
  (forall name, In name names -> exists a b, int (take 2 name) = Ok a /\ int (drop 2 name) = Ok b) ->
  (forall fs, faults = Some fs -> (i + List.length names <= List.length fs)%nat) -> exists md, build_meta int Xs faults i names d = Ok md.
Proof.
  induction names as [|name names IH]; intros i d HX HI HF; cbn [build_meta]; eauto.
  assert (M : exists m, metadata int Xs faults i name = Ok m).
  { unfold metadata. destruct (HX 0%nat ltac:(cbn; lia)) as (X & E & C). rewrite Nat.add_0_r in E. rewrite E. destruct (t_cols X <? 2)%nat eqn:T; [apply Nat.ltb_lt in T; lia|].
    destruct (HI name (or_introl eq_refl)) as (a & b & -> & ->). cbn [bind]. destruct faults as [fs|]; [|eauto]. destruct (nth_error fs i) eqn:EF; [eauto|]. apply nth_error_None in EF. specialize (HF fs eq_refl). cbn in HF. lia. }
  destruct M as (m & ->). cbn [bind]. apply IH.
  - intros j Hj. destruct (HX (S j)) as (X & E & C); [cbn; lia|]. exists X. rewrite Nat.add_succ_r in E. auto.
  - intros nm Hn. apply HI. now right.
  - intros fs E. specialize (HF fs E). cbn in HF. lia.
Qed.
Theorem C56_succeeds vars names (Xs : list table) faults :
  (forall X, In X Xs -> t_cols X = (2 + List.length vars)%nat) ->
  (forall name, In name names -> exists a b, int (first_two (sample_id name)) = Ok a /\ int (from_third (sample_id name)) = Ok b) ->
  (forall fs, faults = Some fs -> (List.length Xs <= List.length fs)%nat) ->
  exists data md, prepare int vars names Xs faults = Ok (data, md).
Proof.
  intros HC HI HF. unfold prepare. destruct (build_data_ok vars (map sample_name names) Xs []) as (data & E); [intros X HX; rewrite (HC X HX); lia|]. rewrite E. cbn [bind].
  destruct (build_data_keys _ _ _ _ _ E) as (L & K). cbn [List.length Nat.add] in L. rewrite map_length in L.
  destruct (build_meta_ok Xs faults (map fst data) 0 []) as (md & E2).
  - intros j Hj. rewrite map_length in Hj. cbn [Nat.add]. destruct (nth_error Xs j) as [X|] eqn:EX; [|apply nth_error_None in EX; lia]. exists X. split; [reflexivity|]. rewrite (HC X (nth_error_In _ _ EX)). lia.
  - intros nm Hn. destruct (K nm Hn) as [[]|Hm]. apply in_map_iff in Hm as (n0 & <- & H0). rewrite take_two, drop_two, sample_name_id. now apply HI.
  - intros fs Efs. rewrite map_length. specialize (HF fs Efs). cbn [Nat.add]. lia.
  - rewrite E2. cbn [bind]. eauto.
Qed.
End Proofs.
Print Assumptions C56_succeeds.

(** The whole call, when the sample names differ. *)
Theorem C56_aligned_partial {byte value entry : Type} (int : string -> res Z) (loadmat : list byte -> res value) (to_lamdata : value -> res (lamdata entry))
    dl sv e w train_data train_metadata test_data test_metadata w' :
  get_semiconductor_etch_machine_data int loadmat to_lamdata dl sv e w = (Ok ((train_data, train_metadata), (test_data, test_metadata)), w') ->
  exists c v L, (local w "MACHINE_Data.mat" c \/ absent w "MACHINE_Data.mat" /\ dl = true /\ served e "MACHINE_Data.mat" c) /\
    loadmat c = Ok v /\ to_lamdata v = Ok L /\
    (distinct (firstn (List.length (l_calibration L)) (l_calib_names L)) ->
       aligned int (skipn 2 (l_variables L)) (l_calib_names L) (l_calibration L) None train_data train_metadata) /\
    (distinct (firstn (List.length (l_test L)) (l_test_names L)) ->
       aligned int (skipn 2 (l_variables L)) (l_test_names L) (l_test L) (Some (l_fault_names L)) test_data test_metadata).
Proof.
  unfold get_semiconductor_etch_machine_data. intros H. destruct (exec e (get_semiconductor_etch_raw_data loadmat dl sv) w) as [[files|x] w1] eqn:E; [|discriminate H]. cbn [bind] in H.
  destruct (find _ files) as [[f v]|] eqn:F; [|discriminate H]. apply find_some in F as (IN & EQ). cbn [fst snd] in *. apply String.eqb_eq in EQ. subst f. cbn [bind] in H.
  destruct (to_lamdata v) as [L|] eqn:TL; [|discriminate H]. cbn [bind] in H. unfold machine_data in H.
  destruct (prepare int (skipn 2 (l_variables L)) (l_calib_names L) (l_calibration L) None) as [[d1 m1]|] eqn:P1; [|discriminate H]. cbn [bind] in H.
  destruct (prepare int (skipn 2 (l_variables L)) (l_test_names L) (l_test L) (Some (l_fault_names L))) as [[d2 m2]|] eqn:P2; [|discriminate H]. cbn [bind] in H.
  injection H as <- <- <- <- _. destruct (C45_result loadmat _ _ _ _ _ _ E) as (_ & KV & _). destruct (KV _ _ IN) as (c & LM & K). exists c, v, L.
  split; [destruct K as [(K & _)|(K1 & K2 & K3 & _)]; [now left|right; auto]|]. split; [exact LM|]. split; [exact TL|].
  split; intros D; apply prepare_aligned; assumption.
Qed.
Print Assumptions C56_aligned_partial.

(** With equal sample names the tables are mixed up: the measurements under a name are those of its last
    sample, the metadata those of another one. *)
Definition ex_table (n : nat) : table nat := {| t_cols := 3; t_rows := [[n; 1; n + 7]; [S n; 1; n + 8]; [9; 9; 9]] |}%nat.
Definition ex_int (s : string) : res Z := match s with "29" => Ok 29 | "01" => Ok 1 | "02" => Ok 2 | _ => Err ValueError end%Z.
Theorem C56_equal_names_refuted : exists names (Xs : list (table nat)) data md,
  prepare ex_int ["Pressure"] names Xs None = Ok (data, md) /\
  (forall name X, In (name, X) (combine names Xs) -> t_cols X = 3%nat) /\
  ~ (forall i nm F m, nth_error data i = Some (nm, F) -> nth_error md i = Some (nm, m) -> exists j name X, nth_error names j = Some name /\ nth_error Xs j = Some X /\
       sample_id name = nm /\ describes ex_int ["Pressure"] nm X None F m).
Proof.
  exists ["l2901.txt"; "l2901.txt"; "l2902.txt"], [ex_table 0; ex_table 20; {| t_cols := 3; t_rows := [] |}].
  eexists _, _. split; [vm_compute; reflexivity|]. split.
  - intros name X H. cbn in H. repeat (destruct H as [H|H]; [injection H as _ <-; reflexivity|]). destruct H.
  - intros H. destruct (H 0%nat _ _ _ eq_refl eq_refl) as (j & name & X & Hn & HX & _ & (_ & _ & G & _)). cbn in G.
    destruct j as [|[|[|j]]]; cbn in HX; [injection HX as <-; discriminate G|injection HX as <-; discriminate G|injection HX as <-; discriminate G|discriminate Hn || (destruct j; discriminate HX)].
Qed.
Print Assumptions C56_equal_names_refuted.

(** ** A concrete case with different names *)
Example ex_distinct : distinct ["l2901.txt"; "l2902.txt"] /\ exists data md,
  prepare ex_int ["Pressure"] ["l2901.txt"; "l2902.txt"] [ex_table 0; ex_table 20] (Some ["TCP +50"; "RF -12"]) = Ok (data, md) /\ map fst data = ["2901"; "2902"] /\
  map (fun x => m_fault (snd x)) md = [Some "TCP +50"; Some "RF -12"].
Proof. split; [unfold distinct; cbn; repeat constructor; cbn; intuition discriminate|]. eexists _, _. split; [vm_compute; reflexivity|split; reflexivity]. Qed.
