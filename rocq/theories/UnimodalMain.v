(** The unimodal-regression results in the vocabulary of Spec.v. *)
From Coq Require Import Reals Lra Lia List Arith Bool ZArith Psatz.
From Verif Require Import Num Numpy Unimodal RFacts Spec SpecFacts UnimodalProofs.
Import ListNotations.
Local Open Scope R_scope.

Lemma fuimod_unimodal (u : list R) : (exists t, fuimod (length u) (at_ u) t) <-> unimodal u.
Proof.
  split; intros [t (H1 & H2 & H3)]; exists t; (split; [exact H1|split]).
  - intros i j Hij Hjt. apply (mono_steps (at_ u) 0 t); try lia. intros; apply H2; lia.
  - intros i j Hti Hij Hj. apply (anti_steps (at_ u) t (length u - 1)); try lia.
    intros; apply H3; lia.
  - intros i Hi. apply H2; lia.
  - intros i Hi1 Hi2. apply H3; lia.
Qed.

Definition admissible (nn : bool) (u : list R) : Prop := unimodal u /\ (nn = true -> nonneg u).

Lemma map_Some_seq (u : nat -> R) n :
  map (fun i => Some (u i)) (seq 0 n) = map Some (map u (seq 0 n)).
Proof. now rewrite map_map. Qed.

Lemma unimodal_vec_spec (y : list R) (nn : bool) : y <> [] ->
  exists u err,
    unimodal_regression_1d (N:=RNum) store_float y nn = Ok (map Some u, err) /\
    length u = length y /\ unimodal u /\ (nn = true -> nonneg u) /\
    err = sqdist y u /\
    (forall z, length z = length y -> unimodal z -> (nn = true -> nonneg z) ->
       sqdist y u <= sqdist y z).
Proof.
  intros Hy. assert (Hn : (0 < length y)%nat) by (destruct y; [congruence|cbn; lia]).
  destruct (unimodal_1d_ok y nn Hn) as (f & err & t & E & Hf & Hnn & Herr & Hopt).
  set (u := map f (seq 0 (length y))).
  assert (Lu : length u = length y) by (unfold u; now rewrite map_length, seq_length).
  assert (Hu : forall i, (i < length y)%nat -> at_ u i = f i) by (intros; now apply at_map_seq).
  assert (Hsq : sqdist y u = err).
  { rewrite sqdist_rsum, Lu, Herr. apply rsum_ext. intros i Hi. rewrite Hu by assumption. reflexivity. }
  exists u, err. split; [|split; [exact Lu|split; [|split; [|split]]]].
  - rewrite E, map_Some_seq. reflexivity.
  - apply fuimod_unimodal. exists t. rewrite Lu. destruct Hf as (F1 & F2 & F3).
    split; [exact F1|split].
    + intros i Hi. rewrite !Hu by lia. now apply F2.
    + intros i Hi1 Hi2. rewrite !Hu by lia. now apply F3.
  - intros E'. apply nonneg_at. intros i Hi. rewrite Lu in Hi. rewrite Hu by assumption. now apply Hnn.
  - now symmetry.
  - intros z Lz Hz Hzn. apply fuimod_unimodal in Hz. destruct Hz as [t' Hz]. rewrite Lz in Hz.
    rewrite Hsq, sqdist_rsum, Lz. apply (Hopt (at_ z) t' Hz).
    intros E' i Hi. pose proof (proj1 (nonneg_at z) (Hzn E')) as H. apply H. now rewrite Lz.
Qed.

Lemma vec_of_1d (y : list R) nn u err :
  unimodal_regression_1d (N:=RNum) store_float y nn = Ok (u, err) ->
  unimodal_regression_vec (N:=RNum) store_float y nn = Ok u.
Proof. intros H. unfold unimodal_regression_vec. rewrite H. reflexivity. Qed.

Lemma mapM_ok {A B} (f : A -> res B) l (P : A -> B -> Prop) :
  (forall a, In a l -> exists b, f a = Ok b /\ P a b) ->
  exists r, mapM f l = Ok r /\ Forall2 P l r.
Proof.
  induction l as [|a l IH]; intros H; cbn.
  - exists []. split; [reflexivity|constructor].
  - destruct (H a (or_introl eq_refl)) as (b & -> & Hb). cbn.
    destruct (IH (fun a Ha => H a (or_intror Ha))) as (r & -> & Hr). cbn.
    exists (b :: r). split; [reflexivity|constructor; assumption].
Qed.

Lemma mcol_vals (Y : mat (N:=RNum)) j : mwf Y -> (j < mc Y)%nat ->
  length (mcol Y j) = mr Y /\
  forall i, (i < mr Y)%nat -> at_ (mcol Y j) i = mget Y i j.
Proof.
  intros (H1 & H2) Hj. unfold mcol. rewrite map_length. split; [exact H1|].
  intros i Hi. unfold at_, mget. rewrite (nth_map_lt _ _ _ _ []) by lia. reflexivity.
Qed.

Lemma unimodal_cols_spec (Y : mat (N:=RNum)) (nn : bool) :
  mwf Y -> (0 < mr Y)%nat -> (0 < mc Y)%nat ->
  exists cols, unimodal_regression_cols (N:=RNum) store_float Y nn = Ok (map (map Some) cols) /\
    length cols = mc Y /\
    forall j, (j < mc Y)%nat ->
      let u := nth j cols [] in let y := mcol Y j in
      length u = mr Y /\ unimodal u /\ (nn = true -> nonneg u) /\
      (forall z, length z = mr Y -> unimodal z -> (nn = true -> nonneg z) ->
         sqdist y u <= sqdist y z).
Proof.
  intros Hwf Hr Hc. unfold unimodal_regression_cols.
  destruct (Nat.eqb_spec (mc Y) 0) as [E|_]; [lia|].
  destruct (mapM_ok (fun r => unimodal_regression_vec (N:=RNum) store_float (mcol Y r) nn) (seq 0 (mc Y))
     (fun r ou => exists u, ou = map Some u /\ length u = mr Y /\ unimodal u /\ (nn = true -> nonneg u) /\
        (forall z, length z = mr Y -> unimodal z -> (nn = true -> nonneg z) ->
         sqdist (mcol Y r) u <= sqdist (mcol Y r) z))) as (r & E & HF).
  { intros j Hj. apply in_seq in Hj. destruct (mcol_vals Y j Hwf ltac:(lia)) as (L & _).
    destruct (unimodal_vec_spec (mcol Y j) nn) as (u & err & E & U1 & U2 & U3 & _ & U4).
    - intros E. rewrite E in L. cbn in L. lia.
    - exists (map Some u). split; [exact (vec_of_1d _ _ _ _ E)|].
      rn. rewrite L in U1, U4. exists u. repeat (split; [solve [auto]|]). exact U4. }
  rewrite E.
  set (P := fun r ou => _) in HF.
  assert (exists cols, r = map (map Some) cols /\ Forall2 (fun j u => length u = mr Y /\ unimodal u /\ (nn = true -> nonneg u) /\
        (forall z, length z = mr Y -> unimodal z -> (nn = true -> nonneg z) ->
         sqdist (mcol Y j) u <= sqdist (mcol Y j) z)) (seq 0 (mc Y)) cols) as (cols & -> & HF2).
  { clear E. induction HF as [|j ou l r (u & -> & Hu) HF IH].
    - exists []. split; [reflexivity|constructor].
    - destruct IH as (cols & -> & IH). exists (u :: cols). split; [reflexivity|].
      constructor; assumption. }
  exists cols. split; [reflexivity|]. pose proof (Forall2_len HF2) as L. rewrite seq_length in L.
  split; [now symmetry|]. intros j Hj.
  assert (HN : forall i l c, Forall2 (fun j u => length u = mr Y /\ unimodal u /\ (nn = true -> nonneg u) /\
        (forall z, length z = mr Y -> unimodal z -> (nn = true -> nonneg z) ->
         sqdist (mcol Y j) u <= sqdist (mcol Y j) z)) l c -> (i < length l)%nat ->
     let u := nth i c [] in let y := mcol Y (nth i l 0%nat) in
      length u = mr Y /\ unimodal u /\ (nn = true -> nonneg u) /\
      (forall z, length z = mr Y -> unimodal z -> (nn = true -> nonneg z) ->
         sqdist y u <= sqdist y z)).
  { clear. intros i l c H. revert i. induction H as [|a b l c Hab H IH]; intros [|i] Hi; cbn in *; try lia.
    - exact Hab.
    - apply IH; lia. }
  specialize (HN j (seq 0 (mc Y)) cols HF2). rewrite seq_length, seq_nth in HN by assumption.
  apply HN; assumption.
Qed.

(** feasible inputs are returned unchanged *)
Lemma sqdist_zero (u v : list R) : length u = length v -> sqdist u v = 0 -> u = v.
Proof.
  intros L H. rewrite sqdist_rsum in H. apply (list_eq_nth _ _ 0); [exact L|].
  intros i Hi. rewrite L in Hi.
  pose proof (rsum_nonneg_zero _ _ (fun i _ => pow2_ge_0 _) H i Hi) as E. unfold at_ in E. cbv beta in E. nra.
Qed.
Lemma sqdist_refl u : sqdist u u = 0.
Proof. rewrite sqdist_rsum. apply rsum_zero. intros; lra. Qed.
Lemma sqdist_nonneg u v : 0 <= sqdist u v.
Proof. rewrite sqdist_rsum. apply rsum_nonneg. intros. apply pow2_ge_0. Qed.

Lemma unimodal_fixed (y : list R) nn : y <> [] -> unimodal y -> (nn = true -> nonneg y) ->
  unimodal_regression_vec (N:=RNum) store_float y nn = Ok (map Some y).
Proof.
  intros Hy Hu Hn. destruct (unimodal_vec_spec y nn Hy) as (u & err & E & L & _ & _ & _ & Hopt).
  pose proof (Hopt y eq_refl Hu Hn) as H. rewrite sqdist_refl in H.
  pose proof (sqdist_nonneg y u). assert (y = u) as ->.
  { apply sqdist_zero; [now symmetry|lra]. }
  exact (vec_of_1d _ _ _ _ E).
Qed.

(** ** every prefix *)
(** [prefix_fit r k]: the fit that the code reads off for prefix length k *)
Definition prefix_fit (r : (list R * list nat) * list R) (k : nat) : res (list (option R)) :=
  compute_isotonic_from_index (N:=RNum) k (fst (fst r)) (snd (fst r)).

Definition admissible_inc (nn : bool) (z : list R) : Prop :=
  nondecreasing z /\ (nn = true -> nonneg z).

Lemma feas_nondec nn (x : list R) : feas nn (length x) (at_ x) <-> admissible_inc nn x.
Proof.
  unfold admissible_inc. split.
  - intros (F1 & F2). split.
    + intros i j Hij Hj. apply (mono_steps (at_ x) 0 (length x - 1)); try lia. intros; apply F1; lia.
    + intros E. apply nonneg_at. auto.
  - intros (F1 & F2). split.
    + intros i Hi. apply F1; lia.
    + intros E i Hi. pose proof (proj1 (nonneg_at x) (F2 E)) as H. now apply H.
Qed.

Lemma prefix_spec (y w : list R) (wo : option (list R)) nn : y <> [] ->
  (wo = Some w \/ (wo = None /\ w = map (fun _ => 1) y)) ->
  length w = length y -> Forall (fun x => 0 < x) w ->
  exists r, prefix_isotonic_regression (N:=RNum) store_float y wo nn = Ok r /\
    length (snd r) = S (length y) /\
    forall k, (k <= length y)%nat ->
      exists x, prefix_fit r k = Ok (map Some x) /\ length x = k /\
        nondecreasing x /\ (nn = true -> nonneg x) /\
        at_ (snd r) k = wsqdist w y x /\
        (forall z, length z = k -> nondecreasing z -> (nn = true -> nonneg z) ->
           wsqdist w y x + wsqdist w x z <= wsqdist w y z).
Proof.
  intros Hy Hwo Lw Pw. assert (Hn : (0 < length y)%nat) by (destruct y; [congruence|cbn; lia]).
  assert (Ew : w = match wo with None => repeat 1 (length y) | Some w => w end).
  { destruct Hwo as [->|(-> & ->)]; [reflexivity|]. clear. induction y; cbn; congruence. }
  assert (Pw' : forall i, (i < length y)%nat -> 0 < vget (N:=RNum) w i).
  { intros i Hi. rewrite Forall_forall in Pw. apply Pw. apply (nth_In w 0). rewrite Lw. exact Hi. }
  destruct (prefix_ok y wo nn Hn) as (s & level & E & LL & HI & HM).
  { now rewrite <- Ew. }
  { now rewrite <- Ew. }
  rewrite <- Ew in HI. eexists. split; [exact E|]. pose proof HI as ((_&_&_&_&_&LE&_) & _).
  split; [exact LE|]. intros k Hk.
  destruct (compute_ok y w nn s level k Lw Pw' HI LL HM Hk) as (x & F & C).
  exists (map x (seq 0 k)). unfold prefix_fit; cbn [fst snd]. rewrite C, map_Some_seq.
  assert (Lx : length (map x (seq 0 k)) = k) by now rewrite map_length, seq_length.
  assert (Hx : forall i, (i < k)%nat -> at_ (map x (seq 0 k)) i = x i) by (intros; now apply at_map_seq).
  pose proof (Fit_feas y w nn Lw s k HI Hk x F) as (F1 & F2).
  assert (HA : admissible_inc nn (map x (seq 0 k))).
  { apply feas_nondec. rewrite Lx. split.
    - intros i Hi. rewrite !Hx by lia. now apply F1.
    - intros E' i Hi. rewrite Hx by lia. now apply F2. }
  assert (HE : at_ (p_error s) k = wsqdist w y (map x (seq 0 k))).
  { unfold wsqdist. rewrite Lx, Sum_rsum.
    rewrite at_vget, (Fit_error y w nn Lw Pw' s k HI Hk x F). apply rsum_ext. intros i Hi.
    rewrite Hx by lia. reflexivity. }
  split; [reflexivity|]. split; [exact Lx|]. split; [apply HA|]. split; [apply HA|].
  split; [exact HE|].
  intros z Lz Hz1 Hz2. rewrite <- HE.
  assert (HZ : feas nn k (at_ z)).
  { rewrite <- Lz. apply feas_nondec. split; assumption. }
  pose proof (Fit_opt y w nn Lw Pw' s k HI Hk x F (at_ z) HZ) as HO.
  unfold wsqdist. rewrite Lz, !Sum_rsum.
  rewrite (rsum_ext k _ (fun i => vget (N:=RNum) w i * (x i - at_ z i) ^ 2))
    by (intros i Hi; rewrite Hx by lia; reflexivity).
  exact HO.
Qed.

(** ** Integer arrays (C05) *)
(** Storing a float in an integer array truncates towards zero. *)
Definition store_int (x : R) : R :=
  if Rle_dec 0 x then IZR (Int_part x) else - IZR (Int_part (- x)).

Lemma store_int_half : store_int (1 / 2) = 0.
Proof.
  unfold store_int. destruct (Rle_dec 0 (1/2)); [|lra].
  assert (Int_part (1 / 2) = 0%Z) as ->; [|reflexivity].
  destruct (base_Int_part (1/2)) as [H1 H2].
  assert (IZR (Int_part (1/2)) < 1) by lra. assert (-1 < IZR (Int_part (1/2))) by lra.
  apply lt_IZR in H. apply lt_IZR in H0. lia.
Qed.

(** decide every comparison of the computation *)
Ltac rdec1 :=
  match goal with
  | |- context [Rleb ?a ?b] =>
      first [ replace (Rleb a b) with true by (symmetry; apply Rleb_true; lra)
            | replace (Rleb a b) with false by (symmetry; apply Rleb_false; lra) ]
  | |- context [store_int ?a] =>
      first [ replace (store_int a) with 0 by (symmetry; replace a with (1/2) by lra; apply store_int_half) ]
  end.
Ltac rrun := repeat (unfold vget, iget, nltb; cbn; rdec1); unfold vget, iget, nltb; cbn.

Lemma int_prefix :
  exists e1 e2 e3 e4, e1 = 0 /\ e2 = 0 /\ e3 = 1/2 /\ e4 = 1/2 /\
  prefix_isotonic_regression (N:=RNum) store_int [1; 0; 1] None false
  = Ok (([1; 0; 1], [0; 0; 2]%nat), [e1; e2; e3; e4]).
Proof.
  unfold prefix_isotonic_regression, cumsum, merge_intervals, nltb, vbuild, vmul; cbn.
  unfold prefix_step. cbn. rrun.
  do 4 eexists. repeat (split; [|split]); [| | | |reflexivity]; lra.
Qed.

Lemma int_regression :
  exists err, err = 1/2 /\
  unimodal_regression_1d (N:=RNum) store_int [1; 0; 1] false
  = Ok ([Some 1; Some 0; Some 0], err).
Proof.
  destruct int_prefix as (e1 & e2 & e3 & e4 & H1 & H2 & H3 & H4 & E).
  unfold unimodal_regression_1d. rn. rewrite E. cbn [bind rev app]. rewrite E. cbn [bind].
  unfold get_best_unimodality_index, best_step. rrun.
  eexists. split; [|reflexivity]. lra.
Qed.

Lemma int_refuted :
  exists (k : list Z) (y u z : list R),
    y = map IZR k /\
    unimodal_regression_vec (N:=RNum) store_int y false = Ok (map Some u) /\
    length z = length y /\ unimodal z /\ sqdist y z < sqdist y u.
Proof.
  destruct int_regression as (err & _ & E).
  exists [1; 0; 1]%Z, [1; 0; 1], [1; 0; 0], [1; 1/2; 1/2].
  split; [reflexivity|]. split.
  { unfold unimodal_regression_vec. rn. rewrite E. reflexivity. }
  split; [reflexivity|]. split.
  - exists 0%nat. split; [cbn; lia|]. split.
    + intros i j Hij Hj. assert (j = 0)%nat by lia. assert (i = 0)%nat by lia. subst. lra.
    + intros i j Hi Hij Hj. cbn in Hj. unfold at_.
      destruct i as [|[|[|i]]]; destruct j as [|[|[|j]]]; cbn; try lia; lra.
  - unfold sqdist, at_; cbn. lra.
Qed.

(** ** Forms used by P01_Unimodal.v *)
Lemma C01_vec (y : list R) (nn : bool) : y <> [] ->
  exists u, unimodal_regression_vec (N:=RNum) store_float y nn = Ok (map Some u) /\
    length u = length y /\ unimodal u.
Proof.
  intros H. destruct (unimodal_vec_spec y nn H) as (u & err & E & H1 & H2 & _).
  exists u. split; [exact (vec_of_1d _ _ _ _ E)|auto].
Qed.
Lemma C02_vec (y : list R) : y <> [] ->
  exists u err, unimodal_regression_1d (N:=RNum) store_float y false = Ok (map Some u, err) /\
    unimodal_regression_vec (N:=RNum) store_float y false = Ok (map Some u) /\
    length u = length y /\ unimodal u /\ err = sqdist y u /\
    (forall z, length z = length y -> unimodal z -> sqdist y u <= sqdist y z).
Proof.
  intros H. destruct (unimodal_vec_spec y false H) as (u & err & E & H1 & H2 & _ & H3 & H4).
  exists u, err. split; [exact E|]. split; [exact (vec_of_1d _ _ _ _ E)|].
  repeat (split; [assumption|]). intros z Z1 Z2. apply H4; auto. discriminate.
Qed.
Lemma C03_vec (y : list R) : y <> [] ->
  exists u err, unimodal_regression_1d (N:=RNum) store_float y true = Ok (map Some u, err) /\
    unimodal_regression_vec (N:=RNum) store_float y true = Ok (map Some u) /\
    length u = length y /\ unimodal u /\ nonneg u /\ err = sqdist y u /\
    (forall z, length z = length y -> unimodal z -> nonneg z -> sqdist y u <= sqdist y z).
Proof.
  intros H. destruct (unimodal_vec_spec y true H) as (u & err & E & H1 & H2 & H2' & H3 & H4).
  exists u, err. split; [exact E|]. split; [exact (vec_of_1d _ _ _ _ E)|].
  repeat (split; [solve [auto]|]). intros z Z1 Z2 Z3. apply H4; auto.
Qed.
Lemma C01_empty nn : unimodal_regression_vec (N:=RNum) store_float [] nn = Err IndexError.
Proof. reflexivity. Qed.
Lemma C02_example : [0; 1; 5; 2] <> [] /\ unimodal [0; 1; 5; 2] /\ nonneg [0; 1; 5; 2].
Proof.
  split; [congruence|]. split; [|repeat constructor; lra].
  apply fuimod_unimodal. exists 2%nat. split; [cbn; lia|]. unfold at_. split.
  - intros i Hi. destruct i as [|[|i]]; cbn; try lia; lra.
  - intros i Hi1 Hi2. cbn in Hi2. destruct i as [|[|[|i]]]; cbn; try lia; lra.
Qed.
