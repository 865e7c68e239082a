(** Initialisation of auxiliary and dual variables: proofs. *)
From Coq Require Import Reals Lra Lia List Arith Bool ZArith.
From Verif Require Import Num Numpy RFacts Spec SpecFacts MatFacts ModelSpec Penalties PenaltySpec CoupledMatrices CmfSpec CmfProofs Decomp DecompSpec
  DecompFacts InitVars InitSpec.
Import ListNotations.
Local Open Scope R_scope.

Notation pyR := (pyobj (N:=RNum)).

Lemma draw_ok rnd d r c pos M p : draw_mat (N:=RNum) rnd d r c pos = Ok (M, p) -> (0 <= c)%Z /\ shaped M r (Z.to_nat c) /\ (p = pos + r * Z.to_nat c)%nat.
Proof.
  unfold draw_mat. destruct (Z.ltb_spec c 0) as [H|H]; [discriminate|]. intros K. injection K as <- <-.
  split; [assumption|]. split; [|reflexivity]. split; [apply mwf_mbuild|]. now split.
Qed.
Lemma zeros_ok r c M : zeros (N:=RNum) r c = Ok M -> (0 <= c)%Z /\ shaped M r (Z.to_nat c).
Proof.
  unfold zeros. destruct (Z.ltb_spec c 0) as [H|H]; [discriminate|]. intros K. injection K as <-. split; [assumption|].
  split; [apply mwf_mbuild|]. now split.
Qed.
Lemma eye_ok r c M : eye (N:=RNum) r c = Ok M -> (0 <= c)%Z /\ shaped M r (Z.to_nat c).
Proof.
  unfold eye. destruct (Z.ltb_spec c 0) as [H|H]; [discriminate|]. intros K. injection K as <-. split; [assumption|].
  split; [apply mwf_mbuild|]. now split.
Qed.
Lemma mapM_list_shaped (f : matR -> res matR) (R0 : nat) (Xs : list matR) l :
  (forall X M, f X = Ok M -> shaped M (mr X) R0) -> mapM f Xs = Ok l -> list_shaped (length Xs) (rowsX Xs) R0 l.
Proof.
  intros Hf. revert l. induction Xs as [|X Xs IH]; intros l H; cbn in H.
  - injection H as <-. split; [reflexivity|]. intros i Hi. cbn in Hi. lia.
  - destruct (f X) as [M|] eqn:HX; [|discriminate]. cbn in H. destruct (mapM f Xs) as [l'|]; [|discriminate]. cbn in H. injection H as <-.
    destruct (IH l' eq_refl) as (L & Hl). split; [cbn; now rewrite L|]. intros [|i] Hi; [now apply Hf|]. apply Hl. cbn in Hi. lia.
Qed.
Lemma mapS_list_shaped (f : matR -> nat -> res (matR * nat)) (R0 : nat) (Xs : list matR) :
  (forall X pos M p, f X pos = Ok (M, p) -> shaped M (mr X) R0) -> forall pos l p,
  mapS f Xs pos = Ok (l, p) -> list_shaped (length Xs) (rowsX Xs) R0 l.
Proof.
  intros Hf. induction Xs as [|X Xs IH]; intros pos l p H; cbn in H.
  - injection H as <- <-. split; [reflexivity|]. intros i Hi. cbn in Hi. lia.
  - destruct (f X pos) as [[M q]|] eqn:HX; [|discriminate]. cbn in H. destruct (mapS f Xs q) as [[l' q']|] eqn:HS; [|discriminate]. cbn in H.
    injection H as <- <-. destruct (IH _ _ _ HS) as (L & Hl). split; [cbn; now rewrite L|].
    intros [|i] Hi; [now apply (Hf X pos M q)|]. apply Hl. cbn in Hi. lia.
Qed.
Lemma arr_mat_shaped (a b : nat) (d : list R) : shaped (arr_mat (N:=RNum) (PArr [a; b] d)) a b.
Proof. split; [apply mwf_mbuild|]. now split. Qed.
Lemma arr_mat_entries a b d : entries_of (arr_mat (N:=RNum) (PArr [a; b] d)) a b d.
Proof. intros i j Hi Hj. cbn [arr_mat]. now rewrite mget_mbuild. Qed.
Lemma shape_eqb_spec sh J rank : shape_eqb sh J rank = true <-> exists b, sh = [J; b] /\ Z.of_nat b = rank.
Proof.
  unfold shape_eqb. destruct sh as [|a [|b [|x sh]]]; split; try discriminate; try (intros (b0 & K & _); discriminate).
  - rewrite andb_true_iff, Nat.eqb_eq, Z.eqb_eq. intros (-> & <-). now exists b.
  - intros (b0 & K & <-). injection K as -> ->. now rewrite Nat.eqb_refl, Z.eqb_refl.
Qed.
(** the zipped comparison *)
Lemma any_mismatch_false rank (l : list pyR) : forall Xs : list matR,
  length l = length Xs ->
  (any_mismatch l (map mr Xs) rank = Ok false <->
   forall i, (i < length Xs)%nat -> exists b d, nth i l PNone = PArr [rowsX Xs i; b] d /\ Z.of_nat b = rank).
Proof.
  induction l as [|o l IH]; intros [|X Xs] HL; cbn in HL; try discriminate; cbn [any_mismatch map].
  - split; [intros _ i Hi; cbn in Hi; lia|reflexivity].
  - split.
    + intros H. destruct o as [| |sh d|?]; try discriminate. cbn [py_shape bind] in H.
      destruct (shape_eqb sh (mr X) rank) eqn:ES; [|discriminate]. cbn [negb] in H.
      intros [|i] Hi.
      * apply shape_eqb_spec in ES. destruct ES as (b & -> & Hb). exists b, d. now split.
      * cbn in Hi. exact (proj1 (IH Xs ltac:(lia)) H i ltac:(lia)).
    + intros H. destruct (H 0%nat ltac:(cbn; lia)) as (b & d & K & Hb). cbn in K. subst o. cbn [py_shape bind].
      assert (ES : shape_eqb [rowsX (X :: Xs) 0; b] (mr X) rank = true) by (apply shape_eqb_spec; now exists b).
      rewrite ES. cbn [negb]. apply IH; [lia|]. intros i Hi. exact (H (S i) ltac:(cbn; lia)).
Qed.
Lemma any_mismatch_short rank (l : list pyR) : forall Js, any_mismatch l Js rank = Ok true \/ any_mismatch l Js rank = Ok false \/ any_mismatch l Js rank = Err AttributeError.
Proof.
  induction l as [|o l IH]; intros [|J Js]; cbn [any_mismatch]; auto. destruct o; cbn [py_shape bind]; auto.
  destruct (negb _); auto.
Qed.

Lemma first_cols_ok (Xs : list matR) K : first_cols Xs = Ok K -> Xs <> [] /\ K = colsX Xs.
Proof. destruct Xs as [|X Xs]; cbn; [discriminate|]. intros H. injection H as <-. split; [discriminate|reflexivity]. Qed.
Lemma first_cols_some (Xs : list matR) : Xs <> [] -> first_cols Xs = Ok (colsX Xs).
Proof. destruct Xs; [congruence|reflexivity]. Qed.

(** given tensors *)
Lemma init_tensor_iff rnd sh d Xs rank mode pos v p :
  init_common (N:=RNum) rnd (ITensor sh d) Xs (PyInt rank) (PyInt mode) pos = Ok (v, p) <->
  good_tensor Xs rank mode sh /\ v = VMat (arr_mat (PArr sh d)) /\ p = pos.
Proof.
  unfold init_common, good_tensor.
  destruct (Z.eqb_spec mode 0) as [M0|M0], (Z.eqb_spec mode 1) as [M1|M1], (Z.eqb_spec mode 2) as [M2|M2]; try lia; cbn [orb negb andb].
  - subst mode. split.
    + destruct sh as [|a [|b [|x sh]]]; try discriminate. destruct (first_cols Xs) as [K|] eqn:FC; [|discriminate]. cbn [bind].
      destruct (Z.eqb_spec (Z.of_nat b) rank) as [E1|E1]; cbn [negb orb]; [|discriminate].
      destruct (Nat.eqb_spec a (length Xs)) as [E2|E2]; cbn [negb orb]; [|discriminate]. intros H. injection H as <- <-.
      apply first_cols_ok in FC. split; [|auto]. split; [apply FC|]. exists a, b. auto.
    + intros ((NE & a & b & -> & E1 & [(_ & ->)|(K & _)]) & -> & ->); [|discriminate]. rewrite first_cols_some by assumption. cbn [bind].
      rewrite E1, Z.eqb_refl, Nat.eqb_refl. reflexivity.
  - split; [discriminate|]. intros ((_ & a & b & _ & _ & [(K & _)|(K & _)]) & _); lia.
  - subst mode. split.
    + destruct sh as [|a [|b [|x sh]]]; try discriminate. destruct (first_cols Xs) as [K|] eqn:FC; [|discriminate]. cbn [bind].
      destruct (Z.eqb_spec (Z.of_nat b) rank) as [E1|E1]; cbn [negb orb]; [|discriminate].
      destruct (Nat.eqb_spec a K) as [E2|E2]; cbn [negb orb]; [|discriminate]. intros H. injection H as <- <-.
      apply first_cols_ok in FC. destruct FC as (NE & ->). split; [|auto]. split; [exact NE|]. exists a, b. auto.
    + intros ((NE & a & b & -> & E1 & [(K & _)|(_ & ->)]) & -> & ->); [discriminate|]. rewrite first_cols_some by assumption. cbn [bind].
      rewrite E1, Z.eqb_refl, Nat.eqb_refl. reflexivity.
  - split; [discriminate|]. intros ((_ & a & b & _ & _ & [(K & _)|(K & _)]) & _); lia.
Qed.
(** given lists *)
Lemma init_list_iff rnd l Xs rank mode pos v p :
  init_common (N:=RNum) rnd (IList l) Xs (PyInt rank) (PyInt mode) pos = Ok (v, p) <->
  good_list Xs rank mode l /\ v = VMats (AList (map arr_mat l)) /\ p = pos.
Proof.
  unfold init_common, good_list.
  destruct (Z.eqb_spec mode 0) as [M0|M0], (Z.eqb_spec mode 1) as [M1|M1], (Z.eqb_spec mode 2) as [M2|M2]; try lia; cbn [orb negb andb];
    try (split; [discriminate|intros ((K & _) & _); lia]).
  split.
  - destruct (any_mismatch l (map mr Xs) rank) as [[]|] eqn:AM; cbn [bind]; try discriminate.
    destruct (Nat.eqb_spec (length l) (length Xs)) as [E|E]; cbn [negb]; [|discriminate]. intros H. injection H as <- <-.
    split; [|auto]. split; [assumption|]. split; [assumption|]. now apply any_mismatch_false.
  - intros ((_ & HL & HF) & -> & ->). rewrite (proj2 (any_mismatch_false rank l Xs HL) HF). cbn [bind]. rewrite HL, Nat.eqb_refl. reflexivity.
Qed.
Lemma good_list_shaped Xs rank mode l : good_list Xs rank mode l -> list_shaped (length Xs) (rowsX Xs) (Z.to_nat rank) (map arr_mat l).
Proof.
  intros (_ & HL & HF). split; [now rewrite map_length|]. intros i Hi. destruct (HF i Hi) as (b & d & K & <-).
  rewrite (nth_indep _ no_mat (arr_mat (N:=RNum) PNone)) by (rewrite map_length; lia). rewrite map_nth, K, Nat2Z.id. apply arr_mat_shaped.
Qed.

(** everything that initialisation returns has the right shape *)
Lemma init_common_fits rnd init Xs rank mode pos v p :
  init_common (N:=RNum) rnd init Xs (PyInt rank) (PyInt mode) pos = Ok (v, p) -> fits_mode Xs (Z.to_nat rank) mode v /\ ~ is_pair v.
Proof.
  intros H. destruct init as [s|sh d|l|l|].
  - unfold init_common in H.
    destruct (Z.eqb_spec mode 0) as [M0|M0], (Z.eqb_spec mode 1) as [M1|M1], (Z.eqb_spec mode 2) as [M2|M2]; try lia; cbn [orb negb] in H; try discriminate H.
    + destruct s; try discriminate H.
      1,2: match type of H with (let* _ := ?x in _) = _ => destruct x as [[M q]|] eqn:HD end; [|discriminate]; cbn in H; injection H as <- <-;
        apply draw_ok in HD; split; [left; split; [assumption|apply HD]|intros []].
      destruct (zeros (length Xs) rank) as [M|] eqn:HD; [|discriminate]. cbn in H. injection H as <- <-. apply zeros_ok in HD.
      split; [left; split; [assumption|apply HD]|intros []].
    + destruct s; try discriminate H.
      1,2: match type of H with (let* _ := ?x in _) = _ => destruct x as [[M q]|] eqn:HD end; [|discriminate]; cbn in H; injection H as <- <-;
        split; [split; [assumption|]|intros []]; eapply mapS_list_shaped; [|exact HD]; intros X pos0 M0' p0 K; apply draw_ok in K; apply K.
      match type of H with (let* _ := ?x in _) = _ => destruct x as [M|] eqn:HD end; [|discriminate]. cbn in H. injection H as <- <-.
      split; [split; [assumption|]|intros []]. eapply mapM_list_shaped; [|exact HD]. intros X M1' K. apply zeros_ok in K. apply K.
    + destruct s; try discriminate H.
      1,2: destruct (first_cols Xs) as [K|] eqn:FC; [|discriminate]; cbn [bind] in H;
        match type of H with (let* _ := ?x in _) = _ => destruct x as [[M q]|] eqn:HD end; [|discriminate]; cbn in H; injection H as <- <-;
        apply draw_ok in HD; apply first_cols_ok in FC; destruct FC as (_ & ->); split; [right; split; [assumption|apply HD]|intros []].
      destruct (first_cols Xs) as [K|] eqn:FC; [|discriminate]. cbn [bind] in H.
      destruct (zeros K rank) as [M|] eqn:HD; [|discriminate]. cbn in H. injection H as <- <-. apply zeros_ok in HD.
      apply first_cols_ok in FC. destruct FC as (_ & ->). split; [right; split; [assumption|apply HD]|intros []].
  - apply init_tensor_iff in H. destruct H as ((_ & a & b & -> & <- & [(-> & ->)|(-> & ->)]) & -> & _); (split; [|intros []]); cbn [fits_mode]; rewrite Nat2Z.id;
      [left|right]; (split; [reflexivity|apply arr_mat_shaped]).
  - apply init_list_iff in H. destruct H as (GL & -> & _). split; [|intros []]. split; [apply GL|]. eapply good_list_shaped; eassumption.
  - exfalso. unfold init_common in H. destruct (negb _); discriminate.
  - exfalso. unfold init_common in H. destruct (negb _); discriminate.
Qed.

(** PARAFAC2 *)
Lemma basis_dev J r (e : list R) :
  msumsq (N:=RNum) (msub (mmul (mtrans (arr_mat (PArr [J; r] e))) (arr_mat (PArr [J; r] e))) (meye r)) =
  sumsq r r (fun p q => Sum J (fun j => vget (N:=RNum) e (j * r + p) * vget (N:=RNum) e (j * r + q)) - (if (p =? q)%nat then 1 else 0)).
Proof.
  rewrite msumsq_nsq, <- (sumsq_nsq _ r r) by reflexivity. apply sumsq_ext. intros p q Hp Hq.
  rewrite mget_msub by assumption. f_equal.
  - rewrite mget_mmul by assumption. apply rsum_ext. intros j Hj. change (mc (mtrans (arr_mat (N:=RNum) (PArr (N:=RNum) [J; r] e)))) with J in Hj.
    rewrite mget_mtrans by assumption. rewrite !(arr_mat_entries J r e) by assumption. reflexivity.
  - now rewrite mget_meye.
Qed.
Lemma check_basis_iff r X o : check_basis (N:=RNum) r X o = Ok tt <->
  exists e, o = PArr [mr X; r] e /\ near_ortho (mr X) r (fun j q => vget (N:=RNum) e (j * r + q)).
Proof.
  unfold check_basis. split.
  - destruct o as [| |sh e|?]; try discriminate. destruct sh as [|J [|r0 [|x sh]]]; try discriminate.
    destruct (Nat.eqb_spec (mr X) J) as [E1|E1]; cbn [negb orb]; [|discriminate].
    destruct (Nat.eqb_spec r0 r) as [E2|E2]; cbn [negb orb]; [|discriminate]. subst J r0.
    rewrite basis_dev. destruct (nltb _ _) eqn:L; [|discriminate]. intros _. exists e. split; [reflexivity|]. apply nltb_true in L.
    unfold near_ortho. exact L.
  - intros (e & -> & NO). rewrite !Nat.eqb_refl. cbn [negb orb]. rewrite basis_dev.
    match goal with |- context[nltb ?a ?b] => assert (L : nltb (N:=RNum) a b = true) end; [|now rewrite L]. apply nltb_true. exact NO.
Qed.
Lemma check_bases_iff r (Xs : list matR) : forall l, length l = length Xs ->
  (check_bases (N:=RNum) r Xs l = Ok tt <-> forall i, (i < length Xs)%nat -> exists e, nth i l PNone = PArr [rowsX Xs i; r] e /\
    near_ortho (rowsX Xs i) r (fun j q => vget (N:=RNum) e (j * r + q))).
Proof.
  induction Xs as [|X Xs IH]; intros [|o l] HL; cbn in HL; try discriminate; cbn [check_bases].
  - split; [intros _ i Hi; cbn in Hi; lia|reflexivity].
  - split.
    + intros H. destruct (check_basis r X o) as [[]|] eqn:CB; [|discriminate]. cbn [bind] in H. apply check_basis_iff in CB.
      intros [|i] Hi; [exact CB|]. apply (proj1 (IH l ltac:(lia)) H). cbn in Hi. lia.
    + intros H. assert (CB : check_basis r X o = Ok tt) by (apply check_basis_iff; exact (H 0%nat ltac:(cbn; lia))).
      rewrite CB. cbn [bind]. apply IH; [lia|]. intros i Hi. exact (H (S i) ltac:(cbn; lia)).
Qed.
Lemma init_pair_iff rnd given l Xs rank mode pos v p :
  pf2_init_aux (N:=RNum) rnd given (ITuple l) Xs (PyInt rank) (PyInt mode) pos = Ok (v, p) <->
  good_pair Xs rank mode l /\ (exists basis c, l = [PSeq basis; c] /\ v = VMats (APf2 (map arr_mat basis) (arr_mat c))) /\ p = pos.
Proof.
  unfold pf2_init_aux, good_pair. destruct (Z.eqb_spec mode 1) as [M1|M1]; cbn [negb].
  2:{ split; [discriminate|]. intros ((K & _) & _). lia. }
  split.
  - intros H. destruct l as [|b [|c [|x l]]]; try discriminate.
    destruct b as [| |shb db|basis]; try discriminate. destruct c as [| |sh d|?]; try discriminate.
    destruct sh as [|r [|s [|x sh]]]; try discriminate.
    destruct (Nat.eqb_spec r s) as [E1|E1]; cbn [negb orb] in H; [|discriminate].
    destruct (Z.eqb_spec (Z.of_nat r) rank) as [E2|E2]; cbn [negb orb] in H; [|discriminate].
    destruct (check_bases r Xs basis) as [[]|] eqn:CB; [|discriminate]. cbn [bind] in H.
    destruct (Nat.eqb_spec (length basis) (length Xs)) as [E3|E3]; cbn [negb] in H; [|discriminate]. injection H as <- <-. subst s.
    split; [|split; [exists basis, (PArr [r; r] d); auto|reflexivity]]. split; [assumption|]. exists basis, r, d.
    split; [reflexivity|]. split; [assumption|]. split; [assumption|]. now apply check_bases_iff.
  - intros ((_ & basis & r & d & -> & Hr & HL & HF) & (basis' & c & EQ & ->) & ->). injection EQ as <- <-.
    rewrite Nat.eqb_refl, Hr, Z.eqb_refl. cbn [negb orb]. rewrite (proj2 (check_bases_iff r Xs basis HL) HF). cbn [bind].
    rewrite HL, Nat.eqb_refl. reflexivity.
Qed.
Lemma pf2_init_fits rnd given init Xs rank mode pos v p :
  pf2_init_aux (N:=RNum) rnd given init Xs (PyInt rank) (PyInt mode) pos = Ok (v, p) -> fits_mode Xs (Z.to_nat rank) mode v /\ is_pair v.
Proof.
  intros H. destruct init as [s|sh d|l|l|]; try discriminate.
  - unfold pf2_init_aux in H. destruct (Z.eqb_spec mode 1) as [M1|M1]; cbn [negb] in H; [|discriminate].
    destruct s; try discriminate.
    1,2: destruct given; cbn [negb] in H; [|discriminate];
      destruct (draw_mat _ _ _ _ _) as [[c q]|] eqn:HD; [|discriminate]; cbn [bind] in H;
      destruct (mapM _ Xs) as [l|] eqn:HM; [|discriminate]; cbn [bind] in H; injection H as <- <-;
      split; [|exact Logic.I]; split; [assumption|]; split; [eapply mapM_list_shaped; [|exact HM]; intros X M K; apply eye_ok in K; apply K|];
      apply draw_ok in HD; apply HD.
    destruct (zeros _ _) as [c|] eqn:HD; [|discriminate]. cbn [bind] in H.
    destruct (mapM _ Xs) as [l|] eqn:HM; [|discriminate]. cbn [bind] in H. injection H as <- <-.
    split; [|exact Logic.I]. split; [assumption|]. split; [eapply mapM_list_shaped; [|exact HM]; intros X M K; apply eye_ok in K; apply K|].
    apply zeros_ok in HD. apply HD.
  - apply init_pair_iff in H. destruct H as ((M1 & basis & r & d & -> & Hr & HL & HF) & (basis' & c & EQ & ->) & _). injection EQ as <- <-.
    split; [|exact Logic.I]. rewrite <- Hr, Nat2Z.id. split; [assumption|]. split; [|apply arr_mat_shaped].
    split; [now rewrite map_length|]. intros i Hi. destruct (HF i Hi) as (e & K & _).
    rewrite (nth_indep _ no_mat (arr_mat (N:=RNum) PNone)) by (rewrite map_length; lia). rewrite map_nth, K. apply arr_mat_shaped.
Qed.

(** possible errors *)
Lemma init_common_err rnd init Xs rank mode pos e : Xs <> [] ->
  init_common (N:=RNum) rnd init Xs rank mode pos = Err e ->
  e = TypeError \/ e = ValueError \/ (e = AttributeError /\ exists l, init = IList l).
Proof.
  intros NE H. unfold init_common in H. destruct rank as [rank|]; [|injection H as <-; auto]. destruct mode as [mode|]; [|injection H as <-; auto].
  destruct (negb _); [injection H as <-; auto|].
  assert (DR : forall d r c p e0, draw_mat (N:=RNum) rnd d r c p = Err e0 -> e0 = ValueError).
  { intros d r c p e0. unfold draw_mat. destruct (c <? 0)%Z; [|discriminate]. intros K. now injection K as <-. }
  assert (ZR : forall r c e0, zeros (N:=RNum) r c = Err e0 -> e0 = ValueError).
  { intros r c e0. unfold zeros. destruct (c <? 0)%Z; [|discriminate]. intros K. now injection K as <-. }
  assert (MS : forall d l p e0, mapS (fun X => draw_mat (N:=RNum) rnd d (mr X) rank) l p = Err e0 -> e0 = ValueError).
  { intros d l. induction l as [|X l IH]; intros p e0 K; cbn in K; [discriminate|].
    destruct (draw_mat rnd d (mr X) rank p) as [[M q]|] eqn:HD; cbn in K; [|injection K as <-; eauto].
    destruct (mapS _ l q) as [[M' q']|] eqn:HS; cbn in K; [discriminate|]. injection K as <-. eauto. }
  assert (MZ : forall l e0, mapM (fun X => zeros (N:=RNum) (mr X) rank) l = Err e0 -> e0 = ValueError).
  { intros l. induction l as [|X l IH]; intros e0 K; cbn in K; [discriminate|].
    destruct (zeros (mr X) rank) as [M|] eqn:HD; cbn in K; [|injection K as <-; eauto].
    destruct (mapM _ l) as [M'|] eqn:HS; cbn in K; [discriminate|]. injection K as <-. eauto. }
  destruct init as [s|sh d|l|l|]; try (injection H as <-; auto; fail).
  - rewrite first_cols_some in H by assumption. cbn [bind] in H.
    destruct s; try (injection H as <-; auto; fail);
    repeat match type of H with (if ?b then _ else _) = _ => destruct b end;
    match type of H with (let* _ := ?x in _) = _ => destruct x as [[? ?]|e0] eqn:HD || destruct x as [?|e0] eqn:HD end; cbn [bind] in H; try discriminate H;
    injection H as <-; right; left; eauto.
  - destruct (_ =? 1)%Z; [injection H as <-; auto|]. destruct sh as [|a [|b [|x sh]]]; try (injection H as <-; auto; fail).
    rewrite first_cols_some in H by assumption. cbn [bind] in H.
    repeat match type of H with (if ?b then _ else _) = _ => destruct b end; try discriminate H; injection H as <-; auto.
  - destruct (negb _); [injection H as <-; auto|].
    destruct (any_mismatch_short rank l (map mr Xs)) as [K|[K|K]]; rewrite K in H; cbn [bind] in H.
    + injection H as <-. auto.
    + destruct (negb _); [|discriminate]. injection H as <-. auto.
    + injection H as <-. right. right. split; [reflexivity|]. now exists l.
Qed.

(** generated variables *)
Lemma draw_drawn rnd s r rank pos : s <> Zeros -> (0 <= rank)%Z -> exists M p, draw_mat (N:=RNum) rnd (name_dist s) r rank pos = Ok (M, p) /\ drawn rnd s r (Z.to_nat rank) pos M p.
Proof.
  intros NZ Hr. unfold draw_mat. destruct (Z.ltb_spec rank 0) as [H|_]; [lia|]. eexists _, _. split; [reflexivity|].
  split; [split; [apply mwf_mbuild|now split]|]. destruct s; try congruence; (split; [reflexivity|]; intros i j Hi Hj; now rewrite mget_mbuild).
Qed.
Lemma zeros_drawn rnd r rank pos : (0 <= rank)%Z -> exists M, zeros (N:=RNum) r rank = Ok M /\ drawn rnd Zeros r (Z.to_nat rank) pos M pos.
Proof.
  intros Hr. unfold zeros. destruct (Z.ltb_spec rank 0) as [H|_]; [lia|]. eexists. split; [reflexivity|].
  split; [split; [apply mwf_mbuild|now split]|]. split; [reflexivity|]. intros i j Hi Hj. unfold mzeros. now rewrite mget_mbuild.
Qed.
Lemma draw_list_drawn rnd s rank : s <> Zeros -> (0 <= rank)%Z -> forall (Xs : list matR) pos, exists l p,
  mapS (fun X : matR => draw_mat (N:=RNum) rnd (name_dist s) (mr X) rank) Xs pos = Ok (l, p) /\ drawn_list rnd s (map mr Xs) (Z.to_nat rank) pos l p.
Proof.
  intros NZ Hr. induction Xs as [|X Xs IH]; intros pos; cbn [mapS map].
  - exists [], pos. now split.
  - destruct (draw_drawn rnd s (mr X) rank pos NZ Hr) as (M & q & E & D). rewrite E. cbn [bind].
    destruct (IH q) as (l & p & E' & D'). rewrite E'. cbn [bind]. exists (M :: l), p. split; [reflexivity|]. exists q. now split.
Qed.
Lemma zeros_list_drawn rnd rank : (0 <= rank)%Z -> forall (Xs : list matR) pos, exists l,
  mapM (fun X : matR => zeros (N:=RNum) (mr X) rank) Xs = Ok l /\ drawn_list rnd Zeros (map mr Xs) (Z.to_nat rank) pos l pos.
Proof.
  intros Hr. induction Xs as [|X Xs IH]; intros pos; cbn [mapM map].
  - exists []. now split.
  - destruct (zeros_drawn rnd (mr X) rank pos Hr) as (M & E & D). rewrite E. cbn [bind].
    destruct (IH pos) as (l & E' & D'). rewrite E'. cbn [bind]. exists (M :: l). split; [reflexivity|]. exists pos. now split.
Qed.
Lemma init_named rnd s Xs rank mode pos : Xs <> [] -> (0 <= rank)%Z -> s <> UnknownName ->
  match mode with
  | 0%Z => exists M p, init_common (N:=RNum) rnd (IStr s) Xs (PyInt rank) (PyInt 0) pos = Ok (VMat M, p) /\ drawn rnd s (length Xs) (Z.to_nat rank) pos M p
  | 1%Z => exists l p, init_common (N:=RNum) rnd (IStr s) Xs (PyInt rank) (PyInt 1) pos = Ok (VMats (AList l), p) /\ drawn_list rnd s (map mr Xs) (Z.to_nat rank) pos l p
  | 2%Z => exists M p, init_common (N:=RNum) rnd (IStr s) Xs (PyInt rank) (PyInt 2) pos = Ok (VMat M, p) /\ drawn rnd s (colsX Xs) (Z.to_nat rank) pos M p
  | _ => True
  end.
Proof.
  intros NE Hr NU.
  assert (A0 : exists M p, init_common (N:=RNum) rnd (IStr s) Xs (PyInt rank) (PyInt 0) pos = Ok (VMat M, p) /\ drawn rnd s (length Xs) (Z.to_nat rank) pos M p).
  { unfold init_common. cbn [Z.eqb orb negb Pos.eqb]. destruct s; try congruence.
    - destruct (draw_drawn rnd RandomUniform (length Xs) rank pos ltac:(discriminate) Hr) as (M & p & E & D). cbn [name_dist] in E. rewrite E. cbn. eauto.
    - destruct (draw_drawn rnd RandomStandardNormal (length Xs) rank pos ltac:(discriminate) Hr) as (M & p & E & D). cbn [name_dist] in E. rewrite E. cbn. eauto.
    - destruct (zeros_drawn rnd (length Xs) rank pos Hr) as (M & E & D). rewrite E. cbn. eauto. }
  assert (A2 : exists M p, init_common (N:=RNum) rnd (IStr s) Xs (PyInt rank) (PyInt 2) pos = Ok (VMat M, p) /\ drawn rnd s (colsX Xs) (Z.to_nat rank) pos M p).
  { unfold init_common. cbn [Z.eqb orb negb Pos.eqb]. rewrite first_cols_some by assumption. cbn [bind]. destruct s; try congruence.
    - destruct (draw_drawn rnd RandomUniform (colsX Xs) rank pos ltac:(discriminate) Hr) as (M & p & E & D). cbn [name_dist] in E. rewrite E. cbn. eauto.
    - destruct (draw_drawn rnd RandomStandardNormal (colsX Xs) rank pos ltac:(discriminate) Hr) as (M & p & E & D). cbn [name_dist] in E. rewrite E. cbn. eauto.
    - destruct (zeros_drawn rnd (colsX Xs) rank pos Hr) as (M & E & D). rewrite E. cbn. eauto. }
  assert (A1 : exists l p, init_common (N:=RNum) rnd (IStr s) Xs (PyInt rank) (PyInt 1) pos = Ok (VMats (AList l), p) /\ drawn_list rnd s (map mr Xs) (Z.to_nat rank) pos l p).
  { unfold init_common. cbn [Z.eqb orb negb Pos.eqb]. destruct s; try congruence.
    - destruct (draw_list_drawn rnd RandomUniform rank ltac:(discriminate) Hr Xs pos) as (M & p & E & D). cbn [name_dist] in E. rewrite E. cbn. eauto.
    - destruct (draw_list_drawn rnd RandomStandardNormal rank ltac:(discriminate) Hr Xs pos) as (M & p & E & D). cbn [name_dist] in E. rewrite E. cbn. eauto.
    - destruct (zeros_list_drawn rnd rank Hr Xs pos) as (M & E & D). rewrite E. cbn. eauto. }
  destruct mode as [|[| [|[]|] |]|]; auto.
Qed.
Lemma eye_list (rank : Z) (Xs : list matR) : (0 <= rank)%Z -> exists l, mapM (fun X : matR => eye (N:=RNum) (mr X) rank) Xs = Ok l /\
  length l = length Xs /\ forall i, (i < length Xs)%nat -> is_eye (rowsX Xs i) (Z.to_nat rank) (nthX l i).
Proof.
  intros Hr. induction Xs as [|X Xs (l & E & L & Hl)]; cbn [mapM].
  - exists []. split; [reflexivity|]. split; [reflexivity|]. intros i Hi. cbn in Hi. lia.
  - assert (E0 : exists M, eye (N:=RNum) (mr X) rank = Ok M /\ is_eye (mr X) (Z.to_nat rank) M).
    { unfold eye. destruct (Z.ltb_spec rank 0) as [H|_]; [lia|]. eexists. split; [reflexivity|]. split; [split; [apply mwf_mbuild|now split]|].
      intros i j Hi Hj. now rewrite mget_mbuild. }
    destruct E0 as (M & -> & HM). cbn [bind]. rewrite E. cbn [bind]. exists (M :: l). split; [reflexivity|]. split; [cbn; now rewrite L|].
    intros [|i] Hi; [exact HM|]. apply Hl. cbn in Hi. lia.
Qed.
Lemma pf2_named rnd s Xs rank pos : (0 <= rank)%Z -> s <> UnknownName ->
  exists P D p, pf2_init_aux (N:=RNum) rnd true (IStr s) Xs (PyInt rank) (PyInt 1) pos = Ok (VMats (APf2 P D), p) /\
    drawn rnd s (Z.to_nat rank) (Z.to_nat rank) pos D p /\ length P = length Xs /\
    forall i, (i < length Xs)%nat -> is_eye (rowsX Xs i) (Z.to_nat rank) (nthX P i).
Proof.
  intros Hr NU. unfold pf2_init_aux. cbn [Z.eqb negb Pos.eqb]. destruct (eye_list rank Xs Hr) as (P & EP & LP & HP). destruct s; try congruence.
  - destruct (draw_drawn rnd RandomUniform (Z.to_nat rank) rank pos ltac:(discriminate) Hr) as (M & p & E & D). cbn [name_dist] in E. rewrite E. cbn [bind].
    rewrite EP. cbn [bind]. eauto 10.
  - destruct (draw_drawn rnd RandomStandardNormal (Z.to_nat rank) rank pos ltac:(discriminate) Hr) as (M & p & E & D). cbn [name_dist] in E. rewrite E. cbn [bind].
    rewrite EP. cbn [bind]. eauto 10.
  - destruct (zeros_drawn rnd (Z.to_nat rank) rank pos Hr) as (M & E & D). rewrite E. cbn [bind]. rewrite EP. cbn [bind]. eauto 10.
Qed.

(** all penalties of all modes *)
Lemma mapS_Forall2 {A B} (f : A -> nat -> res (B * nat)) (Q : A -> B -> Prop) : (forall x pos y p, f x pos = Ok (y, p) -> Q x y) ->
  forall l pos ys p, mapS f l pos = Ok (ys, p) -> Forall2 Q l ys.
Proof.
  intros Hf. induction l as [|x l IH]; intros pos ys p H; cbn in H.
  - injection H as <- <-. constructor.
  - destruct (f x pos) as [[y q]|] eqn:E; [|discriminate]. cbn in H. destruct (mapS f l q) as [[zs q']|] eqn:E'; [|discriminate]. cbn in H.
    injection H as <- <-. constructor; [eapply Hf; eassumption|]. eapply IH; eassumption.
Qed.
Lemma initialize_Forall2 f (Xs : list matR) rank rA rB rC pos a b c p (Q : Z -> pobj -> auxval -> Prop) :
  (forall o m pos v q, f o Xs rank (PyInt m) pos = Ok (v, q) -> Q m o v) ->
  initialize (N:=RNum) f Xs rank (rA, rB, rC) pos = Ok (a, b, c, p) ->
  Forall2 (Q 0%Z) rA a /\ Forall2 (Q 1%Z) rB b /\ Forall2 (Q 2%Z) rC c.
Proof.
  intros Hf H. unfold initialize in H.
  destruct (mapS _ rA pos) as [[a' p1]|] eqn:E1; [|discriminate]. cbn [bind] in H.
  destruct (mapS _ rB p1) as [[b' p2]|] eqn:E2; [|discriminate]. cbn [bind] in H.
  destruct (mapS _ rC p2) as [[c' p3]|] eqn:E3; [|discriminate]. cbn [bind] in H. injection H as <- <- <- <-.
  split; [|split].
  - refine (mapS_Forall2 _ _ _ _ _ _ _ E1). intros x q y q'. apply Hf.
  - refine (mapS_Forall2 _ _ _ _ _ _ _ E2). intros x q y q'. apply Hf.
  - refine (mapS_Forall2 _ _ _ _ _ _ _ E3). intros x q y q'. apply Hf.
Qed.
