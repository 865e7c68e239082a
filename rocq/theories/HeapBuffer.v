(** What the caller's array and list hold after an update. *)
From Coq Require Import List Arith Bool ZArith Lia.
From Verif Require Import Num Numpy Penalties CoupledMatrices Decomp Heap HeapSpec HeapFrame HeapRefine.
Import ListNotations.

Section Buffer.
Context {N : Num}.
Implicit Types (h : heap N) (s : hstate N).

(** [n] inner iterations without a convergence check *)
Fixpoint iterate {S} (step : S -> res S) (n : nat) (x : S) : res S :=
  match n with O => Ok x | Datatypes.S k => let* y := step x in iterate step k y end.
Lemma two_ind (Q : nat -> Prop) : Q 0 -> Q 1 -> (forall n, Q n -> Q (S (S n))) -> forall n, Q n.
Proof. intros H0 H1 Hs n. assert (Q n /\ Q (S n)) as [H _]; [|exact H]. induction n as [|n [IH1 IH2]]; auto. Qed.
Lemma half_S n : 2 * (S (S n) / 2) = S (S (2 * (n / 2))).
Proof. replace (S (S n)) with (n + 1 * 2) by lia. rewrite Nat.div_add by lia. lia. Qed.

Lemma thenc_ok {A B} (c : cmd A) (k : A -> cmd B) h y h' : thenc c k h = (Ok y, h') -> exists x h1, c h = (Ok x, h1) /\ k x h1 = (Ok y, h').
Proof. unfold thenc. destruct (c h) as [[x|e] h1]; [eauto|discriminate]. Qed.

(** one iteration with the buffers [a] (current) and [old] (to be written) *)
Lemma step_facts E constant svds fps rhses r c a old regs h regs' h1 : (constant = false -> length fps = r) ->
  loop_sep constant h a old regs r c -> hA_step E constant svds fps rhses old regs h = (Ok regs', h1) ->
  A_step E constant svds fps rhses (h_arr h a, map (view h) regs) = Ok (h_arr h1 old, map (view h1) regs') /\
  h_arr h1 a = h_arr h a /\ loop_sep constant h1 old a regs' r c.
Proof.
  intros Hf [Hao [Ha [Ho [HA [HO [Hwa [Hwo Hs]]]]]]] Hst.
  pose proof (hA_step_agree E constant svds fps rhses old regs h r c (h_arr h a) Ho HO HA Hwo Hs Hf) as Hag. rewrite Hst in Hag.
  destruct (A_step _ _ _ _ _ _) as [[A1 ms]|e]; [|contradiction]. cbn in Hag. destruct Hag as [H1 [H2 [H3 [H4 [H5 H6]]]]]. subst A1 ms.
  assert (h_arr h1 a = h_arr h a) as Ha1.
  { apply H5; [exact Ha|exact Hao|]. intros _ Hi. rewrite in_map_iff in Hi. destruct Hi as [g [Hg1 Hg2]]. rewrite Forall_forall in Hwa.
    destruct (Hwa g Hg2) as [_ [_ [Hg3 _]]]. exact (Hg3 Hg1). }
  assert (h_next h <= h_next h1) as Hn by apply H5.
  split; [reflexivity|]. split; [exact Ha1|]. split; [congruence|]. split; [lia|]. split; [lia|]. split; [exact H3|]. split; [rewrite Ha1; exact HA|].
  split; [eapply away_after; eassumption|]. split; [eapply away_after; eassumption|]. eapply sepr_after; eassumption.
Qed.
Lemma hA_loop_S E constant svds fps rhses k a old regs h out h' :
  hA_loop E constant svds fps rhses None (S k) a old regs h = (Ok out, h') ->
  exists regs1 h1, hA_step E constant svds fps rhses old regs h = (Ok regs1, h1) /\ hA_loop E constant svds fps rhses None k old a regs1 h1 = (Ok out, h').
Proof.
  cbn [hA_loop]. intros H. apply thenc_ok in H. destruct H as [regs1 [h1 [H1 H2]]]. exists regs1, h1. split; [exact H1|]. exact H2.
Qed.
Lemma hA_loop_holds E constant svds fps rhses r c (Hf : constant = false -> length fps = r) n : forall a old regs h out h',
  loop_sep constant h a old regs r c -> hA_loop E constant svds fps rhses None n a old regs h = (Ok out, h') ->
  exists ms, iterate (A_step E constant svds fps rhses) (2 * (n / 2)) (h_arr h a, map (view h) regs) = Ok (h_arr h' a, ms).
Proof.
  induction n as [| |n IH] using two_ind; intros a old regs h out h' Hl H.
  - cbn in H. injection H as _ <-. eexists. reflexivity.
  - apply hA_loop_S in H. destruct H as [regs1 [h1 [H1 H2]]]. cbn in H2. injection H2 as _ <-.
    destruct (step_facts _ _ _ _ _ _ _ _ _ _ _ _ _ Hf Hl H1) as [_ [Ha _]]. rewrite Ha. eexists. reflexivity.
  - apply hA_loop_S in H. destruct H as [regs1 [h1 [H1 H]]]. apply hA_loop_S in H. destruct H as [regs2 [h2 [H2 H3]]].
    destruct (step_facts _ _ _ _ _ _ _ _ _ _ _ _ _ Hf Hl H1) as [Hs1 [Ha1 Hl1]].
    destruct (step_facts _ _ _ _ _ _ _ _ _ _ _ _ _ Hf Hl1 H2) as [Hs2 [Ha2 Hl2]].
    destruct (IH _ _ _ _ _ _ Hl2 H3) as [ms Hms]. exists ms. rewrite half_S. cbn [iterate]. rewrite Hs1. cbn [bind]. rewrite Hs2. cbn [bind]. exact Hms.
Qed.
Lemma hB_step_facts E svds fps rhses b old regs h regs' h1 : b <> old -> length (h_lst h b) = length (h_lst h old) ->
  hB_step E svds fps rhses old regs h = (Ok regs', h1) ->
  B_step E svds fps rhses (h_lst h b, regs) = Ok (h_lst h1 old, regs') /\ h_lst h1 b = h_lst h b /\ length (h_lst h1 old) = length (h_lst h1 b).
Proof.
  intros Hbo Hl Hst. pose proof (hB_step_agree E svds fps rhses old regs h (h_lst h b) Hl) as Hag. rewrite Hst in Hag.
  destruct (B_step _ _ _ _ _) as [[Bs1 ms]|e]; [|contradiction]. cbn in Hag. destruct Hag as [H1 [H2 [H3 [H4 [H5 H6]]]]]. subst Bs1 ms.
  split; [reflexivity|]. split; [apply H6; exact Hbo|]. rewrite (H6 b Hbo). congruence.
Qed.
Lemma hB_loop_S E svds fps rhses k b old regs h out h' :
  hB_loop E svds fps rhses None (S k) b old regs h = (Ok out, h') ->
  exists regs1 h1, hB_step E svds fps rhses old regs h = (Ok regs1, h1) /\ hB_loop E svds fps rhses None k old b regs1 h1 = (Ok out, h').
Proof.
  cbn [hB_loop]. intros H. apply thenc_ok in H. destruct H as [regs1 [h1 [H1 H2]]]. exists regs1, h1. split; [exact H1|]. exact H2.
Qed.
Lemma hB_loop_holds E svds fps rhses n : forall b old regs h out h', b <> old -> length (h_lst h b) = length (h_lst h old) ->
  hB_loop E svds fps rhses None n b old regs h = (Ok out, h') ->
  exists ms, iterate (B_step E svds fps rhses) (2 * (n / 2)) (h_lst h b, regs) = Ok (h_lst h' b, ms).
Proof.
  induction n as [| |n IH] using two_ind; intros b old regs h out h' Hbo Hl H.
  - cbn in H. injection H as _ <-. eexists. reflexivity.
  - apply hB_loop_S in H. destruct H as [regs1 [h1 [H1 H2]]]. cbn in H2. injection H2 as _ <-.
    destruct (hB_step_facts _ _ _ _ _ _ _ _ _ _ Hbo Hl H1) as [_ [Ha _]]. rewrite Ha. eexists. reflexivity.
  - apply hB_loop_S in H. destruct H as [regs1 [h1 [H1 H]]]. apply hB_loop_S in H. destruct H as [regs2 [h2 [H2 H3]]].
    destruct (hB_step_facts _ _ _ _ _ _ _ _ _ _ Hbo Hl H1) as [Hs1 [Ha1 Hl1]].
    assert (old <> b) as Hob by congruence.
    destruct (hB_step_facts _ _ _ _ _ _ _ _ _ _ Hob Hl1 H2) as [Hs2 [Ha2 Hl2]].
    destruct (IH _ _ _ _ _ _ Hbo Hl2 H3) as [ms Hms]. exists ms. rewrite half_S. cbn [iterate]. rewrite Hs1. cbn [bind]. rewrite Hs2. cbn [bind]. exact Hms.
Qed.
Lemma loop_iterate_A (step : mat * list mreg -> res (mat * list mreg)) n x : inner_loop step (conv_mat None) n x = iterate step n x.
Proof. revert x. induction n as [|n IH]; intros x; cbn [inner_loop iterate]; [reflexivity|]. destruct (step x); cbn [bind]; [apply IH|reflexivity]. Qed.
Lemma loop_iterate_B (step : list mat * list breg -> res (list mat * list breg)) n x : inner_loop step (conv_list None) n x = iterate step n x.
Proof. revert x. induction n as [|n IH]; intros x; cbn [inner_loop iterate]; [reflexivity|]. destruct (step x); cbn [bind]; [apply IH|reflexivity]. Qed.
End Buffer.
