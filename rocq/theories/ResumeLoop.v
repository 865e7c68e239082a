(** Splitting a run in two (for any arithmetic). *)
From Coq Require Import Lia List Arith Bool ZArith.
From Verif Require Import Num Numpy Unimodal Penalties CoupledMatrices Decomp AoPrefix.
Import ListNotations.

Section Split.
Context {N : Num}.
Variables (E : ext) (P : params) (Xs : list mat).

(** A state without the intermediate results *)
Definition noi (s : state) : state := St (st_cmf s) (st_rA s) (st_rB s) (st_rC s) None.
Lemma outer_noi s : outer_step E P Xs (noi s) = outer_step E P Xs s.
Proof. destruct s. reflexivity. Qed.
Lemma loop_noi k it s h : ao_loop E P Xs (S k) it (noi s) h = ao_loop E P Xs (S k) it s h.
Proof. cbn [ao_loop]. now rewrite outer_noi. Qed.
Lemma gaps_noi s : state_gaps (noi s) = state_gaps s.
Proof. destruct s. reflexivity. Qed.

Definition notol : Prop := otruthy (p_tol P) = false /\ otruthy (p_abs_tol P) = false.
Lemma notol_tol t : otruthy (p_tol P) = false -> p_tol P = Some t -> ntruthy t = false.
Proof. intros H E0. rewrite E0 in H. exact H. Qed.
Lemma notol_max n : forall it s h s' h' it' msg, notol -> ao_loop E P Xs n it s h = Ok (s', h', it', msg) -> msg = MaxIter.
Proof.
  induction n as [|n IH]; intros it s h s' h' it' msg HN H; cbn [ao_loop] in H; [now injection H|].
  destruct (outer_step E P Xs s) as [s1|]; [|discriminate]. cbn [bind] in H. cbv zeta in H. pose proof HN as (T1 & T2). rewrite T1, T2 in H. cbn [orb andb] in H.
  destruct (p_return_errors P); [|now apply IH in H]. destruct (state_gaps s1); [|discriminate]. cbn [bind] in H.
  destruct (state_loss P Xs s1); [|discriminate]. cbn [bind] in H. destruct (p_tol P) as [t|] eqn:ET; [|now apply IH in H].
  cbn [otruthy] in T1. rewrite T1 in H. now apply IH in H.
Qed.
Definition hplus (h : hist) (x : list xnum) (y : list gaps) (z : list xnum) : hist := Hist (h_errors h ++ x) (h_gaps h ++ y) (h_losses h ++ z).
Lemma hplus_nil h : hplus h [] [] [] = h.
Proof. destruct h. unfold hplus. cbn. now rewrite !app_nil_r. Qed.
Lemma hplus_plus h x y z x' y' z' : hplus (hplus h x y z) x' y' z' = hplus h (x ++ x') (y ++ y') (z ++ z').
Proof. unfold hplus. cbn. now rewrite !app_assoc. Qed.

(** The loop depends on its past only through the last loss. *)
Lemma loop_shift k : forall it it2 s h h2, (p_return_errors P = true /\ last_x (h_losses h) = last_x (h_losses h2)) \/ notol ->
  match ao_loop E P Xs k it2 s h2 with
  | Ok (s', h2', it2', msg) => exists x y z d, h2' = hplus h2 x y z /\ it2' = it2 + d /\ ao_loop E P Xs k it s h = Ok (s', hplus h x y z, it + d, msg)
  | Err e => ao_loop E P Xs k it s h = Err e
  end.
Proof.
  induction k as [|k IH]; intros it it2 s h h2 HR; cbn [ao_loop].
  - exists [], [], [], 0. rewrite !hplus_nil, !Nat.add_0_r. auto.
  - destruct (outer_step E P Xs s) as [s1|e]; [|reflexivity]. cbn [bind]. cbv zeta.
    assert (GO : forall x y z, (p_return_errors P = true /\ last_x (h_losses (hplus h x y z)) = last_x (h_losses (hplus h2 x y z))) \/ notol ->
      match ao_loop E P Xs k (S it2) s1 (hplus h2 x y z) with
      | Ok (s', h2', it2', msg) => exists x1 y1 z1 d, h2' = hplus h2 x1 y1 z1 /\ it2' = it2 + d /\ ao_loop E P Xs k (S it) s1 (hplus h x y z) = Ok (s', hplus h x1 y1 z1, it + d, msg)
      | Err e => ao_loop E P Xs k (S it) s1 (hplus h x y z) = Err e
      end).
    { intros x y z HL'. specialize (IH (S it) (S it2) s1 (hplus h x y z) (hplus h2 x y z) HL').
      destruct (ao_loop E P Xs k (S it2) s1 (hplus h2 x y z)) as [[[[s' h2'] it2'] msg]|e]; [|exact IH].
      destruct IH as (x' & y' & z' & d & -> & -> & E1). exists (x ++ x'), (y ++ y'), (z ++ z'), (S d). rewrite <- !hplus_plus. split; [reflexivity|]. split; [lia|].
      rewrite E1. now rewrite Nat.add_succ_r. }
    assert (NIL : match ao_loop E P Xs k (S it2) s1 h2 with
      | Ok (s', h2', it2', msg) => exists x1 y1 z1 d, h2' = hplus h2 x1 y1 z1 /\ it2' = it2 + d /\ ao_loop E P Xs k (S it) s1 h = Ok (s', hplus h x1 y1 z1, it + d, msg)
      | Err e => ao_loop E P Xs k (S it) s1 h = Err e
      end).
    { specialize (GO [] [] []). rewrite !hplus_nil in GO. now apply GO. }
    destruct (otruthy (p_tol P) || otruthy (p_abs_tol P) || p_return_errors P) eqn:ANY; [|exact NIL].
    destruct (state_gaps s1) as [g|e]; [|reflexivity]. cbn [bind].
    assert (NG : forall f, (otruthy (p_tol P) || otruthy (p_abs_tol P)) && f && negb (p_return_errors P) = false).
    { intros f. destruct HR as [(-> & _)|(-> & ->)]; [apply andb_false_r|reflexivity]. }
    rewrite !NG. destruct (state_loss P Xs s1) as [l|e]; [|reflexivity]. cbn [bind h_errors h_gaps h_losses].
    change (Hist (h_errors h2 ++ [state_error Xs s1]) (h_gaps h2 ++ [g]) (h_losses h2 ++ [l])) with (hplus h2 [state_error Xs s1] [g] [l]).
    change (Hist (h_errors h ++ [state_error Xs s1]) (h_gaps h ++ [g]) (h_losses h ++ [l])) with (hplus h [state_error Xs s1] [g] [l]).
    assert (G1 := GO [state_error Xs s1] [g] [l]). unfold hplus at 1 2 in G1. cbn [h_losses] in G1. unfold last_x at 1 2 in G1. rewrite !last_last in G1. specialize (G1 ltac:(destruct HR as [(HR & _)|HR]; [left; now split|now right])).
    destruct (p_tol P) as [t|] eqn:ET; [|exact G1]. destruct (ntruthy t) eqn:TT; [|exact G1].
    assert (HL : last_x (h_losses h) = last_x (h_losses h2)).
    { destruct HR as [(_ & HL)|(HL & _)]; [exact HL|]. rewrite ET in HL. cbn in HL. congruence. }
    destruct (p_abs_tol P) as [ab|]; [|reflexivity]. rewrite HL.
    assert (ST : forall msg : message, exists x y z d, hplus h2 [state_error Xs s1] [g] [l] = hplus h2 x y z /\ S it2 = it2 + d /\
       @Ok (state * hist * nat * message) (s1, hplus h [state_error Xs s1] [g] [l], S it, msg) = Ok (s1, hplus h x y z, it + d, msg)).
    { intros msg. exists [state_error Xs s1], [g], [l], 1. split; [reflexivity|]. split; [lia|]. now rewrite Nat.add_1_r. }
    match goal with |- context[if ?b then _ else _] => destruct b end; [apply ST|].
    match goal with |- context[if ?b then _ else _] => destruct b end; [apply ST|exact G1].
Qed.

(** With [return_errors] the histories end with the values of the current state. *)
Definition ends_at (s : state) (h : hist) : Prop :=
  exists x y z g l, state_gaps s = Ok g /\ state_loss P Xs s = Ok l /\ h = Hist (x ++ [state_error Xs s]) (y ++ [g]) (z ++ [l]).
Lemma init_ends s h : init_hist P Xs s = Ok h -> ends_at s h.
Proof.
  unfold init_hist. cbv zeta. destruct (state_loss P Xs s) as [l|] eqn:EL; [|discriminate]. cbn [bind]. destruct (state_gaps s) as [g|] eqn:EG; [|discriminate]. cbn [bind]. intros H. injection H as <-.
  exists [], [], [], g, l. auto.
Qed.
Lemma loop_ends n : forall it s h s' h' it' msg, p_return_errors P = true -> ends_at s h -> ao_loop E P Xs n it s h = Ok (s', h', it', msg) -> ends_at s' h'.
Proof.
  induction n as [|n IH]; intros it s h s' h' it' msg HR HE H; cbn [ao_loop] in H; [now injection H as <- <- <- <-|].
  destruct (outer_step E P Xs s) as [s1|]; [|discriminate]. cbn [bind] in H. cbv zeta in H. rewrite HR in H. rewrite orb_true_r in H. cbn [negb] in H.
  destruct (state_gaps s1) as [g|] eqn:EG; [|discriminate]. cbn [bind] in H. rewrite !andb_false_r in H. destruct (state_loss P Xs s1) as [l|] eqn:EL; [|discriminate]. cbn [bind h_errors h_gaps h_losses] in H.
  set (h2 := Hist _ _ _) in H. assert (E2 : ends_at s1 h2) by (do 5 eexists; split; [exact EG|]; split; [exact EL|]; reflexivity). clearbody h2.
  destruct (p_tol P) as [t|]; [|now apply (IH _ _ _ _ _ _ _ HR E2 H)]. destruct (ntruthy t); [|now apply (IH _ _ _ _ _ _ _ HR E2 H)].
  destruct (p_abs_tol P) as [ab|]; [|discriminate].
  match type of H with (if ?b then _ else _) = _ => destruct b end; [now injection H as <- <- _ _|].
  match type of H with (if ?b then _ else _) = _ => destruct b end; [now injection H as <- <- _ _|]. now apply (IH _ _ _ _ _ _ _ HR E2 H).
Qed.
(** Starting without the intermediate results makes no difference. *)
Lemma loop_noi_res k it s h :
  match ao_loop E P Xs k it (noi s) h with
  | Ok (s', h', it', msg) => exists s2, noi s2 = noi s' /\ ao_loop E P Xs k it s h = Ok (s2, h', it', msg)
  | Err e => ao_loop E P Xs k it s h = Err e
  end.
Proof.
  destruct k as [|k]; [exists s; destruct s; auto|]. rewrite loop_noi. destruct (ao_loop E P Xs (S k) it s h) as [[[[s' h'] it'] msg]|e]; [exists s'; auto|reflexivity].
Qed.
End Split.
