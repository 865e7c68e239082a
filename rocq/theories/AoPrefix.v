(** Raising the iteration limit extends the run (for any arithmetic). *)
From Coq Require Import Lia List Arith Bool ZArith.
From Verif Require Import Num Numpy Unimodal Penalties CoupledMatrices Decomp.
Import ListNotations.

Section Prefix.
Context {N : Num}.
Variables (E : ext) (P : params) (Xs : list mat).

Lemma loop_extend n : forall it s h k,
  ao_loop E P Xs (n + k) it s h =
  match ao_loop E P Xs n it s h with
  | Ok (s', h', it', MaxIter) => ao_loop E P Xs k it' s' h'
  | r => r
  end.
Proof.
  induction n as [|n IH]; intros it s h k; [reflexivity|]. cbn [ao_loop Nat.add].
  destruct (outer_step E P Xs s) as [s1|]; [|reflexivity]. cbn [bind]. cbv zeta.
  destruct (otruthy (p_tol P) || otruthy (p_abs_tol P) || p_return_errors P); [|apply IH].
  destruct (state_gaps s1) as [g|]; [|reflexivity]. cbn [bind]. cbn [h_errors h_gaps h_losses].
  match goal with |- context[if ?b then ao_loop _ _ _ _ _ _ _ else _] => destruct b end; [apply IH|].
  destruct (state_loss P Xs s1) as [l|]; [|reflexivity]. cbn [bind].
  destruct (p_tol P) as [t|]; [|apply IH]. destruct (ntruthy t); [|apply IH].
  destruct (p_abs_tol P) as [a|]; [|reflexivity].
  match goal with |- context[if ?b then _ else _] => destruct b end; [reflexivity|].
  match goal with |- context[if ?b then _ else _] => destruct b end; [reflexivity|]. apply IH.
Qed.
(** Histories only grow. *)
Definition extends {A} (l l' : list A) : Prop := exists m, l' = l ++ m.
Lemma extends_refl {A} (l : list A) : extends l l. Proof. exists []. now rewrite app_nil_r. Qed.
Lemma extends_trans {A} (l m n : list A) : extends l m -> extends m n -> extends l n.
Proof. intros (a & ->) (b & ->). exists (a ++ b). now rewrite app_assoc. Qed.
Lemma extends_app {A} (l m : list A) : extends l (l ++ m). Proof. now exists m. Qed.
Definition h_extends (h h' : hist) : Prop :=
  extends (h_errors h) (h_errors h') /\ extends (h_gaps h) (h_gaps h') /\ extends (h_losses h) (h_losses h').
Lemma h_extends_trans h h1 h2 : h_extends h h1 -> h_extends h1 h2 -> h_extends h h2.
Proof. intros (A1 & A2 & A3) (B1 & B2 & B3). split; [|split]; eapply extends_trans; eassumption. Qed.
Lemma loop_grows n : forall it s h s' h' it' msg, ao_loop E P Xs n it s h = Ok (s', h', it', msg) -> h_extends h h' /\ it <= it'.
Proof.
  induction n as [|n IH]; intros it s h s' h' it' msg H; cbn [ao_loop] in H.
  - injection H as <- <- <- <-. split; [|lia]. split; [|split]; apply extends_refl.
  - destruct (outer_step E P Xs s) as [s1|]; [|discriminate]. cbn [bind] in H. cbv zeta in H.
    assert (K : forall h1, h_extends h h1 -> ao_loop E P Xs n (S it) s1 h1 = Ok (s', h', it', msg) -> h_extends h h' /\ it <= it').
    { intros h1 X Y. destruct (IH _ _ _ _ _ _ _ Y) as (Z1 & Z2). split; [eapply h_extends_trans; eassumption|lia]. }
    destruct (otruthy (p_tol P) || otruthy (p_abs_tol P) || p_return_errors P).
    2:{ apply (K h); [|exact H]. split; [|split]; apply extends_refl. }
    destruct (state_gaps s1) as [g|]; [|discriminate]. cbn [bind] in H. cbn [h_errors h_gaps h_losses] in H.
    match type of H with context[if ?b then ao_loop _ _ _ _ _ _ _ else _] => destruct b end.
    { eapply K; [|exact H]. split; [|split]; cbn; [apply extends_refl|apply extends_app|apply extends_refl]. }
    destruct (state_loss P Xs s1) as [l|]; [|discriminate]. cbn [bind] in H.
    set (h2 := Hist _ _ _) in H. assert (X2 : h_extends h h2) by (split; [|split]; cbn; apply extends_app).
    destruct (p_tol P) as [t|]; [|now apply (K h2)]. destruct (ntruthy t); [|now apply (K h2)].
    destruct (p_abs_tol P) as [a|]; [|discriminate].
    match type of H with context[if ?b then _ else _] => destruct b end; [injection H as <- <- <- <-; split; [assumption|lia]|].
    match type of H with context[if ?b then _ else _] => destruct b end; [injection H as <- <- <- <-; split; [assumption|lia]|]. now apply (K h2).
Qed.

(** Whole runs *)
Lemma run_extend (M M' : Z) s s' od : (M <= M')%Z -> run E P Xs M s = Ok (s', od) ->
  (run E P Xs M' s = run E P Xs M s /\ (forall d, od = Some d -> d_message d <> MaxIter)) \/
  (forall d, od = Some d -> d_message d = MaxIter /\ forall s'' od', run E P Xs M' s = Ok (s'', od') ->
     exists d', od' = Some d' /\ extends (d_errors d) (d_errors d') /\ extends (d_gaps d) (d_gaps d') /\
       extends (d_losses d) (d_losses d') /\ d_n_iter d <= d_n_iter d').
Proof.
  intros HM H. assert (EN : exists k, Z.to_nat M' = Z.to_nat M + k) by (exists (Z.to_nat M' - Z.to_nat M); lia). destruct EN as (k & EN).
  unfold run in *. destruct (init_hist P Xs s) as [h0|]; [|discriminate]. cbn [bind] in *.
  rewrite EN, loop_extend. destruct (ao_loop E P Xs (Z.to_nat M) 0 s h0) as [[[[s1 h1] it1] msg]|] eqn:HL; [|discriminate].
  destruct msg.
  - right. intros d ->.
    cbn [bind] in H.
    destruct (p_return_errors P) eqn:RE.
    2:{ exfalso. destruct (match p_feas_tol P with Some _ => _ | None => _ end); [|discriminate]. cbn [bind] in H.
        destruct (revalidate (st_cmf s1)); discriminate. }
    destruct (match p_feas_tol P with Some _ => _ | None => _ end); [|discriminate]. cbn [bind] in H.
    destruct (revalidate (st_cmf s1)); [|discriminate]. cbn [bind] in H. injection H as _ <-. cbn [d_message d_errors d_gaps d_losses d_n_iter].
    split; [reflexivity|]. intros s'' od' H.
    destruct (ao_loop E P Xs k it1 s1 h1) as [[[[s2 h2] it2] msg2]|] eqn:HL2; [|discriminate]. cbn [bind] in H.
    destruct (match p_feas_tol P with Some _ => _ | None => _ end); [|discriminate]. cbn [bind] in H.
    destruct (revalidate (st_cmf s2)); [|discriminate]. cbn [bind] in H. injection H as _ <-.
    eexists. split; [reflexivity|]. cbn [d_message d_errors d_gaps d_losses d_n_iter].
    destruct (loop_grows _ _ _ _ _ _ _ _ HL2) as ((X1 & X2 & X3) & X4). now repeat (split; [assumption|]).
  - left. split; [reflexivity|]. intros d ->. cbn [bind] in H.
    destruct (match p_feas_tol P with Some _ => _ | None => _ end); [|discriminate]. cbn [bind] in H.
    destruct (revalidate (st_cmf s1)); [|discriminate]. cbn [bind] in H. destruct (p_return_errors P); [|discriminate].
    injection H as _ <-. discriminate.
  - left. split; [reflexivity|]. intros d ->. cbn [bind] in H.
    destruct (match p_feas_tol P with Some _ => _ | None => _ end); [|discriminate]. cbn [bind] in H.
    destruct (revalidate (st_cmf s1)); [|discriminate]. cbn [bind] in H. destruct (p_return_errors P); [|discriminate].
    injection H as _ <-. discriminate.
Qed.
End Prefix.
