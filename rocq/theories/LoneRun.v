(** Runs that update one mode: n outer iterations of m inner iterations are one update
    with n * m inner iterations. *)
From Coq Require Import Reals Lra Lia List Arith Bool ZArith.
From Verif Require Import Num Numpy RFacts Spec SpecFacts MatFacts ModelSpec Penalties PenaltySpec CoupledMatrices CmfSpec Decomp DecompSpec
  DecompFacts AoState AoLoop AoRun TotalRun CmfProofs P03_CoupledMatrices P05_Runs.
Import ListNotations.
Local Open Scope R_scope.

(** A tolerance for the inner iterations that is never reached. *)
Definition never_settles (t : option R) : Prop := match t with None => True | Some x => x <= 0 end.
Lemma inner_conv_never t norm change gs : never_settles t -> inner_conv (N:=RNum) t norm change gs = Ok false.
Proof.
  unfold inner_conv. destruct t as [x|]; [|reflexivity]. cbn [never_settles]. intros H.
  destruct (negb (ntruthy (N:=RNum) x) || nltb (N:=RNum) x n0)%bool eqn:B; [reflexivity|]. exfalso. apply orb_false_elim in B as (B1 & B2).
  apply negb_false_iff in B1. apply ntruthy_R in B1. apply (nltb_false x 0) in B2. lra.
Qed.
Lemma inner_never {S} (step : S -> res S) (conv : S -> S -> res bool) : (forall a b, conv a b = Ok false) ->
  forall n m s, inner_loop step conv (n + m) s = bind (inner_loop step conv n s) (inner_loop step conv m).
Proof.
  intros HC n. induction n as [|n IH]; intros m s; [reflexivity|]. cbn [Nat.add inner_loop]. destruct (step s) as [s'|]; [|reflexivity]. cbn [bind].
  rewrite HC. cbn [bind]. apply IH.
Qed.
Lemma inner_same {S} (step : S -> res S) (conv conv' : S -> S -> res bool) : (forall a b, conv a b = conv' a b) ->
  forall n s, inner_loop step conv n s = inner_loop step conv' n s.
Proof.
  intros HC n. induction n as [|n IH]; intros s; [reflexivity|]. cbn [inner_loop]. destruct (step s) as [s'|]; [|reflexivity]. cbn [bind].
  rewrite HC. destruct (conv' s s') as [b|]; [|reflexivity]. cbn [bind]. destruct b; [reflexivity|apply IH].
Qed.
Lemma inner_keeps {S} (step : S -> res S) (conv : S -> S -> res bool) (Q : S -> Prop) : (forall a b, Q a -> step a = Ok b -> Q b) ->
  forall n s s', Q s -> inner_loop step conv n s = Ok s' -> Q s'.
Proof.
  intros HS n. induction n as [|n IH]; intros s s' H E; cbn [inner_loop] in E; [now injection E as <-|].
  destruct (step s) as [s1|] eqn:E1; [|discriminate]. cbn [bind] in E. destruct (conv s s1) as [b|]; [|discriminate]. cbn [bind] in E.
  pose proof (HS _ _ H E1). destruct b; [now injection E as <-|]. eapply IH; eauto.
Qed.
Lemma mapM_len {A B} (f : A -> res B) : forall l m, mapM f l = Ok m -> length m = length l.
Proof.
  induction l as [|x l IH]; intros m H; cbn [mapM] in H; [now injection H as <-|].
  destruct (f x) as [y|]; [|discriminate]. cbn [bind] in H. destruct (mapM f l) as [m'|]; [|discriminate]. cbn [bind] in H. injection H as <-. cbn. f_equal. now apply IH.
Qed.

Section Chains.
Variables (E : ext (N:=RNum)) (Xs : list matR).
Lemma C_without_tol c regs l2 n tol scale : never_settles tol ->
  admm_update_C E Xs c regs l2 n tol scale = admm_update_C E Xs c regs l2 n None scale.
Proof.
  intros H. unfold admm_update_C. destruct (msum_list _); [|reflexivity]. destruct (msum_list _); [|reflexivity]. cbv zeta.
  erewrite inner_same; [reflexivity|]. intros a b. unfold conv_mat. rewrite !inner_conv_never by (assumption || exact I). reflexivity.
Qed.
Lemma A_without_tol c regs l2 n tol scale k : never_settles tol ->
  admm_update_A E Xs c regs l2 n tol scale k = admm_update_A E Xs c regs l2 n None scale k.
Proof.
  intros H. unfold admm_update_A. cbv zeta. destruct (feas_penalties _ _ _) as [fps|]; [|reflexivity]. cbn [bind].
  erewrite inner_same; [reflexivity|]. intros a b. unfold conv_mat. rewrite !inner_conv_never by (assumption || exact I). reflexivity.
Qed.
Lemma B_without_tol c regs l2 n tol scale k : never_settles tol ->
  admm_update_B E Xs c regs l2 n tol scale k = admm_update_B E Xs c regs l2 n None scale k.
Proof.
  intros H. unfold admm_update_B. cbv zeta. destruct (feas_penalties _ _ _) as [fps|]; [|reflexivity]. cbn [bind].
  erewrite inner_same; [reflexivity|]. intros a b. unfold conv_list. rewrite !inner_conv_never by (assumption || exact I). reflexivity.
Qed.
(** Updating twice, with n and with m inner iterations, is updating with n + m. *)
Lemma C_twice c regs l2 n m scale c1 r1 : admm_update_C E Xs c regs l2 n None scale = Ok (c1, r1) ->
  admm_update_C E Xs c1 r1 l2 m None scale = admm_update_C E Xs c regs l2 (n + m) None scale /\ cA c1 = cA c /\ cBs c1 = cBs c.
Proof.
  unfold admm_update_C. destruct (msum_list (C_lhs_terms Xs (cBs c) (cA c))) as [lhs|] eqn:El; [|discriminate].
  destruct (msum_list (C_rhs_terms Xs (cBs c) (cA c))) as [rhs|] eqn:Er; [|discriminate]. cbv zeta.
  rewrite inner_never by (intros; now apply inner_conv_never).
  destruct (inner_loop _ _ n (cC c, regs)) as [[C1 r]|] eqn:EI; [|discriminate]. cbn [bind]. intros H. injection H as <- <-. cbn [cA cBs cC]. rewrite El, Er.
  assert (L : length r = length regs).
  { refine (inner_keeps _ _ (fun s => length (snd s) = length regs) _ n _ _ _ EI); [|reflexivity].
    intros [C2 r2] [C3 r3] H H1. cbn [snd] in *. unfold C_step in H1. destruct (shifted_mats r2); [|discriminate]. cbn [bind] in H1.
    destruct (solve_mat _ _); [|discriminate]. cbn [bind] in H1. destruct (mapM _ r2) as [r4|] eqn:EM; [|discriminate]. cbn [bind] in H1. injection H1 as <- <-. apply mapM_len in EM. congruence. }
  rewrite L. auto.
Qed.
Lemma A_twice c regs l2 n m scale k c1 r1 i1 : admm_update_A E Xs c regs l2 n None scale k = Ok (c1, r1, i1) ->
  admm_update_A E Xs c1 r1 l2 m None scale k = admm_update_A E Xs c regs l2 (n + m) None scale k /\ cBs c1 = cBs c /\ cC c1 = cC c.
Proof.
  unfold admm_update_A. cbv zeta. destruct (feas_penalties _ _ _) as [fps|] eqn:EF; [|discriminate]. cbn [bind].
  rewrite inner_never by (intros; now apply inner_conv_never).
  destruct (inner_loop _ _ n (cA c, regs)) as [[C1 r]|] eqn:EI; [|discriminate]. cbn [bind]. intros H. injection H as <- <- <-. cbn [cA cBs cC]. rewrite EF. cbn [bind].
  assert (L : length r = length regs).
  { refine (inner_keeps _ _ (fun s => length (snd s) = length regs) _ n _ _ _ EI); [|reflexivity].
    intros [C2 r2] [C3 r3] H H1. cbn [snd] in *. unfold A_step in H1. destruct (shifted_mats r2); [|discriminate]. cbn [bind] in H1.
    destruct (mapM _ (seq 0 (mr C2))); [|discriminate]. cbn [bind] in H1. destruct (mapM _ r2) as [r4|] eqn:EM; [|discriminate]. cbn [bind] in H1. injection H1 as <- <-. apply mapM_len in EM. congruence. }
  rewrite L. auto.
Qed.
Lemma B_twice c regs l2 n m scale k c1 r1 : admm_update_B E Xs c regs l2 n None scale k = Ok (c1, r1) ->
  admm_update_B E Xs c1 r1 l2 m None scale k = admm_update_B E Xs c regs l2 (n + m) None scale k /\ cA c1 = cA c /\ cC c1 = cC c.
Proof.
  unfold admm_update_B. cbv zeta. destruct (feas_penalties _ _ _) as [fps|] eqn:EF; [|discriminate]. cbn [bind].
  rewrite inner_never by (intros; now apply inner_conv_never).
  destruct (inner_loop _ _ n (cBs c, regs)) as [[C1 r]|] eqn:EI; [|discriminate]. cbn [bind]. intros H. injection H as <- <-. cbn [cA cBs cC]. rewrite EF. cbn [bind].
  assert (L : length r = length regs).
  { refine (inner_keeps _ _ (fun s => length (snd s) = length regs) _ n _ _ _ EI); [|reflexivity].
    intros [C2 r2] [C3 r3] H H1. cbn [snd] in *. unfold B_step in H1. destruct (shifted_lists r2); [|discriminate]. cbn [bind] in H1.
    destruct (mapM _ (seq 0 (length C2))); [|discriminate]. cbn [bind] in H1. destruct (mapM _ r2) as [r4|] eqn:EM; [|discriminate]. cbn [bind] in H1. injection H1 as <- <-. apply mapM_len in EM. congruence. }
  rewrite L. auto.
Qed.

(** ** Outer iterations *)
Variable P : params (N:=RNum).
Hypothesis HIT : never_settles (p_inner_tol P).
Notation m := (p_inner P).
(** [iterated n s s']: s' is what n outer iterations make of s. *)
Inductive iterated : nat -> state (N:=RNum) -> state (N:=RNum) -> Prop :=
| it0 s : iterated 0 s s
| itS n s s1 s2 : iterated n s s1 -> outer_step E P Xs s1 = Ok s2 -> iterated (S n) s s2.

Lemma many_C s : p_updB P = false -> p_updC P = true -> p_updA P = false ->
  (forall n, exists c r, admm_update_C E Xs (st_cmf s) (st_rC s) (p_l2C P) n None (p_scale P) = Ok (c, r)) ->
  forall n, exists c r, admm_update_C E Xs (st_cmf s) (st_rC s) (p_l2C P) (S n * m) None (p_scale P) = Ok (c, r) /\
    iterated (S n) s (St c (st_rA s) (st_rB s) r None) /\ cA c = cA (st_cmf s) /\ cBs c = cBs (st_cmf s).
Proof.
  intros UB UC UA HT. induction n as [|n IH].
  - destruct (HT m) as (c & r & EQ). exists c, r. rewrite Nat.mul_1_l. split; [exact EQ|]. split; [|apply (C_twice _ _ _ _ 0 _ _ _ EQ)].
    econstructor; [constructor|]. unfold outer_step, upd_B, upd_C, upd_A. rewrite UB. cbn [bind]. rewrite UC. cbn [st_cmf st_rC st_rA st_rB st_inter]. rewrite C_without_tol by exact HIT.
    rewrite EQ. cbn [bind]. now rewrite UA.
  - destruct IH as (c & r & EQ & IT & CA & CB). destruct (HT (S (S n) * m)%nat) as (c' & r' & EQ').
    exists c', r'. split; [exact EQ'|]. destruct (C_twice _ _ _ _ m _ _ _ EQ) as (TW & _). replace (S n * m + m)%nat with (S (S n) * m)%nat in TW by lia.
    split; [|apply (C_twice _ _ _ _ 0 _ _ _ EQ')].
    econstructor; [exact IT|]. unfold outer_step, upd_B, upd_C, upd_A. rewrite UB. cbn [bind]. rewrite UC. cbn [st_cmf st_rC st_rA st_rB st_inter]. rewrite C_without_tol by exact HIT.
    rewrite TW, EQ'. cbn [bind]. now rewrite UA.
Qed.
Lemma many_A s : p_updB P = false -> p_updC P = false -> p_updA P = true ->
  (forall n, exists c r i, admm_update_A E Xs (st_cmf s) (st_rA s) (p_l2A P) n None (p_scale P) (p_constA P) = Ok (c, r, i)) ->
  forall n, exists c r i, admm_update_A E Xs (st_cmf s) (st_rA s) (p_l2A P) (S n * m) None (p_scale P) (p_constA P) = Ok (c, r, i) /\
    iterated (S n) s (St c r (st_rB s) (st_rC s) (Some i)) /\ cBs c = cBs (st_cmf s) /\ cC c = cC (st_cmf s).
Proof.
  intros UB UC UA HT. induction n as [|n IH].
  - destruct (HT m) as (c & r & i & EQ). exists c, r, i. rewrite Nat.mul_1_l. split; [exact EQ|]. split; [|apply (A_twice _ _ _ _ 0 _ _ _ _ _ EQ)].
    econstructor; [constructor|]. unfold outer_step, upd_B, upd_C, upd_A. rewrite UB. cbn [bind]. rewrite UC. cbn [bind]. rewrite UA. cbn [st_cmf st_rC st_rA st_rB st_inter]. rewrite A_without_tol by exact HIT.
    rewrite EQ. reflexivity.
  - destruct IH as (c & r & i & EQ & IT & CA & CB). destruct (HT (S (S n) * m)%nat) as (c' & r' & i' & EQ').
    exists c', r', i'. split; [exact EQ'|]. destruct (A_twice _ _ _ _ m _ _ _ _ _ EQ) as (TW & _). replace (S n * m + m)%nat with (S (S n) * m)%nat in TW by lia.
    split; [|apply (A_twice _ _ _ _ 0 _ _ _ _ _ EQ')].
    econstructor; [exact IT|]. unfold outer_step, upd_B, upd_C, upd_A. rewrite UB. cbn [bind]. rewrite UC. cbn [bind]. rewrite UA. cbn [st_cmf st_rC st_rA st_rB st_inter]. rewrite A_without_tol by exact HIT.
    rewrite TW, EQ'. reflexivity.
Qed.
Lemma many_B s : p_updB P = true -> p_updC P = false -> p_updA P = false ->
  (forall n, exists c r, admm_update_B E Xs (st_cmf s) (st_rB s) (p_l2B P) n None (p_scale P) (p_constB P) = Ok (c, r)) ->
  forall n, exists c r, admm_update_B E Xs (st_cmf s) (st_rB s) (p_l2B P) (S n * m) None (p_scale P) (p_constB P) = Ok (c, r) /\
    iterated (S n) s (St c (st_rA s) r (st_rC s) None) /\ cA c = cA (st_cmf s) /\ cC c = cC (st_cmf s).
Proof.
  intros UB UC UA HT. induction n as [|n IH].
  - destruct (HT m) as (c & r & EQ). exists c, r. rewrite Nat.mul_1_l. split; [exact EQ|]. split; [|apply (B_twice _ _ _ _ 0 _ _ _ _ EQ)].
    econstructor; [constructor|]. unfold outer_step, upd_B, upd_C, upd_A. rewrite UB. rewrite B_without_tol by exact HIT.
    rewrite EQ. cbn [bind]. rewrite UC. cbn [bind]. now rewrite UA.
  - destruct IH as (c & r & EQ & IT & CA & CB). destruct (HT (S (S n) * m)%nat) as (c' & r' & EQ').
    exists c', r'. split; [exact EQ'|]. destruct (B_twice _ _ _ _ m _ _ _ _ EQ) as (TW & _). replace (S n * m + m)%nat with (S (S n) * m)%nat in TW by lia.
    split; [|apply (B_twice _ _ _ _ 0 _ _ _ _ EQ')].
    econstructor; [exact IT|]. unfold outer_step, upd_B, upd_C, upd_A. rewrite UB. cbn [st_cmf st_rC st_rA st_rB st_inter]. rewrite B_without_tol by exact HIT.
    rewrite TW, EQ'. cbn [bind]. rewrite UC. cbn [bind]. now rewrite UA.
Qed.

(** ** The loop: without a tolerance every iteration is made *)
Hypothesis HP : params_ok P.
Hypothesis HTol : ~ tol_set (p_tol P).
Lemma iterated_valid n s s' : iterated n s s' -> valid_state Xs s -> svd_correct E (mc (cA (st_cmf s))) ->
  valid_state Xs s' /\ mc (cA (st_cmf s')) = mc (cA (st_cmf s)).
Proof.
  induction 1 as [|n s s1 s2 H IH O]; intros V HE; [auto|]. destruct (IH V HE) as (V1 & M1).
  destruct (outer_step_ok E P Xs HP s1 s2 V1 ltac:(now rewrite M1) O) as ((V2 & (_ & X & _) & _) & _). split; [exact V2|congruence].
Qed.
Lemma iterated_front n s s' : iterated (S n) s s' -> exists s1, outer_step E P Xs s = Ok s1 /\ iterated n s1 s'.
Proof.
  revert s'. induction n as [|n IH]; intros s' H; inversion H as [|n' s0 s1 s2 H1 H2]; subst.
  - inversion H1; subst. exists s'. split; [assumption|constructor].
  - destruct (IH _ H1) as (s3 & O & I3). exists s3. split; [exact O|]. econstructor; eauto.
Qed.
Lemma loop_all n : forall s s' it h, iterated n s s' -> valid_state Xs s -> svd_correct E (mc (cA (st_cmf s))) ->
  exists h', ao_loop E P Xs n it s h = Ok (s', h', (it + n)%nat, MaxIter).
Proof.
  induction n as [|n IH]; intros s s' it h H V HE; cbn [ao_loop].
  - inversion H; subst. exists h. now rewrite Nat.add_0_r.
  - apply iterated_front in H as (s1 & O & H). rewrite O. cbn [bind].
    destruct (outer_step_ok E P Xs HP s s1 V HE O) as ((V1 & (_ & X & _) & _) & _).
    assert (HE1 : svd_correct E (mc (cA (st_cmf s1)))) by now rewrite X.
    replace (it + S n)%nat with (S it + n)%nat by lia.
    match goal with |- context [if ?b then _ else _] => destruct b end; [|now apply IH].
    destruct (state_gaps_ok Xs s1 V1) as (g & -> & _). cbn [bind].
    match goal with |- context [if ?b then _ else _] => destruct b end; [now apply IH|].
    destruct (state_loss_total P Xs s1 V1) as (l & ->). cbn [bind].
    destruct (p_tol P) as [t|] eqn:ET; [|now apply IH]. destruct (ntruthy t) eqn:TT; [|now apply IH].
    exfalso. apply HTol. exists t. split; [reflexivity|]. now apply ntruthy_R.
Qed.
Lemma run_all n s s' : iterated n s s' -> valid_state Xs s -> svd_correct E (mc (cA (st_cmf s))) ->
  exists d, run E P Xs (Z.of_nat n) s = Ok (s', d).
Proof.
  intros H V HE. destruct (iterated_valid _ _ _ H V HE) as (V' & _). unfold run, init_hist. destruct (state_loss_total P Xs s V) as (l & ->). cbn [bind].
  destruct (state_gaps_ok Xs s V) as (g & -> & _). cbn [bind]. rewrite Nat2Z.id.
  destruct (loop_all n s s' 0 (Hist [state_error Xs s] [g] [l]) H V HE) as (h' & ->). cbn [bind].
  match goal with |- exists d, (let* feas := ?x in _) = _ => assert (K : exists f, x = Ok f) end.
  { destruct (p_feas_tol P) as [t|]; [|eexists; reflexivity]. destruct (ntruthy t && p_return_errors P); [|eexists; reflexivity].
    destruct (state_gaps_ok Xs s' V') as (g' & -> & _). cbn [bind]. eexists; reflexivity. }
  destruct K as (f & ->). cbn [bind]. rewrite revalidate_ok by apply V'. cbn [bind]. destruct s' as [c rA rB rC i]. cbn [st_cmf st_rA st_rB st_rC st_inter].
  destruct (p_return_errors P); eexists; reflexivity.
Qed.
End Chains.
