(** Where the auxiliary variables of user-written penalties come from. *)
From Coq Require Import List Arith Bool ZArith Lia.
From Verif Require Import Num Numpy Unimodal Penalties CoupledMatrices Decomp InitVars Parse Fit Custom CustomBase CustomSpec CustomSim CustomFit.
Import ListNotations.

Lemma calls_app {A} (c : A -> A -> Prop) j k x y z : calls c j x y -> calls c k y z -> calls c (k + j) x z.
Proof. intros H1 H2. induction H2; [exact H1|]. cbn. econstructor; eauto. Qed.
Lemma calls_inv {A} (c : A -> A -> Prop) (I : A -> Prop) k x y : (forall x y, I x -> c x y -> I y) -> I x -> calls c k x y -> I y.
Proof. intros H H0 HC. induction HC; eauto. Qed.
Lemma calls_last {A} (c : A -> A -> Prop) k x y : (1 <= k)%nat -> calls c k x y -> exists z, c z y.
Proof. intros H HC. inversion HC; subst; [lia|eauto]. Qed.
Lemma calls_impl {A} (c d : A -> A -> Prop) k x y : (forall x y, c x y -> d x y) -> calls c k x y -> calls d k x y.
Proof. intros H HC. induction HC; econstructor; eauto. Qed.
Lemma inner_calls {S} (step : S -> res S) conv n : forall s s', inner_loop step conv n s = Ok s' ->
  exists k, (k <= n)%nat /\ (1 <= n -> 1 <= k)%nat /\ calls (fun x y => step x = Ok y) k s s'.
Proof.
  induction n as [|n IH]; intros s s' H; cbn in H; [injection H as <-; exists 0%nat; repeat split; [lia..|constructor]|].
  destruct (step s) as [s1|] eqn:E; [|discriminate]. cbn in H. destruct (conv s s1) as [b|]; [|discriminate]. cbn in H. assert (C1 : calls (fun x y => step x = Ok y) 1 s s1) by (econstructor; [constructor|exact E]).
  destruct b.
  - injection H as <-. exists 1%nat. repeat split; [lia..|exact C1].
  - destruct (IH _ _ H) as (k & K1 & K2 & K3). exists (k + 1)%nat. repeat split; [lia..|]. exact (calls_app _ _ _ _ _ _ C1 K3).
Qed.
Lemma mapM_each {A B} (f : A -> res B) l : forall r, mapM f l = Ok r -> Forall2 (fun x y => f x = Ok y) l r.
Proof.
  induction l as [|x l IH]; intros r H; cbn in H; [injection H as <-; constructor|]. destruct (f x) as [y|] eqn:E; [|discriminate]. cbn in H. destruct (mapM f l) as [ys|]; [|discriminate]. injection H as <-. constructor; auto.
Qed.
Lemma Forall2_length {A B} (P : A -> B -> Prop) l m : Forall2 P l m -> length l = length m.
Proof. intros F. induction F; cbn; congruence. Qed.
Lemma F2_impl {A B} (P Q : A -> B -> Prop) l m : (forall x y, P x y -> Q x y) -> Forall2 P l m -> Forall2 Q l m.
Proof. intros H F. induction F; constructor; auto. Qed.
Lemma F2_refl {A} (P : A -> A -> Prop) l : (forall x, P x x) -> Forall2 P l l.
Proof. intros H. induction l; constructor; auto. Qed.
Lemma F2_trans {A B C} (P : A -> B -> Prop) (Q : B -> C -> Prop) (S : A -> C -> Prop) l m n : (forall x y z, P x y -> Q y z -> S x z) -> Forall2 P l m -> Forall2 Q m n -> Forall2 S l n.
Proof. intros H F. revert n. induction F; intros n G; inversion G; subst; constructor; eauto. Qed.
Lemma calls_list {A} (P : A -> A -> Prop) k l m : calls (Forall2 P) k l m -> Forall2 (calls P k) l m.
Proof. intros H. induction H as [l|k l m n _ IH F]; [apply F2_refl; constructor|]. eapply F2_trans; [|exact IH|exact F]. intros x y z. econstructor; eauto. Qed.
Lemma calls_map {A B} (f : A -> B) (P : A -> A -> Prop) (Q : B -> B -> Prop) k x y : (forall x y, P x y -> Q (f x) (f y)) -> calls P k x y -> calls Q k (f x) (f y).
Proof. intros H HC. induction HC; econstructor; eauto. Qed.

Section CustomCalls.
Context {N : Num} {X : Type}.
Definition reg_call (call : cls X -> uaux X -> uaux X -> Prop) (g h : ureg X) : Prop := ug_cls h = ug_cls g /\ call (ug_cls g) (ug_aux g) (ug_aux h).
Definition regs_call (g h : uregs X) : Prop := ub_cls h = ub_cls g /\ matrices_call (ub_cls g) (ub_aux g) (ub_aux h).
Definition reg_calls call k (g h : ureg X) : Prop := ug_cls h = ug_cls g /\ calls (call (ug_cls g)) k (ug_aux g) (ug_aux h).
Definition regs_calls k (g h : uregs X) : Prop := ub_cls h = ub_cls g /\ calls (matrices_call (ub_cls g)) k (ub_aux g) (ub_aux h).
Lemma reg_calls_of call k g h : calls (reg_call call) k g h -> reg_calls call k g h.
Proof. intros H. induction H as [g|k g h i _ (E & C) (E' & C')]; [split; [reflexivity|constructor]|]. split; [congruence|]. econstructor; [exact C|]. now rewrite <- E. Qed.
Lemma regs_calls_of k g h : calls regs_call k g h -> regs_calls k g h.
Proof. intros H. induction H as [g|k g h i _ (E & C) (E' & C')]; [split; [reflexivity|constructor]|]. split; [congruence|]. econstructor; [exact C|]. now rewrite <- E. Qed.

Lemma A_reg_call constant fps A g h : uA_reg_step constant fps A g = Ok h -> reg_call (one_row_call constant (length fps)) g h.
Proof.
  unfold uA_reg_step. intros H. match type of H with bind ?e _ = _ => destruct e as [aux|] eqn:E; [|discriminate] end. cbn [bind] in H.
  destruct (sub_method _ _ _); [|discriminate]. injection H as <-. split; [reflexivity|]. cbn [ug_cls ug_aux]. unfold one_row_call. destruct constant; [eexists _, _; exact E|].
  unfold urows_update in E. destruct (ug_aux g) as [A0|]; [|discriminate]. destruct (mapM _ _) as [rows|] eqn:EM; [|discriminate]. cbn in E. injection E as <-.
  pose proof (mapM_each _ _ _ EM) as F. exists A0, (Mat (mr (madd A (ug_dual g))) (mc (madd A (ug_dual g))) rows), (map (mrow (madd A (ug_dual g))) (seq 0 (length fps))), fps.
  assert (L : length rows = length fps) by (rewrite <- (Forall2_length _ _ _ F), seq_length; reflexivity).
  repeat split; [exact L|]. intros i Hi. cbn [me w_cls].
  rewrite (nth_indep (map _ _) [] (mrow (madd A (ug_dual g)) 0)) by now rewrite map_length, seq_length. rewrite map_nth, seq_nth by exact Hi.
  revert F. generalize (@eq_refl nat 0). generalize 0 at 2 3. intros o Ho F.
  assert (K : forall l o r, Forall2 (fun i y => row_method (ug_cls g) (mrow (madd A (ug_dual g)) i) (nth i fps n0) (mrow A0 i) = Ok y) (seq o l) r ->
    forall i, (i < l)%nat -> row_method (ug_cls g) (mrow (madd A (ug_dual g)) (o + i)) (nth (o + i) fps n0) (mrow A0 (o + i)) = Ok (nth i r [])).
  { clear. induction l as [|l IH]; intros o r F i Hi; [lia|]. cbn in F. inversion F as [|? ? ? ? H1 H2]; subst. destruct i as [|i]; [now rewrite Nat.add_0_r|]. cbn [nth]. rewrite <- Nat.add_succ_comm. apply IH; [assumption|lia]. }
  subst o. exact (K _ _ _ F i Hi).
Qed.
Lemma C_reg_call fp C g h : uC_reg_step fp C g = Ok h -> reg_call matrix_call g h.
Proof.
  unfold uC_reg_step. intros H. destruct (mat_method _ _ _ _) as [aux|] eqn:E; [|discriminate]. cbn [bind] in H. destruct (sub_method _ _ _); [|discriminate]. injection H as <-.
  split; [reflexivity|]. eexists _, _. exact E.
Qed.
Lemma B_reg_call fps Bs g h : uB_reg_step fps Bs g = Ok h -> regs_call g h.
Proof.
  unfold uB_reg_step. intros H. destruct (mats_method _ _ _ _) as [aux|] eqn:E; [|discriminate]. cbn [bind] in H. destruct (subs_method _ _ _); [|discriminate]. injection H as <-.
  split; [reflexivity|]. eexists _, _. exact E.
Qed.
Lemma A_step_calls constant svds fps rhses s s' : uA_step constant svds fps rhses s = Ok s' -> Forall2 (reg_call (one_row_call constant (length fps))) (snd s) (snd s').
Proof.
  destruct s as (A, rs). unfold uA_step. intros H. destruct (ushifted rs); [|discriminate]. cbn [bind] in H. destruct (mapM _ (seq 0 (mr A))); [|discriminate]. cbn [bind] in H.
  destruct (mapM (uA_reg_step _ _ _) rs) as [r|] eqn:E; [|discriminate]. injection H as <-. eapply F2_impl; [|exact (mapM_each _ _ _ E)]. intros g h. apply A_reg_call.
Qed.
Lemma C_step_calls d fp rhs s s' : uC_step d fp rhs s = Ok s' -> Forall2 (reg_call matrix_call) (snd s) (snd s').
Proof.
  destruct s as (C, rs). unfold uC_step. intros H. destruct (ushifted rs); [|discriminate]. cbn [bind] in H. destruct (solve_mat _ _); [|discriminate]. cbn [bind] in H.
  destruct (mapM (uC_reg_step _ _) rs) as [r|] eqn:E; [|discriminate]. injection H as <-. eapply F2_impl; [|exact (mapM_each _ _ _ E)]. intros g h. apply C_reg_call.
Qed.
Lemma B_step_calls svds fps rhses s s' : uB_step svds fps rhses s = Ok s' -> Forall2 regs_call (snd s) (snd s').
Proof.
  destruct s as (Bs, rs). unfold uB_step. intros H. destruct (ushifteds rs); [|discriminate]. cbn [bind] in H. destruct (mapM _ (seq 0 (length Bs))); [|discriminate]. cbn [bind] in H.
  destruct (mapM (uB_reg_step _ _) rs) as [r|] eqn:E; [|discriminate]. injection H as <-. eapply F2_impl; [|exact (mapM_each _ _ _ E)]. intros g h. apply B_reg_call.
Qed.
(** consecutive calls, between [lo] and [hi] of them *)
Definition within {A} (P : nat -> A -> A -> Prop) (lo hi : nat) (x y : A) : Prop := exists k, (lo <= k <= hi)%nat /\ P k x y.
Lemma inner_regs {S T} (step : S -> res S) conv n (f : S -> list T) (P : T -> T -> Prop) (Q : nat -> T -> T -> Prop) s s' :
  (forall x y, step x = Ok y -> Forall2 P (f x) (f y)) -> (forall k x y, calls P k x y -> Q k x y) ->
  inner_loop step conv n s = Ok s' -> Forall2 (within Q (min 1 n) n) (f s) (f s').
Proof.
  intros H1 H2 H. destruct (inner_calls _ _ _ _ _ H) as (k & K1 & K2 & K3). apply (calls_map f _ (Forall2 P)) in K3; [|exact H1].
  apply calls_list in K3. eapply F2_impl; [|exact K3]. intros x y C. exists k. split; [destruct n; cbn; lia|auto].
Qed.
Lemma feas_length scale constant l fps : feas_penalties (N:=N) scale constant l = Ok fps -> length fps = length l.
Proof. unfold feas_penalties. destruct constant; [|intros H; injection H as <-; apply map_length]. destruct l as [|M l]; [discriminate|]. cbn [map]. intros H. injection H as <-. cbn. rewrite !map_length. reflexivity. Qed.
Lemma map2_len {A B C} (f : A -> B -> C) l : forall m, length (map2 f l m) = min (length l) (length m).
Proof. induction l as [|x l IH]; intros [|y m]; cbn; [reflexivity..|]. now rewrite IH. Qed.

Section Fit.
Variable P : params (N:=N).
Variable Xs : list mat.
Notation nx := (length Xs).
Definition moves (hi : nat) (lo : nat) (s s' : ustate X) : Prop :=
  Forall2 (within (reg_calls (one_row_call (p_constA P) nx)) (if p_updA P then lo else 0) hi) (us_rA s) (us_rA s') /\
  Forall2 (within regs_calls (if p_updB P then lo else 0) hi) (us_rB s) (us_rB s') /\
  Forall2 (within (reg_calls matrix_call) (if p_updC P then lo else 0) hi) (us_rC s) (us_rC s') /\
  (length (cBs (us_cmf s)) = nx -> length (cBs (us_cmf s')) = nx).
Lemma within_id {A} (Q : nat -> A -> A -> Prop) hi l : (forall x, Q 0%nat x x) -> Forall2 (within Q 0 hi) l l.
Proof. intros H. apply F2_refl. intros x. exists 0%nat. split; [lia|auto]. Qed.
Lemma reg_id call g : reg_calls call 0 g g. Proof. split; [reflexivity|constructor]. Qed.
Lemma regs_id g : regs_calls 0 g g. Proof. split; [reflexivity|constructor]. Qed.
Lemma reg_trans call j k f g h : reg_calls call j f g -> reg_calls call k g h -> reg_calls call (k + j) f h.
Proof. intros (E & C) (E' & C'). split; [congruence|]. rewrite E in C'. eapply calls_app; eauto. Qed.
Lemma regs_trans j k f g h : regs_calls j f g -> regs_calls k g h -> regs_calls (k + j) f h.
Proof. intros (E & C) (E' & C'). split; [congruence|]. rewrite E in C'. eapply calls_app; eauto. Qed.
Lemma within_trans {A} (Q : nat -> A -> A -> Prop) lo hi lo' hi' l m n : (forall j k x y z, Q j x y -> Q k y z -> Q (k + j) x z) ->
  Forall2 (within Q lo hi) l m -> Forall2 (within Q lo' hi') m n -> Forall2 (within Q (lo + lo') (hi + hi')) l n.
Proof. intros H. apply F2_trans. intros x y z (j & J & HJ) (k & K & HK). exists (k + j)%nat. split; [lia|eauto]. Qed.
Lemma B_length svds fps rhses s s' : uB_step (X:=X) (N:=N) svds fps rhses s = Ok s' -> length (fst s') = length (fst s).
Proof.
  destruct s as (Bs, rs). unfold uB_step. intros H. destruct (ushifteds rs); [|discriminate]. cbn [bind] in H. destruct (mapM _ (seq 0 (length Bs))) as [Bs'|] eqn:E; [|discriminate]. cbn [bind] in H.
  destruct (mapM (uB_reg_step _ _) rs) as [r|]; [|discriminate]. injection H as <-. cbn. apply mapM_each, Forall2_length in E. now rewrite <- E, seq_length.
Qed.
Lemma outer_moves E s s' : length (cBs (us_cmf s)) = nx -> uouter_step E P Xs s = Ok s' -> moves (p_inner P) (min 1 (p_inner P)) s s'.
Proof.
  intros L H. unfold uouter_step in H.
  destruct (uupd_B E P Xs s) as [s1|] eqn:E1; [|discriminate]. cbn [bind] in H. destruct (uupd_C E P Xs s1) as [s2|] eqn:E2; [|discriminate]. cbn [bind] in H.
  assert (M1 : us_rA s1 = us_rA s /\ us_rC s1 = us_rC s /\ Forall2 (within regs_calls (if p_updB P then min 1 (p_inner P) else 0) (p_inner P)) (us_rB s) (us_rB s1) /\ length (cBs (us_cmf s1)) = nx).
  { unfold uupd_B in E1. destruct (p_updB P).
    - destruct (uupdate_B _ _ _ _ _ _ _ _ _) as [(c, r)|] eqn:EU; [|discriminate]. cbn [bind] in E1. injection E1 as <-. cbn. split; [reflexivity|]. split; [reflexivity|].
      unfold uupdate_B in EU. destruct (feas_penalties _ _ _) as [fps|]; [|discriminate]. cbn [bind] in EU. destruct (inner_loop _ _ _ _) as [(Bs, r')|] eqn:EI; [|discriminate]. cbn [bind] in EU. injection EU as <- <-. split.
      + apply (inner_regs _ _ _ snd regs_call regs_calls) in EI; [exact EI|intros x y; apply B_step_calls|apply regs_calls_of].
      + destruct (inner_calls _ _ _ _ _ EI) as (k & _ & _ & K). cbn [cBs]. change Bs with (fst (Bs, r')). rewrite <- L. change (cBs (us_cmf s)) with (fst (cBs (us_cmf s), us_rB s)).
        revert K. generalize (cBs (us_cmf s), us_rB s) (Bs, r'). intros x y K. induction K as [|k x y z _ IH C]; [reflexivity|]. rewrite (B_length _ _ _ _ _ C). exact IH.
    - injection E1 as <-. cbn. repeat split; [apply within_id, regs_id|exact L]. }
  destruct M1 as (RA & RC & MB & L1).
  assert (M2 : us_rA s2 = us_rA s1 /\ us_rB s2 = us_rB s1 /\ Forall2 (within (reg_calls matrix_call) (if p_updC P then min 1 (p_inner P) else 0) (p_inner P)) (us_rC s1) (us_rC s2) /\ cBs (us_cmf s2) = cBs (us_cmf s1)).
  { unfold uupd_C in E2. destruct (p_updC P).
    - destruct (uupdate_C _ _ _ _ _ _ _ _) as [(c, r)|] eqn:EU; [|discriminate]. cbn [bind] in E2. injection E2 as <-. cbn. split; [reflexivity|]. split; [reflexivity|].
      unfold uupdate_C in EU. destruct (msum_list _); [|discriminate]. destruct (msum_list _); [|discriminate]. destruct (inner_loop _ _ _ _) as [(C, r')|] eqn:EI; [|discriminate]. cbn [bind] in EU. injection EU as <- <-. split; [|reflexivity].
      apply (inner_regs _ _ _ snd (reg_call matrix_call) (reg_calls matrix_call)) in EI; [exact EI|intros x y; apply C_step_calls|apply reg_calls_of].
    - injection E2 as <-. repeat split. apply within_id, reg_id. }
  destruct M2 as (RA2 & RB2 & MC & L2).
  assert (M3 : us_rB s' = us_rB s2 /\ us_rC s' = us_rC s2 /\ Forall2 (within (reg_calls (one_row_call (p_constA P) nx)) (if p_updA P then min 1 (p_inner P) else 0) (p_inner P)) (us_rA s2) (us_rA s') /\ cBs (us_cmf s') = cBs (us_cmf s2)).
  { unfold uupd_A in H. destruct (p_updA P).
    - destruct (uupdate_A _ _ _ _ _ _ _ _ _) as [((c, r), i)|] eqn:EU; [|discriminate]. cbn [bind] in H. injection H as <-. cbn. split; [reflexivity|]. split; [reflexivity|].
      unfold uupdate_A in EU. destruct (feas_penalties _ _ _) as [fps|] eqn:EF; [|discriminate]. cbn [bind] in EU. destruct (inner_loop _ _ _ _) as [(A, r')|] eqn:EI; [|discriminate]. cbn [bind] in EU. injection EU as <- <- _. split; [|reflexivity].
      assert (LF : length fps = nx) by (rewrite (feas_length _ _ _ _ EF); unfold A_cross; rewrite map2_len, L2, L1; apply Nat.min_id).
      apply (inner_regs _ _ _ snd (reg_call (one_row_call (p_constA P) nx)) (reg_calls (one_row_call (p_constA P) nx))) in EI; [exact EI|intros x y K; rewrite <- LF; exact (A_step_calls _ _ _ _ _ _ K)|apply reg_calls_of].
    - injection H as <-. repeat split. apply within_id, reg_id. }
  destruct M3 as (RB3 & RC3 & MA & L3). unfold moves. rewrite RB3, RB2, RC3, L3, L2, <- RA, <- RC, <- RA2. repeat split; try assumption. intros _; exact L1.
Qed.
Lemma moves_trans hi lo hi' lo' s s' s'' : moves hi lo s s' -> moves hi' lo' s' s'' -> moves (hi + hi') (lo + lo') s s''.
Proof.
  intros (H1 & H2 & H3 & H4) (K1 & K2 & K3 & K4). split; [|split; [|split; [|auto]]].
  - pose proof (within_trans _ _ _ _ _ _ _ _ (reg_trans _) H1 K1) as T. destruct (p_updA P); exact T.
  - pose proof (within_trans _ _ _ _ _ _ _ _ regs_trans H2 K2) as T. destruct (p_updB P); exact T.
  - pose proof (within_trans _ _ _ _ _ _ _ _ (reg_trans _) H3 K3) as T. destruct (p_updC P); exact T.
Qed.
Lemma moves_weaken hi lo hi' lo' s s' : (hi <= hi')%nat -> (lo' <= lo)%nat -> moves hi lo s s' -> moves hi' lo' s s'.
Proof.
  intros A1 A2 (H1 & H2 & H3 & H4). split; [|split; [|split; [|auto]]]; (eapply F2_impl; [|eassumption]); intros x y (k & K & HK); exists k; (split; [|exact HK]).
  - destruct (p_updA P); lia.
  - destruct (p_updB P); lia.
  - destruct (p_updC P); lia.
Qed.
Lemma moves_refl hi s : moves hi 0 s s.
Proof. split; [|split; [|split; [|auto]]]; [destruct (p_updA P)|destruct (p_updB P)|destruct (p_updC P)]; apply within_id; intros; first [apply reg_id|apply regs_id]. Qed.
Lemma loop_moves E n : forall it s h s' h' it' m, length (cBs (us_cmf s)) = nx -> uloop E P Xs n it s h = Ok (s', h', it', m) ->
  moves (n * p_inner P) (min (min 1 n) (p_inner P)) s s'.
Proof.
  induction n as [|n IH]; intros it s h s' h' it' m L H; cbn [uloop] in H; [injection H as <- _ _ _; apply moves_refl|].
  destruct (uouter_step E P Xs s) as [s1|] eqn:E1; [|discriminate]. cbn [bind] in H. pose proof (outer_moves _ _ _ L E1) as M1.
  assert (L1 : length (cBs (us_cmf s1)) = nx) by (apply M1; exact L).
  assert (REC : forall h0, uloop E P Xs n (S it) s1 h0 = Ok (s', h', it', m) -> moves (S n * p_inner P) (min (min 1 (S n)) (p_inner P)) s s').
  { intros h0 H0. eapply moves_weaken; [| |exact (moves_trans _ _ _ _ _ _ _ M1 (IH _ _ _ _ _ _ _ L1 H0))]; lia. }
  assert (DONE : forall x y z, Ok (s1, x, y, z) = Ok (s', h', it', m) -> moves (S n * p_inner P) (min (min 1 (S n)) (p_inner P)) s s').
  { intros x y z H0. injection H0 as <- _ _ _. eapply moves_weaken; [| |exact M1]; lia. }
  match type of H with (if ?b then _ else _) = _ => destruct b end; [|exact (REC _ H)].
  destruct (ustate_gaps s1) as [g|]; [|discriminate]. cbn [bind] in H. match type of H with (if ?b then _ else _) = _ => destruct b end; [exact (REC _ H)|].
  destruct (ustate_loss P Xs s1) as [l|]; [|discriminate]. cbn [bind] in H. destruct (p_tol P) as [tol|]; [|exact (REC _ H)]. destruct (ntruthy tol); [|exact (REC _ H)].
  destruct (p_abs_tol P) as [ab|]; [|discriminate]. match type of H with (if ?b then _ else _) = _ => destruct b end; [exact (DONE _ _ _ H)|].
  match type of H with (if ?b then _ else _) = _ => destruct b end; [exact (DONE _ _ _ H)|exact (REC _ H)].
Qed.
Lemma run_moves E n s s' d : length (cBs (us_cmf s)) = nx -> urun E P Xs n s = Ok (s', d) -> moves (Z.to_nat n * p_inner P) (min (min 1 (Z.to_nat n)) (p_inner P)) s s'.
Proof.
  intros L H. unfold urun in H. destruct (uinit_hist P Xs s) as [h0|]; [|discriminate]. cbn [bind] in H.
  destruct (uloop E P Xs (Z.to_nat n) 0 s h0) as [(((s1, h), it), msg)|] eqn:E1; [|discriminate]. cbn [bind] in H. apply loop_moves in E1; [|exact L].
  match type of H with bind ?e _ = _ => destruct e; [|discriminate] end. cbn [bind] in H. destruct (revalidate _) as [c|] eqn:ER; [|discriminate]. cbn [bind] in H.
  assert (K : moves (Z.to_nat n * p_inner P) (min (min 1 (Z.to_nat n)) (p_inner P)) s (USt c (us_rA s1) (us_rB s1) (us_rC s1) (us_inter s1))).
  { destruct E1 as (H1 & H2 & H3 & H4). split; [exact H1|]. split; [exact H2|]. split; [exact H3|]. intros L'. cbn [us_cmf]. rewrite <- (H4 L').
    unfold revalidate, cmf_init in ER. destruct (validate_cmf _) as [(sh, k)|]; [|discriminate]. unfold py_of_cmf in ER. cbn [bind unpack2 unpack3 py_iter] in ER. injection ER as <-. cbn [cBs]. now rewrite !map_length. }
  destruct (p_return_errors P); injection H as <- _; exact K.
Qed.
End Fit.

(** ** The start *)
Definition starts {A} (wrap : A -> uauxval X) rnd m (a : fitargs) (o : uobj X) (x : A) : Prop :=
  exists pos pos', uinit_aux rnd o (f_data a) (f_rank a) (PyInt m) pos = Ok (wrap x, pos').
Lemma mapS_each {A B} (f : A -> nat -> res (B * nat)) l : forall p r q, mapS f l p = Ok (r, q) -> Forall2 (fun x y => exists p q, f x p = Ok (y, q)) l r.
Proof.
  induction l as [|x l IH]; intros p r q H; cbn in H; [injection H as <- _; constructor|]. destruct (f x p) as [(y, p1)|] eqn:E; [|discriminate]. cbn in H.
  destruct (mapS f l p1) as [(ys, p2)|] eqn:E2; [|discriminate]. injection H as <- _. constructor; eauto.
Qed.
Lemma make_each l : forall (vs : list (uauxval X)) ds gs, umake l vs ds = Ok gs -> forall Q, Forall2 Q l vs -> Forall2 (fun o g => ug_cls g = w_cls o /\ Q o (WMat (ug_aux g))) l gs.
Proof.
  induction l as [|o l IH]; intros [|[v|v] vs] [|[d|d] ds] gs H Q F; try discriminate; [injection H as <-; constructor|]. cbn in H.
  destruct (umake l vs ds) as [r|] eqn:E; [|discriminate]. injection H as <-. inversion F; subst. constructor; [auto|eauto].
Qed.
Lemma makes_each l : forall (vs : list (uauxval X)) ds gs, umakes l vs ds = Ok gs -> forall Q, Forall2 Q l vs -> Forall2 (fun o g => ub_cls g = w_cls o /\ Q o (WMats (ub_aux g))) l gs.
Proof.
  induction l as [|o l IH]; intros [|[v|v] vs] [|[d|[d|d1 d2]] ds] gs H Q F; try discriminate; [injection H as <-; constructor|]. cbn in H.
  destruct (umakes l vs ds) as [r|] eqn:E; [|discriminate]. injection H as <-. inversion F; subst. constructor; [auto|eauto].
Qed.
Definition reg_start rnd m a (o : uobj X) (g : ureg X) : Prop := ug_cls g = w_cls o /\ starts WMat rnd m a o (ug_aux g).
Definition regs_start rnd m a (o : uobj X) (g : uregs X) : Prop := ub_cls g = w_cls o /\ starts WMats rnd m a o (ub_aux g).
Lemma matched_length Xs (c : cmf (N:=N)) rank b : shapes_match Xs c rank b = true -> length (cBs c) = length Xs.
Proof. unfold shapes_match. intros H. apply andb_true_iff in H. destruct H as (H & _). apply andb_true_iff in H. destruct H as (H & _). symmetry. now apply Nat.eqb_eq. Qed.
Lemma setup_start V IE rnd rA rB rC a s l2 : usetup (X:=X) V IE rnd (objects rA rB rC) a = Ok (s, l2) ->
  length (cBs (us_cmf s)) = length (f_data a) /\ exists pA pB pC,
  Forall2 (reg_start rnd 0 a) (if f_updA a then pA ++ rA else []) (us_rA s) /\
  Forall2 (regs_start rnd 1 a) (if f_updB a then pB ++ rB else []) (us_rB s) /\
  Forall2 (reg_start rnd 2 a) (if f_updC a then pC ++ rC else []) (us_rC s).
Proof.
  unfold usetup. intros H. destruct (negb (f_svd a)); [discriminate|]. destruct (initialize_cmf _ _ _ _ _ _ _) as [(c, pos)|]; [|discriminate]. cbn [bind] in H.
  destruct (listify (f_l2 a)) as [l0|]; [|discriminate]. cbn [bind] in H. rewrite uparse_objects in H. destruct (parse_all _ _ _ _ _) as [((pA, pB), pC)|]; [|discriminate]. cbn [rmap bind] in H.
  unfold uinitialize in H.
  destruct (mapS _ _ pos) as [(a1, p1)|] eqn:E1; [|discriminate]. cbn [bind] in H.
  destruct (mapS _ _ p1) as [(a2, p2)|] eqn:E2; [|discriminate]. cbn [bind] in H.
  destruct (mapS _ _ p2) as [(a3, p3)|] eqn:E3; [|discriminate]. cbn [bind] in H.
  destruct (mapS _ _ p3) as [(d1, q1)|]; [|discriminate]. cbn [bind] in H.
  destruct (mapS _ _ q1) as [(d2, q2)|]; [|discriminate]. cbn [bind] in H.
  destruct (mapS _ _ q2) as [(d3, q3)|]; [|discriminate]. cbn [bind] in H.
  match type of H with (if negb ?b then _ else _) = _ => destruct b eqn:ES; [|discriminate] end. cbn [negb] in H.
  destruct (umake _ a1 d1) as [gA|] eqn:G1; [|discriminate]. cbn [bind] in H. destruct (umakes _ a2 d2) as [gB|] eqn:G2; [|discriminate]. cbn [bind] in H.
  destruct (umake _ a3 d3) as [gC|] eqn:G3; [|discriminate]. cbn [bind] in H. injection H as <- _. cbn [us_cmf us_rA us_rB us_rC]. split; [exact (matched_length _ _ _ _ ES)|].
  exists (map (uobj_of (e_ext V) rnd) pA), (map (uobj_of (e_ext V) rnd) pB), (map (uobj_of (e_ext V) rnd) pC). split; [|split].
  - eapply F2_impl; [|exact (make_each _ _ _ _ G1 _ (mapS_each _ _ _ _ _ E1))]. intros o g (K & L). split; [exact K|exact L].
  - eapply F2_impl; [|exact (makes_each _ _ _ _ G2 _ (mapS_each _ _ _ _ _ E2))]. intros o g (K & L). split; [exact K|exact L].
  - eapply F2_impl; [|exact (make_each _ _ _ _ G3 _ (mapS_each _ _ _ _ _ E3))]. intros o g (K & L). split; [exact K|exact L].
Qed.
Lemma F2_app_l {A B} (Q : A -> B -> Prop) l l' m : Forall2 Q (l ++ l') m -> exists p q, m = p ++ q /\ Forall2 Q l' q.
Proof. intros F. apply Forall2_app_inv_l in F. destruct F as (p & q & _ & F & ->). eauto. Qed.
Lemma F2_map_r {A B C} (Q : A -> C -> Prop) (f : B -> C) l m : Forall2 (fun x y => Q x (f y)) l m -> Forall2 Q l (map f m).
Proof. intros F. induction F; constructor; auto. Qed.

Theorem own_calls V IE rnd rA rB rC a o v : user_fit (X:=X) V IE rnd (objects rA rB rC) a = Ok o -> uo_vars o = Some v ->
  (f_updA a = true -> exists p q, uv_auxA v = p ++ q /\ Forall2 (own_variable WMat (first_mode_call a) rnd 0 a) rA q) /\
  (f_updB a = true -> exists p q, uv_auxB v = p ++ q /\ Forall2 (own_variable WMats matrices_call rnd 1 a) rB q) /\
  (f_updC a = true -> exists p q, uv_auxC v = p ++ q /\ Forall2 (own_variable WMat matrix_call rnd 2 a) rC q).
Proof.
  unfold user_fit. intros H HV. destruct (usetup _ _ _ _ _) as [(s, l2)|] eqn:ES; [|discriminate]. cbn [bind] in H. destruct (setup_start _ _ _ _ _ _ _ _ _ ES) as (L & pA & pB & pC & SA & SB & SC).
  destruct (uinit_hist _ _ _); [|discriminate]. cbn [bind] in H. destruct (const_flags (f_const a)) as [flags|] eqn:EF; [|discriminate]. cbn [bind] in H.
  destruct (urun _ _ _ _ _) as [(s', d)|] eqn:ER; [|discriminate]. cbn [bind] in H. injection H as <-. cbn [uo_vars] in HV. destruct (f_return_vars a); [|discriminate]. injection HV as <-.
  pose proof (run_moves (fit_params a l2 flags) (f_data a) _ _ _ _ _ L ER) as (MA & MB & MC & _).
  assert (EC : p_constA (fit_params a l2 flags) = constant_for_A a).
  { destruct l2 as ((x, y), z). cbn. unfold constant_for_A. destruct (f_const a); cbn in EF; inversion EF; reflexivity. }
  assert (EA : p_updA (fit_params a l2 flags) = f_updA a /\ p_updB (fit_params a l2 flags) = f_updB a /\ p_updC (fit_params a l2 flags) = f_updC a /\ p_inner (fit_params a l2 flags) = Z.to_nat (f_inner a)).
  { destruct l2 as ((x, y), z). cbn. auto. }
  destruct EA as (EA & EB & ECC & EI). rewrite EC, EA, EI in MA. rewrite EB, EI in MB. rewrite ECC, EI in MC.
  assert (BND : forall k lo, (min (min 1 (Z.to_nat (f_n_iter a))) (Z.to_nat (f_inner a)) <= k <= lo)%nat -> (1 <= f_n_iter a)%Z -> (1 <= f_inner a)%Z -> (1 <= k)%nat) by lia.
  assert (ONE : forall call m (rs : list (uobj X)) ps ss ss', Forall2 (reg_start rnd m a) (ps ++ rs) ss ->
    Forall2 (within (reg_calls call) (min (min 1 (Z.to_nat (f_n_iter a))) (Z.to_nat (f_inner a))) (Z.to_nat (f_n_iter a) * Z.to_nat (f_inner a))) ss ss' ->
    exists p q, map ug_aux ss' = p ++ q /\ Forall2 (own_variable WMat call rnd m a) rs q).
  { intros call m rs ps ss ss' F G. apply (F2_app_l _ ps), F2_map_r. eapply F2_trans; [|exact F|exact G]. intros u g h (E1 & pos & pos' & E2) (k & K1 & E3 & K2).
    exists (ug_aux g), pos, pos', k. rewrite <- E1. repeat split; [exact E2|exact K2|lia|]. exact (BND _ _ K1). }
  split; [|split]; intros U; rewrite U in *; cbn [uvars_of uv_auxA uv_auxB uv_auxC].
  - exact (ONE _ _ _ _ _ _ SA MA).
  - apply (F2_app_l _ pB), F2_map_r. eapply F2_trans; [|exact SB|exact MB]. intros u g h (E1 & pos & pos' & E2) (k & K1 & E3 & K2).
    exists (ub_aux g), pos, pos', k. rewrite <- E1. repeat split; [exact E2|exact K2|lia|]. exact (BND _ _ K1).
  - exact (ONE _ _ _ _ _ _ SC MC).
Qed.
End CustomCalls.
