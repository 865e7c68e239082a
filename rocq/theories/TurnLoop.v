(** Two problems in different orthonormal coordinates: whole runs. *)
From Coq Require Import Reals Lra Lia List Arith Bool ZArith.
From Verif Require Import Num Numpy RFacts Spec SpecFacts MatFacts ModelSpec SvdFacts Penalties PenaltySpec ProxProofs CoupledMatrices CmfSpec CmfProofs Decomp DecompSpec
  DecompFacts AdmmA Parafac2Proofs OrderSpec OrderProofs OrderSizes ReorderFacts ReorderPen SymSpec SymFacts SymPen SymStep SymRun SymLoop TurnSpec TurnFacts PadSpec PadFacts TurnRun.
Import ListNotations.
Local Open Scope R_scope.
Local Notation shaped := PenaltySpec.shaped.

Lemma rec_inner_trace (X B C : rmat) : mr X = mr B -> mc X = mr C -> rec_inner X B C = mtrace (mmul (mtrans B) (mmul X C)).
Proof. intros H1 H2. unfold rec_inner. destruct (mr C <? mr B)%nat; [|reflexivity]. rewrite mmul_assoc by mlia. reflexivity. Qed.
Section Turn.
Variables (E : ext (N:=RNum)) (z : sizes) (t : coords).
Local Notation n := (z_n z). Local Notation J := (z_rows z). Local Notation K := (z_cols z). Local Notation rk := (z_rank z).
Local Notation P := (t_rows t). Local Notation Q := (t_cols t).
Hypothesis HH : frames z t.
Hypothesis Hn : (0 < n)%nat.
Hypothesis HW : forall G : rmat, shaped G rk rk -> finite_svd (x_svd E G rk) = true -> mc (snd (x_svd E G rk)) = rk.
Variables Xs Xs' : list rmat.
Hypothesis HX : turned_data z t Xs Xs'.
Let FQ : frame Q K := HQ z t HH.
Let FP i (Hi : (i < n)%nat) : frame (P i) (J i) := HP z t HH i Hi.
Local Notation tcmf := (tcmf z t). Local Notation tbreg := (tbreg E z t). Local Notation tcreg := (treg K rk Q). Local Notation tl := (tl z t).
Variable Pm : params (N:=RNum).
Hypothesis HSC : 0 <= p_scale Pm.

Definition tst (a b : state (N:=RNum)) : Prop :=
  tcmf (st_cmf a) (st_cmf b) /\ st_rA b = st_rA a /\ Forall2 tbreg (st_rB a) (st_rB b) /\ Forall2 tcreg (st_rC a) (st_rC b) /\ st_inter b = st_inter a.
Lemma t_upd_B a b : tst a b -> res_rel tst (upd_B E Pm Xs a) (upd_B E Pm Xs' b).
Proof.
  intros (M1 & M2 & M3 & M4 & M5). unfold upd_B. destruct (p_updB Pm); [|cbn [res_rel]; unfold tst; cbn; auto 6].
  eapply res_rel_bind; [apply (turned_B E z t HH Hn HW Xs Xs' HX); eauto|]. intros [c r] [c' r'] (Q1 & Q2). cbn [fst snd res_rel] in *. unfold tst; cbn; auto 6.
Qed.
Lemma t_upd_C a b : tst a b -> res_rel tst (upd_C E Pm Xs a) (upd_C E Pm Xs' b).
Proof.
  intros (M1 & M2 & M3 & M4 & M5). unfold upd_C. destruct (p_updC Pm); [|cbn [res_rel]; unfold tst; cbn; auto 6].
  eapply res_rel_bind; [apply (turned_C E z t HH Hn HW Xs Xs' HX); eauto|]. intros [c r] [c' r'] (Q1 & Q2). cbn [fst snd res_rel] in *. unfold tst; cbn; auto 6.
Qed.
Lemma t_upd_A a b : tst a b -> res_rel tst (upd_A E Pm Xs a) (upd_A E Pm Xs' b).
Proof.
  intros (M1 & M2 & M3 & M4 & M5). unfold upd_A. destruct (p_updA Pm); [|cbn [res_rel]; unfold tst; cbn; auto 6]. rewrite M2.
  eapply res_rel_bind; [apply (turned_A E z t HH Hn HW Xs Xs' HX); eauto|]. intros [[c r] i] [[c' r'] i'] (Q1 & Q2 & Q3). cbn [fst snd res_rel] in *. subst. unfold tst; cbn; auto 6.
Qed.
Lemma t_outer a b : tst a b -> res_rel tst (outer_step E Pm Xs a) (outer_step E Pm Xs' b).
Proof.
  intros H. unfold outer_step. eapply res_rel_bind; [now apply t_upd_B|]. intros a1 b1 H1. eapply res_rel_bind; [now apply t_upd_C|]. intros a2 b2 H2. now apply t_upd_A.
Qed.
Lemma t_gaps a b : tst a b -> state_gaps b = state_gaps a.
Proof.
  intros (M1 & M2 & M3 & M4 & _). unfold state_gaps, compute_gaps. pose proof M1 as (_ & C2 & _ & C4 & C5). rewrite C2, M2.
  rewrite (tgaps_list E z t HH _ _ _ _ C4 M3). now rewrite (tgaps K rk Q FQ _ _ _ _ C5 M4).
Qed.
(** ** Reconstruction error *)
Lemma t_norm : root_sum_squared (N:=RNum) Xs' = root_sum_squared (N:=RNum) Xs.
Proof.
  unfold root_sum_squared. f_equal. f_equal. apply (lrel_eq z 0). eapply lrel_map; [exact (data_rel z t HH Hn Xs Xs' HX)|]. cbv beta. intros i X X' Hi (SX & ->). rewrite !msumsq_nsq.
  pose proof (FP i Hi) as F. pose proof F as (WP & CP & _). pose proof FQ as (WQ & CQ & _). pose proof SX as (WX & RX & CX).
  rewrite <- nsq_mtrans, mtrans_mmul by mlia. rewrite mtrans_involutive by assumption.
  assert (T1 : tm K (mr (P i)) Q (mtrans (mmul (P i) X)) (mmul Q (mtrans (mmul (P i) X)))) by (split; [split; [auto with mwf|mshape; split; congruence]|reflexivity]).
  rewrite (tm_nsq K Q FQ _ _ _ T1), nsq_mtrans. apply (tm_nsq (J i) (P i) F K). split; [exact SX|reflexivity].
Qed.
Lemma t_rec_error a b : tst a b -> forall norm, rec_error Xs' (st_cmf b) norm (st_inter b) = rec_error Xs (st_cmf a) norm (st_inter a).
Proof.
  intros (M1 & _ & _ & _ & M5) norm. unfold rec_error. cbv zeta. rewrite M5. pose proof M1 as (C1 & C2 & C3 & C4 & C5).
  assert (ES : scaled_A (st_cmf b) = scaled_A (st_cmf a)) by (unfold scaled_A; now rewrite C1, C2). rewrite ES.
  destruct (st_inter a) as [[rh cr]|]; [reflexivity|].
  assert (SA : shaped (scaled_A (st_cmf a)) n rk) by (unfold scaled_A; destruct (cw (st_cmf a)); [|exact C3]; destruct C3 as (W & R0 & C0); split; [auto with mwf|mshape; auto]).
  pose proof (turn_BA z t HH _ _ _ M1 SA) as TB.
  assert (E1 : map2 (fun X B => rec_inner X B (cC (st_cmf b))) Xs' (BA (cBs (st_cmf b)) (scaled_A (st_cmf a))) = map2 (fun X B => rec_inner X B (cC (st_cmf a))) Xs (BA (cBs (st_cmf a)) (scaled_A (st_cmf a)))).
  { apply (lrel_eq z 0). eapply lrel_map2; [exact (data_rel z t HH Hn Xs Xs' HX)|exact TB|]. cbv beta. intros i X X' B B' Hi (SX & EX) HBi.
    pose proof (XQ z t HH Hn X X' _ _ i Hi SX EX C5) as HXC. pose proof (tm_gram _ _ (FP i Hi) _ _ _ _ _ _ HBi HXC) as EG.
    pose proof (tm_shape _ _ _ _ _ HBi) as SB'. pose proof (tm_shape _ _ _ _ _ C5) as SC'.
    assert (SX' : shaped X' (mr (P i)) (mr Q)) by (rewrite EX; split; [auto with mwf|split; reflexivity]).
    destruct HBi as (SB & _). destruct C5 as (SC & _). destruct SX as (? & ? & ?), SX' as (? & ? & ?), SB as (? & ? & ?), SB' as (? & ? & ?), SC as (? & ? & ?), SC' as (? & ? & ?).
    rewrite !rec_inner_trace by congruence. now rewrite EG. }
  assert (E2 : map (fun B => rec_sq B (cC (st_cmf b))) (BA (cBs (st_cmf b)) (scaled_A (st_cmf a))) = map (fun B => rec_sq B (cC (st_cmf a))) (BA (cBs (st_cmf a)) (scaled_A (st_cmf a)))).
  { apply (lrel_eq z 0). eapply lrel_map; [exact TB|]. cbv beta. intros i B B' Hi HBi. unfold rec_sq. now rewrite (tm_gram _ _ (FP i Hi) _ _ _ _ _ _ HBi HBi), (tm_gram _ _ FQ _ _ _ _ _ _ C5 C5). }
  now rewrite E1, E2.
Qed.
Lemma t_error a b : tst a b -> state_error Xs' b = state_error Xs a.
Proof. intros H. unfold state_error. cbv zeta. now rewrite t_norm, (t_rec_error a b H). Qed.
(** ** Loss *)
Lemma t_l2 c c' x y w : tcmf c c' -> l2_reg c' x y w = l2_reg c x y w.
Proof.
  intros (C1 & C2 & C3 & C4 & C5). unfold l2_reg. cbv zeta. rewrite C2, (tm_msumsq _ _ FQ _ _ _ C5).
  assert (EB : map (@msumsq RNum) (cBs c') = map (@msumsq RNum) (cBs c)) by (apply (lrel_eq z 0); eapply lrel_map; [exact C4|]; cbv beta; intros i B B' Hi HB; exact (tm_msumsq _ _ (FP i Hi) _ _ _ HB)).
  now rewrite EB.
Qed.
Lemma t_pen_list p Bs Bs' : (~ is_parafac2 p -> forall i, (i < n)%nat -> free_here (J i) (P i) p) -> tl Bs Bs' -> penalty_list (N:=RNum) p Bs' = penalty_list (N:=RNum) p Bs.
Proof.
  intros HF HB.
  assert (EQ : ~ is_parafac2 p -> ~ keeps_zero p -> Bs' = Bs).
  { intros NP NL. apply (lrel_eq z no_mat). eapply lrel_impl; [|exact HB]. cbv beta. intros i a b Hi HM. destruct (HF NP i Hi) as [EE|[(x & EE)|(_ & EE)]]; [|exfalso; apply NL; rewrite EE; exact Logic.I|contradiction]. exact (tm_eye _ _ _ _ _ EE HM). }
  destruct p; try reflexivity; try (rewrite EQ; [reflexivity|solve [intros []]|solve [intros []]]).
  cbn [penalty_list]. f_equal. f_equal. f_equal. apply (lrel_eq z 0). eapply lrel_map; [exact HB|]. cbv beta. intros i M M' Hi HM.
  destruct (HF ltac:(intros []) i Hi) as [EE|[(x & EE)|((f & PL) & _)]]; [now rewrite (tm_eye _ _ _ _ _ EE HM)|discriminate|exact (placed_abs_sum _ _ _ (FP i Hi) f PL M M' HM)].
Qed.
Lemma t_reg a b : tst a b -> reg_penalty (st_cmf b) (st_rA b) (st_rB b) (st_rC b) = reg_penalty (st_cmf a) (st_rA a) (st_rB a) (st_rC a).
Proof.
  intros (M1 & M2 & M3 & M4 & _). unfold reg_penalty. pose proof M1 as (_ & C2 & _ & C4 & C5). rewrite C2, M2.
  assert (EB : mapM (fun g => penalty_list (b_pen g) (cBs (st_cmf b))) (st_rB b) = mapM (fun g => penalty_list (b_pen g) (cBs (st_cmf a))) (st_rB a)).
  { clear - HH FP M3 C4. induction M3 as [|g g' l l' H F IH]; [reflexivity|]. cbn [mapM]. rewrite IH. destruct H as (-> & _ & H & _). rewrite (t_pen_list (b_pen g) _ _ (fun NP i Hi => proj1 (H NP i Hi)) C4). reflexivity. }
  assert (EC : mapM (fun g => penalty_mat (g_pen g) (cC (st_cmf b))) (st_rC b) = mapM (fun g => penalty_mat (g_pen g) (cC (st_cmf a))) (st_rC a)).
  { clear - HH FQ M4 C5. induction M4 as [|g g' l l' H F IH]; [reflexivity|]. cbn [mapM]. rewrite IH. destruct H as (-> & H & _). rewrite (tpenalty K rk Q FQ (g_pen g) _ _ H C5). reflexivity. }
  now rewrite EB, EC.
Qed.
Lemma t_loss a b : tst a b -> state_loss Pm Xs' b = state_loss Pm Xs a.
Proof. intros H. unfold state_loss. rewrite (t_reg a b H), (t_error a b H), (t_l2 _ _ _ _ _ (proj1 H)). reflexivity. Qed.
(** ** The loop *)
Definition tend (u v : state (N:=RNum) * hist (N:=RNum) * nat * message) : Prop :=
  let '(a, g, it, m) := u in let '(b, g', it', m') := v in tst a b /\ g' = g /\ it' = it /\ m' = m.
Lemma t_ao_loop : forall m it a b g, tst a b -> res_rel tend (ao_loop E Pm Xs m it a g) (ao_loop E Pm Xs' m it b g).
Proof.
  induction m as [|m IH]; intros it a b g HS; cbn [ao_loop]; [cbn [res_rel]; unfold tend; auto|].
  eapply res_rel_bind; [now apply t_outer|]. intros a1 b1 H1.
  destruct (otruthy (p_tol Pm) || otruthy (p_abs_tol Pm) || p_return_errors Pm); [|apply IH; auto].
  rewrite (t_gaps a1 b1 H1). destruct (state_gaps a1) as [gp|]; [|reflexivity]. cbn [bind].
  match goal with |- context [if ?x then ao_loop _ _ _ _ _ _ _ else _] => destruct x end; [now apply IH|].
  rewrite (t_loss a1 b1 H1), (t_error a1 b1 H1). destruct (state_loss Pm Xs a1) as [l|]; [|reflexivity]. cbn [bind].
  destruct (p_tol Pm) as [tol|]; [|now apply IH]. destruct (ntruthy tol); [|now apply IH]. destruct (p_abs_tol Pm) as [ab|]; [|reflexivity].
  match goal with |- context [if ?x then Ok _ else _] => destruct x end; [cbn [res_rel]; unfold tend; auto|].
  match goal with |- context [if ?x then Ok _ else _] => destruct x end; [cbn [res_rel]; unfold tend; auto|]. now apply IH.
Qed.
Lemma t_init a b : tst a b -> init_hist Pm Xs' b = init_hist Pm Xs a.
Proof. intros H. unfold init_hist. cbv zeta. now rewrite (t_error a b H), (t_gaps a b H), (t_loss a b H). Qed.
Lemma t_revalidate c c' : tcmf c c' -> (match cw c with None => True | Some w => length w = rk end) -> revalidate (N:=RNum) c = Ok c /\ revalidate (N:=RNum) c' = Ok c'.
Proof.
  intros (C1 & C2 & C3 & C4 & C5) HWt.
  assert (G : forall (d : rcmf) J0 K0, match cw d with None => True | Some w => length w = rk end -> shaped (cA d) n rk -> list_shaped n J0 rk (cBs d) -> shaped (cC d) K0 rk -> revalidate (N:=RNum) d = Ok d).
  { intros d J0 K0 HWd (WA & RA & CA) (LB & SB) (WC & RC & CC). apply revalidate_ok. split; [assumption|]. split; [assumption|]. split; [congruence|]. split; [congruence|]. split.
    - intros i Hi. destruct (SB i ltac:(congruence)) as (W1 & W2 & W3). split; [exact W1|]. unfold nthB. congruence.
    - intros w Ew. rewrite Ew in HWd. congruence. }
  split.
  - apply (G c J K); auto; [|apply C5]. destruct C4 as (L1 & L2 & M2). split; [assumption|]. intros i Hi. apply (M2 i Hi).
  - apply (G c' (fun i => mr (P i)) (mr Q)); [rewrite C1; exact HWt|rewrite C2; exact C3| |apply (tm_shape _ _ _ _ _ C5)]. destruct C4 as (L1 & L2 & M2). split; [assumption|]. intros i Hi. apply (tm_shape _ _ _ _ _ (M2 i Hi)).
Qed.
Definition weights_ok (s : state (N:=RNum)) : Prop := match cw (st_cmf s) with None => True | Some w => length w = rk end.
Lemma outer_weights a b : weights_ok a -> outer_step E Pm Xs a = Ok b -> weights_ok b.
Proof.
  intros HWt H. unfold outer_step in H. destruct (upd_B E Pm Xs a) as [a1|] eqn:EB; [|discriminate H]. cbn [bind] in H. destruct (upd_C E Pm Xs a1) as [a2|] eqn:EC; [|discriminate H]. cbn [bind] in H.
  assert (W1 : weights_ok a1).
  { unfold upd_B in EB. destruct (p_updB Pm); [|injection EB as <-; exact HWt]. unfold admm_update_B in EB. cbv zeta in EB. destruct (feas_penalties _ _ _) as [fps|]; [|discriminate EB]; cbn [bind] in EB. destruct (inner_loop _ _ _ _) as [[Y r']|]; [|discriminate EB]; cbn [bind] in EB. injection EB as <-. exact Logic.I. }
  assert (W2 : weights_ok a2).
  { unfold upd_C in EC. destruct (p_updC Pm); [|injection EC as <-; exact W1]. unfold admm_update_C in EC. destruct (msum_list _) as [?|]; [|discriminate EC]. destruct (msum_list _) as [?|]; [|discriminate EC]. cbv zeta in EC. destruct (inner_loop _ _ _ _) as [[Y r']|]; [|discriminate EC]; cbn [bind] in EC. injection EC as <-. exact Logic.I. }
  unfold upd_A in H. destruct (p_updA Pm); [|injection H as <-; exact W2]. unfold admm_update_A in H. cbv zeta in H. destruct (feas_penalties _ _ _) as [fps|]; [|discriminate H]; cbn [bind] in H. destruct (inner_loop _ _ _ _) as [[Y r']|]; [|discriminate H]; cbn [bind] in H. injection H as <-. exact Logic.I.
Qed.
Lemma loop_weights : forall m it a g b g' it' ms, weights_ok a -> ao_loop E Pm Xs m it a g = Ok (b, g', it', ms) -> weights_ok b.
Proof.
  induction m as [|m IH]; intros it a g b g' it' ms HWt H; cbn [ao_loop] in H; [injection H as <- _ _ _; exact HWt|].
  destruct (outer_step E Pm Xs a) as [a1|] eqn:EO; [|discriminate H]. cbn [bind] in H. pose proof (outer_weights _ _ HWt EO) as W1.
  destruct (otruthy (p_tol Pm) || otruthy (p_abs_tol Pm) || p_return_errors Pm); [|eauto]. destruct (state_gaps a1) as [gp|]; [|discriminate H]. cbn [bind] in H.
  match type of H with context [if ?x then ao_loop _ _ _ _ _ _ _ else _] => destruct x end; [eauto|].
  destruct (state_loss Pm Xs a1) as [l|]; [|discriminate H]. cbn [bind] in H. destruct (p_tol Pm) as [tol|]; [|eauto]. destruct (ntruthy tol); [|eauto]. destruct (p_abs_tol Pm) as [ab|]; [|discriminate H].
  match type of H with context [if ?x then Ok _ else _] => destruct x end; [injection H as <- _ _ _; exact W1|].
  match type of H with context [if ?x then Ok _ else _] => destruct x end; [injection H as <- _ _ _; exact W1|]. eauto.
Qed.
Lemma t_run m a b : weights_ok a -> tst a b -> res_rel (fun u v => tst (fst u) (fst v) /\ snd v = snd u) (run E Pm Xs m a) (run E Pm Xs' m b).
Proof.
  intros HWt HS. unfold run. rewrite (t_init a b HS). destruct (init_hist Pm Xs a) as [g|]; [|reflexivity]. cbn [bind].
  pose proof (t_ao_loop (Z.to_nat m) 0%nat a b g HS) as LR. destruct (ao_loop E Pm Xs (Z.to_nat m) 0 a g) as [[[[a1 g1] it] ms]|] eqn:EA, (ao_loop E Pm Xs' (Z.to_nat m) 0 b g) as [[[[b1 g1'] it'] ms']|]; cbn [res_rel tend] in LR; try contradiction; [|exact LR].
  cbn [bind]. destruct LR as (HS1 & -> & -> & ->). cbv beta zeta. rewrite (t_gaps a1 b1 HS1).
  match goal with |- res_rel _ (bind ?x _) _ => destruct x as [fe|] end; [|reflexivity]. cbn [bind]. destruct (t_revalidate _ _ (proj1 HS1) (loop_weights _ _ _ _ _ _ _ _ HWt EA)) as (R1 & R2). rewrite R1, R2. cbn [bind].
  assert (HS2 : tst (St (st_cmf a1) (st_rA a1) (st_rB a1) (st_rC a1) (st_inter a1)) (St (st_cmf b1) (st_rA b1) (st_rB b1) (st_rC b1) (st_inter b1))) by exact HS1.
  destruct (p_return_errors Pm); cbn [res_rel fst snd]; (split; [exact HS2|]); reflexivity.
Qed.
End Turn.
