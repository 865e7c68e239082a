(** Whole runs that cannot fail. *)
From Coq Require Import Reals Lra Lia List Arith Bool Classical_Prop FunctionalExtensionality ZArith.
From Verif Require Import Num Numpy Unimodal RFacts Spec SpecFacts MatFacts SvdFacts ModelSpec Penalties PenaltySpec
  ProxProofs TVProofs GenL2Proofs SimplexProofs Parafac2Proofs PenaltyMain CoupledMatrices CmfSpec CmfProofs
  Decomp DecompSpec DecompFacts AdmmProofs AdmmB AdmmA AdmmRegs AdmmLoop AdmmOne AoState AoLoop AoRun AdmmOpt Total.
Import ListNotations.
Local Open Scope R_scope.

Lemma max_exists (f : nat -> R) n : exists m, is_max (S n) f m.
Proof.
  induction n as [|n (m & (k & Hk & E) & H)].
  - exists (f 0%nat). split; [exists 0%nat; split; [lia|reflexivity]|]. intros k Hk. replace k with 0%nat by lia. lra.
  - destruct (Rle_dec (f (S n)) m).
    + exists m. split; [exists k; split; [lia|assumption]|]. intros j Hj. destruct (Nat.eq_dec j (S n)) as [->|]; [assumption|]. apply H. lia.
    + exists (f (S n)). split; [exists (S n); split; [lia|reflexivity]|]. intros j Hj. destruct (Nat.eq_dec j (S n)) as [->|]; [lra|].
      specialize (H j ltac:(lia)). lra.
Qed.
Lemma rhos_exist b n f : exists rho, rhos_used b n f rho.
Proof.
  destruct b; cbn; [|exists f; reflexivity]. destruct n as [|n]; [exists f; lia|].
  destruct (max_exists f n) as (m & H). exists (fun _ => m). intros; assumption.
Qed.
Lemma free_usable p rho : rho_free p -> usable p rho.
Proof. intros H. split; [|now left]. intros ->. exact H. Qed.
Lemma pens_Forall {G H T} (f : G -> T) (g : H -> T) (P : T -> Prop) (l : list G) (m : list H) : map f l = map g m ->
  Forall (fun x => P (f x)) l -> Forall (fun x => P (g x)) m.
Proof.
  intros E H1. assert (K : Forall P (map f l)) by (clear E; induction H1; cbn; constructor; auto).
  rewrite E in K. clear - K. induction m; cbn in K; inversion K; constructor; auto.
Qed.
Lemma robust_same P s s' : same_penalties s s' -> robust P s -> robust P s'.
Proof.
  intros (A & B & C) (H1 & H2 & H3). split; [|split].
  - intros U. destruct (H1 U) as (X & Y & Z). split; [assumption|]. split.
    + exact (pens_Forall g_pen g_pen rho_free _ _ (eq_sym A) Y).
    + intros W. exact (pens_Forall g_pen g_pen rowwise _ _ (eq_sym A) (Z W)).
  - intros U. destruct (H2 U) as (X & Y). split; [assumption|]. exact (pens_Forall b_pen b_pen rho_free _ _ (eq_sym B) Y).
  - intros U. destruct (H3 U) as (X & Y). split; [assumption|]. exact (pens_Forall g_pen g_pen rho_free _ _ (eq_sym C) Y).
Qed.
Lemma data_len Xs c : data_fits Xs c -> length (cBs c) = length Xs.
Proof. intros (_ & H & _). symmetry. exact H. Qed.

Section Run.
Variables (E : ext (N:=RNum)) (P : params (N:=RNum)) (Xs : list rmat).
Hypothesis HP : params_ok P.
Lemma upd_B_total s : valid_state Xs s -> svd_correct E (mc (cA (st_cmf s))) -> robust P s -> exists s', upd_B E P Xs s = Ok s'.
Proof.
  destruct s as [c rA rB rC inter]. intros (V1 & V2 & V3 & V4 & V5) Hsvd (_ & H & _). cbn [st_cmf st_rA st_rB st_rC st_inter] in *.
  destruct HP as (PA & PB & PC & PS). unfold upd_B. cbn [st_cmf st_rA st_rB st_rC st_inter]. destruct (p_updB P); [|eexists; reflexivity].
  destruct (H eq_refl) as (HL & HR). destruct (rhos_exist (p_constB P) (length Xs) (rho_B (p_scale P) c)) as (rho & Hrho).
  destruct (B_total E Xs c (p_l2B P) (p_scale P) (p_constB P) V1 V2 PB PS Hsvd rB (p_inner P) (p_inner_tol P) rho Hrho) as ([c' r'] & ->).
  - rewrite <- (data_len Xs c V1). exact V4.
  - intros i Hi. split; [|now left]. eapply Forall_impl; [|exact HR]. intros a. apply free_usable.
  - cbn [bind]. eexists; reflexivity.
Qed.
Lemma upd_C_total s : valid_state Xs s -> svd_correct E (mc (cA (st_cmf s))) -> robust P s -> exists s', upd_C E P Xs s = Ok s'.
Proof.
  destruct s as [c rA rB rC inter]. intros (V1 & V2 & V3 & V4 & V5) Hsvd (_ & _ & H). cbn [st_cmf st_rA st_rB st_rC st_inter] in *.
  destruct HP as (PA & PB & PC & PS). unfold upd_C. cbn [st_cmf st_rA st_rB st_rC st_inter]. destruct (p_updC P); [|eexists; reflexivity].
  destruct (H eq_refl) as (HL & HR).
  destruct (C_total E Xs c (p_l2C P) (p_scale P) V1 V2 PC PS Hsvd rC (p_inner P) (p_inner_tol P)) as ([c' r'] & ->).
  - exact V5.
  - eapply Forall_impl; [|exact HR]. intros a. apply free_usable.
  - now left.
  - cbn [bind]. eexists; reflexivity.
Qed.
Lemma upd_A_total s : valid_state Xs s -> svd_correct E (mc (cA (st_cmf s))) -> robust P s -> exists s', upd_A E P Xs s = Ok s'.
Proof.
  destruct s as [c rA rB rC inter]. intros (V1 & V2 & V3 & V4 & V5) Hsvd (H & _ & _). cbn [st_cmf st_rA st_rB st_rC st_inter] in *.
  destruct HP as (PA & PB & PC & PS). unfold upd_A. cbn [st_cmf st_rA st_rB st_rC st_inter]. destruct (p_updA P); [|eexists; reflexivity].
  destruct (H eq_refl) as (HL & HR & HW). destruct (rhos_exist (p_constA P) (length Xs) (rho_A (p_scale P) c)) as (rho & Hrho).
  destruct (A_total E Xs c (p_l2A P) (p_scale P) (p_constA P) V1 V2 PA PS Hsvd rA (p_inner P) (p_inner_tol P) rho Hrho) as ([[c' r'] i'] & ->).
  - exact V3.
  - intros i Hi. split; [|now left]. eapply Forall_impl; [|exact HR]. intros a. apply free_usable.
  - exact HW.
  - cbn [bind]. eexists; reflexivity.
Qed.
Lemma outer_total s : valid_state Xs s -> svd_correct E (mc (cA (st_cmf s))) -> robust P s -> exists s', outer_step E P Xs s = Ok s'.
Proof.
  intros V Hsvd HR. unfold outer_step. destruct (upd_B_total s V Hsvd HR) as (s1 & H1). rewrite H1. cbn [bind].
  destruct (upd_B_ok E P Xs HP s s1 V Hsvd H1) as ((V1 & S1 & P1 & _) & _).
  assert (Hsvd1 : svd_correct E (mc (cA (st_cmf s1)))) by (destruct S1 as (_ & X & _); now rewrite X).
  destruct (upd_C_total s1 V1 Hsvd1 (robust_same _ _ _ P1 HR)) as (s2 & H2). rewrite H2. cbn [bind].
  destruct (upd_C_ok E P Xs HP s1 s2 V1 Hsvd1 H2) as ((V2 & S2 & P2 & _) & _).
  apply upd_A_total; auto; [destruct S2 as (_ & X & _); now rewrite X|].
  apply (robust_same _ _ _ P2). now apply (robust_same _ _ _ P1).
Qed.
Lemma state_loss_total s : valid_state Xs s -> exists l, state_loss P Xs s = Ok l.
Proof.
  intros (V1 & V2 & V3 & V4 & V5). unfold state_loss, reg_penalty.
  pose proof V1 as ((WA & WC & HC & HA & HB & Hw) & _).
  rewrite (penalty_mats_ok (cA (st_cmf s)) _ _ _ (conj WA (conj eq_refl eq_refl)) V3). cbn [bind].
  rewrite penalty_lists_ok by assumption. cbn [bind].
  rewrite (penalty_mats_ok (cC (st_cmf s)) (mr (cC (st_cmf s))) (mc (cA (st_cmf s)))); [|split; [|split]; auto|assumption]. cbn [bind].
  destruct (state_error Xs s); eexists; reflexivity.
Qed.
Hypothesis HT : tols_ok P.
Lemma ao_total n : forall it s h, valid_state Xs s -> svd_correct E (mc (cA (st_cmf s))) -> robust P s ->
  exists s' h' it' msg, ao_loop E P Xs n it s h = Ok (s', h', it', msg) /\ valid_state Xs s'.
Proof.
  induction n as [|n IH]; intros it s h V Hsvd HR; cbn [ao_loop]; [now exists s, h, it, MaxIter|].
  destruct (outer_total s V Hsvd HR) as (s1 & H1). rewrite H1. cbn [bind].
  destruct (outer_step_ok E P Xs HP s s1 V Hsvd H1) as ((V1 & S1 & P1 & _) & _).
  assert (Hsvd1 : svd_correct E (mc (cA (st_cmf s1)))) by (destruct S1 as (_ & X & _); now rewrite X).
  pose proof (robust_same _ _ _ P1 HR) as HR1.
  destruct (otruthy (p_tol P) || otruthy (p_abs_tol P)); destruct (p_return_errors P); cbn [orb];
    try (apply IH; assumption);
    destruct (state_gaps_ok Xs s1 V1) as (g & -> & _); cbn [bind];
    set (feas := match p_feas_tol P with Some t => ntruthy t && check_feasibility g t | None => false end);
    destruct feas; cbn [negb andb]; try (apply IH; assumption);
    destruct (state_loss_total s1 V1) as (l & ->); cbn [bind];
    (destruct (p_tol P) as [t|] eqn:ET; [|apply IH; assumption]);
    (destruct (ntruthy t) eqn:TT; [|apply IH; assumption]);
    (destruct (p_abs_tol P) as [ab|] eqn:EA;
      [|exfalso; apply HT; [|assumption]; exists t; split; [assumption|]; now apply ntruthy_R]);
    cbn [andb]; try (apply IH; assumption);
    (destruct (rel_crit t (last_x (h_losses h)) l); [do 4 eexists; split; [reflexivity|assumption]|]);
    (destruct (xlt l ab); [do 4 eexists; split; [reflexivity|assumption]|apply IH; assumption]).
Qed.
Lemma run_total N s : valid_state Xs s -> svd_correct E (mc (cA (st_cmf s))) -> robust P s -> exists r, run E P Xs N s = Ok r.
Proof.
  intros V Hsvd HR. unfold run, init_hist. destruct (state_loss_total s V) as (l & ->). cbn [bind].
  destruct (state_gaps_ok Xs s V) as (g & -> & _). cbn [bind].
  destruct (ao_total (Z.to_nat N) 0%nat s (Hist [state_error Xs s] [g] [l]) V Hsvd HR) as (s' & h' & it' & msg & -> & V'). cbn [bind].
  match goal with |- exists r, (let* feas := ?x in _) = _ => assert (K : exists f, x = Ok f) end.
  { destruct (p_feas_tol P) as [t|]; [|eexists; reflexivity]. destruct (ntruthy t && p_return_errors P); [|eexists; reflexivity].
    destruct (state_gaps_ok Xs s' V') as (g' & -> & _). cbn [bind]. eexists; reflexivity. }
  destruct K as (f & ->). cbn [bind]. rewrite revalidate_ok by apply V'. cbn [bind]. destruct (p_return_errors P); eexists; reflexivity.
Qed.
End Run.
