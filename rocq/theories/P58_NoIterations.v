(** C102: without iterations a fit returns its start. *)
From Coq Require Import Reals Lra Lia List Arith Bool ZArith.
From Verif Require Import Num Numpy Penalties CoupledMatrices Decomp InitVars Parse ParseSpec Fit AoPrefix OrderSpec OrderProofs OrderSizes OrderFit P18_AnyArith.
From Verif Require Import Spec ModelSpec PenaltySpec CmfSpec DecompSpec DecompExamples InitSpec FitSpec FitExamples P11_Total Ideal ResumeSpec Tolerances RFacts.
Import ListNotations.
Local Open Scope nat_scope.

(** The same call with other settings of the updates: the numbers of iterations, [inner_tol],
    [feasibility_penalty_scale] and [constant_feasibility_penalty]. *)
Definition other_updates {N : Num} (a : fitargs) (n inner : Z) (inner_tol : option num) (scale : num) (const : constarg) : fitargs :=
  FitArgs (f_data a) (f_rank a) (f_init a) n (f_l2 a) (f_kw a) (f_regs a) scale const (f_aux a) (f_dual a) (f_svd a)
    (f_tol a) (f_abs_tol a) (f_feas_tol a) inner_tol inner (f_updA a) (f_updB a) (f_updC a) (f_return_vars a) (f_return_errors a).

Section NoIterations.
Context {N : Num}.

Lemma revalidate_weights (c c' : cmf) : revalidate c = Ok c' -> cw c' = cw c.
Proof.
  unfold revalidate. destruct (cmf_init (py_of_cmf c)) as [[[sh k] c0]|] eqn:E; [|discriminate]. cbn [bind]. intros H. injection H as <-.
  unfold cmf_init in E. destruct (validate_cmf _) as [[? ?]|]; [|discriminate]. unfold py_of_cmf in E. cbn [bind unpack2 unpack3 py_iter] in E. injection E as _ _ <-. cbn.
  now destruct (cw c).
Qed.
Lemma mregs_vars l : forall a d r, make_mregs l a d = Ok r -> map VMat (map g_aux r) = a /\ map VMat (map g_dual r) = d.
Proof.
  induction l as [|o l IH]; intros [|[M|M] a] [|[D|D] d] r H; cbn [make_mregs] in H; try discriminate; [injection H as <-; auto|].
  destruct (make_mregs l a d) as [r0|] eqn:E; [|discriminate]. cbn [bind] in H. injection H as <-. destruct (IH _ _ _ E) as (<- & <-). auto.
Qed.
Lemma bregs_vars l : forall a d r, make_bregs l a d = Ok r -> map VMats (map b_aux r) = a /\ map (fun x => VMats (AList x)) (map b_dual r) = d.
Proof.
  induction l as [|o l IH]; intros [|[M|M] a] [|[D|[D|P D]] d] r H; cbn [make_bregs] in H; try discriminate; [injection H as <-; auto|].
  destruct (make_bregs l a d) as [r0|] eqn:E; [|discriminate]. cbn [bind] in H. injection H as <-. destruct (IH _ _ _ E) as (<- & <-). auto.
Qed.

(** The result consists of the initial factors and the initial auxiliary and dual variables, as [initialize_cmf],
    [initialize_aux] and [initialize_dual] return them, and of histories with the one entry of the start. *)
Theorem C102_start_returned V IE rnd (a : fitargs) out : (f_n_iter a <= 0)%Z -> cmf_aoadmm V IE rnd a = Ok out ->
  exists c pos, initialize_cmf (e_ext V) IE rnd (f_data a) (f_rank a) (f_init a) 0 = Ok (c, pos) /\ out_cmf out = c /\
  (forall v, out_vars out = Some v -> exists rA rB rC pos' pos'',
     parse_all V (f_kw a) (f_regs a) (f_aux a) (f_dual a) = Ok (rA, rB, rC) /\
     let regs := (if f_updA a then rA else [], if f_updB a then rB else [], if f_updC a then rC else []) in
     initialize_aux rnd (f_data a) (f_rank a) regs pos = Ok (map VMat (v_auxA v), map VMats (v_auxB v), map VMat (v_auxC v), pos') /\
     initialize_dual rnd (f_data a) (f_rank a) regs pos' =
       Ok (map VMat (v_dualA v), map (fun l => VMats (AList l)) (v_dualB v), map VMat (v_dualC v), pos'')) /\
  (forall d, out_diag out = Some d ->
     d_n_iter d = 0 /\ d_message d = MaxIter /\ length (d_errors d) = 1 /\ length (d_gaps d) = 1 /\ length (d_losses d) = 1 /\
     flag_says a MaxIter (d_stopped d) /\ ((exists t, is_set (f_feas_tol a) t) <-> d_feasible d <> None) /\
     (ordered -> Forall (every_gap OrderFit.not_nan) (d_gaps d) -> forall b, d_feasible d = Some b -> (b = true <-> gaps_small a d 0))).
Proof.
  intros HN H. pose proof H as H0. destruct (fit_pieces _ _ _ _ _ H) as (s & l2 & flags & s' & od & ES & ER & ->). cbn [out_cmf out_vars out_diag].
  destruct (setup_pieces _ _ _ _ _ _ ES) as (pos & t & R & K & EI & _ & _ & _ & _ & SH & _).
  destruct (run_pieces _ _ _ _ _ _ _ ER) as (h0 & s1 & h & it & msg & c & fe & EH & EL & EV & Es & EF & EO).
  replace (Z.to_nat (f_n_iter a)) with 0 in EL by lia. cbn [ao_loop] in EL. injection EL as <- <- <- <-.
  exists (st_cmf s), pos. split; [exact EI|]. split; [|split].
  - rewrite Es. cbn [st_cmf]. pose proof (revalidate_weights _ _ EV) as W. destruct (revalidate_same _ _ _ SH EV) as (E1 & E2 & E3).
    destruct c, (st_cmf s). cbn in *. now subst.
  - intros v Hv. destruct (f_return_vars a); [|discriminate]. injection Hv as <-. rewrite Es. cbn [vars_of st_rA st_rB st_rC v_auxA v_auxB v_auxC v_dualA v_dualB v_dualC].
    unfold setup in ES. destruct (negb (f_svd a)); [discriminate|]. rewrite EI in ES. cbn [bind] in ES. destruct (listify (f_l2 a)) as [l2'|]; [|discriminate]. cbn [bind] in ES.
    destruct (parse_all V (f_kw a) (f_regs a) (f_aux a) (f_dual a)) as [[[rA rB] rC]|]; [|discriminate]. cbn [bind] in ES.
    destruct (initialize_aux _ _ _ _ _) as [[[[aA aB] aC] pos']|] eqn:EA; [|discriminate]. cbn [bind] in ES.
    destruct (initialize_dual _ _ _ _ _) as [[[[dA dB] dC] pos'']|] eqn:ED; [|discriminate]. cbn [bind] in ES.
    match type of ES with (if ?b then _ else _) = _ => destruct b; [discriminate|] end.
    destruct (make_mregs _ aA dA) as [gA|] eqn:MA; [|discriminate]. cbn [bind] in ES. destruct (make_bregs _ aB dB) as [gB|] eqn:MB; [|discriminate]. cbn [bind] in ES.
    destruct (make_mregs _ aC dC) as [gC|] eqn:MC; [|discriminate]. cbn [bind] in ES. injection ES as <- <-. cbn [st_rA st_rB st_rC].
    destruct (mregs_vars _ _ _ _ MA) as (-> & ->). destruct (bregs_vars _ _ _ _ MB) as (-> & ->). destruct (mregs_vars _ _ _ _ MC) as (-> & ->).
    exists rA, rB, rC, pos', pos''. auto.
  - intros d Hd. destruct (fit_fields a l2 flags) as (_ & _ & _ & _ & FT & FAB & FF & FRE). rewrite FT, FAB, FRE in EO. rewrite FF, FRE in EF.
    subst od. destruct (f_return_errors a) eqn:RE; [|discriminate]. injection Hd as <-. cbn [d_n_iter d_message d_errors d_gaps d_losses d_stopped d_feasible].
    unfold init_hist in EH. cbv zeta in EH. destruct (state_loss _ _ s) as [l|]; [|discriminate]. cbn [bind] in EH. destruct (state_gaps s) as [g|] eqn:EG; [|discriminate]. cbn [bind] in EH. injection EH as <-.
    repeat (split; [reflexivity|]). split; [|split].
    + cbn [negb andb]. split.
      * intros (x & [K1|K1]); [assert (T : otruthy (f_tol a) = true) by (apply otruthy_set; eauto)|assert (T : otruthy (f_abs_tol a) = true) by (apply otruthy_set; eauto)]; rewrite T, ?orb_true_r; reflexivity.
      * intros K1. destruct (otruthy (f_tol a)) eqn:T1; [apply otruthy_set in T1 as (x & T1); destruct (K1 x); contradiction|].
        destruct (otruthy (f_abs_tol a)) eqn:T2; [apply otruthy_set in T2 as (x & T2); destruct (K1 x); contradiction|]. reflexivity.
    + rewrite <- otruthy_set. destruct (f_feas_tol a) as [x|]; cbn [otruthy]; [|injection EF as <-; split; congruence].
      destruct (ntruthy x); cbn [andb bind] in EF; injection EF as <-; split; congruence.
    + intros HO NN b Hb. destruct (C59_reports _ _ _ _ _ _ HO H0 eq_refl NN) as (_ & _ & _ & _ & _ & _ & _ & K1 & _). exact (K1 b Hb).
Qed.

(** Two calls without iterations that differ only in how the updates would be made do the same. *)
Theorem C102_settings_do_not_matter V IE rnd (a : fitargs) n inner inner_tol scale const :
  (f_n_iter a <= 0)%Z -> (n <= 0)%Z -> f_const a <> COther -> const <> COther ->
  cmf_aoadmm V IE rnd (other_updates a n inner inner_tol scale const) = cmf_aoadmm V IE rnd a.
Proof.
  intros H1 H2 C1 C2. unfold cmf_aoadmm. change (setup V IE rnd (other_updates a n inner inner_tol scale const)) with (setup V IE rnd a).
  destruct (setup V IE rnd a) as [[s [[x y] z]]|]; [|reflexivity]. cbn [bind].
  change (init_hist (fit_params (other_updates a n inner inner_tol scale const) (x, y, z) (false, false)) (f_data (other_updates a n inner inner_tol scale const)) s)
    with (init_hist (fit_params a (x, y, z) (false, false)) (f_data a) s).
  destruct (init_hist _ _ s) as [h0|]; [|reflexivity]. cbn [bind]. cbn [f_const other_updates f_n_iter f_data f_return_vars].
  assert (F : forall k, k <> COther -> exists f, const_flags k = Ok f) by (intros [b| | |] K; try contradiction; eexists; reflexivity).
  destruct (F _ C1) as (f1 & ->). destruct (F _ C2) as (f2 & ->). cbn [bind].
  assert (R0 : forall P P' M M', (M <= 0)%Z -> (M' <= 0)%Z -> p_l2A P' = p_l2A P -> p_l2B P' = p_l2B P -> p_l2C P' = p_l2C P -> p_tol P' = p_tol P -> p_abs_tol P' = p_abs_tol P -> p_feas_tol P' = p_feas_tol P ->
    p_return_errors P' = p_return_errors P -> run (e_ext V) P' (f_data a) M' s = run (e_ext V) P (f_data a) M s).
  { intros P P' M M' L1 L2 Q1 Q2 Q3 Q4 Q5 Q6 Q7. unfold run. replace (Z.to_nat M) with 0 by lia. replace (Z.to_nat M') with 0 by lia. cbn [ao_loop].
    assert (IH : init_hist P' (f_data a) s = init_hist P (f_data a) s) by (unfold init_hist, state_loss; rewrite Q1, Q2, Q3; reflexivity).
    rewrite IH. destruct (init_hist P (f_data a) s); [|reflexivity]. cbn [bind]. rewrite Q4, Q5, Q6, Q7. reflexivity. }
  rewrite (R0 (fit_params a (x, y, z) f1) (fit_params (other_updates a n inner inner_tol scale const) (x, y, z) f2) (f_n_iter a) n); reflexivity || assumption.
Qed.
End NoIterations.
Print Assumptions C102_start_returned.
Print Assumptions C102_settings_do_not_matter.

(** The hypotheses are met: a fit with penalties on every mode, tolerances and all results, asked for minus three iterations. *)
Example C102_nonvacuous rnd : exists V out v d, let a := with_n_iter ex_args (-3) in
  (f_n_iter a <= 0)%Z /\ f_const a <> COther /\ cmf_aoadmm V no_ext rnd a = Ok out /\ out_vars out = Some v /\ out_diag out = Some d /\ d_feasible d <> None.
Proof.
  destruct ideal_exists as (E & HE & _). set (V := Env (N:=RNum) E (fun _ => []) true).
  assert (HD : dependable V (with_n_iter ex_args (-3)) 1) by exact (ex_dependable E).
  destruct (C51_fit_total V no_ext rnd _ 1 HD no_ext_ranks (HE 1)) as (out & HA). pose proof HA as H.
  destruct (fit_pieces _ _ _ _ _ H) as (s & l2 & flags & s' & od & ES & ER & EO). subst out.
  destruct (run_pieces _ _ _ _ _ _ _ ER) as (h0 & s1 & h & it & msg & c & fe & EH & EL & EV & Es & EF & EO).
  destruct (fit_fields (with_n_iter ex_args (-3)) l2 flags) as (_ & _ & _ & _ & FT & FAB & FF & FRE). rewrite FRE in EO. cbn [f_return_errors with_n_iter ex_args] in EO. subst od.
  assert (Q : (-3 <= 0)%Z) by lia.
  destruct (C102_start_returned _ _ _ _ _ (Q : (f_n_iter (with_n_iter ex_args (-3)) <= 0)%Z) HA) as (c1 & pos & _ & _ & HV & HDg).
  eexists V, _, _, _. split; [exact Q|]. split; [discriminate|]. split; [exact HA|]. split; [reflexivity|]. split; [reflexivity|].
  destruct (HDg _ eq_refl) as (_ & _ & _ & _ & _ & _ & K & _). apply K. exists (1 / 10000)%R. split; [reflexivity|]. apply truthy_set. apply ntruthy_R. lra.
Qed.
