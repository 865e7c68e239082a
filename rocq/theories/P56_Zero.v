(** C100: data that are zero everywhere. *)
From Coq Require Import Reals Lra Lia List Arith Bool ZArith Classical_Prop.
From Verif Require Import Num Numpy RFacts Spec SpecFacts MatFacts ModelSpec Penalties PenaltySpec CoupledMatrices CmfSpec CmfProofs Decomp DecompSpec
  DecompFacts AdmmProofs AoPrefix AoLoop AoRun AoHist P05_Runs InitVars InitSpec Parse ParseSpec ParseProofs Fit FitSpec FitProofs P08_Fit P09_Calls P11_Total DecompExamples FitExamples Ideal
  ResumeSpec ResumeProofs TolSpec Tolerances P50_Tolerances ExplainSpec Explain P54_Explained SymSpec P29_Symmetry ZeroSpec.
Import ListNotations.
Local Open Scope R_scope.

Lemma zero_sumsq (a : fitR) : zero_data a -> data_sumsq (f_data a) = 0.
Proof.
  intros Z. unfold data_sumsq, sumsq. rewrite Sum_rsum. apply rsum_zero. intros i Hi. rewrite Sum_rsum. apply rsum_zero. intros j Hj. rewrite Sum_rsum. apply rsum_zero. intros k Hk.
  rewrite (Z (nthX (f_data a) i) j k); [ring|now apply nth_In|exact Hj|exact Hk].
Qed.
Lemma zero_root (Xs : list matR) : data_sumsq Xs = 0 -> root_sum_squared (N:=RNum) Xs = 0.
Proof. intros H. rewrite root_data, H. apply sqrt_0. Qed.

Definition plainP (P : paramsR) : paramsR :=
  Params (p_l2A P) (p_l2B P) (p_l2C P) (p_scale P) (p_constA P) (p_constB P) (p_inner P) (p_inner_tol P) (p_updA P) (p_updB P) (p_updC P) None None None (p_return_errors P).

Section Loop.
Variables (E : extR) (P : paramsR) (Xs : list matR).
Hypothesis HZ : data_sumsq Xs = 0.
Lemma error_blank s : state_error Xs s = NaN \/ state_error Xs s = PInf.
Proof.
  unfold state_error, xdiv. cbv zeta. assert (K : neqb (N:=RNum) (root_sum_squared Xs) n0 = true) by (apply neqb_true; now apply zero_root). rewrite K.
  match goal with |- context[if ?b then _ else _] => destruct b end; auto.
Qed.
Lemma loss_blank s l : state_loss P Xs s = Ok l -> l = state_error Xs s.
Proof.
  unfold state_loss. destruct (reg_penalty _ _ _ _); [|discriminate]. cbn [bind]. destruct (error_blank s) as [-> | ->]; intros K; now injection K as <-.
Qed.
Lemma blank_app l x : no_numbers l -> x = NaN \/ x = PInf -> no_numbers (l ++ [x]).
Proof. intros H Hx y Hy. apply in_app_iff in Hy as [Hy|[<-|[]]]; auto. Qed.
Lemma blank_crit tol l x : x = NaN \/ x = PInf -> rel_crit (N:=RNum) tol (last_x l) x = false.
Proof. intros [-> | ->]; unfold rel_crit; destruct (last_x l); reflexivity. Qed.
Lemma blank_lt t x : x = NaN \/ x = PInf -> xlt (N:=RNum) x t = false.
Proof. intros [-> | ->]; reflexivity. Qed.

(** the loop runs to its end, along a trajectory that does not depend on the tolerances *)
Lemma loop_blank n : forall it s h s' h' it' msg, no_numbers (h_errors h) -> no_numbers (h_losses h) ->
  ao_loop E P Xs n it s h = Ok (s', h', it', msg) ->
  it' = (it + n)%nat /\ msg = MaxIter /\ no_numbers (h_errors h') /\ no_numbers (h_losses h') /\
  exists tr, tr 0%nat = s /\ tr n = s' /\ trajectory E P Xs n tr /\
    (p_return_errors P = true -> h_errors h' = h_errors h ++ map (fun j => state_error Xs (tr (S j))) (seq 0 n)) /\
    (p_return_errors P = true -> h_losses h' = h_losses h ++ map (fun j => state_error Xs (tr (S j))) (seq 0 n)) /\
    exists h'', ao_loop E (plainP P) Xs n it s h = Ok (s', h'', it', MaxIter) /\ (p_return_errors P = true -> h'' = h').
Proof.
  induction n as [|n IH]; intros it s h s' h' it' msg NE NL H.
  { cbn in H. injection H as <- <- <- <-. rewrite Nat.add_0_r. repeat (split; [assumption || reflexivity|]). exists (fun _ => s). repeat (split; [reflexivity|]). split; [intros j Hj; lia|].
    cbn [seq map]. rewrite !app_nil_r. repeat (split; [reflexivity|]). exists h. split; reflexivity. }
  cbn [ao_loop] in H |- *. change (outer_step E (plainP P) Xs s) with (outer_step E P Xs s). destruct (outer_step E P Xs s) as [s1|] eqn:HO; [|discriminate]. cbn [bind] in H |- *.
  cbn [plainP p_tol p_abs_tol p_feas_tol p_return_errors otruthy orb] in *.
  assert (EXT : forall tr h1 h2, tr 0%nat = s1 -> trajectory E P Xs n tr -> h_errors h1 = h_errors h ++ [state_error Xs s1] ->
    h_errors h2 = h_errors h1 ++ map (fun j => state_error Xs (tr (S j))) (seq 0 n) ->
    h_errors h2 = h_errors h ++ map (fun j => state_error Xs (match j with 0%nat => s1 | S i => tr (S i) end)) (seq 0 (S n))).
  { intros tr h1 h2 T0 _ K1 K2. rewrite K2, K1, <- app_assoc. cbn [seq map app]. rewrite <- seq_shift, map_map. reflexivity. }
  assert (EXL : forall tr (h1 h2 : hist (N:=RNum)), tr 0%nat = s1 -> h_losses h1 = h_losses h ++ [state_error Xs s1] ->
    h_losses h2 = h_losses h1 ++ map (fun j => state_error Xs (tr (S j))) (seq 0 n) ->
    h_losses h2 = h_losses h ++ map (fun j => state_error Xs (match j with 0%nat => s1 | S i => tr (S i) end)) (seq 0 (S n))).
  { intros tr h1 h2 T0 K1 K2. rewrite K2, K1, <- app_assoc. cbn [seq map app]. rewrite <- seq_shift, map_map. reflexivity. }
  assert (TRJ : forall tr, tr 0%nat = s1 -> trajectory E P Xs n tr -> trajectory E P Xs (S n) (fun j => match j with 0%nat => s | S i => tr i end)).
  { intros tr T0 HT [|j] Hj; [now rewrite T0|apply HT; lia]. }
  (* an iteration that records nothing *)
  assert (SKIP : forall h1 hp, h_errors h1 = h_errors h -> h_losses h1 = h_losses h -> p_return_errors P = false -> ao_loop E P Xs n (S it) s1 h1 = Ok (s', h', it', msg) -> hp = h ->
     it' = (it + S n)%nat /\ msg = MaxIter /\ no_numbers (h_errors h') /\ no_numbers (h_losses h') /\
     exists tr, tr 0%nat = s /\ tr (S n) = s' /\ trajectory E P Xs (S n) tr /\
       (p_return_errors P = true -> h_errors h' = h_errors h ++ map (fun j => state_error Xs (tr (S j))) (seq 0 (S n))) /\
       (p_return_errors P = true -> h_losses h' = h_losses h ++ map (fun j => state_error Xs (tr (S j))) (seq 0 (S n))) /\
       exists h'', ao_loop E (plainP P) Xs n (S it) s1 hp = Ok (s', h'', it', MaxIter) /\ (p_return_errors P = true -> h'' = h')).
  { intros h1 hp K1 K2 RF HL ->. assert (N1 : no_numbers (h_errors h1)) by now rewrite K1. assert (N2 : no_numbers (h_losses h1)) by now rewrite K2.
    destruct (IH _ _ _ _ _ _ _ N1 N2 HL) as (A1 & A2 & A3 & A4 & tr & T0 & Tn & HT & _ & _ & h2 & HP & _).
    split; [lia|]. split; [exact A2|]. split; [exact A3|]. split; [exact A4|]. exists (fun j => match j with 0%nat => s | S i => tr i end). split; [reflexivity|]. split; [exact Tn|].
    split; [now apply TRJ|]. split; [congruence|]. split; [congruence|].
    (* the history does not matter when nothing is recorded *)
    assert (FREE : forall m i0 st ha hb r, ao_loop E (plainP P) Xs m i0 st ha = Ok r -> exists hc, ao_loop E (plainP P) Xs m i0 st hb = Ok (fst (fst (fst r)), hc, snd (fst r), snd r)).
    { clear -RF. induction m as [|m IHm]; intros i0 st ha hb r HR; [injection HR as <-; eexists; reflexivity|]. cbn [ao_loop] in HR |- *.
      cbn [plainP p_tol p_abs_tol p_feas_tol p_return_errors otruthy orb] in *. rewrite RF in *. destruct (outer_step _ _ _ _); [|discriminate]. cbn [bind] in *. eapply IHm. exact HR. }
    destruct (FREE _ _ _ _ h _ HP) as (hc & HC). exists hc. split; [exact HC|congruence]. }
  (* an iteration that records *)
  assert (REC : forall g l, state_gaps s1 = Ok g -> state_loss P Xs s1 = Ok l ->
     ao_loop E P Xs n (S it) s1 (Hist (h_errors h ++ [state_error Xs s1]) (h_gaps h ++ [g]) (h_losses h ++ [l])) = Ok (s', h', it', msg) ->
     it' = (it + S n)%nat /\ msg = MaxIter /\ no_numbers (h_errors h') /\ no_numbers (h_losses h') /\
     exists tr, tr 0%nat = s /\ tr (S n) = s' /\ trajectory E P Xs (S n) tr /\
       (p_return_errors P = true -> h_errors h' = h_errors h ++ map (fun j => state_error Xs (tr (S j))) (seq 0 (S n))) /\
       (p_return_errors P = true -> h_losses h' = h_losses h ++ map (fun j => state_error Xs (tr (S j))) (seq 0 (S n))) /\
       exists h'', (if p_return_errors P then ao_loop E (plainP P) Xs n (S it) s1 (Hist (h_errors h ++ [state_error Xs s1]) (h_gaps h ++ [g]) (h_losses h ++ [l])) else ao_loop E (plainP P) Xs n (S it) s1 h)
          = Ok (s', h'', it', MaxIter) /\ (p_return_errors P = true -> h'' = h')).
  { intros g l HG HL HR. pose proof (loss_blank _ _ HL) as EL. rewrite EL in HR. destruct (p_return_errors P) eqn:RF.
    - refine (_ (IH _ _ (Hist (h_errors h ++ [state_error Xs s1]) (h_gaps h ++ [g]) (h_losses h ++ [state_error Xs s1])) _ _ _ _ (blank_app _ _ NE (error_blank s1)) (blank_app _ _ NL (error_blank s1)) HR)).
      intros (A1 & A2 & A3 & A4 & tr & T0 & Tn & HT & X1 & X2 & h2 & HP & HQ). rewrite EL.
      split; [lia|]. split; [exact A2|]. split; [exact A3|]. split; [exact A4|]. exists (fun j => match j with 0%nat => s | S i => tr i end). split; [reflexivity|]. split; [exact Tn|].
      split; [now apply TRJ|]. split; [intros _; rewrite (X1 eq_refl); cbn [h_errors]; rewrite <- app_assoc; cbn [seq map app]; rewrite T0, <- seq_shift, map_map; reflexivity|].
      split; [intros _; rewrite (X2 eq_refl); cbn [h_losses]; rewrite <- app_assoc; cbn [seq map app]; rewrite T0, <- seq_shift, map_map; reflexivity|].
      exists h2. split; [exact HP|exact HQ].
    - refine (_ (IH _ _ (Hist (h_errors h ++ [state_error Xs s1]) (h_gaps h ++ [g]) (h_losses h ++ [state_error Xs s1])) _ _ _ _ (blank_app _ _ NE (error_blank s1)) (blank_app _ _ NL (error_blank s1)) HR)).
      intros (A1 & A2 & A3 & A4 & tr & T0 & Tn & HT & _ & _ & h2 & HP & _).
      split; [lia|]. split; [exact A2|]. split; [exact A3|]. split; [exact A4|]. exists (fun j => match j with 0%nat => s | S i => tr i end). split; [reflexivity|]. split; [exact Tn|].
      split; [now apply TRJ|]. split; [congruence|]. split; [congruence|].
      assert (FREE : forall m i0 st ha hb r, ao_loop E (plainP P) Xs m i0 st ha = Ok r -> exists hc, ao_loop E (plainP P) Xs m i0 st hb = Ok (fst (fst (fst r)), hc, snd (fst r), snd r)).
      { clear -RF. induction m as [|m IHm]; intros i0 st ha hb r HR; [injection HR as <-; eexists; reflexivity|]. cbn [ao_loop] in HR |- *.
        cbn [plainP p_tol p_abs_tol p_feas_tol p_return_errors otruthy orb] in *. rewrite RF in *. destruct (outer_step _ _ _ _); [|discriminate]. cbn [bind] in *. eapply IHm. exact HR. }
      destruct (FREE _ _ _ _ h _ HP) as (hc & HC). exists hc. split; [exact HC|congruence]. }
  clear EXT EXL.
  destruct ((otruthy (N:=RNum) (p_tol P) || otruthy (N:=RNum) (p_abs_tol P)) || p_return_errors P) eqn:AT.
  2:{ apply orb_false_iff in AT as (_ & RF). rewrite RF in *. exact (SKIP h h eq_refl eq_refl eq_refl H eq_refl). }
  destruct (state_gaps s1) as [g|] eqn:HG; [|discriminate]. cbn [bind] in H |- *.
  match type of H with (if _ && negb ?f && _ then _ else _) = _ => set (feas := f) in * end.
  destruct ((otruthy (N:=RNum) (p_tol P) || otruthy (N:=RNum) (p_abs_tol P)) && negb feas && negb (p_return_errors P)) eqn:SK.
  { apply andb_true_iff in SK as (_ & SK). apply negb_true_iff in SK. rewrite SK in *. exact (SKIP (Hist (h_errors h) (h_gaps h ++ [g]) (h_losses h)) h eq_refl eq_refl eq_refl H eq_refl). }
  destruct (state_loss P Xs s1) as [l|] eqn:HL; [|discriminate]. cbn [bind h_gaps] in H.
  change (state_loss (plainP P) Xs s1) with (state_loss P Xs s1). rewrite HL. cbn [bind h_gaps]. cbn [andb].
  refine (REC g l eq_refl eq_refl _).
  assert (LB : l = NaN \/ l = PInf) by (rewrite (loss_blank _ _ HL); apply error_blank).
  destruct (p_tol P) as [tol|]; [|exact H]. destruct (ntruthy (N:=RNum) tol); [|exact H]. destruct (p_abs_tol P) as [ab|]; [|discriminate].
  rewrite (blank_crit tol _ _ LB), (blank_lt ab _ LB), !andb_false_r in H. exact H.
Qed.
End Loop.

Lemma residual_zero (Xs : list matR) (c : rcmf) : data_fits Xs c -> data_sumsq Xs = 0 -> (residual Xs c = 0 <-> zero_model c).
Proof.
  intros (_ & HL & HX) HD.
  assert (Z : forall i j k, (i < length Xs)%nat -> (j < mr (nthX Xs i))%nat -> (k < mc (nthX Xs i))%nat -> rget (nthX Xs i) j k = 0).
  { intros i j k Hi Hj Hk. unfold data_sumsq, sumsq in HD. rewrite Sum_rsum in HD.
    assert (NN : forall i, 0 <= Sum (mr (nthX Xs i)) (fun j => Sum (mc (nthX Xs i)) (fun k => rget (nthX Xs i) j k ^ 2))).
    { intros x. rewrite Sum_rsum. apply rsum_nonneg. intros y Hy. rewrite Sum_rsum. apply rsum_nonneg. intros; apply pow2_ge_0. }
    assert (K := rsum_nonneg_zero _ _ (fun i _ => NN i) HD i Hi). cbn beta in K. rewrite Sum_rsum in K.
    assert (N2 : forall j, (j < mr (nthX Xs i))%nat -> 0 <= Sum (mc (nthX Xs i)) (fun k => rget (nthX Xs i) j k ^ 2)).
    { intros y Hy. rewrite Sum_rsum. apply rsum_nonneg. intros; apply pow2_ge_0. }
    assert (K2 := rsum_nonneg_zero _ _ N2 K j Hj). cbn beta in K2. rewrite Sum_rsum in K2.
    assert (K3 := rsum_nonneg_zero _ _ (fun k _ => pow2_ge_0 (rget (nthX Xs i) j k)) K2 k Hk). cbn beta in K3. nra. }
  assert (EQ : residual Xs c = rsum (length Xs) (fun i => rsum (mr (nthX Xs i)) (fun j => rsum (mr (cC c)) (fun k => cmf_entry c i j k ^ 2)))).
  { unfold residual, dist2. rewrite Sum_rsum. apply rsum_ext. intros i Hi. rewrite Sum_rsum. apply rsum_ext. intros j Hj. rewrite Sum_rsum. apply rsum_ext. intros k Hk.
    destruct (HX i Hi) as (_ & S1 & S2). rewrite Z by (auto; rewrite S2; exact Hk). ring. }
  rewrite EQ. split.
  - intros H i j k Hi Hj Hk. rewrite <- HL in Hi. destruct (HX i Hi) as (_ & S1 & S2). rewrite <- S1 in Hj.
    assert (N2 : forall i j, 0 <= rsum (mr (cC c)) (fun k => cmf_entry c i j k ^ 2)) by (intros; apply rsum_nonneg; intros; apply pow2_ge_0).
    assert (N1 : forall i, (i < length Xs)%nat -> 0 <= rsum (mr (nthX Xs i)) (fun j => rsum (mr (cC c)) (fun k => cmf_entry c i j k ^ 2))) by (intros; apply rsum_nonneg; intros; apply N2).
    assert (K := rsum_nonneg_zero _ _ N1 H i Hi). cbn beta in K. assert (K2 := rsum_nonneg_zero _ _ (fun j _ => N2 i j) K j Hj). cbn beta in K2.
    assert (K3 := rsum_nonneg_zero _ _ (fun k _ => pow2_ge_0 (cmf_entry c i j k)) K2 k Hk). cbn beta in K3. nra.
  - intros H. apply rsum_zero. intros i Hi. apply rsum_zero. intros j Hj. apply rsum_zero. intros k Hk. destruct (HX i Hi) as (_ & S1 & _). rewrite H; [ring|congruence|congruence|exact Hk].
Qed.
(** the recorded error of a state says whether its model is zero *)
Lemma error_zero (Xs : list matR) s : data_fits Xs (st_cmf s) -> inter_ok Xs s -> data_sumsq Xs = 0 ->
  (zero_model (st_cmf s) -> state_error Xs s = NaN) /\ (~ zero_model (st_cmf s) -> state_error Xs s = PInf).
Proof.
  intros DF IO HD. unfold state_error, xdiv. cbv zeta. assert (K : neqb (N:=RNum) (root_sum_squared Xs) n0 = true) by (apply neqb_true; now apply zero_root). rewrite K.
  rewrite state_error_sqrt by assumption. rewrite <- (residual_zero Xs _ DF HD). split; intros H.
  - rewrite H, sqrt_0. assert (K0 : neqb (N:=RNum) 0 n0 = true) by now apply neqb_true. rn. rewrite K0. reflexivity.
  - match goal with |- context[if ?b then _ else _] => destruct b eqn:B end; [|reflexivity]. exfalso. apply H. apply neqb_true in B. apply sqrt_eq_0; [apply residual_nonneg|exact B].
Qed.

(** ** No recorded error or loss is a number, no tolerance is ever met, all iterations are carried out: the result is
    that of the call without tolerances. *)
Theorem C100_tolerances_never_met V IE rnd (a : fitR) out : zero_data a -> cmf_aoadmm V IE rnd a = Ok out ->
  (exists out', cmf_aoadmm V IE rnd (without_tolerances a) = Ok out' /\ out_cmf out' = out_cmf out /\ out_vars out' = out_vars out /\ same_course (out_diag out) (out_diag out')) /\
  forall d, out_diag out = Some d ->
    d_n_iter d = Z.to_nat (f_n_iter a) /\ d_message d = MaxIter /\ d_stopped d <> Some true /\ no_numbers (d_errors d) /\ no_numbers (d_losses d).
Proof.
  intros HZ H. apply zero_sumsq in HZ. destruct (aoadmm_ok V IE rnd a out H) as (s & l2 & h0 & fl & s' & h & n & msg & HS & HH & HC & HL & HF).
  assert (N0 : no_numbers (h_errors h0) /\ no_numbers (h_losses h0)).
  { unfold init_hist in HH. destruct (state_loss _ _ _) as [l|] eqn:EL; [|discriminate]. cbn [bind] in HH. destruct (state_gaps s); [|discriminate]. cbn [bind] in HH. injection HH as <-. cbn [h_errors h_losses].
    pose proof (loss_blank _ _ HZ _ _ EL) as ->. split; intros x [<-|[]]; now apply error_blank. }
  destruct (loop_blank _ _ _ HZ _ _ _ _ _ _ _ _ (proj1 N0) (proj2 N0) HL) as (A1 & A2 & A3 & A4 & tr & T0 & Tn & HT & _ & _ & h2 & HP & HQ).
  assert (HSW : setup V IE rnd (without_tolerances a) = Ok (s, l2)) by exact HS.
  assert (HHW : init_hist (fit_params (without_tolerances a) l2 (false, false)) (f_data (without_tolerances a)) s = Ok h0) by (rewrite <- HH; destruct l2 as [[? ?] ?]; reflexivity).
  assert (FPW : fit_params (without_tolerances a) l2 fl = plainP (fit_params a l2 fl)) by (destruct l2 as [[? ?] ?]; reflexivity).
  assert (HW := aoadmm_finish V IE rnd (without_tolerances a) s l2 h0 fl HSW HHW HC). rewrite FPW in HW. cbn [f_data f_n_iter f_return_vars without_tolerances] in HW. rewrite HP in HW. cbn [bind] in HW.
  assert (RX : p_return_errors (fit_params a l2 fl) = f_return_errors a) by (destruct l2 as [[? ?] ?]; reflexivity).
  assert (RY : p_return_errors (plainP (fit_params a l2 fl)) = f_return_errors a) by (destruct l2 as [[? ?] ?]; reflexivity).
  rewrite RX in HQ. unfold finish in HF, HW. rewrite RX in HF. rewrite RY in HW. cbn [plainP p_feas_tol] in HW.
  match type of HF with (let* f := ?x in _) = _ => destruct x as [fe|]; [|discriminate] end. cbn [bind] in HF, HW.
  destruct (revalidate (st_cmf s')) as [c|]; [|discriminate]. cbn [bind] in HF, HW. subst msg. split.
  - destruct (f_return_errors a) eqn:RE; cbn [bind] in HF, HW; injection HF as <-; eexists; (split; [exact HW|]); cbn [out_cmf out_vars out_diag]; (split; [reflexivity|]); (split; [reflexivity|]); [|exact Logic.I].
    rewrite (HQ eq_refl). repeat split.
  - intros d Hd. destruct (f_return_errors a) eqn:RE; cbn [bind] in HF; injection HF as <-; cbn [out_diag] in Hd; [|discriminate]. injection Hd as <-. cbn [d_n_iter d_message d_stopped d_errors d_losses].
    split; [lia|]. split; [reflexivity|]. split; [|split; assumption]. cbn [negb andb]. match goal with |- (if ?b then _ else _) <> _ => destruct b; discriminate end.
Qed.
Print Assumptions C100_tolerances_never_met.

(** what the loop leaves behind, for a call with sensible arguments *)
Lemma zero_facts V IE rnd (a : fitR) rank out : sensible V a rank -> ranks_kept IE -> svd_correct (e_ext V) rank -> zero_data a -> cmf_aoadmm V IE rnd a = Ok out ->
  exists s l2 fl t tr, let n := Z.to_nat (f_n_iter a) in
    params_ok (fit_params a l2 fl) /\ valid_state (f_data a) s /\ mc (cA (st_cmf s)) = rank /\ parsed_as V a t s /\
    tr 0%nat = s /\ trajectory (e_ext V) (fit_params a l2 fl) (f_data a) n tr /\ out_cmf out = st_cmf (tr n) /\
    (forall j, (j <= n)%nat -> data_fits (f_data a) (st_cmf (tr j)) /\ inter_ok (f_data a) (tr j)) /\
    forall d, out_diag out = Some d -> d_errors d = map (fun j => state_error (f_data a) (tr j)) (seq 0 (S n)) /\ d_losses d = d_errors d.
Proof.
  intros HSe RK HE HZ H. apply zero_sumsq in HZ. destruct (aoadmm_ok V IE rnd a out H) as (s & l2 & h0 & fl & s' & h & n & msg & HS & HH & HC & HL & HF).
  destruct (setup_ok _ _ _ _ _ _ _ HSe RK HS) as (VS & SI & MC & EL & EI & t & PA). assert (PO := fit_params_ok _ _ _ _ fl HSe EL). rewrite <- MC in HE.
  assert (E0 : h_errors h0 = [state_error (f_data a) s] /\ h_losses h0 = [state_error (f_data a) s]).
  { unfold init_hist in HH. destruct (state_loss _ _ _) as [l|] eqn:ELs; [|discriminate]. cbn [bind] in HH. destruct (state_gaps s); [|discriminate]. cbn [bind] in HH. injection HH as <-. cbn [h_errors h_losses].
    now rewrite (loss_blank _ _ HZ _ _ ELs). }
  destruct E0 as (E1 & E2).
  assert (N1 : no_numbers (h_errors h0)) by (rewrite E1; intros x [<-|[]]; now apply error_blank).
  assert (N2 : no_numbers (h_losses h0)) by (rewrite E2; intros x [<-|[]]; now apply error_blank).
  destruct (loop_blank _ _ _ HZ _ _ _ _ _ _ _ _ N1 N2 HL) as (A1 & A2 & A3 & A4 & tr & T0 & Tn & HT & X1 & X2 & _).
  assert (RX : p_return_errors (fit_params a l2 fl) = f_return_errors a) by (destruct l2 as [[? ?] ?]; reflexivity). rewrite RX in X1, X2.
  assert (TOK : forall j, (j <= Z.to_nat (f_n_iter a))%nat -> valid_state (f_data a) (tr j) /\ inter_ok (f_data a) (tr j)).
  { intros j Hj. assert (V0 : valid_state (f_data a) (tr 0%nat)) by now rewrite T0. assert (HE0 : svd_correct (e_ext V) (mc (cA (st_cmf (tr 0%nat))))) by now rewrite T0.
    destruct (trajectory_ok _ _ _ PO _ tr HT V0 HE0 j Hj) as ((K1 & _) & _ & K3 & _). split; [exact K1|]. apply K3. rewrite T0. left. exact SI. }
  exists s, l2, fl, t, tr. cbv zeta. split; [exact PO|]. split; [exact VS|]. split; [exact MC|]. split; [exact PA|]. split; [exact T0|]. split; [exact HT|].
  unfold finish in HF. rewrite RX in HF. match type of HF with (let* f := ?x in _) = _ => destruct x as [fe|]; [|discriminate] end. cbn [bind] in HF.
  rewrite revalidate_ok in HF by (rewrite <- Tn; apply (TOK _ (le_n _))). cbn [bind] in HF.
  split; [destruct (f_return_errors a); cbn [bind] in HF; injection HF as <-; cbn [out_cmf st_cmf]; now rewrite Tn|]. split.
  { intros j Hj. destruct (TOK j Hj) as (K & K2). split; [apply K|exact K2]. }
  intros d Hd. destruct (f_return_errors a); cbn [bind] in HF; injection HF as <-; cbn [out_diag] in Hd; [|discriminate]. injection Hd as <-. cbn [d_errors d_losses].
  rewrite (X1 eq_refl), (X2 eq_refl), E1, E2. split; [|reflexivity]. cbn [seq map app]. rewrite T0, <- seq_shift, map_map. reflexivity.
Qed.

(** ** The last recorded error is nan exactly if the returned model is zero everywhere, and infinite otherwise; losses
    are the errors, whatever the penalties and ridge terms. *)
Theorem C100_last_error V IE rnd (a : fitR) rank out d : sensible V a rank -> ranks_kept IE -> svd_correct (e_ext V) rank -> zero_data a ->
  cmf_aoadmm V IE rnd a = Ok out -> out_diag out = Some d ->
  (zero_model (out_cmf out) <-> last (d_errors d) PInf = NaN) /\ (~ zero_model (out_cmf out) <-> last (d_errors d) NaN = PInf) /\ d_losses d = d_errors d.
Proof.
  intros HSe RK HE HZ H Hd. destruct (zero_facts _ _ _ _ _ _ HSe RK HE HZ H) as (s & l2 & fl & t & tr & PO & VS & MC & PA & T0 & HT & EO & TOK & HD). destruct (HD d Hd) as (D1 & D2).
  match goal with |- ?x /\ ?y /\ ?z => enough (K : x /\ y) by (destruct K as (K1 & K2); exact (conj K1 (conj K2 D2))) end. rewrite D1. destruct (TOK _ (le_n _)) as (DF & IO). destruct (error_zero _ _ DF IO (zero_sumsq _ HZ)) as (Z1 & Z2). rewrite <- EO in Z1, Z2.
  rewrite seq_S, map_app. cbn [map plus]. rewrite !last_last. split.
  - split; [exact Z1|]. intros K. destruct (classic (zero_model (out_cmf out))) as [C|C]; [exact C|]. rewrite (Z2 C) in K. discriminate.
  - split; [exact Z2|]. intros K C. rewrite (Z1 C) in K. discriminate.
Qed.
Print Assumptions C100_last_error.

(** ** If nothing is asked of the mode that is updated last, one iteration is enough to make the model zero: from then on every recorded error and loss is nan. *)
Theorem C100_model_vanishes V IE rnd (a : fitR) rank out m : sensible V a rank -> ranks_kept IE -> svd_correct (e_ext V) rank -> zero_data a ->
  last_mode a = Some m -> free_mode a m -> (0 < f_n_iter a)%Z -> (0 < f_inner a)%Z ->
  cmf_aoadmm V IE rnd a = Ok out ->
  zero_model (out_cmf out) /\ forall d, out_diag out = Some d -> forall j, (0 < j <= Z.to_nat (f_n_iter a))%nat -> nth j (d_errors d) PInf = NaN /\ nth j (d_losses d) PInf = NaN.
Proof.
  intros HSe RK HE HZ HM HF HN HI H. destruct (zero_facts _ _ _ _ _ _ HSe RK HE HZ H) as (s & l2 & fl & t & tr & PO & VS & MC & PA & T0 & HT & EO & TOK & HD).
  destruct (fit_params_fields a l2 fl) as (F1 & F2 & F3 & F4 & _). set (n := Z.to_nat (f_n_iter a)) in *.
  assert (ZM : forall j, (0 < j <= n)%nat -> zero_model (st_cmf (tr j))).
  { intros [|j] Hj; [lia|]. assert (V0 : valid_state (f_data a) (tr 0%nat)) by now rewrite T0. assert (HE0 : svd_correct (e_ext V) (mc (cA (st_cmf (tr 0%nat))))) by now rewrite T0, MC.
    assert (FI : free_in (tr 0%nat) m) by (rewrite T0; exact (free_parsed _ _ _ _ _ (last_mode_lt _ _ HM) HF PA)).
    assert (Q := explained_run _ _ _ n tr m PO V0 HE0 ltac:(rewrite F4; lia) ltac:(unfold upd_of; rewrite F1, F2, F3; exact HM) FI HT j ltac:(lia)).
    rewrite (zero_sumsq _ HZ) in Q. assert (R0 := residual_nonneg (f_data a) (st_cmf (tr (S j)))). assert (M0 := model_sumsq_nonneg (f_data a) (st_cmf (tr (S j)))).
    assert (S0 := mode_sumsq_nonneg (st_cmf (tr (S j))) m). assert (L0 : 0 <= l2_of (fit_params a l2 fl) m) by (destruct PO as (P1 & P2 & P3 & _); destruct m as [|[|m]]; assumption).
    apply (residual_zero (f_data a)); [apply TOK; lia|now apply zero_sumsq|]. nra. }
  split; [rewrite EO; apply ZM; lia|]. intros d Hd j Hj. destruct (HD d Hd) as (D1 & D2). rewrite D2, D1.
  assert (K : nth j (map (fun j => state_error (f_data a) (tr j)) (seq 0 (S n))) PInf = NaN); [|now split].
  rewrite (nth_indep _ _ (state_error (f_data a) (tr 0%nat))) by (rewrite map_length, seq_length; lia). rewrite (map_nth (fun j => state_error (f_data a) (tr j))), seq_nth by lia. cbn [plus].
  destruct (TOK j ltac:(lia)) as (DF & IO). apply (error_zero _ _ DF IO (zero_sumsq _ HZ)). apply ZM. lia.
Qed.
Print Assumptions C100_model_vanishes.

(** ** Cases that meet the hypotheses *)
Example C100_nonvacuous rnd : let a := args69 (1 / 10) (1 / 5) (3 / 10) 2 (Some (1 / 100)) (data69 1 0 0 0 0 0 0) (start69 (m22 1 2 3 4) (m22 2 1 1 3) (m22 1 2 2 5) 1 1) in
  exists V out, sensible V a 2 /\ ranks_kept no_ext /\ svd_correct (e_ext V) 2 /\ zero_data a /\ cmf_aoadmm V no_ext rnd a = Ok out.
Proof.
  intros a. destruct ideal_exists as (E & HE & _). set (V := Env (N:=RNum) E (fun _ => []) true).
  assert (D : dependable V a 2) by (apply dependable69; lra). destruct (C51_fit_total V no_ext rnd _ 2 D no_ext_ranks (HE 2%nat)) as (out & H).
  exists V, out. split; [apply D|]. split; [apply no_ext_ranks|]. split; [apply HE|]. split; [|exact H].
  intros X j k [<-|[<-|[]]] Hj Hk; destruct j as [|[|j]], k as [|[|k]]; try (cbn in Hj, Hk; lia); mcomp; try lra; reflexivity.
Qed.
(** nothing is asked of A; ridge on all modes, constraints on the B_i and C as in C98 *)
Definition argsz100 : fitR :=
  FitArgs (N:=RNum) [Mat (N:=RNum) 2 1 [[0]; [0]]; m11 0] (PyInt 1) (InitName MRandom) 7 (AOne (Some (1 / 10))) kwn98
    (RList [EList []; EList []; EList (map RPen ex_user)]) 1 CB (IStr RandomUniform) (IStr RandomUniform) true
    (Some (1 / 100)) (Some (1 / 1000)) (Some (1 / 10000)) None 5 true true true true true.
Lemma dependable100 E : dependable (Env (N:=RNum) E (fun _ => []) true) argsz100 1.
Proof.
  assert (UPX : forall m u, (m < 3)%nat -> user_penalties (f_regs argsz100) m u -> u = if (m =? 2)%nat then ex_user else []).
  { intros m u Hm H. eapply user_unique; [exact H|]. destruct m as [|[|[|m]]]; [reflexivity|reflexivity|reflexivity|lia]. }
  assert (KWX : forall m kw, mode_values (f_kw argsz100) m kw -> k_lower kw = None /\ (forall hi, k_upper kw = Some hi -> hi = 5) /\ k_norm kw = None /\
     (k_uni kw = if (m =? 1)%nat then Some true else None) /\ k_l1 kw = None /\ k_tv kw = Some 0 /\ k_gl2 kw = Some GFalse /\ k_pf2 kw = false).
  { intros m kw (M1 & M2 & M3 & M4 & M5 & M6 & M7 & M8 & M9). cbn in M2, M4, M6, M7, M8, M9. split; [assumption|]. split; [|split; [assumption|split; [|auto]]].
    - intros hi E0. rewrite E0 in M3. cbn in M3. destruct (m =? 1)%nat; destruct M3 as [K|(K & K')]; congruence.
    - destruct M5 as (_ & K). destruct m as [|[|[|m]]]; cbn in K |- *; try congruence. destruct m; discriminate. }
  split.
  { unfold sensible. cbn [f_data f_rank f_init f_scale f_l2 argsz100]. split; [discriminate|]. split.
    { repeat constructor. }
    split; [reflexivity|]. split; [lia|]. split; [exact Logic.I|]. split; [lra|]. split; [intros m v _ ->; cbn; lra|]. split.
    - intros m r kw Hm _ MV. destruct (KWX m kw MV) as (K2 & K3 & K4 & K5 & K6 & K7 & K8 & K9). split.
      + intros hi E0. apply K3 in E0. subst hi. split; [intros lo E1; congruence|intros _; lra].
      + intros M E0. congruence.
    - split.
      + intros m r u Hm _ HU. rewrite (UPX m u Hm HU). destruct (m =? 2)%nat; repeat constructor; cbn; lra.
      + intros [K|(u & HU & K)]; [discriminate K|]. rewrite (UPX 1%nat u ltac:(lia) HU) in K. inversion K. }
  split; [intros X [<-|[<-|[]]]; reflexivity|]. split; [exact Logic.I|]. split; [reflexivity|]. split; [discriminate|].
  split; [eexists; split; [reflexivity|discriminate]|]. split; [eexists; split; [reflexivity|discriminate]|].
  split; [exact Logic.I|]. split; [repeat split; exact Logic.I|]. split.
  { cbn. split.
    - intros e [<-|[<-|[<-|[]]]]; [exists []|exists []|exists ex_user]; now left.
    - intros [|[|[|m]]] Hm; [exists []|exists []|exists ex_user|lia]; reflexivity. }
  split.
  { intros m kw Hm MV. destruct (KWX m kw MV) as (K2 & K3 & K4 & K5 & K6 & K7 & K8 & K9). unfold acceptable. rewrite K4, K6, K7, K8. cbn.
    split; [lra|]. split; [lra|]. split; [congruence|]. split; [lra|exact Logic.I]. }
  split.
  { intros m Hm _. split; [intros v ->; cbn; lra|]. split.
    - intros kw MV. destruct (KWX m kw MV) as (K2 & K3 & K4 & K5 & K6 & K7 & K8 & K9). unfold asks_plain. rewrite K6, K7, K8, K9. cbn. auto.
    - intros u HU. rewrite (UPX m u Hm HU). destruct (m =? 2)%nat; [|constructor]. constructor; [|constructor].
      split; [exact Logic.I|]. split; eexists; (split; [reflexivity|discriminate]). }
  split.
  { intros _ _ [(kw & MV & K)|(u & HU & K)].
    - destruct (KWX 0%nat kw MV) as (K2 & K3 & K4 & K5 & K6 & K7 & K8 & K9). unfold asks_matrixwise in K. rewrite K4, K5, K7, K8 in K. cbn in K.
      destruct K as [K|[K|[K|(M & K)]]]; try discriminate K; lra.
    - rewrite (UPX 0%nat u ltac:(lia) HU) in K. inversion K. }
  intros _. discriminate.
Qed.
Example C100_vanishes_nonvacuous rnd : exists V out, sensible V argsz100 1 /\ ranks_kept no_ext /\ svd_correct (e_ext V) 1 /\ zero_data argsz100 /\ last_mode argsz100 = Some 0%nat /\
  free_mode argsz100 0 /\ (0 < f_n_iter argsz100)%Z /\ (0 < f_inner argsz100)%Z /\ cmf_aoadmm V no_ext rnd argsz100 = Ok out.
Proof.
  destruct ideal_exists as (E & HE & _). set (V := Env (N:=RNum) E (fun _ => []) true). destruct (C51_fit_total V no_ext rnd argsz100 1 (dependable100 E) no_ext_ranks (HE 1%nat)) as (out & H).
  exists V, out. split; [apply (proj1 (dependable100 E))|]. split; [apply no_ext_ranks|]. split; [apply HE|]. split.
  { intros X j k [<-|[<-|[]]] Hj Hk; destruct j as [|[|j]], k as [|[|k]]; try (cbn in Hj, Hk; lia); mcomp; try lra; reflexivity. }
  split; [reflexivity|]. split.
  { split.
    - intros kw (M1 & M2 & M3 & M4 & M5 & M6 & M7 & M8 & M9). cbn in M1, M2, M3, M4, M5, M6, M7, M8, M9. unfold asks_nothing.
      destruct M1 as (_ & M1). destruct M5 as (_ & M5). injection M1 as M1. injection M5 as M5. destruct M3 as [M3|(_ & M3)]; [discriminate M3|].
      rewrite <- M1, <- M5, M2, M3, M4, M6, M7, M8, M9. cbn. repeat (split; [try reflexivity; try (intros K; discriminate K)|]); auto.
    - intros u HU. eapply user_unique; [exact HU|reflexivity]. }
  split; [reflexivity|]. split; [reflexivity|exact H].
Qed.
