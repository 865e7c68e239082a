(** C97: what the fits of the example gallery give. *)
From Coq Require Import Reals Lra Lia List Arith Bool ZArith Permutation.
From Verif Require Import Num Numpy RFacts Spec SpecFacts MatFacts ModelSpec Penalties PenaltySpec CoupledMatrices CmfSpec CmfProofs Decomp DecompSpec
  DecompFacts AoLoop AoRun InitVars InitSpec Parse ParseSpec ParseProofs Fit FitSpec FitProofs P08_Fit OrderSpec Gallery GallerySpec NearSpec P05_Runs P10_Start P41_Gallery P43_GalleryParts P45_Feasible
  P11_Total Ideal FitExamples DecompExamples ResumeSpec ResumeLoop SymSpec SymFit StationarySpec RestSpec RestPerfect RestRun RestPf2Spec RestPf2 RestPf2Run P52_RestParafac2.
Import ListNotations.
Local Open Scope R_scope.

Section Calls.
Variables (V : envR) (IE : initextR) (rnd : nat -> randR).
Variables (Xs : list matR) (rank : nat) (n_iter : Z) (tol : R) (nn : arg bool) (regs : regsarg (N:=RNum)).
Hypotheses (HX : fittable Xs rank) (HW : well_formed nn) (HG : GallerySpec.constraints_only regs) (HI : ranks_kept IE) (HV : svd_correct (e_ext V) rank).
Let call : fitR := script_call (N:=RNum) Xs rank n_iter tol nn regs.
Let start := start_fit (N:=RNum) V IE rnd call.

Lemma start_call i f : start i = Ok f -> exists out, cmf_aoadmm V IE (rnd i) (with_parafac2 (N:=RNum) call) = Ok out /\ out_cmf out = fst f /\ out_diag out = Some (snd f).
Proof.
  unfold start, start_fit, parafac2_aoadmm. intros E. destruct (cmf_aoadmm V IE (rnd i) (with_parafac2 (N:=RNum) call)) as [out|] eqn:EO; [|discriminate]. cbn [bind] in E.
  destruct (out_vars out); [discriminate|]. destruct (out_diag out) as [d|] eqn:ED; [|discriminate]. injection E as <-. exists out. auto.
Qed.
(** The factors have the sizes of the data and [rank] components; the reported error is that of the factors, after at most [n_iter] iterations. *)
Theorem C97_factors i f : start i = Ok f ->
  data_fits Xs (fst f) /\ mc (cA (fst f)) = rank /\ (d_n_iter (snd f) <= Z.to_nat n_iter)%nat /\ nth (d_n_iter (snd f)) (d_errors (snd f)) NaN = Fin (rel_error Xs (fst f)).
Proof.
  intros E. destruct (start_call i f E) as (out & EO & EC & ED). pose proof (call_sensible V Xs rank n_iter tol nn regs HX HG) as HS. fold call in HS.
  pose proof (proj2 (proj2 (proj2 HX))) as HD. change Xs with (f_data (with_parafac2 (N:=RNum) call)) in HD.
  destruct (C33_fit_reports _ _ _ _ _ _ HS HI HV HD EO) as (_ & _ & K). destruct (K _ ED) as (_ & _ & _ & LE & c0 & pos & _ & _ & RE & _). rewrite EC in RE.
  destruct (fit_final _ _ _ _ _ _ HS HI HV HD EO) as (s & l2 & flags & s' & od & t & ES & EL & EF & VS & SI & MC & PO & (pos' & EI) & ER & EO' & PA & PA' & FR & SS).
  assert (HE' : svd_correct (e_ext V) (mc (cA (st_cmf s)))) by now rewrite MC.
  destruct (C34_stopping _ _ _ _ _ _ _ PO VS SI HE' HD ER) as (m & tr & pv & msg & Hm & T0 & Tm & HT & _).
  rewrite EO' in EC. cbn [out_cmf] in EC. rewrite <- EC in RE |- *. split; [|split; [destruct (sizes_of_data _ _ _ VS SS) as (_ & _ & _ & _ & Z5); congruence|auto]].
  rewrite <- Tm. subst s. exact (proj1 (proj1 (proj1 (trajectory_ok _ _ _ PO m tr HT VS HE' m (le_n _))))).
Qed.
(** A fit that converged: no entry of a factor that is asked to be non-negative is below zero by more than one
    ten-thousandth of the norm of the factor, and the B_i are that near to matrices with one cross product. *)
Theorem C97_converged i f : (0 < n_iter)%Z -> start i = Ok f -> converged f -> Forall (all_gaps not_nan) (d_gaps (snd f)) ->
  (forall m, (m < 3)%nat -> means nn m (Some true) -> factor_entries (fst f) m (fun x => - (1 / 10000 * factor_norm (fst f) m) <= x)) /\
  (forall m u o, (m < 3)%nat -> user_penalties regs m u -> In o u -> near_mode (1 / 10000) (fst f) m (fun r X => exact_domain (o_pen o) r rank X)) /\
  near_parafac2 (1 / 10000) (fst f) rank.
Proof.
  intros HN E CV NN. destruct (start_call i f E) as (out & EO & EC & ED). pose proof (call_sensible V Xs rank n_iter tol nn regs HX HG) as HS. fold call in HS.
  pose proof (proj2 (proj2 (proj2 HX))) as HD. change Xs with (f_data (with_parafac2 (N:=RNum) call)) in HD.
  destruct (C34_fit_stopping _ _ _ _ _ _ _ HS HI HV HD EO ED NN) as (_ & K1 & K2 & K3 & K4). unfold converged in CV.
  assert (FS : diag_feasible (with_parafac2 (N:=RNum) call) (snd f) (d_n_iter (snd f))).
  { destruct (d_message (snd f)); [|apply K1|apply K1]. destruct K2 as (K2 & K2'). exfalso.
    rewrite CV in K2. assert (TS : tol_set (f_abs_tol (with_parafac2 (N:=RNum) call))) by (eexists; split; [reflexivity|cbn; lra]). specialize (K2 (or_intror TS)). discriminate. }
  assert (FT : f_feas_tol (with_parafac2 (N:=RNum) call) = Some (1 / 10000)) by reflexivity.
  assert (FE : d_feasible (snd f) = Some true).
  { assert (TS : tol_set (f_feas_tol (with_parafac2 (N:=RNum) call))) by (rewrite FT; eexists; split; [reflexivity|lra]). apply K4 in TS. destruct (d_feasible (snd f)) as [b|]; [|congruence]. f_equal. now apply (K3 b eq_refl). }
  assert (NL : all_gaps not_nan (gaps_at (snd f) (d_n_iter (snd f)))).
  { destruct (C33_fit_reports _ _ _ _ _ _ HS HI HV HD EO) as (_ & _ & K). destruct (K _ ED) as (_ & _ & LG & _). apply (proj1 (Forall_forall _ _) NN). unfold gaps_at. apply nth_In. lia. }
  assert (HU : user_parafac2_ready (with_parafac2 (N:=RNum) call)).
  { intros u U. apply Forall_forall. intros o IN. specialize (HG 1%nat u U o IN). destruct (o_pen o); try contradiction; exact Logic.I. }
  assert (HIN : (0 < f_inner (with_parafac2 (N:=RNum) call))%Z) by reflexivity.
  rewrite <- EC. split; [|split].
  - intros m Hm MN.
    assert (MV : mode_values (f_kw (with_parafac2 (N:=RNum) call)) m (ModeKw (N:=RNum) (Some true) None None None None (m =? 1)%nat None None None)).
    { unfold mode_values, with_parafac2, call, script_call. cbn. split; [exact MN|]. repeat split. }
    refine (proj1 (C89_entries_partial _ _ _ _ _ _ _ _ HS HI HV HD HU HN HIN EO ED FE FT NL m _ Hm _ MV) eq_refl). destruct m as [|[|m]]; reflexivity.
  - intros m u o Hm U IN.
    destruct (C89_feasible_partial _ _ _ _ _ _ _ _ HS HI HV HD HU HN HIN EO ED FE FT NL m Hm) as (_ & K & _); [destruct m as [|[|m]]; reflexivity|].
    pose proof (proj1 (Forall_forall _ _) (K u U) o IN) as K'. apply K'. specialize (HG m u U o IN). destruct (o_pen o); try contradiction; exact (fun H => H).
  - refine (proj2 (proj2 (C89_feasible_partial _ _ _ _ _ _ _ _ HS HI HV HD HU HN HIN EO ED FE FT NL 1%nat _ _)) eq_refl _); [lia|reflexivity|]. left. reflexivity.
Qed.
End Calls.
Print Assumptions C97_factors.
Print Assumptions C97_converged.

Lemma no_regs : GallerySpec.constraints_only (RNone (N:=RNum)).
Proof. intros m u -> o []. Qed.
Lemma bike_order_below (argsort : list R -> list nat) (c : rcmf) r : (forall v, sorts v (argsort v)) -> valid_cmf c -> (0 < length (cBs c))%nat ->
  (r < mc (cA c))%nat -> (nth r (bike_order (N:=RNum) argsort c) 0 < mc (cA c))%nat.
Proof.
  intros HS VC H0 Hr. pose proof VC as (_ & _ & CC & LB & HB & HW). destruct (bike_sizes c VC H0) as (LS & _).
  assert (PO : Permutation (bike_order (N:=RNum) argsort c) (seq 0 (mc (cA c)))).
  { unfold bike_order. destruct (cw c) as [w|] eqn:EW.
    - pose proof (proj1 (HS (vmul (N:=RNum) (map (@nopp RNum) w) (component_sizes (N:=RNum) c)))) as Q. rewrite length_vmul, map_length, LS in Q. pose proof (HW w eq_refl) as HW'. cbn in HW', Q. rewrite HW', Nat.min_id in Q. exact Q.
    - match goal with |- Permutation (argsort ?l) _ => pose proof (proj1 (HS l)) as Q end. rewrite map_length, LS in Q. exact Q. }
  assert (IN : In (nth r (bike_order (N:=RNum) argsort c) 0%nat) (seq 0 (mc (cA c)))).
  { eapply Permutation_in; [exact PO|]. apply nth_In. rewrite (Permutation_length PO), seq_length. exact Hr. }
  apply in_seq in IN. lia.
Qed.
(** plot_bikesharing.py: four components, all factors non-negative.  The components the script shows, which are clipped
    at zero, differ from those of the model by at most one ten-thousandth of the norms of the factors. *)
Theorem C97_bike V IE rnd (Xs : list matR) i f : fittable Xs 4 -> ranks_kept IE -> svd_correct (e_ext V) 4 -> start_fit (N:=RNum) V IE rnd (bike_call (N:=RNum) Xs) i = Ok f ->
  data_fits Xs (fst f) /\ mc (cA (fst f)) = 4%nat /\ (d_n_iter (snd f) <= 1000)%nat /\
  (converged f -> Forall (all_gaps not_nan) (d_gaps (snd f)) ->
     (forall m, (m < 3)%nat -> factor_entries (fst f) m (fun x => - (1 / 10000 * factor_norm (fst f) m) <= x)) /\ near_parafac2 (1 / 10000) (fst f) 4 /\
     forall (argsort : list R -> list nat) A' Bs' C', (forall v, sorts v (argsort v)) -> bike_components (N:=RNum) argsort (fst f) = (A', Bs', C') ->
       let c := fst f in let order := bike_order (N:=RNum) argsort c in
       (forall k r, (k < length Xs)%nat -> (r < 4)%nat -> Rabs (mget A' k r - mget (cA c) k (nth r order 0%nat)) <= 1 / 10000 * norm_A c) /\
       (forall k j r, (k < length Xs)%nat -> (j < mr (nthB c k))%nat -> (r < 4)%nat -> Rabs (mget (nth k Bs' no_mat) j r - mget (nthB c k) j (nth r order 0%nat)) <= 1 / 10000 * norm_B c) /\
       (forall k r, (k < mr (cC c))%nat -> (r < 4)%nat -> Rabs (mget C' k r - mget (cC c) k (nth r order 0%nat)) <= 1 / 10000 * norm_C c)).
Proof.
  intros HX HI HV E. destruct (C97_factors V IE rnd Xs 4 1000 _ (AOne (Some true)) RNone HX no_regs HI HV i f E) as (K1 & K2 & K3 & _).
  split; [exact K1|]. split; [exact K2|]. split; [exact K3|]. intros CV NN.
  destruct (C97_converged V IE rnd Xs 4 1000 _ (AOne (Some true)) RNone HX no_regs HI HV i f eq_refl E CV NN) as (P1 & _ & P2).
  assert (P1' : forall m, (m < 3)%nat -> factor_entries (fst f) m (fun x => - (1 / 10000 * factor_norm (fst f) m) <= x)) by (intros m Hm; apply P1; [exact Hm|reflexivity]).
  split; [exact P1'|]. split; [exact P2|]. intros argsort A' Bs' C' HS EB c order. pose proof K1 as (VC & LX & _).
  assert (H0 : (0 < length (cBs (fst f)))%nat) by (rewrite <- LX; destruct HX as (HX & _); destruct Xs; [congruence|cbn; lia]).
  destruct (C86_clipped argsort (fst f) A' Bs' C' HS VC H0 EB) as (_ & G1 & G2 & G3 & _). fold c in G1, G2, G3. fold order in G1, G2, G3. cbv zeta in G1, G2, G3. unfold c in *.
  assert (OR : forall r, (r < 4)%nat -> (nth r order 0 < 4)%nat) by (intros r Hr; unfold order, c; rewrite <- K2; apply bike_order_below; auto; lia).
  assert (CLP : forall x b, - (1 / 10000 * b) <= x -> 0 <= b -> Rabs (Rmax 0 x - x) <= 1 / 10000 * b).
  { intros x b L B. unfold Rmax. destruct (Rle_dec 0 x); [replace (x - x) with 0 by ring; rewrite Rabs_R0; lra|]. rewrite Rabs_right; lra. }
  pose proof VC as (_ & _ & CC & LB & HB & _).
  split; [|split].
  - intros k r Hk Hr. rewrite G1 by (rewrite ?K2; try lia; congruence). apply CLP; [|apply sqrt_pos]. apply (P1' 0%nat); [lia|lia|rewrite K2; auto].
  - intros k j r Hk Hj Hr. rewrite G2 by (rewrite ?K2; try lia; congruence). apply CLP; [|apply sqrt_pos]. apply (P1' 1%nat); [lia|lia|exact Hj|rewrite K2; auto].
  - intros k r Hk Hr. rewrite G3 by (rewrite ?K2; try lia; congruence). apply CLP; [|apply sqrt_pos]. apply (P1' 2%nat); [lia|exact Hk|]. specialize (OR r Hr). lia.
Qed.
Print Assumptions C97_bike.

(** plot_simulated_nonnegative.py: [rank] components, all factors non-negative. *)
Theorem C97_nonnegative V IE rnd (Xs : list matR) rank i f : fittable Xs rank -> ranks_kept IE -> svd_correct (e_ext V) rank -> start_fit (N:=RNum) V IE rnd (nonnegative_call (N:=RNum) Xs rank) i = Ok f ->
  data_fits Xs (fst f) /\ mc (cA (fst f)) = rank /\ (d_n_iter (snd f) <= 1000)%nat /\
  (converged f -> Forall (all_gaps not_nan) (d_gaps (snd f)) ->
     (forall m, (m < 3)%nat -> factor_entries (fst f) m (fun x => - (1 / 10000 * factor_norm (fst f) m) <= x)) /\ near_parafac2 (1 / 10000) (fst f) rank).
Proof.
  intros HX HI HV E. destruct (C97_factors V IE rnd Xs rank 1000 _ (AOne (Some true)) RNone HX no_regs HI HV i f E) as (K1 & K2 & K3 & _).
  split; [exact K1|]. split; [exact K2|]. split; [exact K3|]. intros CV NN.
  destruct (C97_converged V IE rnd Xs rank 1000 _ (AOne (Some true)) RNone HX no_regs HI HV i f eq_refl E CV NN) as (P1 & _ & P2).
  split; [|exact P2]. intros m Hm. apply P1; [exact Hm|reflexivity].
Qed.
Print Assumptions C97_nonnegative.
(** plot_examining_different_number_of_components.py: [rank] components, only A non-negative. *)
Theorem C97_scree V IE rnd (Xs : list matR) rank i f : fittable Xs rank -> ranks_kept IE -> svd_correct (e_ext V) rank -> start_fit (N:=RNum) V IE rnd (scree_call (N:=RNum) Xs rank) i = Ok f ->
  data_fits Xs (fst f) /\ mc (cA (fst f)) = rank /\ (d_n_iter (snd f) <= 1000)%nat /\
  (converged f -> Forall (all_gaps not_nan) (d_gaps (snd f)) ->
     factor_entries (fst f) 0 (fun x => - (1 / 10000 * norm_A (fst f)) <= x) /\ near_parafac2 (1 / 10000) (fst f) rank).
Proof.
  intros HX HI HV E. destruct (C97_factors V IE rnd Xs rank 1000 _ (AIter [Some true; Some false; Some false]) RNone HX no_regs HI HV i f E) as (K1 & K2 & K3 & _).
  split; [exact K1|]. split; [exact K2|]. split; [exact K3|]. intros CV NN.
  destruct (C97_converged V IE rnd Xs rank 1000 _ (AIter [Some true; Some false; Some false]) RNone HX no_regs HI HV i f eq_refl E CV NN) as (P1 & _ & P2).
  split; [|exact P2]. apply (P1 0%nat); [lia|]. split; reflexivity.
Qed.
Print Assumptions C97_scree.

(** ** The hypotheses are met: a 4 x 1 matrix of halves; every random number is one half but for those of the dual
    variables, which are zero.  The start fits the data, so the call stops after one iteration. *)
Lemma rest2_gaps V IE rnd (a : fitR) rank c v o d : sensible V a rank -> ranks_kept IE -> svd_correct (e_ext V) rank -> (forall r, tv_correct (e_ext V) r) ->
  starts_at V IE rnd a c v -> start_rests_pf2 V a c v -> cmf_aoadmm V IE rnd a = Ok o -> out_diag o = Some d ->
  exists s l2, setup V IE rnd a = Ok (s, l2) /\ Forall (gaps_of s) (d_gaps d).
Proof.
  intros HS RK HE HT ST SR H HD. destruct (rest2_setup V IE rnd a rank c v HS RK HE ST SR) as (s & l2 & h0 & fl & SET & HH & HC & EC & EV & VS & HP & HSV & CW & RA & RC & STILL & H0 & _).
  exists s, l2. split; [exact SET|].
  rewrite (P50_Tolerances.aoadmm_finish V IE rnd a s l2 h0 fl SET HH HC) in H. set (P := fit_params a l2 fl) in *.
  destruct (ao_loop (e_ext V) P (f_data a) (Z.to_nat (f_n_iter a)) 0 s h0) as [[[[s' h] n] msg]|] eqn:LP; [|discriminate]. cbn [bind] in H.
  destruct (still2_loop (e_ext V) P (f_data a) s VS HP CW HSV HT RA RC _ _ _ _ _ _ _ _ STILL H0 LP) as (S' & (L1 & L2 & L3)).
  pose proof (still2_valid P (f_data a) s VS s' S') as VS'.
  unfold P50_Tolerances.finish in H.
  match type of H with (let* feas := ?x in _) = _ => destruct x as [fe|]; [|discriminate H] end. cbn [bind] in H.
  rewrite (revalidate_ok _ (proj1 (proj1 VS'))) in H. cbn [bind] in H.
  assert (HO : d_gaps d = h_gaps h).
  { destruct (p_return_errors P); cbn [bind] in H; injection H as <-; cbn [out_diag] in HD; [|discriminate]. injection HD as <-. reflexivity. }
  rewrite HO. eapply Forall_impl; [|exact L2]. cbv beta. intros g EG. destruct (state_gaps_ok (f_data a) s VS) as (g' & EG' & K).
  change (state_gaps (noi s)) with (state_gaps s) in EG. congruence.
Qed.
Definition kmat (r c : nat) (x : R) : matR := mbuild (N:=RNum) r c (fun _ _ => x).
Lemma kget r c x i j : (i < r)%nat -> (j < c)%nat -> mget (kmat r c x) i j = x.
Proof. intros. unfold kmat. now apply (mget_mbuild r c (fun _ _ => x)). Qed.
Definition eye4 : matR := mbuild (N:=RNum) 4 4 (fun i j => if (i =? j)%nat then n1 else n0).
Lemma eget i j : (i < 4)%nat -> (j < 4)%nat -> mget eye4 i j = if (i =? j)%nat then 1 else 0.
Proof. intros. unfold eye4. now apply (mget_mbuild 4 4 (fun i j => if (i =? j)%nat then 1 else 0)). Qed.
Definition X97 : matR := kmat 4 1 (1 / 2).
Definition rnd97 : nat -> randR := fun _ _ p => if (p <? 64)%nat then 1 / 2 else 0.
Definition a97 : fitR := with_parafac2 (N:=RNum) (bike_call (N:=RNum) [X97]).
Definition cmf97 : rcmf := Cmf (N:=RNum) None (kmat 1 4 (1 / 2)) [kmat 4 4 (1 / 2)] (kmat 1 4 (1 / 2)).
Definition s97 : state (N:=RNum) := St (N:=RNum) cmf97 [MReg NonNegativity (kmat 1 4 (1 / 2)) (kmat 1 4 0)]
  [BReg (Parafac2 1 true true) (APf2 [eye4] (kmat 4 4 (1 / 2))) [kmat 4 4 0]; BReg NonNegativity (AList [kmat 4 4 (1 / 2)]) [kmat 4 4 0]] [MReg NonNegativity (kmat 1 4 (1 / 2)) (kmat 1 4 0)] None.
Definition o97 (p : penalty (N:=RNum)) : pobj (N:=RNum) := PObj (N:=RNum) p (IStr RandomUniform) (IStr RandomUniform).
Lemma parse97 V : parse_all V (f_kw a97) RNone (IStr RandomUniform) (IStr RandomUniform) = Ok ([o97 NonNegativity], [o97 (Parafac2 1 true true); o97 NonNegativity], [o97 NonNegativity]).
Proof.
  unfold parse_all. cbn [f_kw a97 bike_call with_parafac2 with_pf2 script_call check_regs a_nn a_upper a_lower a_norm a_uni a_l1 a_gl2 a_tv a_pf2 listify bind].
  assert (K : forall b ai di, parse_mode V (ModeKw (N:=RNum) (Some true) None None None None b None None None) ai di = Ok ((if b then [PObj (N:=RNum) (Parafac2 1 true true) ai di] else []) ++ [PObj (N:=RNum) NonNegativity ai di])).
  { intros b ai di. unfold parse_mode. cbn [k_nn k_lower k_upper k_norm k_uni k_pf2 k_l1 k_tv k_gl2 btruthy bind otruthy]. cbv zeta. cbv iota.
    change (ntruthy (N:=RNum) n0) with (ntruthy (N:=RNum) 0). rewrite zero_not_truthy. destruct b; reflexivity. }
  rewrite !K. reflexivity.
Qed.
Lemma setup97 V seed : setup V no_ext (rnd97 seed) a97 = Ok (s97, (Some 0, Some 0, Some 0)).
Proof.
  pose proof (parse97 V) as PA. unfold setup, a97. cbn [bike_call with_parafac2 script_call f_svd f_data f_rank f_init f_l2 f_kw f_regs f_aux f_dual f_updA f_updB f_updC negb] in PA |- *.
  match goal with |- _ = Ok (?s, _) => match goal with |- context[initialize_cmf ?a ?b ?c ?d ?e ?f ?g] => assert (E1 : initialize_cmf a b c d e f g = Ok (st_cmf s, 24%nat)) by reflexivity end end.
  rewrite E1. cbn [bind listify]. unfold a97, bike_call in PA. cbn [with_parafac2 script_call f_kw] in PA. rewrite PA. reflexivity.
Qed.
Arguments kmat : simpl never.
Arguments eye4 : simpl never.
Arguments mget : simpl never.
Ltac kv := unfold X97; repeat match goal with
  | |- context[mget (kmat ?r ?c ?x) ?i ?j] => change (mget (kmat r c x) i j) with x
  | |- context[mget eye4 ?i ?j] => let v := eval cbv in (i =? j)%nat in match v with true => change (mget eye4 i j) with 1 | false => change (mget eye4 i j) with 0 end
  end.
Ltac sz := unfold X97, cmf97; repeat match goal with
  | |- context[mr (kmat ?r ?c ?x)] => change (mr (kmat r c x)) with r
  | |- context[mc (kmat ?r ?c ?x)] => change (mc (kmat r c x)) with c
  | |- context[rowsB ?c 0%nat] => change (rowsB c 0%nat) with 4%nat
  | |- context[mr eye4] => change (mr eye4) with 4%nat
  | |- context[mc eye4] => change (mc eye4) with 4%nat end.
Ltac calc97 := cbn; repeat (progress (sz; cbn)); change rget with (@mget RNum); kv; rn; lra.
Ltac four i H := destruct i as [|[|[|[|i]]]]; [| | | |exfalso; lia].
Lemma penalties97 V m : (m < 3)%nat -> penalties_of V a97 m (map o_pen (pick ([o97 NonNegativity], [o97 (Parafac2 1 true true); o97 NonNegativity], [o97 NonNegativity]) m)).
Proof. intros Hm. eexists. split; [exact (parse97 V)|reflexivity]. Qed.
Lemma fittable97 : fittable [X97] 4.
Proof.
  split; [discriminate|]. split; [lia|]. split; [intros X [<-|[]]; split; [apply mwf_mbuild|split; [apply Nat.le_refl|apply Nat.lt_0_1]]|].
  unfold data_sumsq, sumsq, Sum. calc97.
Qed.
Lemma same_k r c x y : y = x -> same r c (mget (kmat r c x)) (fun _ _ => y).
Proof. intros -> i j Hi Hj. now apply kget. Qed.
Lemma perfect97 V : perfect_start_pf2 V a97 cmf97 (vars_of s97).
Proof.
  split; [reflexivity|]. split.
  { unfold residual, cmf_entry, dist2, Sum. calc97. }
  split.
  { intros m l Hm _ HL. destruct (HL m Hm) as (x & Mx & ->). cbn in Mx. subst x. reflexivity. }
  split; [|split]; intros _.
  - split.
    { intros i Hi. change (length (f_data a97)) with 1%nat in Hi. assert (i = 0%nat) as -> by lia. unfold rho_A, Sum; calc97. }
    eexists. split; [apply (penalties97 V 0%nat); lia|]. split; [discriminate|]. constructor; [|constructor].
    split; [exact Logic.I|]. split; [exact Logic.I|]. split; [|split].
    + intros i j Hi Hj. change (0 <= mget (kmat 1 4 (1 / 2)) i j). rewrite kget by assumption. lra.
    + intros i j Hi Hj. reflexivity.
    + now apply same_k.
  - split.
    { intros i Hi. change (length (f_data a97)) with 1%nat in Hi. assert (i = 0%nat) as -> by lia. unfold rho_B, Sum; calc97. }
    eexists. split; [apply (penalties97 V 1%nat); lia|]. split; [discriminate|]. constructor; [|constructor; [|constructor]].
    + right. split; [exact Logic.I|]. split.
      * intros i Hi. change (length (f_data a97)) with 1%nat in Hi. assert (i = 0%nat) as -> by lia. intros x y Hx Hy. change (x < 4)%nat in Hx. change (y < 4)%nat in Hy.
        four x Hx; four y Hy; unfold Sum, kron; calc97.
      * intros i Hi. change (length (f_data a97)) with 1%nat in Hi. assert (i = 0%nat) as -> by lia. split; [|now apply same_k].
        intros x y Hx Hy. change (x < 4)%nat in Hx. change (y < 4)%nat in Hy. four x Hx; four y Hy; unfold entB, baux, Sum; calc97.
    + left. split; [exact Logic.I|]. split; [exact Logic.I|]. intros i Hi. change (length (f_data a97)) with 1%nat in Hi. assert (i = 0%nat) as -> by lia. split; [|split].
      * intros x y Hx Hy. change (0 <= mget (kmat 4 4 (1 / 2)) x y). rewrite kget by assumption. lra.
      * intros x y Hx Hy. reflexivity.
      * now apply same_k.
  - split; [unfold rho_C, Sum; calc97|].
    eexists. split; [apply (penalties97 V 2%nat); lia|]. split; [discriminate|]. constructor; [|constructor].
    split; [exact Logic.I|]. split; [exact Logic.I|]. split; [|split].
    + intros i j Hi Hj. change (0 <= mget (kmat 1 4 (1 / 2)) i j). rewrite kget by assumption. lra.
    + intros i j Hi Hj. reflexivity.
    + now apply same_k.
Qed.
Lemma held97 V : held V a97.
Proof.
  assert (PU : forall m ps, (m < 3)%nat -> penalties_of V a97 m ps -> ps = map o_pen (pick ([o97 NonNegativity], [o97 (Parafac2 1 true true); o97 NonNegativity], [o97 NonNegativity]) m)).
  { intros m ps Hm (t1 & E1 & ->). destruct (penalties97 V m Hm) as (t2 & E2 & E3). rewrite E1 in E2. injection E2 as <-. symmetry. exact E3. }
  split; [|split].
  - intros m ps l Hm _ HP _. right. rewrite (PU m ps Hm HP). destruct m as [|[|[|m]]]; discriminate || lia.
  - intros ps _ _ HP. rewrite (PU 0%nat ps ltac:(lia) HP). repeat constructor.
  - intros _ K. discriminate K.
Qed.
Lemma zero_gaps g : gaps_of s97 g -> all_gaps (fun x => x = Fin 0) g.
Proof.
  destruct g as ((gA & gB) & gC). intros ((LA & KA) & (LB & KB) & (LC & KC)). cbn in LA, LB, LC.
  assert (D : forall r c X, fdist r c X X = 0).
  { intros r c X. unfold fdist. rewrite <- sqrt_0. f_equal. assert (Z : forall n (h : nat -> R), (forall i, (i < n)%nat -> h i = 0) -> Sum n h = 0).
    { intros n h K. rewrite (Sum_ext n h (fun _ => 0)) by exact K. clear. induction n as [|n IH]; cbn [Sum]; [reflexivity|]. rewrite IH. ring. }
    unfold dist2. apply Z. intros i _. apply Z. intros j _. ring. }
  assert (R0 : forall x b, is_ratio x 0 b -> 0 < b -> x = Fin 0).
  { intros x b (K & _) Hb. rewrite K by lra. f_equal. unfold Rdiv. ring. }
  assert (NA : 0 < norm_A (st_cmf s97)) by (apply sqrt_lt_R0; unfold sumsq, Sum; calc97).
  assert (NC : 0 < norm_C (st_cmf s97)) by (apply sqrt_lt_R0; unfold sumsq, Sum; calc97).
  assert (NB : 0 < norm_B (st_cmf s97)) by (apply sqrt_lt_R0; unfold sumsq, entB, Sum; calc97).
  destruct gA as [|gA [|]]; try discriminate. destruct gB as [|gB [|gB' [|]]]; try discriminate. destruct gC as [|gC [|]]; try discriminate.
  split; [|split].
  - constructor; [|constructor]. apply (R0 _ (norm_A (st_cmf s97))); [|exact NA]. specialize (KA 0%nat ltac:(cbn; lia)). unfold dist_A in KA. cbn [nth] in KA. erewrite D in KA. exact KA.
  - assert (DB : forall q, (q < 2)%nat -> dist_B s97 q = 0).
    { intros q Hq. unfold dist_B, ldist. rewrite <- sqrt_0. f_equal. destruct q as [|[|q]]; [| |lia]; unfold dist2, entB, baux, Sum; calc97. }
    constructor; [|constructor; [|constructor]]; (apply (R0 _ (norm_B (st_cmf s97))); [|exact NB]).
    + specialize (KB 0%nat ltac:(cbn; lia)). rewrite DB in KB by lia. exact KB.
    + specialize (KB 1%nat ltac:(cbn; lia)). rewrite DB in KB by lia. exact KB.
  - constructor; [|constructor]. apply (R0 _ (norm_C (st_cmf s97))); [|exact NC]. specialize (KC 0%nat ltac:(cbn; lia)). unfold dist_C in KC. cbn [nth] in KC. erewrite D in KC. exact KC.
Qed.
Lemma all_gaps_impl (P Q : xnumR -> Prop) g : (forall x, P x -> Q x) -> all_gaps P g -> all_gaps Q g.
Proof. intros K. destruct g as ((x & y) & z). intros (H1 & H2 & H3). repeat split; eapply Forall_impl; eauto. Qed.
Example C97_nonvacuous seed : exists V f, svd_correct (e_ext V) 4 /\ ranks_kept no_ext /\ fittable [X97] 4 /\
  start_fit (N:=RNum) V no_ext rnd97 (bike_call (N:=RNum) [X97]) seed = Ok f /\ converged f /\ Forall (all_gaps not_nan) (d_gaps (snd f)) /\ fst f = cmf97.
Proof.
  destruct ideal_exists as (E & HE & HT). set (V := Env (N:=RNum) E (fun _ => []) true).
  pose proof (call_sensible V [X97] 4 1000 (1 / 100000000) (AOne (Some true)) RNone fittable97 no_regs) as HS. change (sensible V a97 4) in HS.
  assert (ST : starts_at V no_ext (rnd97 seed) a97 cmf97 (vars_of s97)).
  { apply (setup_start V no_ext (rnd97 seed) a97 4 s97 (Some 0, Some 0, Some 0) HS no_ext_ranks); [discriminate|apply setup97]. }
  pose proof (perfect_pf2_rests V no_ext (rnd97 seed) a97 4 _ _ HS no_ext_ranks ST (perfect97 V)) as SR.
  destruct (C96_start_at_rest_succeeds V no_ext (rnd97 seed) a97 4 _ _ HS no_ext_ranks (HE 4%nat) HT ST SR (held97 V)) as (o & EO & R1 & R2 & R3).
  pose proof (proj2 (proj2 (proj2 fittable97))) as HD. change [X97] with (f_data a97) in HD.
  destruct (C33_fit_reports _ _ _ _ _ _ HS no_ext_ranks (HE 4%nat) HD EO) as (RV & RD & K).
  assert (OV : out_vars o = None) by (destruct (out_vars o); [exfalso; assert (false = true) by (apply RV; discriminate); discriminate|reflexivity]).
  destruct (out_diag o) as [d|] eqn:OD; [|exfalso; now apply (proj1 RD eq_refl)].
  exists V, (cmf97, d). split; [apply HE|]. split; [exact no_ext_ranks|]. split; [exact fittable97|].
  assert (EF : start_fit (N:=RNum) V no_ext rnd97 (bike_call (N:=RNum) [X97]) seed = Ok (cmf97, d)).
  { unfold start_fit, parafac2_aoadmm. fold a97. rewrite EO. cbn [bind]. rewrite OV, OD, R1. reflexivity. }
  split; [exact EF|]. cbn [snd fst].
  destruct (rest2_gaps V no_ext (rnd97 seed) a97 4 _ _ o d HS no_ext_ranks (HE 4%nat) HT ST SR EO OD) as (s & l2 & SET & GP). rewrite setup97 in SET. injection SET as <- <-.
  assert (NN : Forall (all_gaps not_nan) (d_gaps d)).
  { eapply Forall_impl; [|exact GP]. cbv beta. intros g G. eapply all_gaps_impl; [|exact (zero_gaps g G)]. intros x ->. discriminate. }
  split; [|split; [exact NN|reflexivity]].
  destruct (C34_fit_stopping _ _ _ _ _ _ _ HS no_ext_ranks (HE 4%nat) HD EO OD NN) as (_ & K1 & K2 & _). unfold converged. cbn [snd].
  destruct (d_message d); [|exact K2|exact K2]. exfalso. destruct K1 as (N1 & K1). change (Z.to_nat (f_n_iter a97)) with 1000%nat in N1.
  apply K1; [lia|]. destruct (K d eq_refl) as (_ & _ & LG & _ & _). split.
  - exists (1 / 10000). split; [reflexivity|]. split; [lra|]. unfold gaps_at. eapply all_gaps_impl; [|apply zero_gaps; apply (proj1 (Forall_forall _ _) GP), nth_In; lia]. intros x ->. exists 0. split; [reflexivity|lra].
  - right. split; [exists (1 / 100000000); split; [reflexivity|lra]|]. exists (1 / 10000000000), 0. split; [reflexivity|]. split; [|lra].
    pose proof (start_reports V no_ext rnd97 [X97] 4 1000 (1 / 100000000) (AOne (Some true)) RNone fittable97 Logic.I no_regs Logic.I no_ext_ranks (HE 4%nat) seed _ EF) as ((ls & EL) & _). cbn [snd fst] in EL.
    assert (RE : rel_error [X97] cmf97 = 0) by (unfold rel_error; destruct (perfect97 V) as (_ & R0 & _); change (f_data a97) with [X97] in R0; rewrite R0, sqrt_0; unfold Rdiv; ring).
    rewrite RE in EL. destruct (K d eq_refl) as (_ & LL & _). unfold loss_at. rewrite EL in LL |- *. rewrite app_length in LL. cbn in LL. rewrite nth_error_app2 by lia. replace (d_n_iter d - length ls)%nat with 0%nat by lia. cbn. do 2 f_equal. lra.
Qed.
