(** C94: stricter tolerances never stop a fit earlier. *)
From Coq Require Import Reals Lra Lia List Arith Bool ZArith.
From Verif Require Import Num Numpy RFacts Spec SpecFacts MatFacts ModelSpec Penalties PenaltySpec CoupledMatrices CmfSpec CmfProofs Decomp DecompSpec
  DecompFacts AoPrefix AoLoop AoRun AoHist P05_Runs InitVars InitSpec Parse ParseSpec Fit FitSpec FitProofs P11_Total DecompExamples FitExamples Ideal
  ResumeSpec ResumeProofs TolSpec Tolerances.
Import ListNotations.
Local Open Scope R_scope.

(** what follows the loop, for one of the two calls *)
Definition finish (W : paramsR) (vars : bool) (r : stateR * hist (N:=RNum) * nat * message) : res outR :=
  let '(s', h, it, msg) := r in
  let stopped := match msg with MaxIter => false | _ => true end in
  let* feas :=
    match p_feas_tol W with
    | Some t => if ntruthy (N:=RNum) t && p_return_errors W then let* g := state_gaps s' in Ok (Some (check_feasibility g t)) else Ok None
    | None => Ok None
    end in
  let* c := revalidate (st_cmf s') in
  let s'' := St c (st_rA s') (st_rB s') (st_rC s') (st_inter s') in
  let* (s3, d) :=
    if p_return_errors W then
      let stop := if negb stopped && negb (otruthy (N:=RNum) (p_tol W) || otruthy (N:=RNum) (p_abs_tol W)) then None else Some stopped in
      Ok (s'', Some (Diag (h_errors h) (h_gaps h) (h_losses h) stop feas it msg))
    else Ok (s'', None) in
  Ok (Output (st_cmf s3) (if vars then Some (vars_of s3) else None) d).
Lemma aoadmm_finish V IE rnd (a : fitR) s l2 h0 fl : setup V IE rnd a = Ok (s, l2) -> init_hist (fit_params a l2 (false, false)) (f_data a) s = Ok h0 ->
  const_flags (f_const a) = Ok fl ->
  cmf_aoadmm V IE rnd a =
  (let* r := ao_loop (e_ext V) (fit_params a l2 fl) (f_data a) (Z.to_nat (f_n_iter a)) 0 s h0 in finish (fit_params a l2 fl) (f_return_vars a) r).
Proof.
  intros HS HH HC. unfold cmf_aoadmm. rewrite HS. cbn [bind]. rewrite HH. cbn [bind]. rewrite HC. cbn [bind]. unfold run.
  assert (HH' : init_hist (fit_params a l2 fl) (f_data a) s = Ok h0). { rewrite <- HH. destruct l2 as [[? ?] ?]. reflexivity. }
  rewrite HH'. cbn [bind]. destruct (ao_loop _ _ _ _ _ _ _) as [[[[s1 h1] it] msg]|]; [|reflexivity]. cbn [bind]. unfold finish.
  match goal with |- (let* (_, _) := (let* f := ?x in _) in _) = (let* g := ?y in _) => change y with x; destruct x as [f|]; [|reflexivity] end. cbn [bind].
  destruct (revalidate (st_cmf s1)) as [c|]; [|reflexivity]. cbn [bind]. reflexivity.
Qed.
Lemma aoadmm_ok V IE rnd (a : fitR) oa : cmf_aoadmm V IE rnd a = Ok oa ->
  exists s l2 h0 fl s' h n msg, setup V IE rnd a = Ok (s, l2) /\ init_hist (fit_params a l2 (false, false)) (f_data a) s = Ok h0 /\ const_flags (f_const a) = Ok fl /\
    ao_loop (e_ext V) (fit_params a l2 fl) (f_data a) (Z.to_nat (f_n_iter a)) 0 s h0 = Ok (s', h, n, msg) /\
    finish (fit_params a l2 fl) (f_return_vars a) (s', h, n, msg) = Ok oa.
Proof.
  intros H. destruct (setup V IE rnd a) as [[s l2]|] eqn:HS; [|unfold cmf_aoadmm in H; rewrite HS in H; discriminate].
  destruct (init_hist (fit_params a l2 (false, false)) (f_data a) s) as [h0|] eqn:HH; [|unfold cmf_aoadmm in H; rewrite HS in H; cbn [bind] in H; rewrite HH in H; discriminate].
  destruct (const_flags (f_const a)) as [fl|] eqn:HC; [|unfold cmf_aoadmm in H; rewrite HS in H; cbn [bind] in H; rewrite HH in H; cbn [bind] in H; rewrite HC in H; discriminate].
  rewrite (aoadmm_finish V IE rnd a s l2 h0 fl HS HH HC) in H.
  destruct (ao_loop _ _ _ _ _ _ _) as [[[[s' h] n] msg]|] eqn:HL; [|discriminate]. exists s, l2, h0, fl, s', h, n, msg. auto.
Qed.

Theorem C94_stricter_runs_longer_partial V IE rnd (a b : fitR) oa :
  stricter_tolerances a b ->
  (tol_set (f_tol b) -> f_abs_tol b <> None) ->
  (f_return_errors a = true \/ f_feas_tol b = f_feas_tol a) ->
  cmf_aoadmm V IE rnd a = Ok oa ->
  exists n : nat, (n <= Z.to_nat (f_n_iter a))%nat /\ cmf_aoadmm V IE rnd (with_n_iter a (Z.of_nat n)) = Ok oa /\
    (forall d, out_diag oa = Some d -> d_n_iter d = n) /\
    forall k, (k <= n)%nat -> same_results (cmf_aoadmm V IE rnd (with_n_iter a (Z.of_nat k))) (cmf_aoadmm V IE rnd (with_n_iter b (Z.of_nat k))).
Proof.
  intros (SB & ST & SA & SF) AB SP H.
  destruct (aoadmm_ok V IE rnd a oa H) as (s & l2 & h0 & fl & s' & h & n & msg & HS & HH & HC & HL & HF).
  assert (AK : forall k, cmf_aoadmm V IE rnd (with_n_iter a (Z.of_nat k)) =
    let* r := ao_loop (e_ext V) (fit_params a l2 fl) (f_data a) k 0 s h0 in finish (fit_params a l2 fl) (f_return_vars a) r).
  { intros k. rewrite (aoadmm_finish V IE rnd (with_n_iter a (Z.of_nat k)) s l2 h0 fl HS HH HC). cbn [f_n_iter with_n_iter]. rewrite Nat2Z.id. reflexivity. }
  destruct SB as (B1 & B2 & B3 & B4 & B5 & B6 & B7 & B8 & B9 & B10 & B11 & B12 & B13 & B14 & B15 & B16 & B17 & B18 & B19).
  assert (BK : forall k, cmf_aoadmm V IE rnd (with_n_iter b (Z.of_nat k)) =
    let* r := ao_loop (e_ext V) (fit_params b l2 fl) (f_data a) k 0 s h0 in finish (fit_params b l2 fl) (f_return_vars a) r).
  { intros k. rewrite <- B18, <- B1. rewrite (aoadmm_finish V IE rnd (with_n_iter b (Z.of_nat k)) s l2 h0 fl).
    - cbn [f_n_iter with_n_iter]. rewrite Nat2Z.id. reflexivity.
    - rewrite <- HS. unfold setup. cbn [with_n_iter f_data f_rank f_init f_l2 f_kw f_regs f_aux f_dual f_svd f_updA f_updB f_updC].
      now rewrite B1, B2, B3, B5, B6, B7, B10, B11, B12, B15, B16, B17.
    - rewrite <- HH. destruct l2 as [[x y] z]. cbn [with_n_iter f_data]. rewrite B1. reflexivity.
    - cbn [with_n_iter f_const]. now rewrite B9. }
  exists n. destruct (loop_traj _ _ _ _ _ _ _ _ _ _ _ HL) as (m & _ & I1 & I2 & _). cbn in I1. subst m. split; [assumption|]. split; [|split].
  - rewrite AK. destruct (loop_exact _ _ _ _ _ _ _ _ _ _ _ HL) as (_ & K). rewrite Nat.sub_0_r in K. rewrite K. exact HF.
  - intros d Hd. unfold finish in HF. match type of HF with (let* f := ?x in _) = _ => destruct x; [|discriminate] end. cbn [bind] in HF.
    destruct (revalidate (st_cmf s')); [|discriminate]. cbn [bind] in HF. destruct (p_return_errors _); cbn [bind] in HF; injection HF as <-; cbn [out_diag] in Hd; [|discriminate].
    injection Hd as <-. reflexivity.
  - intros k Hk. destruct (loop_fewer _ _ _ _ _ _ _ _ _ _ k HL Hk) as (sk & hk & mk & KL). rewrite AK, BK, KL.
    destruct (loop_strict (e_ext V) (fit_params a l2 fl) (fit_params b l2 fl) (f_data a)) with (n := k) (it := 0%nat) (s := s) (h := h0) (hb := h0) (s' := sk) (h' := hk) (it' := k) (msg := mk) as (hb' & mb & _ & QL & (G1 & G2) & NO).
    + intros s0. destruct l2 as [[x y] z]. unfold outer_step, upd_A, upd_B, upd_C, fit_params. cbn. rewrite B8, B13, B14, B15, B16, B17. reflexivity.
    + intros s0. destruct l2 as [[x y] z]. reflexivity.
    + destruct l2 as [[x y] z]. exact B19.
    + destruct l2 as [[x y] z]. exact ST.
    + destruct l2 as [[x y] z]. exact SA.
    + destruct l2 as [[x y] z]. exact SF.
    + destruct l2 as [[x y] z]. intros K. apply AB. cbn in K. destruct (f_tol b) as [t|]; [|discriminate]. exists t. split; [reflexivity|]. now apply ntruthy_R.
    + destruct l2 as [[x y] z]. exact SP.
    + split; auto.
    + intros _. unfold init_hist in HH. destruct (state_loss _ _ s); [|discriminate]. cbn [bind] in HH. destruct (state_gaps s); [eauto|discriminate].
    + exact KL.
    + rewrite Nat.sub_0_r in QL. rewrite QL. cbn [bind]. unfold finish.
      assert (EB : p_return_errors (fit_params b l2 fl) = p_return_errors (fit_params a l2 fl)) by (destruct l2 as [[x y] z]; exact B19).
      rewrite EB. assert (FO : forall t : option R, exists f, match t with
         | Some t => if ntruthy (N:=RNum) t && p_return_errors (fit_params a l2 fl) then let* g := state_gaps sk in Ok (Some (check_feasibility g t)) else Ok None
         | None => Ok None end = Ok f).
      { intros [t|]; [|eauto]. destruct (ntruthy (N:=RNum) t); cbn [andb]; [|eauto]. destruct (p_return_errors _) eqn:RE; [|eauto]. destruct (NO RE) as (g & ->). cbn [bind]. eauto. }
      destruct (FO (p_feas_tol (fit_params a l2 fl))) as (fa & FA). destruct (FO (p_feas_tol (fit_params b l2 fl))) as (fb & FB).
      match goal with |- same_results (let* f := ?x in _) (let* g := ?y in _) => replace x with (@Ok (option bool) fa) by (symmetry; exact FA); replace y with (@Ok (option bool) fb) by (symmetry; exact FB) end.
      cbn [bind]. destruct (revalidate (st_cmf sk)) as [c|]; [|reflexivity]. cbn [bind].
      destruct (p_return_errors (fit_params a l2 fl)) eqn:RE; cbn [bind]; split; try reflexivity; (split; [reflexivity|]); [|exact Logic.I]. rewrite (G1 eq_refl). repeat split.
Qed.
Print Assumptions C94_stricter_runs_longer_partial.

(** With diagnostics: at least as many iterations, and histories that begin like those of the other call. *)
Theorem C94_histories_extend V IE rnd (a b : fitR) oa ob da db :
  stricter_tolerances a b -> (tol_set (f_tol b) -> f_abs_tol b <> None) ->
  cmf_aoadmm V IE rnd a = Ok oa -> out_diag oa = Some da -> cmf_aoadmm V IE rnd b = Ok ob -> out_diag ob = Some db ->
  (d_n_iter da <= d_n_iter db)%nat /\ extends (d_losses da) (d_losses db) /\ extends (d_errors da) (d_errors db) /\ extends (d_gaps da) (d_gaps db).
Proof.
  intros ST AB HA DA HB DB.
  assert (DG : forall (x : fitR) o d, cmf_aoadmm V IE rnd x = Ok o -> out_diag o = Some d ->
    f_return_errors x = true /\ exists s l2 h0 fl s' h msg, setup V IE rnd x = Ok (s, l2) /\ init_hist (fit_params x l2 (false, false)) (f_data x) s = Ok h0 /\ const_flags (f_const x) = Ok fl /\
    ao_loop (e_ext V) (fit_params x l2 fl) (f_data x) (Z.to_nat (f_n_iter x)) 0 s h0 = Ok (s', h, d_n_iter d, msg) /\
    d_losses d = h_losses h /\ d_errors d = h_errors h /\ d_gaps d = h_gaps h).
  { intros x o d Hx Hd. destruct (aoadmm_ok V IE rnd x o Hx) as (s & l2 & h0 & fl & s' & h & n & msg & HS & HH & HC & HL & HF).
    assert (RX : p_return_errors (fit_params x l2 fl) = f_return_errors x) by (destruct l2 as [[? ?] ?]; reflexivity).
    unfold finish in HF. match type of HF with (let* f := ?x in _) = _ => destruct x; [|discriminate] end. cbn [bind] in HF.
    destruct (revalidate (st_cmf s')); [|discriminate]. cbn [bind] in HF. rewrite RX in HF. destruct (f_return_errors x); cbn [bind] in HF; injection HF as <-; cbn [out_diag] in Hd; [|discriminate].
    injection Hd as <-. split; [reflexivity|]. exists s, l2, h0, fl, s', h, msg. auto 8. }
  destruct (DG a oa da HA DA) as (RE & _). destruct (DG b ob db HB DB) as (REb & s & l2 & h0 & fl & s' & h & msg & HS & HH & HC & HL & L1 & L2 & L3).
  destruct (C94_stricter_runs_longer_partial V IE rnd a b oa ST AB (or_introl RE) HA) as (n & N1 & N2 & N3 & N4). specialize (N4 n (le_n _)). rewrite N2 in N4.
  rewrite (N3 da DA).
  destruct (cmf_aoadmm V IE rnd (with_n_iter b (Z.of_nat n))) as [obn|] eqn:HBN; [|destruct N4]. destruct N4 as (_ & _ & SC). rewrite DA in SC.
  destruct (out_diag obn) as [dn|] eqn:DN; [|destruct SC]. destruct SC as (C1 & C2 & C3 & C4). rewrite <- C1, <- C2, <- C3. rewrite (N3 da DA) in C4.
  destruct (DG _ obn dn HBN DN) as (_ & s2 & l22 & h02 & fl2 & s2' & h2 & msg2 & HS2 & HH2 & HC2 & HL2 & M1 & M2 & M3).
  change (setup V IE rnd b = Ok (s2, l22)) in HS2. rewrite HS in HS2. injection HS2 as <- <-.
  change (const_flags (f_const b) = Ok fl2) in HC2. rewrite HC in HC2. injection HC2 as <-.
  change (init_hist (fit_params b l2 (false, false)) (f_data b) s = Ok h02) in HH2. rewrite HH in HH2. injection HH2 as <-.
  cbn [f_n_iter with_n_iter] in HL2. rewrite Nat2Z.id, C4 in HL2.
  change (ao_loop (e_ext V) (fit_params b l2 fl) (f_data b) n 0 s h0 = Ok (s2', h2, n, msg2)) in HL2.
  assert (EN : f_n_iter b = f_n_iter a) by apply ST. rewrite EN in HL.
  replace (Z.to_nat (f_n_iter a)) with (n + (Z.to_nat (f_n_iter a) - n))%nat in HL by lia. rewrite loop_extend, HL2 in HL.
  rewrite M1, M2, M3, L1, L2, L3. destruct msg2.
  - destruct (loop_grows _ _ _ _ _ _ _ _ _ _ _ HL) as ((G1 & G2 & G3) & G4). split; [exact G4|]. split; [exact G3|]. split; [exact G1|exact G2].
  - injection HL as <- <- <- <-. split; [lia|]. repeat split; apply extends_refl.
  - injection HL as <- <- <- <-. split; [lia|]. repeat split; apply extends_refl.
Qed.
Print Assumptions C94_histories_extend.

(** ** The hypotheses are met: [ex_args] with all three tolerances divided by ten *)
Definition with_tols (a : fitR) (t ab f : option R) (errs : bool) : fitR :=
  FitArgs (N:=RNum) (f_data a) (f_rank a) (f_init a) (f_n_iter a) (f_l2 a) (f_kw a) (f_regs a) (f_scale a) (f_const a) (f_aux a) (f_dual a) (f_svd a) t ab f
    (f_inner_tol a) (f_inner a) (f_updA a) (f_updB a) (f_updC a) (f_return_vars a) errs.
Lemma with_tols_stricter a t ab f errs t' ab' f' : stricter t' t -> stricter ab' ab -> stricter f' f ->
  stricter_tolerances (with_tols a t ab f errs) (with_tols a t' ab' f' errs).
Proof. intros H1 H2 H3. split; [|auto]. unfold same_but_tolerances. cbn. repeat (split; [reflexivity|]). reflexivity. Qed.
Lemma smaller (y' y : R) : 0 <= y' <= y -> stricter (Some y') (Some y).
Proof. intros H. right. exists y', y. auto. Qed.
Example C94_nonvacuous rnd : exists V oa ob da db, let a := with_tols ex_args (Some (1 / 100)) (Some (1 / 1000)) (Some (1 / 10000)) true in
  let b := with_tols ex_args (Some (1 / 1000)) (Some (1 / 10000)) (Some (1 / 100000)) true in
  stricter_tolerances a b /\ (tol_set (f_tol b) -> f_abs_tol b <> None) /\ cmf_aoadmm V no_ext rnd a = Ok oa /\ out_diag oa = Some da /\
  cmf_aoadmm V no_ext rnd b = Ok ob /\ out_diag ob = Some db.
Proof.
  destruct ideal_exists as (E & HE & _). set (V := Env (N:=RNum) E (fun _ => []) true).
  assert (HD : forall t ab f errs, ab <> None -> dependable V (with_tols ex_args t ab f errs) 1).
  { intros t ab f errs Hab. destruct (ex_dependable E) as (D1 & D2 & D3 & D4 & D5 & D6 & D7 & D8 & D9 & D10 & D11 & D12 & D13 & _).
    refine (conj D1 (conj D2 (conj D3 (conj D4 (conj D5 (conj D6 (conj D7 (conj D8 (conj D9 (conj D10 (conj D11 (conj D12 (conj D13 (fun _ => Hab)))))))))))))). }
  assert (DI : forall a o, cmf_aoadmm V no_ext rnd a = Ok o -> f_return_errors a = true -> exists d, out_diag o = Some d).
  { intros a o H RE. destruct (aoadmm_ok V no_ext rnd a o H) as (s & l2 & h0 & fl & s' & h & n & msg & _ & _ & _ & _ & HF).
    assert (RX : p_return_errors (fit_params a l2 fl) = f_return_errors a) by (destruct l2 as [[? ?] ?]; reflexivity).
    unfold finish in HF. match type of HF with (let* f := ?x in _) = _ => destruct x; [|discriminate] end. cbn [bind] in HF.
    destruct (revalidate (st_cmf s')); [|discriminate]. cbn [bind] in HF. rewrite RX, RE in HF. cbn [bind] in HF. injection HF as <-. eexists. reflexivity. }
  destruct (C51_fit_total V no_ext rnd (with_tols ex_args (Some (1 / 100)) (Some (1 / 1000)) (Some (1 / 10000)) true) 1 ltac:(apply HD; discriminate) no_ext_ranks (HE 1%nat)) as (oa & HA).
  destruct (C51_fit_total V no_ext rnd (with_tols ex_args (Some (1 / 1000)) (Some (1 / 10000)) (Some (1 / 100000)) true) 1 ltac:(apply HD; discriminate) no_ext_ranks (HE 1%nat)) as (ob & HB).
  destruct (DI _ oa HA eq_refl) as (da & DA). destruct (DI _ ob HB eq_refl) as (db & DB).
  exists V, oa, ob, da, db. cbv zeta. split; [apply with_tols_stricter; apply smaller; lra|]. split; [discriminate|]. auto.
Qed.

(** ** Not so for [feasibility_tol] without diagnostics
    The losses of infeasible iterations are not recorded, so a stricter [feasibility_tol] can make the
    relative criterion compare losses of iterations that do not follow each other. *)
Definition obj94 : pobjR := PObj (N:=RNum) NonNegativity (ITensor (N:=RNum) [1%nat; 1%nat] [4]) (ITensor (N:=RNum) [1%nat; 1%nat] [2]).
Definition args94 (f : R) : fitR :=
  FitArgs (N:=RNum) [m11 2] (PyInt 1) (InitSeq [PNone; PSeq [py_of_mat (m11 1); PSeq [py_of_mat (m11 1)]; py_of_mat (m11 3)]]) 3 (AOne None) no_kw
    (RList [EList []; EList []; EList [RPen obj94]])
    2 (CBool true) (IStr Zeros) (IStr Zeros) true (Some (1 / 10)) (Some 0) (Some f) None 1 false false true false false.
Lemma setup94 V rnd f : setup V no_ext rnd (args94 f) = Ok (cs 3 4 2, (None, None, None)).
Proof.
  pose proof (parse_given V (IStr Zeros) (IStr Zeros) [] [] [obj94]) as HP.
  unfold setup. cbn [f_svd args94 negb f_kw f_regs f_aux f_dual f_updA f_updB f_updC f_init f_data f_rank f_l2].
  cbn [map] in HP.
  destruct (initialize_cmf (e_ext V) no_ext rnd [m11 2] (PyInt 1) (InitSeq [PNone; PSeq [py_of_mat (m11 1); PSeq [py_of_mat (m11 1)]; py_of_mat (m11 3)]]) 0) as [[c pos]|] eqn:HI; [|discriminate HI].
  cbn in HI. injection HI as <- <-. cbn [bind listify]. rewrite HP. reflexivity.
Qed.

Lemma params94 f : fit_params (args94 f) (None, None, None) (true, true) = csP (Some (1 / 10)) (Some 0) (Some f) false.
Proof. reflexivity. Qed.
Lemma steps94 E f : svd_correct E 1 -> let W := csP (Some (1 / 10)) (Some 0) (Some f) false in
  outer_step E W [m11 2] (cs 3 4 2) = Ok (cs 2 4 0) /\ outer_step E W [m11 2] (cs 2 4 0) = Ok (cs 3 3 0) /\ outer_step E W [m11 2] (cs 3 3 0) = Ok (cs (5 / 2) (5 / 2) 0).
Proof.
  intros HE W. unfold W. rewrite !cs_step by assumption. cbv zeta.
  assert (K : forall c a d c' a' d' : R, c = c' -> a = a' -> d = d' -> @Ok (state (N:=RNum)) (cs c a d) = Ok (cs c' a' d')) by (intros; congruence).
  split; [|split]; apply K; try lra; rewrite ?Rmax_left by lra; lra.
Qed.
(** one pass *)
Lemma pass94 E f (n it : nat) h c0 a0 d0 c a d (fe : bool) l0 (r : bool) : f <> 0 -> c <> 0 ->
  outer_step E (csP (Some (1 / 10)) (Some 0) (Some f) false) [m11 2] (cs c0 a0 d0) = Ok (cs c a d) ->
  (if fe then Rabs (a - c) < f * Rabs c else ~ Rabs (a - c) < f * Rabs c) -> last_x (h_losses h) = Fin l0 ->
  (if r then Rabs (l0 - 1 / 2 * ((2 - c) / 2) ^ 2) < 1 / 10 * l0 else ~ Rabs (l0 - 1 / 2 * ((2 - c) / 2) ^ 2) < 1 / 10 * l0) ->
  exists h', last_x (h_losses h') = Fin (if fe then 1 / 2 * ((2 - c) / 2) ^ 2 else l0) /\
    ao_loop E (csP (Some (1 / 10)) (Some 0) (Some f) false) [m11 2] (S n) it (cs c0 a0 d0) h =
    (if fe && r then Ok (cs c a d, h', S it, RelLoss) else ao_loop E (csP (Some (1 / 10)) (Some 0) (Some f) false) [m11 2] n (S it) (cs c a d) h').
Proof.
  intros Hf Hc HS HFE HL Hr. rewrite loop_body, HS. cbn [bind]. destruct (cs_check f 2 c a d fe Hc HFE) as (g & HG & HC). rewrite HG. cbn [bind].
  assert (T : tols (csP (Some (1 / 10)) (Some 0) (Some f) false) = true) by (unfold tols; cbn; rewrite truthy10; reflexivity). rewrite T.
  assert (F : feas_of (p_feas_tol (csP (Some (1 / 10)) (Some 0) (Some f) false)) g = fe).
  { cbn [p_feas_tol csP]. unfold feas_of. rewrite HC. assert (K : ntruthy (N:=RNum) f = true) by now apply ntruthy_R. now rewrite K. }
  rewrite F. cbn [orb andb]. change (p_return_errors (csP (Some (1 / 10)) (Some 0) (Some f) false)) with false. cbn [negb]. rewrite andb_true_r.
  destruct fe; cbn [negb andb].
  2:{ eexists. split; [|reflexivity]. exact HL. }
  rewrite cs_state_loss by lra. cbn [bind]. rewrite HL. unfold stop_msg. cbn [p_tol p_abs_tol csP]. rewrite truthy10. cbn [bind andb].
  eexists. split; [|destruct r].
  2:{ rewrite (proj2 (rel_crit_R _ _ _) Hr). reflexivity. }
  2:{ assert (K : rel_crit (N:=RNum) (1 / 10) (Fin l0) (Fin (1 / 2 * ((2 - c) / 2) ^ 2)) = false).
      { apply not_true_iff_false. rewrite rel_crit_R. exact Hr. }
      assert (K2 : xlt (N:=RNum) (Fin (1 / 2 * ((2 - c) / 2) ^ 2)) 0 = false).
      { apply not_true_iff_false. unfold xlt. intros X. apply nltb_true in X. pose proof (pow2_ge_0 ((2 - c) / 2)). lra. }
      rewrite K, K2. reflexivity. }
  cbn [h_losses]. unfold last_x. now rewrite last_last.
Qed.
Lemma finish94 f c a d h n msg : finish (csP (Some (1 / 10)) (Some 0) (Some f) false) false (cs c a d, h, n, msg) =
  Ok (Output (st_cmf (cs c a d)) None None).
Proof.
  unfold finish. cbn [p_feas_tol p_return_errors csP]. rewrite andb_false_r. cbn [bind].
  rewrite revalidate_ok by apply (cs_valid 2). reflexivity.
Qed.
Lemma init94 f : exists h0, init_hist (csP (Some (1 / 10)) (Some 0) (Some f) false) [m11 2] (cs 3 4 2) = Ok h0 /\ last_x (h_losses h0) = Fin (1 / 2 * ((2 - 3) / 2) ^ 2).
Proof.
  unfold init_hist. rewrite cs_state_loss by lra. cbn [bind]. rewrite (state_gaps_val [m11 2]) by apply cs_valid. cbn [bind]. eexists. split; reflexivity.
Qed.
Definition outC (c : R) : outR := Output (N:=RNum) (st_cmf (cs c 0 0)) None None.
(** the results of the two calls limited to k iterations *)
Lemma calls94 V rnd : svd_correct (e_ext V) 1 ->
  (forall k : nat, (k <= 3)%nat -> cmf_aoadmm V no_ext rnd (with_n_iter (args94 2) (Z.of_nat k)) = Ok (outC (nth k [3; 2; 3; 5 / 2] 0))) /\
  (forall k : nat, (k <= 3)%nat -> cmf_aoadmm V no_ext rnd (with_n_iter (args94 (1 / 2)) (Z.of_nat k)) = Ok (outC (nth k [3; 2; 3; 3] 0))).
Proof.
  intros HE.
  assert (RUN : forall f k h0, init_hist (csP (Some (1 / 10)) (Some 0) (Some f) false) [m11 2] (cs 3 4 2) = Ok h0 ->
    cmf_aoadmm V no_ext rnd (with_n_iter (args94 f) (Z.of_nat k)) =
    let* r := ao_loop (e_ext V) (csP (Some (1 / 10)) (Some 0) (Some f) false) [m11 2] k 0 (cs 3 4 2) h0 in finish (csP (Some (1 / 10)) (Some 0) (Some f) false) false r).
  { intros f k h0 HI. rewrite (aoadmm_finish V no_ext rnd (with_n_iter (args94 f) (Z.of_nat k)) (cs 3 4 2) (None, None, None) h0 (true, true)); try assumption; try reflexivity; [|exact (setup94 V rnd f)].
    cbn [f_n_iter with_n_iter]. rewrite Nat2Z.id. reflexivity. }
  assert (FIN : forall f c a d h n msg, (let* r := Ok (cs c a d, h, n, msg) in finish (csP (Some (1 / 10)) (Some 0) (Some f) false) false r) = Ok (outC c)).
  { intros. cbn [bind]. rewrite finish94. reflexivity. }
  assert (A2 : Rabs 2 = 2) by (apply Rabs_pos_eq; lra). assert (A3 : Rabs 3 = 3) by (apply Rabs_pos_eq; lra). assert (A5 : Rabs (5 / 2) = 5 / 2) by (apply Rabs_pos_eq; lra).
  assert (G1 : Rabs (4 - 2) = 2) by (apply Rabs_val; lra). assert (G2 : Rabs (3 - 3) = 0) by (apply Rabs_val; lra). assert (G3 : Rabs (5 / 2 - 5 / 2) = 0) by (apply Rabs_val; lra).
  split.
  - destruct (init94 2) as (h0 & HI & L0). destruct (steps94 (e_ext V) 2 HE) as (S1 & S2 & S3).
    assert (P1 : forall n, exists h1, last_x (h_losses h1) = Fin (1 / 2 * ((2 - 2) / 2) ^ 2) /\
      ao_loop (e_ext V) (csP (Some (1 / 10)) (Some 0) (Some 2) false) [m11 2] (S n) 0 (cs 3 4 2) h0 = ao_loop (e_ext V) (csP (Some (1 / 10)) (Some 0) (Some 2) false) [m11 2] n 1 (cs 2 4 0) h1).
    { intros n. apply (pass94 (e_ext V) 2 n 0 h0 3 4 2 2 4 0 true (1 / 2 * ((2 - 3) / 2) ^ 2) false); auto; try lra. rewrite (Rabs_val _ (1 / 8)); lra. }
    assert (P2 : forall n h1, last_x (h_losses h1) = Fin (1 / 2 * ((2 - 2) / 2) ^ 2) -> exists h2, last_x (h_losses h2) = Fin (1 / 2 * ((2 - 3) / 2) ^ 2) /\
      ao_loop (e_ext V) (csP (Some (1 / 10)) (Some 0) (Some 2) false) [m11 2] (S n) 1 (cs 2 4 0) h1 = ao_loop (e_ext V) (csP (Some (1 / 10)) (Some 0) (Some 2) false) [m11 2] n 2 (cs 3 3 0) h2).
    { intros n h1 L1. apply (pass94 (e_ext V) 2 n 1 h1 2 4 0 3 3 0 true (1 / 2 * ((2 - 2) / 2) ^ 2) false); auto; try lra. rewrite (Rabs_val _ (1 / 8)); lra. }
    assert (P3 : forall n h2, last_x (h_losses h2) = Fin (1 / 2 * ((2 - 3) / 2) ^ 2) -> exists h3, last_x (h_losses h3) = Fin (1 / 2 * ((2 - 5 / 2) / 2) ^ 2) /\
      ao_loop (e_ext V) (csP (Some (1 / 10)) (Some 0) (Some 2) false) [m11 2] (S n) 2 (cs 3 3 0) h2 = ao_loop (e_ext V) (csP (Some (1 / 10)) (Some 0) (Some 2) false) [m11 2] n 3 (cs (5 / 2) (5 / 2) 0) h3).
    { intros n h2 L2. apply (pass94 (e_ext V) 2 n 2 h2 3 3 0 (5 / 2) (5 / 2) 0 true (1 / 2 * ((2 - 3) / 2) ^ 2) false); auto; try lra. rewrite (Rabs_val _ (3 / 32)); lra. }
    intros k Hk. rewrite (RUN 2 k h0 HI). destruct k as [|k]; [apply FIN|]. destruct (P1 k) as (h1 & L1 & ->).
    destruct k as [|k]; [apply FIN|]. destruct (P2 k h1 L1) as (h2 & L2 & ->). destruct k as [|k]; [apply FIN|]. destruct (P3 k h2 L2) as (h3 & _ & ->).
    destruct k as [|k]; [apply FIN|lia].
  - destruct (init94 (1 / 2)) as (h0 & HI & L0). destruct (steps94 (e_ext V) (1 / 2) HE) as (S1 & S2 & S3).
    assert (P1 : forall n, exists h1, last_x (h_losses h1) = Fin (1 / 2 * ((2 - 3) / 2) ^ 2) /\
      ao_loop (e_ext V) (csP (Some (1 / 10)) (Some 0) (Some (1 / 2)) false) [m11 2] (S n) 0 (cs 3 4 2) h0 = ao_loop (e_ext V) (csP (Some (1 / 10)) (Some 0) (Some (1 / 2)) false) [m11 2] n 1 (cs 2 4 0) h1).
    { intros n. apply (pass94 (e_ext V) (1 / 2) n 0 h0 3 4 2 2 4 0 false (1 / 2 * ((2 - 3) / 2) ^ 2) false); auto; try lra. rewrite (Rabs_val _ (1 / 8)); lra. }
    assert (P2 : forall n h1, last_x (h_losses h1) = Fin (1 / 2 * ((2 - 3) / 2) ^ 2) -> exists h2, last_x (h_losses h2) = Fin (1 / 2 * ((2 - 3) / 2) ^ 2) /\
      ao_loop (e_ext V) (csP (Some (1 / 10)) (Some 0) (Some (1 / 2)) false) [m11 2] (S n) 1 (cs 2 4 0) h1 = Ok (cs 3 3 0, h2, 2%nat, RelLoss)).
    { intros n h1 L1. apply (pass94 (e_ext V) (1 / 2) n 1 h1 2 4 0 3 3 0 true (1 / 2 * ((2 - 3) / 2) ^ 2) true); auto; try lra. rewrite (Rabs_val _ 0); lra. }
    intros k Hk. rewrite (RUN (1 / 2) k h0 HI). destruct k as [|k]; [apply FIN|]. destruct (P1 k) as (h1 & L1 & ->).
    destruct k as [|k]; [apply FIN|]. destruct (P2 k h1 L1) as (h2 & L2 & ->). destruct k as [|[|k]]; [apply FIN|apply FIN|lia].
Qed.
Theorem C94_feasibility_tol_refuted rnd : exists V oa, svd_correct (e_ext V) 1 /\ stricter_tolerances (args94 2) (args94 (1 / 2)) /\
  f_abs_tol (args94 (1 / 2)) <> None /\ f_tol (args94 (1 / 2)) = f_tol (args94 2) /\ f_abs_tol (args94 (1 / 2)) = f_abs_tol (args94 2) /\
  cmf_aoadmm V no_ext rnd (args94 2) = Ok oa /\
  (* the call with the stricter tolerance has stopped after two iterations, the other has not *)
  cmf_aoadmm V no_ext rnd (args94 (1 / 2)) = cmf_aoadmm V no_ext rnd (with_n_iter (args94 (1 / 2)) 2) /\
  cmf_aoadmm V no_ext rnd (args94 2) <> cmf_aoadmm V no_ext rnd (with_n_iter (args94 2) 2) /\
  ~ exists n : nat, (n <= Z.to_nat (f_n_iter (args94 2)))%nat /\ cmf_aoadmm V no_ext rnd (with_n_iter (args94 2) (Z.of_nat n)) = Ok oa /\
      forall k, (k <= n)%nat -> same_results (cmf_aoadmm V no_ext rnd (with_n_iter (args94 2) (Z.of_nat k))) (cmf_aoadmm V no_ext rnd (with_n_iter (args94 (1 / 2)) (Z.of_nat k))).
Proof.
  destruct ideal_exists as (E & HE & _). set (V := Env (N:=RNum) E (fun _ => []) true). destruct (calls94 V rnd (HE 1%nat)) as (CA & CB).
  assert (NE : forall x y : R, x <> y -> outC x <> outC y).
  { intros x y D K. apply D. apply (f_equal (fun o : outR => rget (cC (out_cmf o)) 0 0)) in K. exact K. }
  exists V, (outC (5 / 2)). split; [apply HE|]. split.
  { split; [|split; [apply smaller; lra|split; apply smaller; lra]]. unfold same_but_tolerances. cbn. repeat (split; [reflexivity|]). reflexivity. }
  split; [discriminate|]. split; [reflexivity|]. split; [reflexivity|].
  pose proof (CA 3%nat ltac:(lia)) as A3. pose proof (CA 2%nat ltac:(lia)) as A2. pose proof (CB 3%nat ltac:(lia)) as B3. pose proof (CB 2%nat ltac:(lia)) as B2.
  cbn [nth] in A3, A2, B3, B2. change (with_n_iter (args94 2) (Z.of_nat 3)) with (args94 2) in A3. change (with_n_iter (args94 (1 / 2)) (Z.of_nat 3)) with (args94 (1 / 2)) in B3.
  change (Z.of_nat 2) with 2%Z in A2, B2. split; [exact A3|]. split; [congruence|]. split.
  { rewrite A3, A2. intros K. injection K as K. lra. }
  intros (n & Hn & HR & HK). change (n <= 3)%nat in Hn.
  assert (n = 3%nat) as ->.
  { rewrite (CA n Hn) in HR. assert (K : outC (nth n [3; 2; 3; 5 / 2] 0) = outC (5 / 2)) by congruence.
    destruct n as [|[|[|[|n]]]]; [| | |reflexivity|lia]; exfalso; revert K; apply NE; cbn [nth]; lra. }
  specialize (HK 3%nat (le_n _)). rewrite (CA 3%nat), (CB 3%nat) in HK by lia. cbn [same_results nth] in HK. destruct HK as (K & _).
  apply (f_equal (fun c : rcmf => rget (cC c) 0 0)) in K. assert (X : 3 = 5 / 2) by exact K. lra.
Qed.
Print Assumptions C94_feasibility_tol_refuted.
