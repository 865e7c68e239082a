(** With stricter tolerances the loop does what it does with looser ones, as long as those let it. *)
From Coq Require Import Reals Lra Lia List Arith Bool ZArith.
From Verif Require Import Num Numpy RFacts Spec SpecFacts MatFacts ModelSpec Penalties PenaltySpec CoupledMatrices CmfSpec CmfProofs Decomp DecompSpec
  DecompFacts AoPrefix AoLoop AoRun AoHist P05_Runs InitVars Parse ParseSpec Fit FitSpec TolSpec.
Import ListNotations.
Local Open Scope R_scope.

Lemma stricter_truthy (t' t : option R) : stricter t' t -> otruthy (N:=RNum) t' = true -> otruthy (N:=RNum) t = true.
Proof.
  intros [->|(y' & y & -> & -> & H)]; [discriminate|]. cbn. intros K. apply ntruthy_R in K. apply ntruthy_R. lra.
Qed.
Lemma xlt_mono (x : xnum (N:=RNum)) (y' y : R) : y' <= y -> xlt x y' = true -> xlt x y = true.
Proof. destruct x as [v| |]; cbn; auto. intros H K. apply nltb_true in K. apply nltb_true. rn. lra. Qed.
Lemma check_mono (g : gaps (N:=RNum)) (y' y : R) : y' <= y -> check_feasibility g y' = true -> check_feasibility g y = true.
Proof.
  intros H. unfold check_feasibility. destruct g as [[gA gB] gC]. destruct (feas_acc gC _) as [x|]; [|auto]. now apply xlt_mono.
Qed.
Lemma rel_mono (y' y : R) (p l : xnum (N:=RNum)) : 0 <= y' <= y -> rel_crit (N:=RNum) y' p l = true -> rel_crit (N:=RNum) y p l = true.
Proof.
  intros H. destruct p as [u| |]; try discriminate. destruct l as [v| |]; try discriminate. rewrite !rel_crit_ok. intros K.
  assert (0 <= u). { destruct (Rle_or_lt 0 u) as [L|L]; [assumption|]. pose proof (Rabs_pos (u - v)). assert (y' * u <= 0) by nra. lra. }
  nra.
Qed.
Definition feas_of (t : option R) (g : gaps (N:=RNum)) : bool :=
  match t with Some t => ntruthy (N:=RNum) t && check_feasibility (N:=RNum) g t | None => false end.
Lemma feas_mono (t' t : option R) g : stricter t' t -> feas_of t' g = true -> feas_of t g = true.
Proof.
  intros [->|(y' & y & -> & -> & H)]; [discriminate|]. cbn. rewrite !andb_true_iff, !ntruthy_R. intros (K1 & K2). split; [lra|].
  apply (check_mono g y'); [lra|assumption].
Qed.

Section Two.
Variables (E : extR) (P Q : paramsR) (Xs : list matR).
Hypothesis step_eq : forall s, outer_step E Q Xs s = outer_step E P Xs s.
Hypothesis loss_eq : forall s, state_loss Q Xs s = state_loss P Xs s.
Hypothesis errors_eq : p_return_errors Q = p_return_errors P.
Hypothesis St : stricter (p_tol Q) (p_tol P).
Hypothesis Sa : stricter (p_abs_tol Q) (p_abs_tol P).
Hypothesis Sf : stricter (p_feas_tol Q) (p_feas_tol P).
Hypothesis Ab : otruthy (N:=RNum) (p_tol Q) = true -> p_abs_tol Q <> None.
Hypothesis Sp : p_return_errors P = true \/ p_feas_tol Q = p_feas_tol P.

(** what the two loops have recorded *)
Definition agree (h h' : hist (N:=RNum)) : Prop :=
  (p_return_errors P = true -> h' = h) /\ (otruthy (N:=RNum) (p_tol Q) = true -> h_losses h' = h_losses h).
Definition noted (s : stateR) : Prop := p_return_errors P = true -> exists g, state_gaps s = Ok g.

(** the loop body *)
Definition stop_msg (W : paramsR) (fe : bool) (p l : xnum (N:=RNum)) : res (option message) :=
  match p_tol W with
  | Some t => if ntruthy (N:=RNum) t then
                match p_abs_tol W with
                | None => Err TypeError
                | Some ab => Ok (if fe && rel_crit (N:=RNum) t p l then Some RelLoss else if fe && xlt (N:=RNum) l ab then Some AbsLoss else None)
                end
              else Ok None
  | None => Ok None
  end.
Definition tols (W : paramsR) : bool := otruthy (N:=RNum) (p_tol W) || otruthy (N:=RNum) (p_abs_tol W).
Lemma loop_body (W : paramsR) k it s h :
  ao_loop E W Xs (S k) it s h =
  (let* s1 := outer_step E W Xs s in
   if tols W || p_return_errors W then
    let* g := state_gaps s1 in
    if tols W && negb (feas_of (p_feas_tol W) g) && negb (p_return_errors W) then ao_loop E W Xs k (S it) s1 (Hist (h_errors h) (h_gaps h ++ [g]) (h_losses h))
    else
      let* l := state_loss W Xs s1 in
      let h2 := Hist (h_errors h ++ [state_error Xs s1]) (h_gaps h ++ [g]) (h_losses h ++ [l]) in
      let* st := stop_msg W (feas_of (p_feas_tol W) g) (last_x (h_losses h)) l in
      match st with
      | Some m => Ok (s1, h2, S it, m)
      | None => ao_loop E W Xs k (S it) s1 h2
      end
   else ao_loop E W Xs k (S it) s1 h).
Proof.
  unfold feas_of, tols. cbn [ao_loop]. destruct (outer_step E W Xs s) as [s1|]; [|reflexivity]. cbn [bind]. cbv zeta.
  match goal with |- (if ?b then _ else _) = (if ?c then _ else _) => change c with b; destruct b end; [|reflexivity]. destruct (state_gaps s1) as [g|]; [|reflexivity]. cbn [bind]. cbn [h_errors h_gaps h_losses].
  match goal with |- (if ?b then _ else _) = (if ?c then _ else _) => change c with b; destruct b end; [reflexivity|]. destruct (state_loss W Xs s1) as [l|]; [|reflexivity]. cbn [bind]. unfold stop_msg.
  destruct (p_tol W) as [t|]; [|reflexivity]. destruct (ntruthy t) eqn:T; [|reflexivity].
  destruct (p_abs_tol W) as [ab|]; [|reflexivity]. cbn [bind].
  match goal with |- (if ?b then _ else _) = match (if ?c then _ else _) with _ => _ end => change c with b; destruct b end; [reflexivity|].
  match goal with |- (if ?b then _ else _) = match (if ?c then _ else _) with _ => _ end => change c with b; destruct b end; reflexivity.
Qed.
Lemma stop_mono fe fe' p p' l m : (fe' = true -> fe = true) -> (otruthy (N:=RNum) (p_tol Q) = true -> p' = p) -> stop_msg P fe p l = Ok m ->
  exists m', stop_msg Q fe' p' l = Ok m' /\ (m = None -> m' = None).
Proof.
  intros F Ep. unfold stop_msg.
  destruct St as [->|(y' & y & E1 & E2 & H)]; [intros _; exists None; auto|]. rewrite E1 in *. rewrite E2. cbn [otruthy] in *.
  destruct (ntruthy (N:=RNum) y') eqn:T; [|intros _; exists None; auto]. apply ntruthy_R in T. assert (T' : ntruthy (N:=RNum) y = true) by (apply ntruthy_R; lra). rewrite T'.
  rewrite (Ep eq_refl). destruct Sa as [K|(z' & z & E3 & E4 & H')]; [now destruct (Ab eq_refl)|]. rewrite E3, E4. intros K. injection K as <-.
  eexists. split; [reflexivity|]. destruct fe'; cbn [andb]; [|auto]. rewrite F by reflexivity. cbn [andb].
  destruct (rel_crit (N:=RNum) y' p l) eqn:RC.
  - rewrite (rel_mono y' y p l H RC). discriminate.
  - destruct (xlt (N:=RNum) l z') eqn:XL; [|auto]. rewrite (xlt_mono l z' z (proj2 H') XL). destruct (rel_crit (N:=RNum) y p l); discriminate.
Qed.
Lemma tols_mono : tols Q = true -> tols P = true.
Proof. unfold tols. rewrite !orb_true_iff. intros [K|K]; [left; exact (stricter_truthy _ _ St K)|right; exact (stricter_truthy _ _ Sa K)]. Qed.

(** The strict loop, given the iterations the loose loop made, ends where that ended. *)
Lemma loop_strict n : forall it s h hb s' h' it' msg, agree h hb -> noted s -> ao_loop E P Xs n it s h = Ok (s', h', it', msg) ->
  exists hb' msg', (it <= it')%nat /\ ao_loop E Q Xs (it' - it) it s hb = Ok (s', hb', it', msg') /\ agree h' hb' /\ noted s'.
Proof.
  induction n as [|n IH]; intros it s h hb s' h' it' msg AG NO H.
  { injection H as <- <- <- <-. exists hb, MaxIter. rewrite Nat.sub_diag. auto. }
  rewrite loop_body in H. destruct (outer_step E P Xs s) as [s1|] eqn:HS; [|discriminate]. cbn [bind] in H.
  (* the ways to go on *)
  assert (GO : forall h1 hb1, agree h1 hb1 -> noted s1 -> (forall k, ao_loop E Q Xs (S k) it s hb = ao_loop E Q Xs k (S it) s1 hb1) ->
    ao_loop E P Xs n (S it) s1 h1 = Ok (s', h', it', msg) ->
    exists hb' msg', (it <= it')%nat /\ ao_loop E Q Xs (it' - it) it s hb = Ok (s', hb', it', msg') /\ agree h' hb' /\ noted s').
  { intros h1 hb1 AG1 NO1 KQ K. destruct (IH _ _ _ hb1 _ _ _ _ AG1 NO1 K) as (hb' & msg' & L & R1 & R2 & R3). exists hb', msg'. split; [lia|].
    replace (it' - it)%nat with (S (it' - S it)) by lia. rewrite KQ. auto. }
  (* the ways to stop *)
  assert (STOP : forall h1 hb1 m, agree h1 hb1 -> noted s1 -> (exists m', ao_loop E Q Xs 1 it s hb = Ok (s1, hb1, S it, m')) ->
    Ok (s1, h1, S it, m) = Ok (s', h', it', msg) ->
    exists hb' msg', (it <= it')%nat /\ ao_loop E Q Xs (it' - it) it s hb = Ok (s', hb', it', msg') /\ agree h' hb' /\ noted s').
  { intros h1 hb1 m AG1 NO1 (m' & KQ) K. injection K as <- <- <- _. exists hb1, m'. split; [lia|]. replace (S it - it)%nat with 1%nat by lia. auto. }
  destruct (tols Q || p_return_errors Q) eqn:TQ.
  2:{ (* nothing is recorded with the strict tolerances *)
      assert (KQ : forall k, ao_loop E Q Xs (S k) it s hb = ao_loop E Q Xs k (S it) s1 hb).
      { intros k. rewrite loop_body, step_eq, HS. cbn [bind]. now rewrite TQ. }
      apply orb_false_iff in TQ. destruct TQ as (TQ & RQ). rewrite errors_eq in RQ.
      assert (AV : forall h1, agree h1 hb). { intros h1. split; [congruence|]. intros K. exfalso. unfold tols in TQ. rewrite K in TQ. discriminate. }
      assert (NV : noted s1) by (intros K; congruence).
      destruct (tols P || p_return_errors P); [|now apply (GO h hb)].
      destruct (state_gaps s1) as [g|]; [|discriminate]. cbn [bind] in H.
      match type of H with (if ?b then _ else _) = _ => destruct b end; [eapply GO; [apply AV|exact NV|exact KQ|exact H]|].
      destruct (state_loss P Xs s1) as [l|]; [|discriminate]. cbn [bind] in H.
      destruct (stop_msg P _ _ l) as [[m|]|]; [| |discriminate]; cbn [bind] in H; [|eapply GO; [apply AV|exact NV|exact KQ|exact H]].
      eapply (STOP _ hb); [apply AV|exact NV|exists MaxIter; apply KQ|exact H]. }
  assert (TP : tols P || p_return_errors P = true).
  { apply orb_true_iff in TQ. apply orb_true_iff. destruct TQ as [K|K]; [left; now apply tols_mono|right; congruence]. }
  rewrite TP in H. destruct (state_gaps s1) as [g|] eqn:HG; [|discriminate]. cbn [bind] in H.
  assert (NO1 : noted s1) by (intros _; eauto).
  assert (KQ : forall k, ao_loop E Q Xs (S k) it s hb =
    if tols Q && negb (feas_of (p_feas_tol Q) g) && negb (p_return_errors P) then ao_loop E Q Xs k (S it) s1 (Hist (h_errors hb) (h_gaps hb ++ [g]) (h_losses hb))
    else
      let* l := state_loss P Xs s1 in
      let h2 := Hist (h_errors hb ++ [state_error Xs s1]) (h_gaps hb ++ [g]) (h_losses hb ++ [l]) in
      let* st := stop_msg Q (feas_of (p_feas_tol Q) g) (last_x (h_losses hb)) l in
      match st with Some m => Ok (s1, h2, S it, m) | None => ao_loop E Q Xs k (S it) s1 h2 end).
  { intros k. rewrite loop_body, step_eq, HS. cbn [bind]. rewrite TQ, HG. cbn [bind]. now rewrite errors_eq, loss_eq. }
  assert (SKIP : tols Q && negb (feas_of (p_feas_tol Q) g) && negb (p_return_errors P) = tols P && negb (feas_of (p_feas_tol P) g) && negb (p_return_errors P)).
  { destruct (p_return_errors P) eqn:RP; [now rewrite !andb_false_r|]. destruct Sp as [K|K]; [discriminate|]. rewrite K.
    rewrite orb_false_r in TP. rewrite errors_eq, orb_false_r in TQ. now rewrite TP, TQ. }
  rewrite <- SKIP in H. destruct (tols Q && negb (feas_of (p_feas_tol Q) g) && negb (p_return_errors P)) eqn:SK.
  { eapply GO; [|exact NO1|exact KQ|exact H]. destruct AG as (A1 & A2). split; [intros K; now rewrite (A1 K)|exact A2]. }
  destruct (state_loss P Xs s1) as [l|] eqn:HL; [|discriminate]. cbn [bind] in H, KQ. cbv zeta in H, KQ.
  destruct (stop_msg P (feas_of (p_feas_tol P) g) (last_x (h_losses h)) l) as [m|] eqn:HM; [|discriminate]. cbn [bind] in H.
  destruct (stop_mono _ (feas_of (p_feas_tol Q) g) _ (last_x (h_losses hb)) _ _ (fun K => feas_mono _ _ g Sf K) (fun K => f_equal last_x (proj2 AG K)) HM) as (m' & HM' & MM).
  rewrite HM' in KQ. cbn [bind] in KQ.
  assert (AG1 : agree (Hist (h_errors h ++ [state_error Xs s1]) (h_gaps h ++ [g]) (h_losses h ++ [l]))
                      (Hist (h_errors hb ++ [state_error Xs s1]) (h_gaps hb ++ [g]) (h_losses hb ++ [l]))).
  { destruct AG as (A1 & A2). split; [intros K; now rewrite (A1 K)|]. cbn [h_losses]. intros K. now rewrite (A2 K). }
  destruct m as [m|].
  - eapply STOP; [exact AG1|exact NO1| |exact H]. rewrite KQ. destruct m' as [m'|]; [now exists m'|]. now exists MaxIter.
  - rewrite (MM eq_refl) in KQ. eapply GO; [exact AG1|exact NO1|exact KQ|exact H].
Qed.
End Two.

(** A loop given exactly the iterations it made does the same. *)
Lemma loop_exact (E : extR) (W : paramsR) (Xs : list matR) n : forall it s h s' h' it' msg,
  ao_loop E W Xs n it s h = Ok (s', h', it', msg) -> (it <= it')%nat /\ ao_loop E W Xs (it' - it) it s h = Ok (s', h', it', msg).
Proof.
  induction n as [|n IH]; intros it s h s' h' it' msg H.
  { cbn [ao_loop] in H. injection H as <- <- <- <-. rewrite Nat.sub_diag. auto. }
  rewrite loop_body in H. destruct (outer_step E W Xs s) as [s1|] eqn:HS; [|discriminate]. cbn [bind] in H.
  assert (GO : forall h1, (forall k, ao_loop E W Xs (S k) it s h = ao_loop E W Xs k (S it) s1 h1) -> ao_loop E W Xs n (S it) s1 h1 = Ok (s', h', it', msg) ->
    (it <= it')%nat /\ ao_loop E W Xs (it' - it) it s h = Ok (s', h', it', msg)).
  { intros h1 K1 K2. destruct (IH _ _ _ _ _ _ _ K2) as (L & R1). split; [lia|]. replace (it' - it)%nat with (S (it' - S it)) by lia. now rewrite K1. }
  destruct (tols W || p_return_errors W) eqn:TW.
  2:{ apply (GO h); [|exact H]. intros k. rewrite loop_body, HS. cbn [bind]. now rewrite TW. }
  destruct (state_gaps s1) as [g|] eqn:HG; [|discriminate]. cbn [bind] in H.
  destruct (tols W && negb (feas_of (p_feas_tol W) g) && negb (p_return_errors W)) eqn:SK.
  { eapply GO; [|exact H]. intros k. rewrite loop_body, HS. cbn [bind]. rewrite TW, HG. cbn [bind]. now rewrite SK. }
  destruct (state_loss W Xs s1) as [l|] eqn:HL; [|discriminate]. cbn [bind] in H. cbv zeta in H.
  destruct (stop_msg W (feas_of (p_feas_tol W) g) (last_x (h_losses h)) l) as [[m|]|] eqn:HM; [| |discriminate]; cbn [bind] in H.
  - injection H as <- <- <- <-. split; [lia|]. replace (S it - it)%nat with 1%nat by lia. rewrite loop_body, HS. cbn [bind]. rewrite TW, HG. cbn [bind]. rewrite SK, HL. cbn [bind]. cbv zeta.
    rewrite HM. reflexivity.
  - eapply GO; [|exact H]. intros k. rewrite loop_body, HS. cbn [bind]. rewrite TW, HG. cbn [bind]. rewrite SK, HL. cbn [bind]. cbv zeta. rewrite HM. reflexivity.
Qed.
(** ... and given fewer, it makes them all. *)
Lemma loop_fewer (E : extR) (W : paramsR) (Xs : list matR) n s h s' h' it' msg k :
  ao_loop E W Xs n 0 s h = Ok (s', h', it', msg) -> (k <= it')%nat ->
  exists sk hk mk, ao_loop E W Xs k 0 s h = Ok (sk, hk, k, mk).
Proof.
  intros H Hk. destruct (loop_exact _ _ _ _ _ _ _ _ _ _ _ H) as (_ & H1). rewrite Nat.sub_0_r in H1.
  replace it' with (k + (it' - k))%nat in H1 at 1 by lia. rewrite loop_extend in H1.
  destruct (ao_loop E W Xs k 0 s h) as [[[[sk hk] ik] mk]|] eqn:HL; [|discriminate].
  destruct (loop_traj E W Xs _ _ _ _ _ _ _ _ HL) as (m & _ & I1 & I2 & I3 & _). cbn in I1. subst ik.
  exists sk, hk, mk. replace m with k; [reflexivity|]. destruct (Nat.eq_dec m k) as [|D]; [auto|]. exfalso.
  assert (mk <> MaxIter) by (apply I3; lia). destruct mk; [congruence| |]; injection H1 as _ _ K _; lia.
Qed.
