(** C63, C64: [verbose] changes what is printed and nothing else; what is printed. *)
From Coq Require Import Lia List Arith Bool ZArith.
From Verif Require Import Num Numpy Penalties CoupledMatrices Decomp InitVars Parse Fit Verbose AoPrefix OrderSpec OrderFit FixedPoint.
Import ListNotations.
Local Open Scope nat_scope.

(** ** Specification *)
Section Spec.
Context {N : Num}.
(** The iteration that a line reports about, if any. *)
Definition iteration (l : line) : option nat :=
  match l with NotComputed j _ | Report j _ _ _ _ | Iteration j => Some j | _ => None end.
(** Iterations 0, v, 2v, ... of n iterations. *)
Definition every_nth (v n : nat) : list nat := filter (fun j => j mod v =? 0) (seq 0 n).
(** Line with the numbers that the diagnostics hold for iteration j (counted from 0; the histories start with
    the initial values). *)
Definition reports_entry (d : diagnostics) (j : nat) (l : line) : Prop :=
  exists e f f' g, nth_error (d_errors d) (S j) = Some e /\ nth_error (d_losses d) j = Some f /\ nth_error (d_losses d) (S j) = Some f' /\
    nth_error (d_gaps d) (S j) = Some g /\
    exists change, l = Report j e f' change g /\ forall x y, f = Fin x -> f' = Fin y -> neqb x n0 = false -> change = Fin (ndiv (nabs (nsub x y)) x).
(** The last line. *)
Definition last_line (n n_iter_max : nat) (l : line) : Prop :=
  (l = Reached /\ n = n_iter_max) \/ (exists m, 0 < n <= n_iter_max /\ m <> MaxIter /\ l = ConvergedIn (n - 1) m).
End Spec.

(** ** Proofs *)
Section Proofs.
Context {N : Num}.

Lemma due_pos v j : (0 < v)%Z -> due v j = (j mod Z.to_nat v =? 0).
Proof.
  intros H. unfold due. destruct (Z.eqb_spec v 0); [lia|]. destruct (Z.ltb_spec 0 v); [|lia]. cbn [negb andb]. rewrite andb_true_r.
  rewrite <- (Z2Nat.id v) at 1 by lia. rewrite <- Nat2Z.inj_mod. destruct (Nat.eqb_spec (j mod Z.to_nat v) 0) as [->|Hn]; [reflexivity|]. apply Z.eqb_neq. lia.
Qed.
Lemma due_neg v j : (v <= 0)%Z -> due v j = false.
Proof. intros H. unfold due. destruct (Z.ltb_spec 0 v); [lia|]. now rewrite andb_false_r. Qed.

Lemma snd_bind {A B} (x : out A) (f : A -> out B) : snd (obind x f) = bind (snd x) (fun a => snd (f a)).
Proof. unfold obind. destruct (snd x); reflexivity. Qed.
Lemma snd_lift {A} (x : res A) : snd (lift x) = x. Proof. reflexivity. Qed.
Lemma snd_print c (l : line) : snd (print_if c l) = Ok tt. Proof. now destruct c. Qed.
Lemma bind_ext {A B} (x : res A) (f g : A -> res B) : (forall a, f a = g a) -> bind x f = bind x g.
Proof. intros H. destruct x; [apply H|reflexivity]. Qed.

Lemma ao_loop_same v E P Xs : forall n it s h, snd (ao_loop_v v E P Xs n it s h) = ao_loop E P Xs n it s h.
Proof.
  induction n as [|n IH]; intros it s h; cbn [ao_loop_v ao_loop].
  - rewrite snd_bind, snd_print. reflexivity.
  - rewrite snd_bind, snd_lift. apply bind_ext. intros s'. destruct ((otruthy (p_tol P) || otruthy (p_abs_tol P)) || p_return_errors P).
    + rewrite snd_bind, snd_lift. apply bind_ext. intros g. destruct (_ && _ && _).
      * rewrite snd_bind, snd_print. cbn [bind]. apply IH.
      * rewrite snd_bind, snd_lift. apply bind_ext. intros l. rewrite snd_bind, snd_print. cbn [bind].
        destruct (p_tol P); [|apply IH]. destruct (ntruthy _); [|apply IH]. destruct (p_abs_tol P); [|reflexivity].
        destruct (_ && rel_crit _ _ _); [rewrite snd_bind, snd_print; reflexivity|]. destruct (_ && xlt _ _); [rewrite snd_bind, snd_print; reflexivity|apply IH].
    + rewrite snd_bind, snd_print. cbn [bind]. apply IH.
Qed.
Lemma setup_same v V IE rnd a : snd (setup_v v V IE rnd a) = setup V IE rnd a.
Proof.
  unfold setup_v, setup. destruct (negb (f_svd a)); [reflexivity|]. rewrite snd_bind, snd_lift. apply bind_ext. intros (c & pos).
  rewrite snd_bind, snd_lift. apply bind_ext. intros l2. rewrite snd_bind, snd_lift. apply bind_ext. intros ((rA & rB) & rC).
  rewrite snd_bind, snd_print. cbn [bind]. rewrite snd_bind, snd_lift. apply bind_ext. intros (((aA & aB) & aC) & p1). rewrite snd_bind, snd_lift. apply bind_ext. intros (((dA & dB) & dC) & p2).
  destruct (negb _); [reflexivity|]. rewrite snd_bind, snd_lift. apply bind_ext. intros gA. rewrite snd_bind, snd_lift. apply bind_ext. intros gB. rewrite snd_bind, snd_lift. apply bind_ext. intros gC. reflexivity.
Qed.
Lemma fst_bind_lift {A B} (x : res A) (f : A -> out B) : fst (obind (lift x) f) = match x with Ok a => fst (f a) | Err _ => [] end.
Proof. unfold obind, lift. cbn. destruct x; reflexivity. Qed.
Lemma bind_print {B} c (l : line) (f : unit -> out B) : obind (print_if c l) f = ((if c then [l] else []) ++ fst (f tt), snd (f tt)).
Proof. now destruct c. Qed.
Lemma bind_lift_ok {A B} (x : A) (f : A -> out B) : obind (lift (Ok x)) f = f x.
Proof. unfold obind, lift. cbn. now destruct (f x). Qed.

(** Requesting printed output does not change the outcome: same factorization, variables and diagnostics, or the
    same exception. *)
Theorem C63_same_result v V IE rnd a : snd (cmf_aoadmm_v v V IE rnd a) = cmf_aoadmm V IE rnd a.
Proof.
  unfold cmf_aoadmm_v, cmf_aoadmm. rewrite snd_bind, setup_same. apply bind_ext. intros (s & l2). rewrite snd_bind, snd_lift.
  destruct (init_hist (fit_params a l2 (false, false)) (f_data a) s) as [h0|] eqn:EH; [|reflexivity]. cbn [bind].
  rewrite snd_bind. match goal with |- bind (snd ?x) _ = _ => assert (EP : snd x = Ok tt) by (destruct (h_gaps h0); [reflexivity|apply snd_print]); rewrite EP; clear EP end. cbn [bind].
  rewrite snd_bind, snd_lift. apply bind_ext. intros flags. rewrite snd_bind. unfold run_v, run.
  assert (EH' : init_hist (fit_params a l2 flags) (f_data a) s = Ok h0). { revert EH. unfold init_hist, state_loss, fit_params. destruct l2 as ((l2A & l2B) & l2C). cbn [p_l2A p_l2B p_l2C]. auto. }
  rewrite EH'. cbn [bind]. rewrite snd_bind, ao_loop_same. set (P := fit_params a l2 flags).
  destruct (ao_loop (e_ext V) P (f_data a) (Z.to_nat (f_n_iter a)) 0 s h0) as [(((s' & h) & it) & msg)|]; [|reflexivity]. cbn [bind]. rewrite snd_bind.
  match goal with |- bind (bind (snd ?x) _) _ = bind (bind ?y _) _ => assert (E : snd x = y) by (destruct (p_feas_tol P) as [t|]; [|reflexivity]; destruct (ntruthy t && p_return_errors P); reflexivity); rewrite E; destruct y as [feas|]; [|reflexivity] end.
  cbn [bind]. rewrite snd_bind, snd_lift. destruct (revalidate (st_cmf s')); [|reflexivity]. cbn [bind]. destruct (p_return_errors P); reflexivity.
Qed.

(** Lines of the loop. *)
Definition tick (v : Z) (it : nat) := if due v it then [it] else [].
Definition ticks (v : Z) (it n : nat) := filter (due v) (seq it n).
Lemma loop_lines v E P Xs : (v <> 0)%Z -> forall n it s h s' h' it' m, snd (ao_loop_v v E P Xs n it s h) = Ok (s', h', it', m) ->
  exists ls l, fst (ao_loop_v v E P Xs n it s h) = ls ++ [l] /\ map iteration ls = map Some (ticks v it (it' - it)) /\ it <= it' <= it + n /\
    match m with MaxIter => l = Reached /\ it' = it + n | _ => it < it' /\ l = ConvergedIn (it' - 1) m end.
Proof.
  intros Hv. assert (NV : negb (v =? 0)%Z = true) by (destruct (Z.eqb_spec v 0); [contradiction|reflexivity]).
  induction n as [|n IH]; intros it s h s' h' it' m; cbn [ao_loop_v].
  - rewrite bind_print, NV. cbn. intros H. injection H as <- <- <- <-. exists [], Reached. rewrite Nat.sub_diag. cbn. repeat split; lia.
  - destruct (outer_step E P Xs s) as [s1|]; [|discriminate]. rewrite bind_lift_ok.
    (* a line about [it], then the rest *)
    assert (REC : forall x h1, iteration x = Some it -> snd (obind (print_if (due v it) x) (fun _ => ao_loop_v v E P Xs n (S it) s1 h1)) = Ok (s', h', it', m) ->
      exists ls l, fst (obind (print_if (due v it) x) (fun _ => ao_loop_v v E P Xs n (S it) s1 h1)) = ls ++ [l] /\ map iteration ls = map Some (ticks v it (it' - it)) /\ it <= it' <= it + S n /\
      match m with MaxIter => l = Reached /\ it' = it + S n | _ => it < it' /\ l = ConvergedIn (it' - 1) m end).
    { intros x h1 Hx. rewrite bind_print. cbn [snd fst]. intros H. destruct (IH _ _ _ _ _ _ _ H) as (ls & l & E1 & E2 & E3 & E4). rewrite E1.
      exists ((if due v it then [x] else []) ++ ls), l. split; [now rewrite app_assoc|]. split.
      - rewrite map_app, E2. replace (it' - it) with (S (it' - S it)) by lia. unfold ticks. cbn [seq filter]. destruct (due v it); cbn; now rewrite ?Hx.
      - split; [lia|]. destruct m; [split; [tauto|lia]|split; [lia|tauto]..]. }
    destruct ((otruthy (p_tol P) || otruthy (p_abs_tol P)) || p_return_errors P).
    + destruct (state_gaps s1) as [g|]; [|discriminate]. rewrite bind_lift_ok. destruct (_ && _ && _); [apply REC; reflexivity|].
      destruct (state_loss P Xs s1) as [l|]; [|discriminate]. rewrite bind_lift_ok.
      assert (STOP : forall x (m0 : message) h1, iteration x = Some it -> m0 <> MaxIter -> snd (obind (print_if (due v it) x) (fun _ => obind (print_if (negb (v =? 0)%Z) (ConvergedIn it m0)) (fun _ => lift (Ok (s1, h1, S it, m0))))) = Ok (s', h', it', m) ->
        exists ls l, fst (obind (print_if (due v it) x) (fun _ => obind (print_if (negb (v =? 0)%Z) (ConvergedIn it m0)) (fun _ => lift (Ok (s1, h1, S it, m0))))) = ls ++ [l] /\ map iteration ls = map Some (ticks v it (it' - it)) /\ it <= it' <= it + S n /\
        match m with MaxIter => l = Reached /\ it' = it + S n | _ => it < it' /\ l = ConvergedIn (it' - 1) m end).
      { intros x m0 h1 Hx Hm. rewrite !bind_print, NV. cbn [snd fst lift app]. intros H. injection H as <- <- <- <-. exists (if due v it then [x] else []), (ConvergedIn it m0).
        split; [reflexivity|]. replace (S it - it) with 1 by lia. unfold ticks. cbn [seq filter]. split; [destruct (due v it); cbn; now rewrite ?Hx|]. split; [lia|].
        replace (S it - 1) with it by lia. destruct m0; [congruence|split; [lia|reflexivity]..]. }
      destruct (p_tol P) as [tol|]; [|apply REC; reflexivity]. destruct (ntruthy tol); [|apply REC; reflexivity]. destruct (p_abs_tol P) as [ab|].
      * destruct (_ && rel_crit _ _ _); [apply STOP; [reflexivity|discriminate]|]. destruct (_ && xlt _ _); [apply STOP; [reflexivity|discriminate]|apply REC; reflexivity].
      * rewrite bind_print. discriminate.
    + apply REC. reflexivity.
Qed.
(** With [return_errors] every line is a report, and the numbers are those of the histories. *)
Lemma loop_reports v E P Xs : p_return_errors P = true -> (0 < v)%Z -> forall n it s h s' h' it' m, snd (ao_loop_v v E P Xs n it s h) = Ok (s', h', it', m) ->
  length (h_errors h) = S it -> length (h_gaps h) = S it -> length (h_losses h) = S it ->
  (exists a b c, h_errors h' = h_errors h ++ a /\ h_gaps h' = h_gaps h ++ b /\ h_losses h' = h_losses h ++ c) /\
  forall d, d_errors d = h_errors h' -> d_gaps d = h_gaps h' -> d_losses d = h_losses h' ->
  exists ls l, fst (ao_loop_v v E P Xs n it s h) = ls ++ [l] /\ Forall2 (reports_entry d) (ticks v it (it' - it)) ls.
Proof.
  intros RE Hv. assert (NV : negb (v =? 0)%Z = true) by (destruct (Z.eqb_spec v 0); [lia|reflexivity]).
  induction n as [|n IH]; intros it s h s' h' it' m; cbn [ao_loop_v].
  - rewrite bind_print, NV. cbn. intros H. injection H as <- <- <- <-. intros _ _ _. split; [exists [], [], []; now rewrite !app_nil_r|]. intros d _ _ _. exists [], Reached. rewrite Nat.sub_diag. split; [reflexivity|constructor].
  - destruct (outer_step E P Xs s) as [s1|]; [|discriminate]. rewrite bind_lift_ok. rewrite RE, !orb_true_r. destruct (state_gaps s1) as [g|]; [|discriminate]. rewrite bind_lift_ok.
    cbn [negb]. rewrite andb_false_r. destruct (state_loss P Xs s1) as [l|]; [|discriminate]. rewrite bind_lift_ok. cbn [h_errors h_gaps h_losses].
    set (e := state_error Xs s1). set (x := Report it e l _ g). intros H L1 L2 L3.
    (* the entry of this iteration *)
    assert (ENT : forall d a b c, d_errors d = (h_errors h ++ [e]) ++ a -> d_gaps d = (h_gaps h ++ [g]) ++ b -> d_losses d = (h_losses h ++ [l]) ++ c -> reports_entry d it x).
    { intros d a b c D1 D2 D3. exists e, (last_x (h_losses h)), l, g. rewrite D1, D2, D3. rewrite <- !app_assoc. split; [rewrite nth_error_app2, L1, Nat.sub_diag by lia; reflexivity|].
      split. { rewrite nth_error_app1 by lia. destruct (exists_last (l := h_losses h)) as (l0 & y & EL); [intros K; rewrite K in L3; discriminate|].
        rewrite EL in *. rewrite app_length in L3. cbn in L3. unfold last_x. rewrite last_last. rewrite nth_error_app2 by lia. replace (it - length l0) with 0 by lia. reflexivity. }
      split; [rewrite nth_error_app2, L3, Nat.sub_diag by lia; reflexivity|]. split; [rewrite nth_error_app2, L2, Nat.sub_diag by lia; reflexivity|].
      eexists. split; [reflexivity|]. intros y z EY EZ NZ. rewrite EY, EZ. cbn [variation]. unfold xdiv. now rewrite NZ. }
    assert (L1' : length (h_errors h ++ [e]) = S (S it)) by (rewrite app_length, L1; cbn; lia).
    assert (L2' : length (h_gaps h ++ [g]) = S (S it)) by (rewrite app_length, L2; cbn; lia).
    assert (L3' : length (h_losses h ++ [l]) = S (S it)) by (rewrite app_length, L3; cbn; lia).
    assert (REC : snd (obind (print_if (due v it) x) (fun _ => ao_loop_v v E P Xs n (S it) s1 (Hist (h_errors h ++ [e]) (h_gaps h ++ [g]) (h_losses h ++ [l])))) = Ok (s', h', it', m) ->
      (exists a b c, h_errors h' = h_errors h ++ a /\ h_gaps h' = h_gaps h ++ b /\ h_losses h' = h_losses h ++ c) /\
      forall d, d_errors d = h_errors h' -> d_gaps d = h_gaps h' -> d_losses d = h_losses h' ->
      exists ls l0, fst (obind (print_if (due v it) x) (fun _ => ao_loop_v v E P Xs n (S it) s1 (Hist (h_errors h ++ [e]) (h_gaps h ++ [g]) (h_losses h ++ [l])))) = ls ++ [l0] /\ Forall2 (reports_entry d) (ticks v it (it' - it)) ls).
    { rewrite bind_print. cbn [snd fst]. intros K. destruct (IH _ _ _ _ _ _ _ K L1' L2' L3') as ((a & b & c & A1 & A2 & A3) & F). cbn [h_errors h_gaps h_losses] in A1, A2, A3. split.
      - exists (e :: a), (g :: b), (l :: c). rewrite A1, A2, A3, <- !app_assoc. auto.
      - intros d D1 D2 D3. destruct (F d D1 D2 D3) as (ls & l0 & E1 & E2). rewrite E1. exists ((if due v it then [x] else []) ++ ls), l0. split; [now rewrite app_assoc|].
        assert (GT : S it <= it') by (destruct (loop_lines v E P Xs ltac:(lia) _ _ _ _ _ _ _ _ K) as (_ & _ & _ & _ & G & _); lia).
        replace (it' - it) with (S (it' - S it)) by lia. unfold ticks. cbn [seq filter].
        assert (EN : reports_entry d it x). { apply (ENT d a b c); congruence. } destruct (due v it); [constructor; assumption|assumption]. }
    assert (STOP : forall m0, snd (obind (print_if (due v it) x) (fun _ => obind (print_if (negb (v =? 0)%Z) (ConvergedIn it m0)) (fun _ => lift (Ok (s1, Hist (h_errors h ++ [e]) (h_gaps h ++ [g]) (h_losses h ++ [l]), S it, m0))))) = Ok (s', h', it', m) ->
      (exists a b c, h_errors h' = h_errors h ++ a /\ h_gaps h' = h_gaps h ++ b /\ h_losses h' = h_losses h ++ c) /\
      forall d, d_errors d = h_errors h' -> d_gaps d = h_gaps h' -> d_losses d = h_losses h' ->
      exists ls l0, fst (obind (print_if (due v it) x) (fun _ => obind (print_if (negb (v =? 0)%Z) (ConvergedIn it m0)) (fun _ => lift (Ok (s1, Hist (h_errors h ++ [e]) (h_gaps h ++ [g]) (h_losses h ++ [l]), S it, m0))))) = ls ++ [l0] /\ Forall2 (reports_entry d) (ticks v it (it' - it)) ls).
    { intros m0. rewrite !bind_print, NV. cbn [snd fst lift app]. intros K. injection K as <- <- <- <-. cbn [h_errors h_gaps h_losses]. split; [exists [e], [g], [l]; auto|].
      intros d D1 D2 D3. exists (if due v it then [x] else []), (ConvergedIn it m0). split; [reflexivity|]. replace (S it - it) with 1 by lia. unfold ticks. cbn [seq filter].
      assert (EN : reports_entry d it x) by (apply (ENT d [] [] []); now rewrite app_nil_r). destruct (due v it); repeat constructor; assumption. }
    destruct (p_tol P) as [tol|]; [|now apply REC]. destruct (ntruthy tol); [|now apply REC]. destruct (p_abs_tol P) as [ab|].
    + destruct (_ && rel_crit _ _ _); [now apply STOP|]. destruct (_ && xlt _ _); [now apply STOP|now apply REC].
    + rewrite bind_print in H. discriminate.
Qed.
(** Without [verbose] nothing is printed, also when the call fails. *)
Lemma loop_silent E P Xs : forall n it s h, fst (ao_loop_v 0 E P Xs n it s h) = [].
Proof.
  induction n as [|n IH]; intros it s h; cbn [ao_loop_v]; [reflexivity|]. rewrite fst_bind_lift. destruct (outer_step E P Xs s); [|reflexivity]. destruct (_ || p_return_errors P).
  - rewrite fst_bind_lift. destruct (state_gaps _); [|reflexivity]. destruct (_ && _ && _); [rewrite bind_print; apply IH|]. rewrite fst_bind_lift. destruct (state_loss _ _ _); [|reflexivity]. rewrite bind_print. cbn [due fst app].
    destruct (p_tol P); [|apply IH]. destruct (ntruthy _); [|apply IH]. destruct (p_abs_tol P); [|reflexivity]. destruct (_ && rel_crit _ _ _); [reflexivity|]. destruct (_ && xlt _ _); [reflexivity|apply IH].
  - rewrite bind_print. apply IH.
Qed.

Lemma bind_pair {A B} ls (x : A) (f : A -> out B) : obind (ls, Ok x) f = (ls ++ fst (f x), snd (f x)).
Proof. reflexivity. Qed.
(** The pieces of a call that returns. *)
Lemma setup_lines v V IE rnd a s l2 : snd (setup_v v V IE rnd a) = Ok (s, l2) ->
  exists regs, parse_all V (f_kw a) (f_regs a) (f_aux a) (f_dual a) = Ok regs /\ fst (setup_v v V IE rnd a) = if negb (v =? 0)%Z then [Penalties regs] else [].
Proof.
  unfold setup_v. destruct (negb (f_svd a)); [discriminate|]. destruct (initialize_cmf _ _ _ _ _ _ _) as [(c & pos)|]; [|discriminate]. rewrite bind_lift_ok.
  destruct (listify (f_l2 a)); [|discriminate]. rewrite bind_lift_ok. destruct (parse_all _ _ _ _ _) as [((rA & rB) & rC)|]; [|discriminate]. rewrite bind_lift_ok, bind_print. cbn [fst snd].
  destruct (initialize_aux _ _ _ _ _) as [(((aA & aB) & aC) & p1)|]; [|discriminate]. rewrite bind_lift_ok. destruct (initialize_dual _ _ _ _ _) as [(((dA & dB) & dC) & p2)|]; [|discriminate]. rewrite bind_lift_ok.
  destruct (negb (shapes_match _ _ _ _)); [discriminate|]. destruct (make_mregs (if f_updA a then rA else []) aA dA); [|discriminate]. rewrite bind_lift_ok. destruct (make_bregs _ _ _); [|discriminate]. rewrite bind_lift_ok.
  destruct (make_mregs (if f_updC a then rC else []) aC dC); [|discriminate]. rewrite bind_lift_ok. intros _. exists (rA, rB, rC). split; [reflexivity|]. cbn. apply app_nil_r.
Qed.
Lemma run_lines v E P Xs n s h0 r : snd (run_v v E P Xs n s h0) = Ok r ->
  exists s' h it m, snd (ao_loop_v v E P Xs (Z.to_nat n) 0 s h0) = Ok (s', h, it, m) /\ fst (run_v v E P Xs n s h0) = fst (ao_loop_v v E P Xs (Z.to_nat n) 0 s h0) /\
    ((p_return_errors P = false /\ snd r = None) \/ (p_return_errors P = true /\ exists d, snd r = Some d /\ d_errors d = h_errors h /\ d_gaps d = h_gaps h /\ d_losses d = h_losses h /\ d_n_iter d = it /\ d_message d = m)).
Proof.
  unfold run_v. set (L := ao_loop_v v E P Xs (Z.to_nat n) 0 s h0). destruct L as (ls & [(((s' & h) & it) & m)|]); [|discriminate]. rewrite bind_pair. cbn [fst snd].
  intros H. exists s', h, it, m. split; [reflexivity|].
  destruct (p_feas_tol P) as [t|].
  - destruct (ntruthy t && p_return_errors P).
    + destruct (state_gaps s') as [g|]; [|discriminate]. cbn [bind] in *. rewrite bind_lift_ok in *. destruct (revalidate (st_cmf s')) as [c|]; [|discriminate]. rewrite bind_lift_ok in *.
      destruct (p_return_errors P); cbn in H; injection H as <-; cbn; rewrite app_nil_r; (split; [reflexivity|]); [right; split; [reflexivity|]; eexists; split; [reflexivity|auto]|left; auto].
    + rewrite bind_lift_ok in *. destruct (revalidate (st_cmf s')) as [c|]; [|discriminate]. rewrite bind_lift_ok in *.
      destruct (p_return_errors P); cbn in H; injection H as <-; cbn; rewrite app_nil_r; (split; [reflexivity|]); [right; split; [reflexivity|]; eexists; split; [reflexivity|auto 6]|left; auto].
  - rewrite bind_lift_ok in *. destruct (revalidate (st_cmf s')) as [c|]; [|discriminate]. rewrite bind_lift_ok in *.
    destruct (p_return_errors P); cbn in H; injection H as <-; cbn; rewrite app_nil_r; (split; [reflexivity|]); [right; split; [reflexivity|]; eexists; split; [reflexivity|auto 6]|left; auto].
Qed.
Lemma call_lines v V IE rnd a o : snd (cmf_aoadmm_v v V IE rnd a) = Ok o ->
  exists regs s l2 h0 g0 flags r, parse_all V (f_kw a) (f_regs a) (f_aux a) (f_dual a) = Ok regs /\ h_gaps h0 = [g0] /\ length (h_errors h0) = 1 /\ length (h_losses h0) = 1 /\
    snd (run_v v (e_ext V) (fit_params a l2 flags) (f_data a) (f_n_iter a) s h0) = Ok r /\ out_diag o = snd r /\
    fst (cmf_aoadmm_v v V IE rnd a) = (if negb (v =? 0)%Z then [Penalties regs] else []) ++ (if negb (v =? 0)%Z && (0 <? v)%Z then [InitialGaps g0] else []) ++
      fst (run_v v (e_ext V) (fit_params a l2 flags) (f_data a) (f_n_iter a) s h0).
Proof.
  unfold cmf_aoadmm_v. pose proof (setup_lines v V IE rnd a) as SL. destruct (setup_v v V IE rnd a) as (l0 & [(s & l2)|e]); [|discriminate].
  destruct (SL _ _ eq_refl) as (regs & EP & EF). clear SL. cbn [fst] in EF. subst l0. rewrite bind_pair. cbn [snd fst].
  destruct (init_hist (fit_params a l2 (false, false)) (f_data a) s) as [h0|] eqn:EH; [|discriminate]. rewrite bind_lift_ok.
  assert (HH : exists e g l, h0 = Hist [e] [g] [l]). { unfold init_hist in EH. destruct (state_loss _ _ _); [|discriminate]. cbn [bind] in EH. destruct (state_gaps s); [|discriminate]. injection EH as <-. eauto. }
  destruct HH as (e & g & l & ->). cbn [h_gaps]. rewrite bind_print. cbn [snd fst]. destruct (const_flags (f_const a)) as [flags|]; [|discriminate]. rewrite bind_lift_ok.
  set (R := run_v _ _ _ _ _ _ _). destruct R as (lr & [r|]) eqn:ER; [|discriminate]. subst R. unfold obind. cbn [snd fst]. destruct r as (s' & d). cbn. intros H. injection H as <-.
  exists regs, s, l2, (Hist [e] [g] [l]), g, flags, (s', d). rewrite ER. cbn. rewrite app_nil_r. auto 8.
Qed.
Lemma ticks_every v n : (0 < v)%Z -> ticks v 0 n = every_nth (Z.to_nat v) n.
Proof. intros H. unfold ticks, every_nth. apply filter_ext. intros j. now apply due_pos. Qed.
Lemma ticks_none v it n : (v <= 0)%Z -> ticks v it n = [].
Proof. intros H. unfold ticks. revert it. induction n as [|n IH]; intros it; [reflexivity|]. cbn [seq filter]. rewrite due_neg by exact H. apply IH. Qed.

(** Without [verbose] nothing is printed, also when the call fails. *)
Theorem C63_silent V IE rnd a : fst (cmf_aoadmm_v 0 V IE rnd a) = [].
Proof.
  assert (BND : forall (A B : Type) (x : out A) (f : A -> out B), fst x = [] -> (forall a, fst (f a) = []) -> fst (obind x f) = []).
  { intros A B x f H1 H2. unfold obind. destruct (snd x); cbn; rewrite H1, ?H2; reflexivity. }
  unfold cmf_aoadmm_v. apply BND.
  - unfold setup_v. destruct (negb (f_svd a)); [reflexivity|]. apply BND; [reflexivity|]. intros (c & pos). apply BND; [reflexivity|]. intros l2. apply BND; [reflexivity|]. intros ((rA & rB) & rC). apply BND; [reflexivity|]. intros _.
    apply BND; [reflexivity|]. intros (((aA & aB) & aC) & p1). apply BND; [reflexivity|]. intros (((dA & dB) & dC) & p2). destruct (negb _); [reflexivity|]. do 3 (apply BND; [reflexivity|]; intros ?). reflexivity.
  - intros (s & l2). apply BND; [reflexivity|]. intros h0. apply BND; [destruct (h_gaps h0); reflexivity|]. intros _. apply BND; [reflexivity|]. intros flags. apply BND; [|intros (s' & d); reflexivity].
    unfold run_v. apply BND; [apply loop_silent|]. intros (((s' & h) & it) & m). apply BND; [destruct (p_feas_tol _) as [t|]; [|reflexivity]; now destruct (ntruthy t && _)|]. intros feas. apply BND; [reflexivity|]. intros c. now destruct (p_return_errors _).
Qed.

(** With verbose = v > 0: first the penalties, then the initial gaps, then one report for each of the iterations
    0, v, 2v, ..., and at the end whether the fit converged.  If diagnostics are returned, the reports hold the
    numbers of the diagnostics and the last line their message. *)
Theorem C63_lines v V IE rnd a o : (0 < v)%Z -> snd (cmf_aoadmm_v v V IE rnd a) = Ok o ->
  exists regs g0 ls l n, fst (cmf_aoadmm_v v V IE rnd a) = Penalties regs :: InitialGaps g0 :: ls ++ [l] /\
    parse_all V (f_kw a) (f_regs a) (f_aux a) (f_dual a) = Ok regs /\
    map iteration ls = map Some (every_nth (Z.to_nat v) n) /\ last_line n (Z.to_nat (f_n_iter a)) l /\
    forall d, out_diag o = Some d -> n = d_n_iter d /\ nth_error (d_gaps d) 0 = Some g0 /\ Forall2 (reports_entry d) (every_nth (Z.to_nat v) n) ls /\
      match d_message d with MaxIter => l = Reached | m => l = ConvergedIn (n - 1) m end.
Proof.
  intros Hv H. destruct (call_lines _ _ _ _ _ _ H) as (regs & s & l2 & h0 & g0 & flags & r & EP & G0 & LE & LL & ER & EO & EF). set (P := fit_params a l2 flags) in *.
  destruct (run_lines _ _ _ _ _ _ _ _ ER) as (s' & h & it & m & E1 & E2 & E3). destruct (loop_lines v _ P _ ltac:(lia) _ _ _ _ _ _ _ _ E1) as (ls & l & F1 & F2 & F3 & F4).
  assert (NV : negb (v =? 0)%Z = true) by (destruct (Z.eqb_spec v 0); [lia|reflexivity]). assert (PV : (0 <? v)%Z = true) by (apply Z.ltb_lt; exact Hv).
  exists regs, g0, ls, l, it. rewrite EF, E2, F1, NV, PV. cbn [andb app]. rewrite Nat.sub_0_r, ticks_every in F2 by exact Hv.
  split; [reflexivity|]. split; [exact EP|]. split; [exact F2|]. split.
  { destruct m; [left; split; [tauto|lia]|right; eexists; split; [|split; [|exact (proj2 F4)]]; [lia|discriminate]..]. }
  intros d Hd. rewrite EO in Hd. destruct E3 as [(_ & K)|(RE & d' & K & D1 & D2 & D3 & D4 & D5)]; [congruence|]. rewrite K in Hd. injection Hd as ->.
  destruct (loop_reports v _ P _ RE Hv _ _ _ _ _ _ _ _ E1) as ((x & b & c & A1 & A2 & A3) & F). { exact LE. } { now rewrite G0. } { exact LL. }
  destruct (F d D1 D2 D3) as (ls' & l' & G1 & G2). rewrite F1 in G1. apply app_inj_tail in G1 as (<- & <-). rewrite Nat.sub_0_r, ticks_every in G2 by exact Hv.
  split; [congruence|]. split; [rewrite D2, A2, G0; reflexivity|]. split; [exact G2|]. rewrite D5. destruct m; tauto.
Qed.
(** A negative [verbose] prints the penalties and the last line. *)
Theorem C63_negative v V IE rnd a o : (v < 0)%Z -> snd (cmf_aoadmm_v v V IE rnd a) = Ok o ->
  exists regs l n, fst (cmf_aoadmm_v v V IE rnd a) = [Penalties regs; l] /\ parse_all V (f_kw a) (f_regs a) (f_aux a) (f_dual a) = Ok regs /\
    last_line n (Z.to_nat (f_n_iter a)) l /\ forall d, out_diag o = Some d -> n = d_n_iter d.
Proof.
  intros Hv H. destruct (call_lines _ _ _ _ _ _ H) as (regs & s & l2 & h0 & g0 & flags & r & EP & G0 & LE & LL & ER & EO & EF). set (P := fit_params a l2 flags) in *.
  destruct (run_lines _ _ _ _ _ _ _ _ ER) as (s' & h & it & m & E1 & E2 & E3). destruct (loop_lines v _ P _ ltac:(lia) _ _ _ _ _ _ _ _ E1) as (ls & l & F1 & F2 & F3 & F4).
  assert (NV : negb (v =? 0)%Z = true) by (destruct (Z.eqb_spec v 0); [lia|reflexivity]). assert (PV : (0 <? v)%Z = false) by (apply Z.ltb_ge; lia).
  exists regs, l, it. rewrite EF, E2, F1, NV, PV. cbn [andb app]. rewrite ticks_none in F2 by lia. destruct ls; [|discriminate F2]. split; [reflexivity|]. split; [exact EP|]. split.
  { destruct m; [left; split; [tauto|lia]|right; eexists; split; [|split; [|exact (proj2 F4)]]; [lia|discriminate]..]. }
  intros d Hd. rewrite EO in Hd. destruct E3 as [(_ & K)|(RE & d' & K & D1 & D2 & D3 & D4 & D5)]; [congruence|]. rewrite K in Hd. injection Hd as ->. congruence.
Qed.
End Proofs.
Print Assumptions C63_same_result.
Print Assumptions C63_silent.
Print Assumptions C63_lines.
Print Assumptions C63_negative.

(** The number in "converged in ... iterations" is one less than the number of iterations: a fit of 16
    iterations reports 15. *)
Theorem C64_converged_count_refuted : exists (V : env (N:=FNum)) IE rnd a o d m lines k,
  cmf_aoadmm_v 5 V IE rnd a = (lines ++ [ConvergedIn k m], Ok o) /\ out_diag o = Some d /\ d_n_iter d = 16 /\ k = 15.
Proof.
  exists fixed_env, fixed_init, fixed_rnd, (fixed_args 30).
  assert (C : match cmf_aoadmm_v 5 fixed_env fixed_init fixed_rnd (fixed_args 30) with
    | (l, Ok o) => match out_diag o, rev l with Some d, ConvergedIn k m :: _ => (d_n_iter d =? 16) && (k =? 15) && (length l =? 7) | _, _ => false end | _ => false end = true) by (vm_compute; reflexivity).
  destruct (cmf_aoadmm_v 5 fixed_env fixed_init fixed_rnd (fixed_args 30)) as (l & [o|]); [|discriminate]. destruct (out_diag o) as [d|] eqn:ED; [|discriminate].
  destruct (rev l) as [|x ls] eqn:EL; [discriminate|]. destruct x as [| | | | |k m|]; try discriminate. apply andb_true_iff in C as (C & _). apply andb_true_iff in C as (C1 & C2).
  exists o, d, m, (rev ls), k. split; [|split; [exact ED|split; [now apply Nat.eqb_eq|now apply Nat.eqb_eq]]]. rewrite <- (rev_involutive l), EL. reflexivity.
Qed.
Print Assumptions C64_converged_count_refuted.
(** Hypotheses of [C63_lines] with four reports (iterations 0, 5, 10, 15). *)
Example C63_case : exists o, snd (cmf_aoadmm_v 5 fixed_env fixed_init fixed_rnd (fixed_args 30)) = Ok o /\ length (every_nth 5 16) = 4.
Proof.
  assert (C : match snd (cmf_aoadmm_v 5 fixed_env fixed_init fixed_rnd (fixed_args 30)) with Ok _ => true | _ => false end = true) by (vm_compute; reflexivity).
  destruct (snd (cmf_aoadmm_v 5 fixed_env fixed_init fixed_rnd (fixed_args 30))) as [o|]; [|discriminate]. exists o. split; reflexivity.
Qed.
