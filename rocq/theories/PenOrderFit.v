(** The same penalties in another order: whole calls. *)
From Coq Require Import Reals Lra Lia List Arith Bool ZArith Permutation.
From Verif Require Import Num Numpy RFacts Spec SpecFacts MatFacts ModelSpec Penalties PenaltySpec CoupledMatrices CmfSpec CmfProofs Decomp DecompSpec
  DecompFacts AoRun AoLoop OrderProofs InitVars InitSpec Parse ParseSpec ParseProofs Fit FitSpec FitProofs StartSpec ResumeSpec SymSpec SymFit P29_Symmetry TurnFit ReorderFacts
  PenOrderSpec PenOrderRun.
Import ListNotations.
Local Open Scope R_scope.

(** ** Orders *)
Lemma in_order_perm p {T} (l l' : list T) : in_order p l l' <-> perm_of p l l'.
Proof.
  split.
  - intros (H & L & N0). split; [exact H|]. destruct l as [|d l0] eqn:EL.
    + cbn in *. apply length_zero_iff_nil in L. subst l'. apply Permutation_sym, Permutation_nil in H. now subst p.
    + rewrite <- EL in *. apply (reorder_ext p (length l) H l l' d eq_refl L). intros k Hk. specialize (N0 k Hk).
      pose proof (s_lt p (length l) H k Hk) as Hs. apply nth_error_nth with (d := d). rewrite N0. now apply nth_error_nth'.
  - intros (H & ->). split; [exact H|]. split; [now apply reorder_length|]. intros k Hk. destruct l as [|d l0] eqn:EL; [cbn in Hk; lia|]. rewrite <- EL in *.
    pose proof (s_lt p (length l) H k Hk) as Hs. rewrite (nth_error_nth' (reorder p l) d) by (rewrite (reorder_length p (length l) H l eq_refl); exact Hk). rewrite (nth_error_nth' l d Hs). f_equal. now apply (reorder_nth p (length l)).
Qed.
(** The first k places stay, the others are in the order p. *)
Definition full (k : nat) (p : list nat) : list nat := seq 0 k ++ map (Nat.add k) p.
Lemma reorder_app {T} p q (l : list T) : reorder (p ++ q) l = reorder p l ++ reorder q l.
Proof. unfold reorder. apply flat_map_app. Qed.
Lemma reorder_full {T} p (kw u : list T) : reorder (full (length kw) p) (kw ++ u) = kw ++ reorder p u.
Proof.
  unfold full. rewrite reorder_app. f_equal.
  - induction kw as [|x kw IH]; [reflexivity|]. cbn [length seq]. change (0 :: seq 1 (length kw))%nat with ([0%nat] ++ seq 1 (length kw)). rewrite reorder_app. cbn [reorder flat_map nth_error app]. f_equal.
    rewrite <- seq_shift. transitivity (reorder (seq 0 (length kw)) (kw ++ u)); [|exact IH]. unfold reorder. rewrite !flat_map_concat_map, map_map. reflexivity.
  - unfold reorder. rewrite !flat_map_concat_map, map_map. f_equal. apply map_ext. intros i. rewrite nth_error_app2 by lia. now replace (length kw + i - length kw)%nat with i by lia.
Qed.
Lemma full_perm k p n : Permutation p (seq 0 n) -> Permutation (full k p) (seq 0 (k + n)).
Proof.
  intros H. unfold full. rewrite seq_app. apply Permutation_app_head. cbn. apply (Permutation_map (Nat.add k)) in H. rewrite H.
  clear H. replace (map (Nat.add k) (seq 0 n)) with (seq k n); [reflexivity|]. clear p. revert k. induction n as [|n IH]; intros k; [reflexivity|]. cbn [seq map]. rewrite Nat.add_0_r. f_equal. rewrite <- (seq_shift n 0), map_map, (IH (S k)). apply map_ext. intros; lia.
Qed.
Definition whole (p : list nat) (n : nat) : list nat := full (n - length p) p.
Lemma perm_len p n : Permutation p (seq 0 n) -> length p = n. Proof. intros H. now rewrite (Permutation_length H), seq_length. Qed.
Lemma tail_perm p {T} (l l' : list T) : tail_in_order p l l' -> (length p <= length l)%nat /\ Permutation p (seq 0 (length p)) /\ perm_of (whole p (length l)) l l'.
Proof.
  intros (kw & u & u' & -> & -> & H). apply in_order_perm in H as (H & ->). pose proof (perm_len _ _ H) as L. rewrite app_length. rewrite L in *. split; [lia|]. split; [exact H|].
  unfold whole. rewrite L. replace (length kw + length u - length u)%nat with (length kw) by lia. split; [rewrite app_length; now apply full_perm|]. now rewrite reorder_full.
Qed.
Lemma perm_tail p n {T} (l l' : list T) : (length p <= n)%nat -> Permutation p (seq 0 (length p)) -> perm_of (whole p n) l l' -> tail_in_order p l l'.
Proof.
  intros LE HP (H & ->). pose proof (perm_len _ _ H) as L. unfold whole, full in L. rewrite app_length, seq_length, map_length in L.
  assert (LN : length l = n) by lia. clear L H. unfold whole. set (k := (n - length p)%nat). exists (firstn k l), (skipn k l), (reorder p (skipn k l)).
  assert (LK : length (firstn k l) = k) by (rewrite firstn_length; unfold k; lia). assert (LS : length (skipn k l) = length p) by (rewrite skipn_length; unfold k; lia).
  split; [symmetry; apply firstn_skipn|]. split; [|apply in_order_perm; split; [now rewrite LS|reflexivity]].
  rewrite <- (firstn_skipn k l) at 1. rewrite <- LK at 1. apply reorder_full.
Qed.
Lemma perm_unmap {G A B D} (f : G -> A) (g : G -> B) (h : G -> D) q (l l' : list G) : (forall x y, f x = f y -> g x = g y -> h x = h y -> x = y) ->
  perm_of q (map f l) (map f l') -> perm_of q (map g l) (map g l') -> perm_of q (map h l) (map h l') -> perm_of q l l'.
Proof.
  intros INJ (H & E1) (_ & E2) (_ & E3). rewrite map_length in H. split; [exact H|]. rewrite (reorder_map q f) in E1. rewrite (reorder_map q g) in E2. rewrite (reorder_map q h) in E3. revert E1 E2 E3. generalize (reorder q l). clear H. induction l' as [|x l' IH]; intros [|y m] E1 E2 E3; try discriminate; [reflexivity|].
  cbn in E1, E2, E3. injection E1 as E1 E1'. injection E2 as E2 E2'. injection E3 as E3 E3'. f_equal; [now apply INJ|now apply IH].
Qed.

(** ** Nonzero factors *)
Lemma nonzero_norm (M : rmat) : nonzero M -> mnorm M <> 0.
Proof. intros (i & j & Hi & Hj & H). rewrite mnorm_sqrt. pose proof (nsq_pos M i j Hi Hj H). pose proof (sqrt_lt_R0 _ H0). lra. Qed.
Lemma lsum_nonneg (l : list R) : (forall x, In x l -> 0 <= x) -> forall a, 0 <= a -> a <= fold_left (@nadd RNum) l a /\ forall x, In x l -> x <= fold_left (@nadd RNum) l a.
Proof.
  induction l as [|y l IH]; intros H a Ha; cbn [fold_left]; [split; [lra|intros x []]|]. pose proof (H y (or_introl eq_refl)) as Hy.
  destruct (IH (fun x Hx => H x (or_intror Hx)) (@nadd RNum a y)) as (I1 & I2); [cbn; lra|]. cbn in *. split; [lra|]. intros x [<-|Hx]; [lra|now apply I2].
Qed.
Lemma nonzero_root (Bs : list rmat) : (exists B, In B Bs /\ nonzero B) -> root_sum_squared (N:=RNum) Bs <> 0.
Proof.
  intros (B & IN & (i & j & Hi & Hj & H)). unfold root_sum_squared. pose proof (nsq_pos B i j Hi Hj H) as K.
  assert (G : forall x, In x (map (@msumsq RNum) Bs) -> 0 <= x) by (intros x Hx; apply in_map_iff in Hx as (Y & <- & _); rewrite msumsq_nsq; apply nsq_nonneg).
  destruct (lsum_nonneg _ G 0 (Rle_refl 0)) as (_ & L). specialize (L (msumsq B) (in_map _ _ _ IN)). rewrite msumsq_nsq in L.
  assert (0 < lsum (N:=RNum) (map (@msumsq RNum) Bs)) by (exact (Rlt_le_trans _ _ _ K L)). pose proof (sqrt_lt_R0 _ H0) as H1. apply Rgt_not_eq. exact H1.
Qed.

(** ** Calls *)
Lemma pens_order V a b p t t' m : regs_in_order p a b -> (m < 3)%nat -> parse_all V (f_kw a) (f_regs a) (f_aux a) (f_dual a) = Ok t -> parse_all V (f_kw b) (f_regs b) (f_aux b) (f_dual b) = Ok t' ->
  tail_in_order (p m) (map o_pen (pick t m)) (map o_pen (pick t' m)).
Proof.
  intros (_ & _ & _ & EK & EU) Hm EP EP'. rewrite EK in EP'.
  destruct (parse_all_ok _ _ _ _ _ _ EP m Hm) as (kw & pa & u & MV & PM & US & ->). destruct (parse_all_ok _ _ _ _ _ _ EP' m Hm) as (kw' & pa' & u' & MV' & PM' & US' & ->).
  rewrite <- (values_fun _ _ _ _ MV MV') in PM'. rewrite !map_app, (parse_mode_pens _ _ _ _ _ _ _ _ PM PM'). exists (map o_pen pa), (map o_pen u), (map o_pen u'). split; [reflexivity|]. split; [reflexivity|]. now apply (EU m).
Qed.
Lemma tail_nil {T} : tail_in_order [] (@nil T) []. Proof. exists [], [], []. split; [reflexivity|]. split; [reflexivity|]. split; [constructor|]. split; [reflexivity|]. cbn. intros k Hk. lia. Qed.
(** The whole orders of the three modes for a start [s]. *)
Definition wA (q : nat -> list nat) (s : state (N:=RNum)) := whole (q 0%nat) (length (st_rA s)).
Definition wB (q : nat -> list nat) (s : state (N:=RNum)) := whole (q 1%nat) (length (st_rB s)).
Definition wC (q : nat -> list nat) (s : state (N:=RNum)) := whole (q 2%nat) (length (st_rC s)).
Definition fits_modes (q : nat -> list nat) (s : state (N:=RNum)) : Prop :=
  ((length (q 0%nat) <= length (st_rA s))%nat /\ Permutation (q 0%nat) (seq 0 (length (q 0%nat)))) /\ ((length (q 1%nat) <= length (st_rB s))%nat /\ Permutation (q 1%nat) (seq 0 (length (q 1%nat)))) /\
  ((length (q 2%nat) <= length (st_rC s))%nat /\ Permutation (q 2%nat) (seq 0 (length (q 2%nat)))).
Lemma start_order V IE IE' rnd rnd' (a b : fitR) rank p c v v' :
  sensible V a rank -> sensible V b rank -> ranks_kept IE -> ranks_kept IE' -> regs_in_order p a b ->
  starts_at V IE rnd a c v -> starts_at V IE' rnd' b c v' -> vars_in_order (used a p) v v' ->
  exists s s' l2, setup V IE rnd a = Ok (s, l2) /\ setup V IE' rnd' b = Ok (s', l2) /\ st_cmf s = c /\ vars_of s = v /\
    sst (wA (used a p) s) (wB (used a p) s) (wC (used a p) s) s s' /\ fits_modes (used a p) s.
Proof.
  intros HS HS' RK RK' HO ST ST' HV. set (q := used a p) in *.
  destruct (start_setup _ _ _ _ _ _ _ HS RK ST) as (s & l2 & SE & EC & EV). destruct (start_setup _ _ _ _ _ _ _ HS' RK' ST') as (s' & l2' & SE' & EC' & EV').
  destruct (setup_ok _ _ _ _ _ _ _ HS RK SE) as (VS & SI & MR & EL & _ & t & (EP & TA & TB & TC)). destruct (setup_ok _ _ _ _ _ _ _ HS' RK' SE') as (VS' & SI' & MR' & EL' & _ & t' & (EP' & TA' & TB' & TC')).
  pose proof HO as (_ & SS & ER & _). rewrite ER, EL in EL'. injection EL' as <-. exists s, s', l2. split; [exact SE|]. split; [exact SE'|]. split; [exact EC|]. split; [exact EV|].
  destruct SS as (S1 & S2 & S3 & S4 & S5 & S6 & S7 & S8 & S9 & S10 & S11 & S12 & S13 & S14).
  rewrite <- EV, <- EV' in HV. destruct HV as (V1 & V2 & V3 & V4 & V5 & V6). cbn [vars_of v_auxA v_auxB v_auxC v_dualA v_dualB v_dualC] in *.
  assert (PA : tail_in_order (q 0%nat) (map g_pen (st_rA s)) (map g_pen (st_rA s'))) by (rewrite TA, TA', S10; unfold q, used; cbn [updates]; destruct (f_updA a); [apply (pens_order V a b p t t' 0); auto; lia|exact tail_nil]).
  assert (PB : tail_in_order (q 1%nat) (map b_pen (st_rB s)) (map b_pen (st_rB s'))) by (rewrite TB, TB', S11; unfold q, used; cbn [updates]; destruct (f_updB a); [apply (pens_order V a b p t t' 1); auto; lia|exact tail_nil]).
  assert (PC : tail_in_order (q 2%nat) (map g_pen (st_rC s)) (map g_pen (st_rC s'))) by (rewrite TC, TC', S12; unfold q, used; cbn [updates]; destruct (f_updC a); [apply (pens_order V a b p t t' 2); auto; lia|exact tail_nil]).
  apply tail_perm in V1 as (_ & _ & V1), V2 as (_ & _ & V2), V3 as (_ & _ & V3), V4 as (_ & _ & V4), V5 as (_ & _ & V5), V6 as (_ & _ & V6), PA as (LA & HA & PA), PB as (LB & HB & PB), PC as (LC & HC & PC). rewrite !map_length in *.
  split; [|unfold fits_modes; auto]. unfold sst. split; [congruence|]. split; [|split; [|split; [|congruence]]].
  - unfold wA. apply (perm_unmap g_pen g_aux g_dual); auto. intros [? ? ?] [? ? ?]; cbn; congruence.
  - unfold wB. apply (perm_unmap b_pen b_aux b_dual); auto. intros [? ? ?] [? ? ?]; cbn; congruence.
  - unfold wC. apply (perm_unmap g_pen g_aux g_dual); auto. intros [? ? ?] [? ? ?]; cbn; congruence.
Qed.
(** Iterations of the loop are iterations of the call. *)
Lemma steps_keep E (P : params (N:=RNum)) Xs : params_ok P -> forall k s x, valid_state Xs s -> svd_correct E (mc (cA (st_cmf s))) -> steps E P Xs k s = Ok x -> valid_state Xs x /\ same_penalties s x.
Proof.
  intros HP. induction k as [|k IH]; intros s x VS HE H; cbn [steps] in H; [injection H as <-; split; [exact VS|repeat split]|].
  destruct (outer_step E P Xs s) as [s1|] eqn:EO; [|discriminate H]. cbn [bind] in H. destruct (outer_step_ok E P Xs HP s s1 VS HE EO) as ((V1 & SZ & (Q1 & Q2 & Q3) & _) & _).
  destruct (IH s1 x V1) as (V2 & (R1 & R2 & R3)); [|exact H|].
  - destruct SZ as (_ & Z2 & _). now rewrite Z2.
  - split; [exact V2|]. repeat split; congruence.
Qed.
Lemma free_loop E (P : params (N:=RNum)) Xs : p_tol P = None -> p_abs_tol P = None -> p_return_errors P = false -> forall k it s h x, steps E P Xs k s = Ok x -> exists it', ao_loop E P Xs k it s h = Ok (x, h, it', MaxIter).
Proof.
  intros E1 E2 E3. induction k as [|k IH]; intros it s h x H; cbn [steps ao_loop] in *; [injection H as <-; eauto|].
  destruct (outer_step E P Xs s) as [s1|]; [|discriminate H]. cbn [bind] in *. rewrite E1, E2, E3. cbn [otruthy orb]. now apply IH.
Qed.
Lemma iterations_seen V IE rnd (a : fitR) rank s l2 fl h k x : sensible V a rank -> ranks_kept IE -> svd_correct (e_ext V) rank -> setup V IE rnd a = Ok (s, l2) -> const_flags (f_const a) = Ok fl ->
  init_hist (fit_params a l2 (false, false)) (f_data a) s = Ok h -> steps (e_ext V) (fit_params a l2 fl) (f_data a) k s = Ok x -> after_iterations V IE rnd a k (st_cmf x) /\ same_penalties s x.
Proof.
  intros HS RK HE SE EF IH ST. destruct (setup_ok _ _ _ _ _ _ _ HS RK SE) as (VS & _ & MR & EL & _). destruct (steps_keep (e_ext V) (fit_params a l2 fl) (f_data a) (fit_params_ok V a rank l2 fl HS EL) k s x VS) as (VX & SP); [now rewrite MR|exact ST|].
  split; [|exact SP]. unfold after_iterations, cmf_aoadmm. change (setup V IE rnd (just_iterations a k)) with (setup V IE rnd a). rewrite SE. cbn [bind]. cbn [f_data f_const f_n_iter just_iterations].
  destruct l2 as [[x1 x2] x3]. change (init_hist (fit_params (just_iterations a k) (x1, x2, x3) (false, false)) (f_data a) s) with (init_hist (fit_params a (x1, x2, x3) (false, false)) (f_data a) s). rewrite IH. cbn [bind]. rewrite EF. cbn [bind].
  unfold run. change (init_hist (fit_params (just_iterations a k) (x1, x2, x3) fl) (f_data a) s) with (init_hist (fit_params a (x1, x2, x3) (false, false)) (f_data a) s). rewrite IH. cbn [bind]. rewrite Nat2Z.id.
  destruct (free_loop (e_ext V) (fit_params (just_iterations a k) (x1, x2, x3) fl) (f_data a) eq_refl eq_refl eq_refl k 0%nat s h x ST) as (it & ->). cbn [bind fit_params p_feas_tol just_iterations f_feas_tol]. rewrite (revalidate_ok _ (proj1 (proj1 VX))). cbn [bind p_return_errors f_return_errors]. eexists. split; reflexivity.
Qed.
Lemma gaps_order q s (g g' : gaps (N:=RNum)) : fits_modes q s -> gperm (wA q s) (wB q s) (wC q s) g g' -> gaps_in_order q g g'.
Proof.
  intros ((A1 & A2) & (B1 & B2) & (C1 & C2)) (P1 & P2 & P3) m Hm. destruct g as [[gA gB] gC], g' as [[gA' gB'] gC']. cbn [fst snd] in *.
  destruct m as [|[|[|m]]]; [..|lia]; cbn [pick]; [exact (perm_tail _ _ _ _ A1 A2 P1)|exact (perm_tail _ _ _ _ B1 B2 P2)|exact (perm_tail _ _ _ _ C1 C2 P3)].
Qed.
Lemma order_fit V IE IE' rnd rnd' (a b : fitR) rank q s s' l2 o :
  sensible V a rank -> ranks_kept IE -> svd_correct (e_ext V) rank -> f_data b = f_data a -> same_settings a b ->
  setup V IE rnd a = Ok (s, l2) -> setup V IE' rnd' b = Ok (s', l2) -> sst (wA q s) (wB q s) (wC q s) s s' -> fits_modes q s ->
  one_mode (vars_of s) \/ factors_nonzero V IE rnd a (vars_of s) -> cmf_aoadmm V IE rnd a = Ok o ->
  exists o', cmf_aoadmm V IE' rnd' b = Ok o' /\ output_in_order q o o'.
Proof.
  intros HS RK HE HX SS SE SE' HST HF HN H. destruct SS as (S1 & S2 & S3 & S4 & S5 & S6 & S7 & S8 & S9 & S10 & S11 & S12 & S13 & S14).
  assert (PP : forall fl, fit_params b l2 fl = fit_params a l2 fl) by (intros fl; unfold fit_params; rewrite S3, S5, S6, S7, S8, S9, S10, S11, S12, S14; reflexivity).
  unfold cmf_aoadmm in *. rewrite SE in H. rewrite SE'. cbn [bind] in *. rewrite PP, HX, S4, S2, S13.
  destruct (init_hist (fit_params a l2 (false, false)) (f_data a) s) as [h|] eqn:IH; [|discriminate H]. cbn [bind] in H.
  destruct (init_fwd (wA q s) (wB q s) (wC q s) (fit_params a l2 (false, false)) (f_data a) s s' HST h IH) as (h' & -> & _). cbn [bind].
  destruct (const_flags (f_const a)) as [fl|] eqn:EF; [|discriminate H]. cbn [bind] in *. rewrite PP.
  destruct (run (e_ext V) (fit_params a l2 fl) (f_data a) (f_n_iter a) s) as [[s1 d1]|] eqn:ER; [|discriminate H]. cbn [bind] in H. injection H as <-.
  assert (G : forall k x, (k <= Z.to_nat (f_n_iter a))%nat -> steps (e_ext V) (fit_params a l2 fl) (f_data a) k s = Ok x -> sound_gaps x \/ lone_mode x).
  { intros k x Hk Hx. destruct (iterations_seen V IE rnd a rank s l2 fl h k x HS RK HE SE EF IH Hx) as (AI & (Q1 & Q2 & Q3)).
    apply (f_equal (@length _)) in Q1, Q2, Q3. rewrite !map_length in Q1, Q2, Q3. destruct HN as [HN|HN].
    - right. unfold one_mode, vars_of in HN. cbn [v_auxA v_auxB v_auxC] in HN.
      assert (NIL : forall T U (f : T -> U) (l l' : list T), length l' = length l -> map f l = [] -> l' = []) by (intros T U f l l' L M; apply map_eq_nil in M; subst l; now apply length_zero_iff_nil).
      unfold lone_mode. destruct HN as [(N1 & N2)|[(N1 & N2)|(N1 & N2)]]; [left|right; left|right; right]; split; eapply NIL; eassumption.
    - left. destruct (HN k (st_cmf x)) as (N1 & N2 & N3); [lia|exact AI|]. cbn [vars_of v_auxA v_auxB v_auxC] in N1, N2, N3. rewrite !map_length in *.
      split; [|split]; intros L; [apply nonzero_norm, N1; congruence|apply nonzero_root, N2; congruence|apply nonzero_norm, N3; congruence]. }
  destruct (run_fwd (e_ext V) (wA q s) (wB q s) (wC q s) (fit_params a l2 fl) (f_data a) (f_n_iter a) s s' HST G _ ER) as ([s1' d1'] & -> & HS1 & HD). cbn [bind fst snd] in *.
  eexists. split; [reflexivity|]. destruct HS1 as (E1 & QA & QB & QC & _). pose proof HF as ((A1 & A2) & (B1 & B2) & (C1 & C2)). split; [exact E1|]. cbn [out_vars out_diag]. split.
  - destruct (f_return_vars a); [|exact Logic.I]. cbn [both]. unfold vars_in_order, vars_of. cbn [v_auxA v_auxB v_auxC v_dualA v_dualB v_dualC].
    repeat split; [eapply (perm_tail _ _ _ _ A1 A2)|eapply (perm_tail _ _ _ _ A1 A2)|eapply (perm_tail _ _ _ _ B1 B2)|eapply (perm_tail _ _ _ _ B1 B2)|eapply (perm_tail _ _ _ _ C1 C2)|eapply (perm_tail _ _ _ _ C1 C2)]; apply perm_map; assumption.
  - destruct d1 as [d|], d1' as [d'|]; cbn [odperm both] in *; try contradiction; [|exact Logic.I]. destruct HD as (D1 & D2 & D3 & D4 & D5 & D6 & D7). unfold diag_in_order. split; [exact D1|]. split; [exact D2|]. split; [|auto].
    eapply F2_impl; [|exact D3]. intros g g'. now apply gaps_order.
Qed.
