(** C58, C59: what fits guarantee whatever the arithmetic.

    The theorems of this file quantify over all records of operations [N : Num]: rounded,
    saturating or integer arithmetic as well as exact arithmetic.  The only assumptions on
    the operations are the ones written in the theorems ([ordered], [product_signs], both
    defined in OrderSpec.v); there are no assumptions on the accuracy of the linear algebra
    routines. *)
From Coq Require Import Lia List Arith Bool ZArith.
From Verif Require Import Num Numpy Penalties Unimodal CoupledMatrices Decomp InitVars Parse ParseSpec ParseProofs Fit AoPrefix OrderSpec OrderUni OrderProofs OrderSizes OrderFit FixedPoint.
Import ListNotations.
Local Open Scope nat_scope.

Section AnyArith.
Context {N : Num}.
Notation M0 := (Mat 0 0 []).

(** ** Helpers *)
Lemma values_unique k m (kw kw' : modekw) : mode_values k m kw -> mode_values k m kw' -> kw = kw'.
Proof.
  intros (M1 & M2 & M3 & M4 & M5 & M6 & M7 & M8 & M9) (N1 & N2 & N3 & N4 & N5 & N6 & N7 & N8 & N9). destruct kw, kw'. cbn in *.
  pose proof (means_fun _ _ _ _ M1 N1). pose proof (means_fun _ _ _ _ M2 N2). pose proof (means_fun _ _ _ _ M3 N3). pose proof (means_fun _ _ _ _ M4 N4).
  pose proof (means_fun _ _ _ _ M5 N5). pose proof (means_fun _ _ _ _ M6 N6). pose proof (means_fun _ _ _ _ M7 N7). pose proof (means_fun _ _ _ _ M8 N8). congruence.
Qed.
Lemma penalties_unique regs m (u u' : list pobj) : user_penalties regs m u -> user_penalties regs m u' -> u = u'.
Proof.
  destruct regs as [| |es]; cbn [user_penalties]; [congruence|contradiction|]. intros -> H. injection H as H. revert u' H.
  induction u as [|x u IH]; intros [|y u'] H; cbn in H; try discriminate; [reflexivity|]. injection H as -> H. f_equal. now apply IH.
Qed.
Lemma map_in_Forall {A B} (f : A -> B) (l : list A) (Q : A -> Prop) y : Forall Q l -> In y (map f l) -> exists x, In x l /\ f x = y /\ Q x.
Proof. intros F H. apply in_map_iff in H as (x & E & Hx). rewrite Forall_forall in F. eauto. Qed.

(** A penalty of an updated mode has a variable that meets it. *)
Lemma penalty_variable (HO : ordered) V IE rnd a out v R : svd_widths (e_ext V) -> (0 < f_n_iter a)%Z -> (0 < f_inner a)%Z -> f_rank a = PyInt (Z.of_nat R) ->
  cmf_aoadmm V IE rnd a = Ok out -> out_vars out = Some v ->
  forall m kw, m < 3 -> mode_updated a m = true -> mode_values (f_kw a) m kw -> exists parsed, parse_mode V kw (f_aux a) (f_dual a) = Ok parsed /\
    forall p, In p (map o_pen parsed) -> usable p -> keeps_size p -> some_variable (f_data a) R v m (meets p).
Proof.
  intros HE HN HI HR H HV m kw Hm UM MV.
  destruct (fit_final HO _ _ _ _ _ HE H) as (t & pos & c0 & R' & K & s' & EP & _ & HK & RK & _ & EV & _ & _ & _ & _ & _ & FIN).
  destruct (FIN HN HI) as (PA & PB & PC & FA & FB & FC). clear FIN. specialize (EV _ HV). subst v.
  destruct (parse_all_ok _ _ _ _ _ _ EP m Hm) as (kw' & parsed & u & MV' & PM & _ & PK). rewrite (values_unique _ _ _ _ MV MV'). exists parsed. split; [exact PM|].
  intros p IP UP KP. assert (IU : In p (used a t m)). { unfold used. rewrite UM, PK, map_app. apply in_or_app. now left. }
  assert (RR : R' = R). { assert (X : f_rank a = PyInt (Z.of_nat R')) by (apply RK; exists m; intros K0; now rewrite K0 in IU). rewrite HR in X. injection X as X. lia. }
  subst R'. destruct m as [|[|[|m]]]; [..|lia]; cbn [some_variable vars_of v_auxA v_auxB v_auxC].
  - destruct (FA UM) as (F1 & F2). rewrite <- PA in IU. destruct (map_in_Forall _ _ _ _ F1 IU) as (g & Ig & E & Q). rewrite Forall_forall in F2. specialize (F2 _ Ig).
    unfold m_meets in Q. unfold a_sized in F2. rewrite E in *. exists (g_aux g). split; [now apply in_map|]. split; auto.
  - destruct (FB UM) as (F1 & F2). rewrite <- PB in IU. destruct (map_in_Forall _ _ _ _ F1 IU) as (g & Ig & E & Q). rewrite Forall_forall in F2. specialize (F2 _ Ig).
    unfold b_meets in Q. unfold b_sized in F2. rewrite E in *. destruct F2 as ((C1 & C2) & SZ). destruct (SZ KP) as (l & EL & SZl). specialize (Q UP). rewrite EL in Q, C2.
    exists l. split; [rewrite <- EL; now apply in_map|]. split; [exact C2|]. intros i X D HD HX. cbn [meets_all] in Q. rewrite Forall_forall in Q.
    split; [|apply Q; now apply nth_error_In in HX]. assert (Hi : i < length (f_data a)) by (apply nth_error_Some; congruence).
    specialize (SZl i Hi). now rewrite (nth_error_nth _ _ M0 HX), (nth_error_nth _ _ M0 HD) in SZl.
  - destruct (FC UM) as (F1 & F2). rewrite <- PC in IU. destruct (map_in_Forall _ _ _ _ F1 IU) as (g & Ig & E & Q). rewrite Forall_forall in F2. specialize (F2 _ Ig).
    unfold m_meets in Q. unfold c_sized in F2. rewrite E in *. exists (g_aux g). split; [now apply in_map|]. split; [|auto]. intros D HD. rewrite (HK _ HD). auto.
Qed.
Lemma some_variable_impl Xs R v m (Q Q' : mat -> Prop) : (forall X, Q X -> Q' X) -> some_variable Xs R v m Q -> some_variable Xs R v m Q'.
Proof.
  intros I. destruct m as [|[|m]]; cbn.
  - intros (X & ? & ? & ?). exists X. auto.
  - intros (l & ? & ? & F). exists l. split; [assumption|]. split; [assumption|]. intros i X D HD HX. destruct (F i X D HD HX). auto.
  - intros (X & ? & ? & ?). exists X. auto.
Qed.
Lemma every_impl (Q Q' : num -> Prop) X : (forall x, Q x -> Q' x) -> every Q X -> every Q' X.
Proof. intros I. unfold every. apply Forall_impl. intros row. now apply Forall_impl. Qed.

(** ** C58: constraints requested by keyword hold exactly under any arithmetic. *)
Theorem C58_keyword_constraints V IE rnd a out v R :
  ordered -> product_signs -> svd_widths (e_ext V) ->
  (0 < f_n_iter a)%Z -> (0 < f_inner a)%Z -> f_rank a = PyInt (Z.of_nat R) ->
  cmf_aoadmm V IE rnd a = Ok out -> out_vars out = Some v ->
  forall m kw, m < 3 -> mode_updated a m = true -> mode_values (f_kw a) m kw -> bounds_in_order kw ->
    let some_var := some_variable (f_data a) R v m in
    (wants (k_nn kw) -> some_var (every (le n0))) /\
    (forall lo, k_lower kw = Some lo -> some_var (every (le lo))) /\
    (forall hi, k_upper kw = Some hi -> some_var (every (fun x => le x hi))) /\
    (wants (k_uni kw) -> some_var (columns peaked)) /\
    (wants (k_uni kw) -> wants (k_nn kw) -> some_var (fun X => columns peaked X /\ every (le n0) X)).
Proof.
  intros HO HP HE HN HI HR H HV m kw Hm UM MV BO. cbv zeta.
  destruct (penalty_variable HO _ _ _ _ _ _ _ HE HN HI HR H HV m kw Hm UM MV) as (parsed & PM & PV). destruct (parse_mode_has _ _ _ _ _ PM) as (K1 & K2 & K3).
  assert (NNW : wants (k_nn kw) -> btruthy (k_nn kw) = true) by (unfold wants; now intros ->).
  assert (UNW : wants (k_uni kw) -> btruthy (k_uni kw) = true) by (unfold wants; now intros ->).
  assert (UB : usable (box_of kw)).
  { split; [|exact Logic.I]. unfold box_of, consistent. destruct (k_upper kw) as [hi|] eqn:EU; [|now destruct (btruthy (k_nn kw)), (k_lower kw)].
    destruct (BO _ EU) as (B1 & B2). destruct (btruthy (k_nn kw)) eqn:EN.
    - assert (W : wants (k_nn kw)) by (unfold wants; destruct (k_nn kw) as [[|]|]; try discriminate EN; reflexivity). destruct (k_lower kw) as [lo|] eqn:EL; [|auto].
      unfold nmax. destruct (nleb lo n0) eqn:EC; auto.
    - destruct (k_lower kw) as [lo|]; auto. }
  assert (BOXL : forall X lo, (k_lower kw = Some lo \/ (k_upper kw <> None /\ wants (k_nn kw) /\ lo = n0) \/ (k_lower kw <> None /\ wants (k_nn kw) /\ lo = n0)) ->
            meets (box_of kw) X -> every (le lo) X).
  { intros X lo C (M1 & _). destruct HO as (T & TR). destruct (btruthy (k_nn kw)) eqn:EN.
    - destruct (k_lower kw) as [x|] eqn:EL.
      + specialize (M1 _ eq_refl). refine (every_impl _ _ _ _ M1). intros y Hy. apply (TR _ (nmax x n0)); [|exact Hy].
        assert (HO : ordered) by now split. destruct C as [C|[(_ & _ & ->)|(_ & _ & ->)]]; [injection C as ->; apply (max_l HO)|apply (max_r HO)..].
      + specialize (M1 _ eq_refl). destruct C as [C|[(_ & _ & ->)|(_ & _ & ->)]]; [discriminate|exact M1..].
    - destruct C as [C|[(_ & W & _)|(_ & W & _)]]; [now apply M1|specialize (NNW W); congruence..]. }
  split; [|split; [|split; [|split]]].
  - intros W. destruct (K3 (NNW W)) as [K|[(b & Hb & K)|[(r & K)|[(Q & K)|K]]]].
    + refine (some_variable_impl _ _ _ _ _ _ _ (PV _ K _ _)); [|split; exact Logic.I|exact Logic.I]. intros X (_ & X2). now apply X2.
    + refine (some_variable_impl _ _ _ _ _ _ _ (PV _ K _ _)); [auto|split; [exact Hb|exact HP]|exact Logic.I].
    + refine (some_variable_impl _ _ _ _ _ _ _ (PV _ K _ _)); [auto|split; exact Logic.I|exact Logic.I].
    + refine (some_variable_impl _ _ _ _ _ _ _ (PV _ K UB _)); [|exact Logic.I]. intros X MX. apply (BOXL X n0); [|exact MX]. right. destruct Q; auto.
    + refine (some_variable_impl _ _ _ _ _ _ _ (PV _ K _ _)); [auto|split; exact Logic.I|exact Logic.I].
  - intros lo EL. assert (IB : In (box_of kw) (map o_pen parsed)) by (apply K2; left; congruence).
    refine (some_variable_impl _ _ _ _ _ _ _ (PV _ IB UB _)); [|exact Logic.I]. intros X MX. apply (BOXL X lo); [now left|exact MX].
  - intros hi EU. assert (IB : In (box_of kw) (map o_pen parsed)) by (apply K2; right; congruence).
    refine (some_variable_impl _ _ _ _ _ _ _ (PV _ IB UB _)); [|exact Logic.I]. intros X (_ & MX). now apply MX.
  - intros W. refine (some_variable_impl _ _ _ _ _ _ _ (PV _ (K1 (UNW W)) _ _)); [|split; exact Logic.I|exact Logic.I]. now intros X (MX & _).
  - intros W W2. refine (some_variable_impl _ _ _ _ _ _ _ (PV _ (K1 (UNW W)) _ _)); [|split; exact Logic.I|exact Logic.I]. intros X (MX & MN). split; [exact MX|]. apply MN. now apply NNW.
Qed.

(** The user's own penalty objects: their variables are the last ones of the mode. *)
Lemma last_vars {A G} (pen : G -> penalty) (var : G -> A) (l : list G) (pa u : list pobj) (Q : penalty -> A -> Prop) :
  map pen l = map o_pen (pa ++ u) -> Forall (fun g => Q (pen g) (var g)) l -> last_variables (map var l) u Q.
Proof.
  intros E F. rewrite map_app in E. apply map_eq_app in E as (l1 & l2 & -> & _ & E2). exists (map var l1), (map var l2). split; [apply map_app|].
  apply Forall_app in F as (_ & F). revert u E2. induction F as [|g l2 H F IH]; intros [|o u] E2; cbn in E2; try discriminate; cbn; constructor; [|apply IH]; injection E2 as E2 E3; [now rewrite <- E2|exact E3].
Qed.
Theorem C58_user_penalties V IE rnd a out v R :
  ordered -> product_signs -> svd_widths (e_ext V) ->
  (0 < f_n_iter a)%Z -> (0 < f_inner a)%Z -> f_rank a = PyInt (Z.of_nat R) ->
  cmf_aoadmm V IE rnd a = Ok out -> out_vars out = Some v ->
  (f_updA a = true -> forall u, user_penalties (f_regs a) 0 u ->
     last_variables (v_auxA v) u (fun p X => (consistent p -> meets p X) /\ (keeps_size p -> sized X (length (f_data a)) R))) /\
  (f_updB a = true -> forall u, user_penalties (f_regs a) 1 u ->
     last_variables (v_auxB v) u (fun p x => (consistent p -> meets_all p x) /\
       (keeps_size p -> exists l, x = AList l /\ length l = length (f_data a) /\
          forall i X D, nth_error (f_data a) i = Some D -> nth_error l i = Some X -> sized X (mr D) R))) /\
  (f_updC a = true -> forall u, user_penalties (f_regs a) 2 u ->
     last_variables (v_auxC v) u (fun p X => (consistent p -> meets p X) /\ (keeps_size p -> forall D, In D (f_data a) -> sized X (mc D) R))).
Proof.
  intros HO HP HE HN HI HR H HV.
  destruct (fit_final HO _ _ _ _ _ HE H) as (t & pos & c0 & R' & K & s' & EP & _ & HK & RK & _ & EV & _ & _ & _ & _ & _ & FIN).
  destruct (FIN HN HI) as (PA & PB & PC & FA & FB & FC). clear FIN. specialize (EV _ HV). subst v.
  assert (US : forall p, consistent p -> usable p) by (intros p C; split; [exact C|]; now destruct p as [| | | | |? []| | |]).
  assert (SPL : forall m u, m < 3 -> mode_updated a m = true -> user_penalties (f_regs a) m u -> exists pa, used a t m = map o_pen (pa ++ u)).
  { intros m u Hm UM U. destruct (parse_all_ok _ _ _ _ _ _ EP m Hm) as (kw & pa & u' & _ & _ & U' & PK). exists pa. unfold used. rewrite UM, PK, (penalties_unique _ _ _ _ U U'). reflexivity. }
  assert (RR : forall m p, In p (used a t m) -> R' = R).
  { intros m p Ip. assert (X : f_rank a = PyInt (Z.of_nat R')) by (apply RK; exists m; intros K0; now rewrite K0 in Ip). rewrite HR in X. injection X as X. lia. }
  cbn [vars_of v_auxA v_auxB v_auxC]. split; [|split]; intros UM u U.
  - destruct (SPL 0 u ltac:(lia) UM U) as (pa & E). destruct (FA UM) as (F1 & F2). apply (last_vars g_pen g_aux _ pa); [now rewrite <- E|].
    rewrite Forall_forall in *. intros g Ig. assert (X : R' = R) by (apply (RR 0 (g_pen g)); rewrite <- PA; now apply in_map). subst R'. split; [intros C; apply (F1 g Ig), US, C|apply (F2 g Ig)].
  - destruct (SPL 1 u ltac:(lia) UM U) as (pa & E). destruct (FB UM) as (F1 & F2). apply (last_vars b_pen b_aux _ pa); [now rewrite <- E|].
    rewrite Forall_forall in *. intros g Ig. assert (X : R' = R) by (apply (RR 1 (b_pen g)); rewrite <- PB; now apply in_map). subst R'. split; [intros C; apply (F1 g Ig), US, C|].
    intros KP. destruct (F2 g Ig) as ((_ & C2) & SZ). destruct (SZ KP) as (l & EL & SZl). rewrite EL in C2. exists l. split; [exact EL|]. split; [exact C2|].
    intros i X D HD HX. assert (Hi : i < length (f_data a)) by (apply nth_error_Some; congruence).
    specialize (SZl i Hi). now rewrite (nth_error_nth _ _ M0 HX), (nth_error_nth _ _ M0 HD) in SZl.
  - destruct (SPL 2 u ltac:(lia) UM U) as (pa & E). destruct (FC UM) as (F1 & F2). apply (last_vars g_pen g_aux _ pa); [now rewrite <- E|].
    rewrite Forall_forall in *. intros g Ig. assert (X : R' = R) by (apply (RR 2 (g_pen g)); rewrite <- PC; now apply in_map). subst R'. split; [intros C; apply (F1 g Ig), US, C|].
    intros KP D HD. rewrite (HK _ HD). now apply (F2 g Ig).
Qed.

(** ** C59: the bookkeeping of a fit does not depend on the arithmetic. *)
(** The factor matrices fit the data, and the modes that are not updated are the initial ones. *)
Theorem C59_factors V IE rnd a out : svd_widths (e_ext V) -> ordered -> cmf_aoadmm V IE rnd a = Ok out ->
  exists c0 pos R, initialize_cmf (e_ext V) IE rnd (f_data a) (f_rank a) (f_init a) 0 = Ok (c0, pos) /\
    fits (f_data a) R c0 /\ fits (f_data a) R (out_cmf out) /\
    (f_updA a = false -> cA (out_cmf out) = cA c0) /\ (f_updB a = false -> cBs (out_cmf out) = cBs c0) /\ (f_updC a = false -> cC (out_cmf out) = cC c0).
Proof.
  intros HE HO H. destruct (fit_final HO _ _ _ _ _ HE H) as (t & pos & c0 & R' & K & s' & EP & EI & HK & RK & EO & _ & S0 & S1 & Z1 & Z2 & Z3 & _).
  exists c0, pos, R'. split; [exact EI|]. split; [exact (factors_fits _ _ _ _ HK S0)|]. rewrite EO. split; [exact (factors_fits _ _ _ _ HK S1)|]. auto.
Qed.

(** Histories, stopping and flags. *)
Definition flag_says (a : fitargs) (m : message) (f : option bool) : Prop :=
  match m with
  | MaxIter => ((exists t, is_set (f_tol a) t \/ is_set (f_abs_tol a) t) -> f = Some false) /\ ((forall t, ~ is_set (f_tol a) t /\ ~ is_set (f_abs_tol a) t) -> f = None)
  | _ => f = Some true
  end.
Theorem C59_reports V IE rnd a out d : ordered -> cmf_aoadmm V IE rnd a = Ok out -> out_diag out = Some d -> Forall (every_gap not_nan) (d_gaps d) ->
  let n := d_n_iter d in
  length (d_errors d) = S n /\ length (d_gaps d) = S n /\ length (d_losses d) = S n /\ n <= Z.to_nat (f_n_iter a) /\
  (forall j, 0 < j < n -> ~ (gaps_small a d j /\ (loss_settled a d j \/ loss_small a d j))) /\
  match d_message d with
  | MaxIter => n = Z.to_nat (f_n_iter a) /\ (0 < n -> ~ (gaps_small a d n /\ (loss_settled a d n \/ loss_small a d n)))
  | RelLoss => 0 < n /\ gaps_small a d n /\ loss_settled a d n
  | AbsLoss => 0 < n /\ gaps_small a d n /\ ~ loss_settled a d n /\ loss_small a d n
  end /\
  flag_says a (d_message d) (d_stopped d) /\
  (forall b, d_feasible d = Some b -> (b = true <-> gaps_small a d n)) /\
  ((exists t, is_set (f_feas_tol a) t) <-> d_feasible d <> None).
Proof.
  intros HO H HD NN. cbv zeta. destruct (fit_pieces _ _ _ _ _ H) as (s & l2 & flags & s' & od & ES & ER & ->). cbn [out_diag] in HD.
  pose proof (fit_fields a l2 flags) as FF. set (P := fit_params a l2 flags) in *. cbv zeta in FF. destruct FF as (_ & _ & _ & _ & FT & FAB & FF & FRE).
  destruct (run_pieces _ _ _ _ _ _ _ ER) as (h0 & s1 & h & it & msg & c & fe & EH & EL & _ & _ & EF & EO). rewrite HD in EO.
  destruct (p_return_errors P) eqn:RE; [|discriminate]. injection EO as ->. cbn [d_n_iter d_errors d_gaps d_losses d_message d_stopped d_feasible] in *.
  assert (L0 : lengths h0 1 /\ state_gaps s = Ok (nth 0 (h_gaps h0) g0)).
  { unfold init_hist in EH. cbv zeta in EH. destruct (state_loss P (f_data a) s) as [l|]; [|discriminate]. cbn [bind] in EH.
    destruct (state_gaps s) as [g|]; [|discriminate]. cbn [bind] in EH. injection EH as <-. split; [split; [|split]|]; reflexivity. }
  destruct L0 as (L0 & G0). destruct (loop_report _ _ _ RE _ _ _ _ _ _ _ _ L0 G0 EL) as ((LE & LG & LL) & IT & _ & GS & AB & NOS & MSG).
  set (d := Diag _ _ _ _ _ _ _) in *.
  assert (NG : forall j, j <= it -> nth_error (h_gaps h) j = Some (nth j (h_gaps h) g0)) by (intros j Hj; apply nth_error_nth'; lia).
  assert (NLo : forall j, j <= it -> nth_error (h_losses h) j = Some (nth j (h_losses h) NaN)) by (intros j Hj; apply nth_error_nth'; lia).
  assert (FE : forall j, j <= it -> (feasible_code P (nth j (h_gaps h) g0) = true <-> gaps_small a d j)).
  { intros j Hj. rewrite Forall_forall in NN. assert (NNj : every_gap not_nan (nth j (h_gaps h) g0)) by (apply NN, nth_In; lia).
    unfold feasible_code, gaps_small. rewrite FF. split.
    - destruct (f_feas_tol a) as [t|]; [|discriminate]. intros K. apply andb_true_iff in K as (K1 & K2). exists t, (nth j (h_gaps h) g0).
      split; [split; [reflexivity|now apply truthy_set]|]. split; [now apply NG|]. now apply (feasibility_smaller HO).
    - intros (t & g & (-> & ST) & Hg & SM). apply andb_true_iff. split; [now apply truthy_set|]. apply (feasibility_smaller HO); [exact NNj|].
      cbn [d_gaps d] in Hg. rewrite NG in Hg by exact Hj. now injection Hg as <-. }
  assert (LI : forall j l, j <= it -> (loss_is d j l <-> nth j (h_losses h) NaN = Fin l)).
  { intros j l Hj. unfold loss_is. cbn [d_losses d]. rewrite NLo by exact Hj. split; [intros X; now injection X|now intros ->]. }
  assert (RC : forall j t, j <= it -> is_set (f_tol a) t -> (rel_crit t (nth (j - 1) (h_losses h) NaN) (nth j (h_losses h) NaN) = true <-> loss_settled a d j)).
  { intros j t Hj ST. unfold loss_settled, rel_crit. split.
    - destruct (nth (j - 1) (h_losses h) NaN) as [p| |] eqn:E1; try discriminate. destruct (nth j (h_losses h) NaN) as [l| |] eqn:E2; try discriminate. intros K. exists t, p, l.
      split; [exact ST|]. split; [apply LI; [lia|exact E1]|]. split; [apply LI; [lia|exact E2]|]. now apply ltb_lt.
    - intros (t' & p & l & (E' & _) & P1 & P2 & LT). destruct ST as (E & _). rewrite E in E'. injection E' as <-. apply LI in P1; [|lia]. apply LI in P2; [|lia]. rewrite P1, P2. now apply ltb_lt. }
  assert (AC : forall j t ab, j <= it -> is_set (f_tol a) t -> f_abs_tol a = Some ab -> (xlt (nth j (h_losses h) NaN) ab = true <-> loss_small a d j)).
  { intros j t ab Hj ST EA. unfold loss_small. rewrite xlt_smaller. unfold smaller. split.
    - intros (l & E & LT). split; [eauto|]. exists ab, l. split; [exact EA|]. split; [now apply LI|exact LT].
    - intros (_ & ab' & l & EA' & P1 & LT). rewrite EA in EA'. injection EA' as <-. apply LI in P1; [|lia]. eauto. }
  assert (SC : forall j, 0 < j -> j <= it -> match stop_code P (nth j (h_gaps h) g0) (nth (j - 1) (h_losses h) NaN) (nth j (h_losses h) NaN) with
      | None => ~ (gaps_small a d j /\ (loss_settled a d j \/ loss_small a d j))
      | Some RelLoss => gaps_small a d j /\ loss_settled a d j
      | Some AbsLoss => gaps_small a d j /\ ~ loss_settled a d j /\ loss_small a d j
      | Some MaxIter => False end).
  { intros j J0 Hj. specialize (FE j Hj). unfold stop_code. rewrite FT in *. destruct (f_tol a) as [t|] eqn:ET.
    2: { intros (_ & [(t & p & l & (E & _) & _)|((t & E & _) & _)]); rewrite ET in E; discriminate. }
    destruct (ntruthy t) eqn:TT.
    2: { assert (NS : forall t', ~ is_set (f_tol a) t'). { intros t' (E & S). rewrite ET in E. injection E as <-. apply truthy_set in S. congruence. }
         intros (_ & [(t' & p & l & S & _)|((t' & S) & _)]); now apply (NS t'). }
    assert (ST : is_set (Some t) t) by (split; [reflexivity|now apply truthy_set]). rewrite FAB.
    assert (NA : f_abs_tol a <> None). { rewrite <- FAB. apply AB; [lia|]. cbn. exact TT. }
    destruct (f_abs_tol a) as [ab|] eqn:EA; [|now contradiction NA]. specialize (RC j t Hj ST). specialize (AC j t ab Hj ST eq_refl).
    destruct (feasible_code P (nth j (h_gaps h) g0)).
    - assert (GM : gaps_small a d j) by now apply FE. cbn [andb]. destruct (rel_crit _ _ _).
      + split; [exact GM|now apply RC].
      + assert (NS : ~ loss_settled a d j) by (intros X; apply RC in X; discriminate). destruct (xlt _ _).
        * split; [exact GM|]. split; [exact NS|now apply AC].
        * intros (_ & [X|X]); [now apply NS|apply AC in X; discriminate].
    - cbn [andb]. intros (X & _). apply FE in X. discriminate. }
  split; [exact LE|]. split; [exact LG|]. split; [exact LL|]. split; [lia|]. split.
  { intros j Hj. specialize (SC j ltac:(lia) ltac:(lia)). now rewrite (NOS j Hj) in SC. }
  split.
  { destruct msg; destruct MSG as (I1 & I2).
    - split; [lia|]. intros I0. specialize (SC it I0 ltac:(lia)). now rewrite (I2 I0) in SC.
    - split; [exact I1|]. specialize (SC it I1 ltac:(lia)). now rewrite I2 in SC.
    - split; [exact I1|]. specialize (SC it I1 ltac:(lia)). now rewrite I2 in SC. }
  split.
  { unfold flag_says. rewrite FT, FAB. destruct msg; cbn [negb andb]; [|reflexivity..]. split.
    - intros (t & [S|S]); assert (X : otruthy (f_tol a) = true \/ otruthy (f_abs_tol a) = true) by (rewrite !otruthy_set; eauto); destruct X as [-> | ->]; cbn; rewrite ?orb_true_r; reflexivity.
    - intros S. assert (X : otruthy (f_tol a) = false) by (apply not_true_is_false; rewrite otruthy_set; intros (t & K); destruct (S t) as (S1 & S2); auto).
      assert (Y : otruthy (f_abs_tol a) = false) by (apply not_true_is_false; rewrite otruthy_set; intros (t & K); destruct (S t) as (S1 & S2); auto). now rewrite X, Y. }
  specialize (FE it (le_n _)). unfold feasible_code in FE. rewrite FF in *. destruct (f_feas_tol a) as [t|] eqn:ET.
  - rewrite andb_true_r in EF. destruct (ntruthy t) eqn:TT.
    + assert (fe = Some (check_feasibility (nth it (h_gaps h) g0) t)) as ->.
      { destruct (state_gaps s1) as [g|] eqn:EG; [|discriminate]. cbn [bind] in EF. injection GS as ->. now injection EF as <-. }
      split; [|split; [discriminate|intros _; exists t; split; [reflexivity|now apply truthy_set]]]. intros b Hb. injection Hb as <-. cbn [andb] in FE. exact FE.
    + injection EF as <-. split; [discriminate|]. split; [|now intros []]. intros (t' & E & S). injection E as <-. apply truthy_set in S. congruence.
  - injection EF as <-. split; [discriminate|]. split; [intros (t & E & _); discriminate|now intros []].
Qed.

(** ** C05: the output array of the regression may round what is stored in it (an integer
    array truncates): the result still is unimodal, and non-negative if requested. *)
Theorem C05_any_storage_partial (store : num -> num) (y : list num) (nn : bool) : ordered -> y <> [] ->
  exists u, unimodal_regression_vec store y nn = Ok (map Some u) /\ length u = length y /\ peaked u /\ (nn = true -> no_negatives u).
Proof. intros HO. exact (regression_peaked HO store y nn). Qed.
End AnyArith.

Definition fixed_check (d : diagnostics (N:=FNum)) : bool :=
  let fin (x : xnum (N:=FNum)) := match x with NaN => false | _ => true end in
  match d_message d with
  | RelLoss => (1 <? d_n_iter d) && forallb (fun g : gaps (N:=FNum) => let '(x, y, z) := g in forallb fin x && forallb fin y && forallb fin z) (d_gaps d)
  | _ => false
  end.
Lemma fixed_run : exists out v d, cmf_aoadmm fixed_env fixed_init fixed_rnd (fixed_args 30) = Ok out /\ out_vars out = Some v /\ out_diag out = Some d /\ fixed_check d = true.
Proof.
  assert (C : match cmf_aoadmm fixed_env fixed_init fixed_rnd (fixed_args 30) with
              | Ok out => match out_vars out, out_diag out with Some _, Some d => fixed_check d | _, _ => false end | Err _ => false end = true) by (vm_compute; reflexivity).
  destruct (cmf_aoadmm fixed_env fixed_init fixed_rnd (fixed_args 30)) as [out|]; [|discriminate C].
  destruct (out_vars out) as [v|] eqn:EV; [|discriminate C]. destruct (out_diag out) as [d|] eqn:ED; [|discriminate C]. exists out, v, d. auto.
Qed.
(** A call with numbers rounded to thousandths that meets all hypotheses: it stops after some
    iterations because the loss has settled. *)
Example ex_fixed : exists out v d, cmf_aoadmm fixed_env fixed_init fixed_rnd (fixed_args 30) = Ok out /\ out_vars out = Some v /\ out_diag out = Some d /\
  ordered (N:=FNum) /\ product_signs (N:=FNum) /\ svd_widths (e_ext fixed_env) /\
  f_rank (fixed_args 30) = PyInt (Z.of_nat 1) /\ Forall (every_gap (N:=FNum) not_nan) (d_gaps d) /\ d_message d = RelLoss /\ 1 < d_n_iter d.
Proof.
  destruct fixed_run as (out & v & d & E1 & E2 & E3 & E4). exists out, v, d. split; [exact E1|]. split; [exact E2|]. split; [exact E3|].
  split; [exact fixed_ordered|]. split; [exact fixed_signs|]. split; [exact fixed_widths|]. split; [reflexivity|].
  unfold fixed_check in E4. destruct (d_message d); [discriminate| |discriminate]. apply andb_true_iff in E4 as (E4 & E5). apply Nat.ltb_lt in E4. split; [|split; [reflexivity|exact E4]].
  rewrite forallb_forall in E5. apply Forall_forall. intros [[x y] z] Hg. specialize (E5 _ Hg). cbn in E5. rewrite !andb_true_iff, !forallb_forall in E5. destruct E5 as ((Q1 & Q2) & Q3).
  split; [|split]; apply Forall_forall; intros u Hu -> ; [specialize (Q1 _ Hu)|specialize (Q2 _ Hu)|specialize (Q3 _ Hu)]; discriminate.
Qed.
Example ex_fixed_keywords : exists kw0 kw1 kw2, mode_values (f_kw (fixed_args 30)) 0 kw0 /\ mode_values (f_kw (fixed_args 30)) 1 kw1 /\ mode_values (f_kw (fixed_args 30)) 2 kw2 /\
  bounds_in_order kw0 /\ bounds_in_order kw1 /\ bounds_in_order kw2 /\ wants (k_nn kw0) /\ wants (k_uni kw1) /\ wants (k_nn kw1) /\
  k_lower kw2 = Some 500%Z /\ k_upper kw2 = Some 1500%Z /\ user_penalties (f_regs (fixed_args 30)) 2 fixed_regs.
Proof.
  exists (ModeKw (N:=FNum) (Some true) None None None None false None None None), (ModeKw (N:=FNum) (Some true) None None None (Some true) false None None None),
    (ModeKw (N:=FNum) None (Some 500%Z) (Some 1500%Z) None None false None None None).
  assert (T : forall m, m < 3 -> m = 0 \/ m = 1 \/ m = 2) by lia.
  split; [repeat split; cbn; auto|]. split; [repeat split; cbn; auto|]. split; [repeat split; cbn; auto|].
  split; [intros hi; discriminate|]. split; [intros hi; discriminate|]. split.
  { intros hi E. injection E as <-. split; [intros lo E; injection E as <-; reflexivity|discriminate]. }
  repeat split.
Qed.
(** C05: a regression whose results are stored in an integer array (multiples of 1000). *)
Definition truncated (x : num (Num:=FNum)) : num (Num:=FNum) := (x / 1000 * 1000)%Z.
Example ex_storage : unimodal_regression_vec (N:=FNum) truncated [1000; 3000; 2000; -1000; 0]%Z true = Ok (map Some [1000; 3000; 2000; 0; 0]%Z).
Proof. vm_compute. reflexivity. Qed.
Print Assumptions C58_keyword_constraints.
Print Assumptions C58_user_penalties.
Print Assumptions C59_factors.
Print Assumptions C59_reports.
Print Assumptions C05_any_storage_partial.
