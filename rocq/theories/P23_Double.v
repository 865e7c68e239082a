(** C58 and C59 for IEEE double precision: P18 applied to the arithmetic of Binary64.v. *)
From Coq Require Import Lia List Arith Bool ZArith SpecFloat.
From Verif Require Import Num Numpy Penalties CoupledMatrices Decomp InitVars Parse ParseSpec Fit OrderSpec OrderProofs P18_AnyArith Binary64.
Import ListNotations.

(** Every entry is nan or satisfies Q. *)
Definition entries_or_nan (Q : double -> Prop) (X : mat (N:=DNum)) : Prop :=
  forall row x, In row (me X) -> In x row -> x = S754_nan \/ Q x.
(** The column goes up and then down, in the order of the floating-point numbers, unless an entry is nan. *)
Definition up_then_down (v : list double) : Prop :=
  v <> [] -> ~ In S754_nan v -> exists t, t < length v /\
    (forall i j x y, i <= j -> j <= t -> nth_error v i = Some x -> nth_error v j = Some y -> SFleb x y = true) /\
    (forall i j x y, t <= i -> i <= j -> nth_error v i = Some x -> nth_error v j = Some y -> SFleb y x = true).

Lemma every_entries (Q : double -> Prop) (Q' : num (Num:=DNum) -> Prop) X : (forall x, Q' x -> x = S754_nan \/ Q x) -> every (N:=DNum) Q' X -> entries_or_nan Q X.
Proof. intros I H row x Hr Hx. unfold every in H. rewrite Forall_forall in H. specialize (H row Hr). rewrite Forall_forall in H. apply I, H, Hx. Qed.
Lemma le_or_nan (x y : double) : le (N:=DNum) x y -> y = S754_nan \/ SFleb x y = true.
Proof. unfold le. cbn [DNum nleb]. destruct y; cbn; auto. Qed.
Lemma le_or_nan_r (x y : double) : y <> S754_nan -> le (N:=DNum) x y -> SFleb x y = true.
Proof. intros H K. destruct (le_or_nan _ _ K); [contradiction|assumption]. Qed.
Lemma peaked_doubles v : peaked (N:=DNum) v -> up_then_down v.
Proof.
  intros H NE NN. destruct (H NE) as (t & Ht & U & D). exists t. split; [exact Ht|].
  assert (EN : forall i (x : double), nth_error v i = Some x -> entry (N:=DNum) v i = x /\ x <> S754_nan).
  { intros i x E. split; [exact (nth_error_nth v i (n0 (Num:=DNum)) E)|]. intros ->. apply NN. eapply nth_error_In. exact E. }
  split; intros i j x y H1 H2 Ei Ej; destruct (EN _ _ Ei) as (E1 & N1), (EN _ _ Ej) as (E2 & N2).
  - apply le_or_nan_r; [exact N2|]. rewrite <- E1, <- E2. now apply U.
  - apply le_or_nan_r; [exact N1|]. rewrite <- E1, <- E2. apply D; [assumption..|]. apply (proj1 (nth_error_Some v j)). intros K. pose proof (eq_trans (eq_sym Ej) K). discriminate.
Qed.

(** After a fit in double precision the requested constraints hold without tolerance. *)
Theorem C58_double_precision (V : env (N:=DNum)) IE rnd a out v R :
  svd_widths (e_ext V) -> (0 < f_n_iter a)%Z -> (0 < f_inner a)%Z -> f_rank a = PyInt (Z.of_nat R) ->
  cmf_aoadmm V IE rnd a = Ok out -> out_vars out = Some v ->
  forall m kw, m < 3 -> mode_updated a m = true -> mode_values (f_kw a) m kw -> bounds_in_order kw ->
    let some_var := some_variable (N:=DNum) (f_data a) R v m in
    (wants (k_nn kw) -> some_var (entries_or_nan (fun x => SFleb (S754_zero false) x = true))) /\
    (forall lo, k_lower kw = Some lo -> some_var (entries_or_nan (fun x => SFleb lo x = true))) /\
    (forall hi, k_upper kw = Some hi -> hi <> S754_nan -> some_var (entries_or_nan (fun x => SFleb x hi = true))) /\
    (wants (k_uni kw) -> some_var (columns (N:=DNum) up_then_down)).
Proof.
  intros HE HN HI HR H HV m kw Hm UM MV BO. cbv zeta.
  destruct (C58_keyword_constraints (N:=DNum) V IE rnd a out v R double_ordered double_signs HE HN HI HR H HV m kw Hm UM MV BO) as (K1 & K2 & K3 & K4 & _).
  split; [|split; [|split]].
  - intros W. eapply some_variable_impl; [|exact (K1 W)]. intros X. apply every_entries. intros x. apply le_or_nan.
  - intros lo E. eapply some_variable_impl; [|exact (K2 lo E)]. intros X. apply every_entries. intros x. apply le_or_nan.
  - intros hi E NN. eapply some_variable_impl; [|exact (K3 hi E)]. intros X. apply every_entries. intros x K. right. now apply le_or_nan_r.
  - intros W. eapply some_variable_impl; [|exact (K4 W)]. intros X K j Hj. apply peaked_doubles. now apply K.
Qed.
Print Assumptions C58_double_precision.

(** A fit that is run in double precision: 27 iterations, all four kinds of constraints. *)
Definition double_check (out : output (N:=DNum)) : bool :=
  match out_vars out, out_diag out with Some _, Some d => (d_n_iter d =? 27) && match d_message d with RelLoss => true | _ => false end | _, _ => false end.
Lemma double_run : exists out v d, cmf_aoadmm double_env double_init double_rnd (double_args 40) = Ok out /\ out_vars out = Some v /\ out_diag out = Some d /\ d_n_iter d = 27.
Proof.
  assert (C : match cmf_aoadmm double_env double_init double_rnd (double_args 40) with Ok out => double_check out | Err _ => false end = true) by (vm_compute; reflexivity).
  destruct (cmf_aoadmm double_env double_init double_rnd (double_args 40)) as [out|]; [|discriminate]. unfold double_check in C. destruct (out_vars out) as [v|] eqn:EV; [|discriminate]. destruct (out_diag out) as [d|] eqn:ED; [|discriminate].
  apply andb_true_iff in C as (C & _). apply Nat.eqb_eq in C. exists out, v, d. auto.
Qed.
Definition double_kw_C : modekw (N:=DNum) := ModeKw (N:=DNum) None (Some (lit 1 2)) (Some (lit 3 2)) None None false None None None.
Example ex_double : exists out v, cmf_aoadmm double_env double_init double_rnd (double_args 40) = Ok out /\ out_vars out = Some v /\
  svd_widths (e_ext double_env) /\ f_rank (double_args 40) = PyInt (Z.of_nat 1) /\ mode_updated (double_args 40) 2 = true /\
  mode_values (f_kw (double_args 40)) 2 double_kw_C /\ bounds_in_order double_kw_C.
Proof.
  destruct double_run as (out & v & d & H1 & H2 & _). exists out, v. split; [exact H1|]. split; [exact H2|]. split; [exact double_widths|]. split; [reflexivity|]. split; [reflexivity|]. split.
  - unfold mode_values. repeat split; cbn; auto.
  - intros hi E. injection E as <-. split; [intros lo K; injection K as <-; reflexivity|discriminate].
Qed.
