(** C101: the printed summary of a factorization. *)
From Coq Require Import Reals Lra List Arith Bool String Ascii Lia ZArith DecimalString DecimalNat DecimalFacts Decimal.
From Verif Require Import Num Numpy RFacts Spec SpecFacts MatFacts ModelSpec Penalties PenaltySpec CoupledMatrices CmfSpec CmfProofs CmfObject CmfRepr ReprSpec P49_Printed
  Decomp DecompSpec DecompFacts InitVars InitSpec Parse ParseSpec Fit FitSpec FitProofs P08_Fit P11_Total DecompExamples FitExamples Ideal ResumeSpec P50_Tolerances SymSpec P29_Symmetry.
Import ListNotations.
Local Open Scope nat_scope.
Local Open Scope string_scope.

(** ** Numbers *)
Lemma show_nat_inj n m : show_nat n = show_nat m -> n = m.
Proof.
  unfold show_nat. intros H. apply (f_equal NilEmpty.uint_of_string) in H. rewrite !NilEmpty.usu in H. injection H as H. now apply Unsigned.to_uint_inj.
Qed.
Definition digit (c : ascii) : Prop := In c ["0"; "1"; "2"; "3"; "4"; "5"; "6"; "7"; "8"; "9"]%char.
Lemma digits_free c : ~ digit c -> forall d, free_of c (NilEmpty.string_of_uint d).
Proof.
  intros H. assert (K : forall x, digit x -> x <> c) by (intros x Hx ->; contradiction).
  induction d; cbn [NilEmpty.string_of_uint free_of]; [exact Logic.I|..]; (split; [apply K; unfold digit; cbn; tauto|exact IHd]).
Qed.
Lemma nat_free c n : ~ digit c -> free_of c (show_nat n). Proof. intros H. now apply digits_free. Qed.
Lemma comma_no_digit : ~ digit ",". Proof. intros H. unfold digit in H. cbn in H. repeat (destruct H as [H|H]; [discriminate H|]). exact H. Qed.
Lemma close_no_digit : ~ digit ")". Proof. intros H. unfold digit in H. cbn in H. repeat (destruct H as [H|H]; [discriminate H|]). exact H. Qed.
Lemma space_no_digit : ~ digit " ". Proof. intros H. unfold digit in H. cbn in H. repeat (destruct H as [H|H]; [discriminate H|]). exact H. Qed.

(** ** Tuples of pairs *)
Lemma show_pair_text a b : show_pair (a, b) = "(" ++ show_nat a ++ ", " ++ show_nat b ++ ")".
Proof. unfold show_pair, show_tuple. cbn [fst snd String.concat]. rewrite !app_assoc_s. reflexivity. Qed.
Lemma pair_cut p q s t : show_pair p ++ s = show_pair q ++ t -> p = q /\ s = t.
Proof.
  destruct p as [a b], q as [c d]. rewrite !show_pair_text, !app_assoc_s. intros H. apply app_cancel in H.
  apply (cut "," _ _ (" " ++ _) (" " ++ _)) in H as (E1 & H); [|apply nat_free, comma_no_digit..]. apply app_cancel in H.
  apply (cut ")") in H as (E2 & H); [|apply nat_free, close_no_digit..]. apply show_nat_inj in E1, E2. now subst.
Qed.
Fixpoint tail_text (l : list (nat * nat)) : string := match l with [] => ")" | x :: l => ", " ++ show_pair x ++ tail_text l end.
Lemma concat_tail x l : String.concat ", " (map show_pair (x :: l)) ++ ")" = show_pair x ++ tail_text l.
Proof.
  revert x. induction l as [|y l IH]; intros x; [reflexivity|]. change (String.concat ", " (map show_pair (x :: y :: l))) with (show_pair x ++ ", " ++ String.concat ", " (map show_pair (y :: l))).
  rewrite !app_assoc_s, IH. reflexivity.
Qed.
Lemma shape_text l : show_shape l = match l with [] => "()" | [x] => "(" ++ show_pair x ++ ",)" | x :: y :: l => "(" ++ show_pair x ++ ", " ++ show_pair y ++ tail_text l end.
Proof.
  destruct l as [|x [|y l]]; [reflexivity|reflexivity|]. unfold show_shape, show_tuple. cbn [map]. change (show_pair x :: show_pair y :: map show_pair l) with (map show_pair (x :: y :: l)).
  rewrite concat_tail. reflexivity.
Qed.
Lemma tail_inj : forall l m, tail_text l = tail_text m -> l = m.
Proof.
  induction l as [|x l IH]; intros [|y m] H; [reflexivity|discriminate H|discriminate H|]. cbn [tail_text] in H. apply app_cancel in H. apply pair_cut in H as (-> & H). f_equal. now apply IH.
Qed.
Lemma pair_open p : exists s, show_pair p = String "(" s.
Proof. destruct p as [a b]. rewrite show_pair_text. eexists. reflexivity. Qed.
Lemma shape_inj l m : show_shape l = show_shape m -> l = m.
Proof.
  rewrite !shape_text. destruct l as [|x [|y l]], m as [|z [|w m]]; intros H; try reflexivity.
  - destruct (pair_open z) as (s & E). rewrite E in H. discriminate H.
  - destruct (pair_open z) as (s & E). rewrite E in H. discriminate H.
  - destruct (pair_open x) as (s & E). rewrite E in H. discriminate H.
  - apply app_cancel in H. apply pair_cut in H as (-> & _). reflexivity.
  - apply app_cancel in H. apply pair_cut in H as (_ & H). discriminate H.
  - destruct (pair_open x) as (s & E). rewrite E in H. discriminate H.
  - apply app_cancel in H. apply pair_cut in H as (_ & H). discriminate H.
  - apply app_cancel in H. apply pair_cut in H as (-> & H). apply app_cancel in H. apply pair_cut in H as (-> & H). apply tail_inj in H. now subst.
Qed.

(** ** The text says what rank and which shapes an instance has, and determines them. *)
Theorem C101_determined (N N' : Num) (f : cmfobj (N:=N)) (g : cmfobj (N:=N')) : cmf_repr f = cmf_repr g <-> o_rank f = o_rank g /\ o_shape f = o_shape g.
Proof.
  unfold cmf_repr. split; [|intros (-> & ->); reflexivity]. intros H. apply app_cancel in H.
  apply (cut " " _ _ ("CoupledMatrixFactorization of shape " ++ _) ("CoupledMatrixFactorization of shape " ++ _)) in H as (E & H); [|apply nat_free, space_no_digit..].
  apply app_cancel in H. split; [now apply show_nat_inj|now apply shape_inj].
Qed.
Print Assumptions C101_determined.
Theorem C101_text (N : Num) (w fs : pyobj (N:=N)) : 
  cmf_repr (CmfObj w fs [(10, 15); (7, 15); (120, 15)] 3) = "(weights, factors) : rank-3 CoupledMatrixFactorization of shape ((10, 15), (7, 15), (120, 15))" /\
  cmf_repr (CmfObj w fs [(10, 0)] 12) = "(weights, factors) : rank-12 CoupledMatrixFactorization of shape ((10, 0),)".
Proof. split; reflexivity. Qed.

(** ** The summary of what a fit returns is that of the data: the given rank, and the shapes of the data matrices in their order. *)
Theorem C101_fit_summary V IE rnd (a : fitR) rank out : sensible V a rank -> ranks_kept IE -> svd_correct (e_ext V) rank -> (0 < data_sumsq (f_data a))%R ->
  cmf_aoadmm V IE rnd a = Ok out ->
  exists f, construct (py_of_cmf (out_cmf out)) = Ok f /\
    cmf_repr f = "(weights, factors) : rank-" ++ show_nat rank ++ " CoupledMatrixFactorization of shape " ++ show_shape (map (fun X => (mr X, mc X)) (f_data a)).
Proof.
  intros HS RK HE HD H. destruct (fit_final _ _ _ _ _ _ HS RK HE HD H) as (s & l2 & flags & s' & d & t & ES & EL & EF & VS & SI & MC & PO & _ & ER & EO & PA & PA' & FR & SS).
  assert (VC : valid_cmf (out_cmf out)).
  { destruct (aoadmm_ok V IE rnd a out H) as (s0 & l0 & h0 & fl & s1 & h & n & msg & _ & _ & _ & _ & HF). unfold finish in HF.
    match type of HF with (let* f := ?x in _) = _ => destruct x as [fe|]; [|discriminate] end. cbn [bind] in HF.
    destruct (revalidate (st_cmf s1)) as [c|] eqn:RV; [|discriminate]. cbn [bind] in HF. destruct (revalidate_valid _ _ RV) as (K & _).
    destruct (p_return_errors _); cbn [bind] in HF; injection HF as <-; exact K. }
  assert (EC : out_cmf out = st_cmf s') by (rewrite EO; reflexivity). set (c := out_cmf out) in *.
  exists (CmfObj (match cw c with None => PNone | Some w => py_of_vec w end) (PSeq [py_of_mat (cA c); PSeq (map py_of_mat (cBs c)); py_of_mat (cC c)]) (map (fun B => (mr B, mr (cC c))) (cBs c)) (mc (cA c))).
  assert (Hv : validate_cmf (py_of_cmf c) = Ok (map (fun B => (mr B, mr (cC c))) (cBs c), mc (cA c))).
  { destruct VC as (HA & HC & HcC & HrA & HB & Hw). apply validate_iff. exists (mr (cC c)). unfold consistent_parts. rewrite map_length.
    split; [|split; [|split]].
    - destruct (cw c) as [w|] eqn:E; [|now left]. right. exists w. unfold py_of_vec. now rewrite (Hw w eq_refl).
    - exists (mflat (cA c)). unfold py_of_mat. now rewrite HrA.
    - exists (mflat (cC c)). unfold py_of_mat. now rewrite HcC.
    - apply Forall2_py. intros i Hi. apply (HB i Hi). }
  split; [unfold construct; rewrite Hv; reflexivity|]. unfold cmf_repr. cbn [o_rank o_shape]. rewrite EC in *.
  destruct SS as (S1 & S2 & S3 & S4 & S5). rewrite S2, MC. do 3 f_equal. f_equal.
  destruct VS as ((_ & DL & DS) & _). apply (nth_ext _ _ (0, 0) (0, 0)); [rewrite !map_length, S4; symmetry; exact DL|].
  intros i Hi. rewrite map_length in Hi. rewrite (nth_indep _ _ ((fun B : matR => (mr B, mr (cC (st_cmf s')))) no_mat)) by now rewrite map_length.
  rewrite (map_nth (fun B : matR => (mr B, mr (cC (st_cmf s'))))).
  rewrite (nth_indep (map _ (f_data a)) _ ((fun X : matR => (mr X, mc X)) no_mat)) by (rewrite map_length, DL, <- S4; exact Hi).
  rewrite (map_nth (fun X : matR => (mr X, mc X))). rewrite S4, <- DL in Hi. destruct (DS i Hi) as (_ & D1 & D2). unfold nthX in D1, D2. rewrite D1, D2, S3. f_equal. exact (S5 i).
Qed.
Print Assumptions C101_fit_summary.
Example C101_nonvacuous rnd : let a := (args69 (1 / 10) (1 / 5) (3 / 10) 2 (Some (1 / 100)) (data69 1 1 2 3 4 5 6) (start69 (m22 1 1 3 2) (m22 2 2 1 1) (m22 1 1 2 2) 1 1))%R in
  exists V out, sensible V a 2 /\ ranks_kept no_ext /\ svd_correct (e_ext V) 2 /\ (0 < data_sumsq (f_data a))%R /\ cmf_aoadmm V no_ext rnd a = Ok out /\
    show_shape (map (fun X => (mr X, mc X)) (f_data a)) = "((2, 2), (1, 2))".
Proof.
  intros a. destruct ideal_exists as (E & HE & _). set (V := Env (N:=RNum) E (fun _ => []) true).
  assert (D : dependable V a 2) by (apply dependable69; lra). destruct (C51_fit_total V no_ext rnd _ 2 D no_ext_ranks (HE 2)) as (out & H).
  exists V, out. split; [apply D|]. split; [apply no_ext_ranks|]. split; [apply HE|]. split; [mcomp; lra|]. split; [exact H|reflexivity].
Qed.
