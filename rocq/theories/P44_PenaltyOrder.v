(** C88: the order of the penalties of a mode does not matter. *)
From Coq Require Import Reals Lra Lia List Arith Bool ZArith Permutation.
From Verif Require Import Num Numpy RFacts Spec SpecFacts MatFacts SvdFacts ModelSpec Penalties PenaltySpec CoupledMatrices CmfSpec CmfProofs Decomp DecompSpec DecompFacts DecompExamples
  AoRun AoLoop OrderSpec OrderProofs InitVars InitSpec Parse ParseSpec ParseProofs Fit FitSpec FitProofs StartSpec ResumeSpec SymSpec SymFit P08_Fit P09_Calls P10_Start P11_Total P25_Starts Ideal FitExamples Binary64 ReorderFacts
  PenOrderSpec PenOrderRun PenOrderFit PenOrderFixed P29_Symmetry P38_OneMode.
Import ListNotations.
Local Open Scope R_scope.

(** Two calls with the same penalties in different orders, that start from the same factors and from the same
    variables of each penalty: if one returns so does the other, with the same factors, losses, errors, reason for
    stopping and number of iterations, and the variables and gaps of the penalties in their order.  What is
    excluded: a mode with several penalties whose factor becomes exactly zero, when penalties of another mode
    have gaps too (then see [C88_zero_factor_refuted]). *)
Theorem C88_order_partial V IE IE' rnd rnd' (a b : fitR) rank p c v v' o :
  sensible V a rank -> sensible V b rank -> ranks_kept IE -> ranks_kept IE' -> svd_correct (e_ext V) rank -> regs_in_order p a b ->
  starts_at V IE rnd a c v -> starts_at V IE' rnd' b c v' -> vars_in_order (used a p) v v' ->
  one_mode v \/ factors_nonzero V IE rnd a v ->
  cmf_aoadmm V IE rnd a = Ok o -> exists o', cmf_aoadmm V IE' rnd' b = Ok o' /\ output_in_order (used a p) o o'.
Proof.
  intros HS HS' RK RK' HE HO ST ST' HV HN H. destruct (start_order V IE IE' rnd rnd' a b rank p c v v' HS HS' RK RK' HO ST ST' HV) as (s & s' & l2 & E1 & E2 & _ & EV & SS & FM).
  rewrite <- EV in HN. exact (order_fit V IE IE' rnd rnd' a b rank (used a p) s s' l2 o HS RK HE (proj1 HO) (proj1 (proj2 HO)) E1 E2 SS FM HN H).
Qed.
Print Assumptions C88_order_partial.

(** Nothing has to be assumed about the start if no auxiliary or dual variable is drawn at random: reorder the
    penalty objects in the call, whatever initialises the factors. *)
Theorem C88_objects_partial V IE rnd (a b : fitR) rank p c v o :
  sensible V a rank -> ranks_kept IE -> svd_correct (e_ext V) rank -> objects_in_order p a b -> fixed_starts a -> accepted V b ->
  starts_at V IE rnd a c v -> one_mode v \/ factors_nonzero V IE rnd a v ->
  cmf_aoadmm V IE rnd a = Ok o -> exists o', cmf_aoadmm V IE rnd b = Ok o' /\ output_in_order (used a p) o o'.
Proof.
  intros HS RK HE HO FS AC ST HN H. destruct (start_setup _ _ _ _ _ _ _ HS RK ST) as (s & l2 & SE & EC & EV). destruct (setup_fixed V IE rnd a b p s l2 HO FS AC SE) as (s' & SE' & SS & FM).
  rewrite <- EV in HN. exact (order_fit V IE IE rnd rnd a b rank (used a p) s s' l2 o HS RK HE (proj1 HO) (proj1 (proj2 HO)) SE SE' SS FM HN H).
Qed.
Print Assumptions C88_objects_partial.

(** ** When a factor becomes zero *)
(** In double precision: data 1, rank 1, all factors 1, B is not updated, one iteration with one inner iteration.
    C has a non-negativity penalty, A has the penalties [us]. *)
Definition d11 (x : double) : mat (N:=DNum) := Mat (N:=DNum) 1 1 [[x]].
Definition d_given (x : double) : initval (N:=DNum) := ITensor (N:=DNum) [1%nat; 1%nat] [x].
Definition d_nn (aux dual : double) : pobj (N:=DNum) := PObj (N:=DNum) (NonNegativity (N:=DNum)) (d_given aux) (d_given dual).
Definition d_box (aux dual : double) : pobj (N:=DNum) := PObj (N:=DNum) (Box (N:=DNum) (Some (lit 1 1)) None) (d_given aux) (d_given dual).
Definition zero_call (us : list (pobj (N:=DNum))) : fitargs (N:=DNum) :=
  FitArgs (N:=DNum) [d11 (lit 1 1)] (PyInt 1) (InitSeq [PNone; PSeq [PArr (N:=DNum) [1%nat; 1%nat] [lit 1 1]; PSeq [PArr (N:=DNum) [1%nat; 1%nat] [lit 1 1]]; PArr (N:=DNum) [1%nat; 1%nat] [lit 1 1]]]) 1 (AOne None)
    (KwArgs (N:=DNum) (AOne None) (AOne None) (AOne None) (AOne None) (AOne None) false (AOne None) (AOne None) (AOne None))
    (RList [EList (map (RPen (N:=DNum)) us); EList []; EList [RPen (N:=DNum) (d_nn (lit 1 1) (lit 0 1))]])
    (lit 2 1) (CBool false) (IStr Zeros) (IStr Zeros) true None None (Some (lit 1 1000)) None 1 true false true true true.
Definition zero_result (us : list (pobj (N:=DNum))) := cmf_aoadmm double_env double_init double_rnd (zero_call us).
Definition nn_box : list (pobj (N:=DNum)) := [d_nn (lit 0 1) (lit 0 1); d_box (lit 1 1) (lit 2 1)].
Definition box_nn : list (pobj (N:=DNum)) := [d_box (lit 1 1) (lit 2 1); d_nn (lit 0 1) (lit 0 1)].
Definition zero_check (us : list (pobj (N:=DNum))) (ga : list (xnum (N:=DNum))) (feas : bool) : Prop := exists v d,
  zero_result us = Ok (Output (N:=DNum) (Cmf (N:=DNum) None (d11 (lit 0 1)) [d11 (lit 1 1)] (d11 (lit 1 1))) (Some v) (Some d)) /\
  last (d_gaps d) ([], [], []) = (ga, [], [Fin (N:=DNum) (lit 0 1)]) /\ d_feasible d = Some feas /\ d_n_iter d = 1%nat.
(** The iteration ends with A = 0 and the two gaps 0/0 and 2/0.  With the non-negativity penalty first the result is reported
    as feasible, although the distance of A from its lower bound 1 is infinite relative to A; with the bound first it is not.
    ([max] of the two gaps is the first, and [max] with the gap of C drops NaN but not infinity.) *)
Theorem C88_zero_factor_refuted :
  zero_check nn_box [NaN; PInf] true /\ zero_check box_nn [PInf; NaN] false.
Proof.
  split.
  - let x := eval vm_compute in (zero_result nn_box) in (assert (R0 : zero_result nn_box = x) by (vm_cast_no_check (eq_refl x)));
    match type of R0 with _ = Ok (Output _ (Some ?v) (Some ?d)) => exists v, d; split; [exact R0|split; [reflexivity|split; reflexivity]] end.
  - let x := eval vm_compute in (zero_result box_nn) in (assert (R0 : zero_result box_nn = x) by (vm_cast_no_check (eq_refl x)));
    match type of R0 with _ = Ok (Output _ (Some ?v) (Some ?d)) => exists v, d; split; [exact R0|split; [reflexivity|split; reflexivity]] end.
Qed.
Print Assumptions C88_zero_factor_refuted.

(** ** A case that meets the hypotheses *)
(** Data 2, rank 1, all factors start at 1 and are updated, ridge 1.  C has the upper bound 1/2 as a keyword, a non-negativity and a norm
    constraint as objects, in this order or the other. *)
Definition nn88 : pobjR := PObj (N:=RNum) NonNegativity (IStr Zeros) (IStr Zeros).
Definition ball88 : pobjR := PObj (N:=RNum) (L2Ball (N:=RNum) 1 true) (IStr Zeros) (IStr Zeros).
Definition args88 (us : list pobjR) : fitR :=
  FitArgs (N:=RNum) [m11 2] (PyInt 1) (InitSeq [PNone; PSeq [py_of_mat (m11 1); PSeq [py_of_mat (m11 1)]; py_of_mat (m11 1)]]) 7 (AOne (Some 1))
    (KwArgs (AOne None) (AOne None) (AIter [None; None; Some (1 / 2)]) (AOne None) (AOne None) false (AOne None) (AOne None) (AOne None))
    (RList [EList []; EList []; EList (map RPen us)])
    2 (CBool false) (IStr Zeros) (IStr Zeros) true (Some (1 / 10)) (Some (1 / 10)) (Some (1 / 10)) None 3 true true true true true.
Definition kw88 (k : nat) : modekw (N:=RNum) := ModeKw (N:=RNum) None None (if (k =? 2)%nat then Some (1 / 2) else None) None None false None None None.
Definition user88 (us : list pobjR) (k : nat) : list pobjR := if (k =? 2)%nat then us else [].
Lemma kw88_only us k kw : (k < 3)%nat -> mode_values (f_kw (args88 us)) k kw -> kw = kw88 k.
Proof.
  intros Hk H. eapply mode_value_unique; [exact H|]. destruct k as [|[|[|k]]]; try lia; repeat split.
Qed.
Lemma user88_only us k u : (k < 3)%nat -> user_penalties (f_regs (args88 us)) k u -> u = user88 us k.
Proof. intros Hk H. eapply user_unique; [exact H|]. destruct k as [|[|[|k]]]; [reflexivity|reflexivity|reflexivity|lia]. Qed.
Definition plain88 (o : pobjR) : Prop := o = nn88 \/ o = ball88.
Lemma dependable88 E us : Forall plain88 us -> dependable (Env (N:=RNum) E (fun _ => []) true) (args88 us) 1.
Proof.
  intros HU. assert (UF : forall k (Q : pobjR -> Prop), Q nn88 -> Q ball88 -> Forall Q (user88 us k)).
  { intros k Q Q1 Q2. unfold user88. destruct (k =? 2)%nat; [|constructor]. eapply Forall_impl; [|exact HU]. intros o [->| ->]; assumption. }
  split.
  { unfold sensible. cbn [f_data f_rank f_init f_scale f_l2 args88]. split; [discriminate|]. split; [repeat constructor|].
    split; [reflexivity|]. split; [lia|]. split; [do 5 eexists; reflexivity|]. split; [lra|]. split; [intros k v _ ->; cbn; lra|]. split.
    - intros k r kw Hk _ MV. rewrite (kw88_only us k kw Hk MV). split; [|intros M E0; discriminate E0].
      intros hi E0. cbn in E0. destruct (k =? 2)%nat; [|discriminate]. injection E0 as <-. split; [intros lo E1; discriminate E1|intros _; lra].
    - split.
      + intros k r u Hk _ H. rewrite (user88_only us k u Hk H). apply UF; [repeat constructor|cbn; lra].
      + intros [K|(u & H & K)]; [discriminate K|]. rewrite (user88_only us 1%nat u ltac:(lia) H) in K. inversion K. }
  split; [intros X [<-|[]]; reflexivity|]. split.
  { exists start82. split; [reflexivity|]. split; [|reflexivity]. apply (us_valid 1). }
  split; [reflexivity|]. split; [discriminate|].
  split; [eexists; split; [reflexivity|discriminate]|]. split; [eexists; split; [reflexivity|discriminate]|].
  split; [exact Logic.I|]. split; [repeat split; exact Logic.I|]. split.
  { cbn. split.
    - intros e [<-|[<-|[<-|[]]]]; [exists []|exists []|exists us]; now left.
    - intros [|[|[|k]]] Hk; [exists []|exists []|exists us|lia]; reflexivity. }
  split.
  { intros k kw Hk MV. rewrite (kw88_only us k kw Hk MV). unfold acceptable, kw88. cbn [k_l1 k_tv k_norm k_gl2 strength].
    split; [lra|]. split; [lra|]. split; [intros K; now destruct K|]. split; [lra|exact Logic.I]. }
  split.
  { intros k Hk _. split; [intros v ->; cbn; lra|]. split.
    - intros kw MV. rewrite (kw88_only us k kw Hk MV). unfold asks_plain. cbn. auto.
    - intros u H. rewrite (user88_only us k u Hk H). apply UF; (split; [exact Logic.I|]; split; eexists; (split; [reflexivity|discriminate])). }
  split.
  { intros _ _ [(kw & MV & K)|(u & H & K)].
    - rewrite (kw88_only us 0%nat kw ltac:(lia) MV) in K. unfold asks_matrixwise, wants, kw88 in K. cbn in K. destruct K as [K|[K|[K|(M & K)]]]; try discriminate K; lra.
    - rewrite (user88_only us 0%nat u ltac:(lia) H) in K. inversion K. }
  intros _. discriminate.
Qed.
Definition swap88 (m : nat) : list nat := if (m =? 2)%nat then [1%nat; 0%nat] else [].
Lemma order88 : objects_in_order swap88 (args88 [nn88; ball88]) (args88 [ball88; nn88]).
Proof.
  do 7 (split; [first [reflexivity|repeat split]|]). intros m u u' Hm H H'. rewrite (user88_only _ m u Hm H), (user88_only _ m u' Hm H'). unfold user88, swap88.
  destruct (m =? 2)%nat; (split; [|split; [reflexivity|]]); cbn; [apply perm_swap| |constructor|intros k Hk; lia].
  intros [|[|k]] Hk; [reflexivity|reflexivity|lia].
Qed.
(** Both calls return, with the same factors and with the variables of the two penalties exchanged. *)
Example C88_nonvacuous rnd : exists V c v o o', sensible V (args88 [nn88; ball88]) 1 /\ svd_correct (e_ext V) 1 /\ objects_in_order swap88 (args88 [nn88; ball88]) (args88 [ball88; nn88]) /\
  fixed_starts (args88 [nn88; ball88]) /\ accepted V (args88 [ball88; nn88]) /\ starts_at V no_ext rnd (args88 [nn88; ball88]) c v /\ one_mode v /\
  cmf_aoadmm V no_ext rnd (args88 [nn88; ball88]) = Ok o /\ cmf_aoadmm V no_ext rnd (args88 [ball88; nn88]) = Ok o' /\ output_in_order (used (args88 [nn88; ball88]) swap88) o o'.
Proof.
  destruct ideal_exists as (E & HE & _). set (V := Env (N:=RNum) E (fun _ => []) true).
  assert (P1 : Forall plain88 [nn88; ball88]) by (unfold plain88; auto). assert (P2 : Forall plain88 [ball88; nn88]) by (unfold plain88; auto).
  pose proof (dependable88 E _ P1) as D1. pose proof (dependable88 E _ P2) as D2. fold V in D1, D2.
  destruct (C51_fit_total V no_ext rnd _ 1 D1 no_ext_ranks (HE 1%nat)) as (o & H).
  assert (FS : fixed_starts (args88 [nn88; ball88])).
  { split; [split; discriminate|]. split; [split; discriminate|]. intros m u Hm HU. rewrite (user88_only _ m u Hm HU). unfold user88. destruct (m =? 2)%nat; repeat constructor; discriminate. }
  assert (AC : accepted V (args88 [ball88; nn88])) by (destruct D2 as (_ & _ & _ & Q1 & _ & _ & _ & Q2 & Q3 & Q4 & Q5 & _); split; [exact Q1|]; auto).
  assert (ST : exists c v, starts_at V no_ext rnd (args88 [nn88; ball88]) c v /\ one_mode v).
  { unfold cmf_aoadmm in H. destruct (setup V no_ext rnd (args88 [nn88; ball88])) as [[s l2]|] eqn:SE; [|discriminate H].
    exists (st_cmf s), (vars_of s). split; [apply (setup_start V no_ext rnd _ 1 s l2 (proj1 D1) no_ext_ranks); [discriminate|exact SE]|].
    destruct (setup_ok _ _ _ _ _ _ _ (proj1 D1) no_ext_ranks SE) as (_ & _ & _ & _ & _ & t & (EP & TA & TB & _)). cbn [f_updA f_updB args88] in TA, TB.
    assert (NP : forall m, (m < 2)%nat -> pick t m = []).
    { intros m Hm. destruct (parse_all_ok _ _ _ _ _ _ EP m ltac:(lia)) as (kw & pa & u & MV & PM & US & ->). rewrite (user88_only _ m u ltac:(lia) US), (kw88_only _ m kw ltac:(lia) MV) in *.
      apply parse_mode_iff in PM as (_ & gl & GL & ->). unfold gl_ok in GL. assert (K2 : (m =? 2)%nat = false) by (apply Nat.eqb_neq; lia).
      unfold user88, kw88 in *. rewrite K2 in *. cbn [k_gl2] in GL. subst gl. cbn. unfold s_l1. cbn [k_l1 k_nn].
      match goal with |- context[if ntruthy ?x then _ else _] => replace (ntruthy (N:=RNum) x) with false by (symmetry; apply not_true_iff_false; rewrite ntruthy_R; intros Q; apply Q; reflexivity) end. reflexivity. }
    left. unfold vars_of. cbn [v_auxA v_auxB]. rewrite (NP 0%nat) in TA by lia. rewrite (NP 1%nat) in TB by lia. cbn in TA, TB. apply map_eq_nil in TA, TB. rewrite TA, TB. split; reflexivity. }
  destruct ST as (c & v & ST & OM).
  destruct (C88_objects_partial V no_ext rnd _ _ 1 swap88 c v o (proj1 D1) no_ext_ranks (HE 1%nat) order88 FS AC ST (or_introl OM) H) as (o' & H' & OO).
  exists V, c, v, o, o'. split; [exact (proj1 D1)|]. split; [exact (HE 1%nat)|]. split; [exact order88|]. repeat (split; [assumption|]). exact OO.
Qed.
