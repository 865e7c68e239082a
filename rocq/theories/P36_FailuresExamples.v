(** Calls that meet the hypotheses of C80, and calls that do raise. *)
From Coq Require Import Reals Lra Lia List Arith Bool ZArith.
From Verif Require Import Num Numpy RFacts Spec SpecFacts MatFacts ModelSpec Unimodal Penalties PenaltySpec PenaltyMain CoupledMatrices CmfSpec CmfProofs Decomp DecompSpec
  AoState AoLoop AoRun AoMain TotalRun InitVars InitSpec InitProofs Parse ParseSpec ParseProofs Fit FitSpec FitProofs DecompFacts DecompExamples FitExamples P03_CoupledMatrices P05_Runs P06_Init P07_Parse P08_Fit P09_Calls P10_Start P11_Total Ideal
  Custom CustomBase CustomSpec CustomFit CustomCalls CustomExample P31_Custom P32_CustomExample CustomTotalSpec CustomTotal P33_CustomTotal P34_CustomExamples FailSpec FailRun FailBuiltin FailFit P35_Failures.
Import ListNotations.
Local Open Scope R_scope.

(** Singular vectors of the right shapes, correct for square and tall matrices of [k] columns. *)
Lemma full_svd : exists E : ext (N:=RNum), (forall k, svd_correct E k) /\ (forall k, svd_shapes E k).
Proof.
  destruct ideal_exists as (E & HE & _).
  exists (Ext (N:=RNum) (fun M k => if (mc M =? k)%nat then x_svd E M k else (mzeros (mr M) k, [], mzeros k (mc M))) (x_tv E)). split.
  - intros k M W C K. cbn. rewrite C, Nat.eqb_refl. now apply HE.
  - intros k M W K1 K2. cbn. destruct (Nat.eqb_spec (mc M) k) as [C|C].
    + specialize (HE k M W C K1). destruct (x_svd E M k) as [[U s] Vh]. destruct HE as (W1 & S1 & S2 & _ & W2 & S3 & S4 & _). unfold shaped. auto 10.
    + split; (split; [auto with mwf|split; reflexivity]).
Qed.

(** ** Two matrices with one column; a unit simplex for A (with a given initial value), PARAFAC2
    and non-negativity for the B_i, an L1 penalty for C, no ridge, singular vectors as a start. *)
Definition fl_kw : kwargs (N:=RNum) :=
  KwArgs (AIter [None; Some true; None]) (AOne None) (AOne None) (AOne None) (AOne None) true (ADict (fun m => if (m =? 2)%nat then Some (Some (1 / 10)) else None)) (AOne None) (AOne None).
Definition fl_user : list pobjR := [PObj (N:=RNum) UnitSimplex (ITensor [2%nat; 1%nat] [1; 0]) (IStr Zeros)].
Definition fl_args : fitR :=
  FitArgs (N:=RNum) [Mat (N:=RNum) 2 1 [[1]; [2]]; m11 3] (PyInt 1) (InitName MSvd) 7 (AOne None) fl_kw
    (RList [EList (map RPen fl_user); EList []; EList []]) 1 CA (IStr RandomUniform) (IStr RandomUniform) true
    (Some (1 / 100)) (Some (1 / 1000)) (Some (1 / 10000)) None 5 true true true true true.
Lemma fl_in_order E : in_order (Env (N:=RNum) E (fun _ => []) true) fl_args 1.
Proof.
  assert (UPX : forall m u, (m < 3)%nat -> user_penalties (f_regs fl_args) m u -> u = if (m =? 0)%nat then fl_user else []).
  { intros m u Hm H. eapply user_unique; [exact H|]. destruct m as [|[|[|m]]]; [reflexivity|reflexivity|reflexivity|lia]. }
  assert (KWX : forall m kw, mode_values (f_kw fl_args) m kw -> k_lower kw = None /\ k_upper kw = None /\ k_norm kw = None /\ k_uni kw = None /\
     (k_l1 kw = None \/ k_l1 kw = Some (1 / 10)) /\ k_tv kw = None /\ k_gl2 kw = None).
  { intros m kw (M1 & M2 & M3 & M4 & M5 & M6 & M7 & M8 & M9). cbn in M1, M2, M3, M4, M5, M6, M7, M8. repeat (split; [assumption|]). split; [|auto].
    destruct (m =? 2)%nat; destruct M6 as [K|(K & K')]; try discriminate; auto. injection K as K. auto. }
  split.
  { unfold sensible. cbn [f_data f_rank f_init f_scale f_l2 fl_args]. split; [discriminate|]. split.
    { repeat constructor. }
    split; [reflexivity|]. split; [lia|]. split; [exact Logic.I|]. split; [lra|]. split; [intros m v _ ->; cbn; lra|]. split.
    - intros m r kw Hm _ MV. destruct (KWX m kw MV) as (K2 & K3 & K4 & K5 & K6 & K7 & K8). split.
      + intros hi E0. congruence.
      + intros M E0. congruence.
    - split.
      + intros m r u Hm _ HU. rewrite (UPX m u Hm HU). destruct (m =? 0)%nat; repeat constructor.
      + intros _ X [<-|[<-|[]]]; cbn; lia. }
  split; [intros X [<-|[<-|[]]]; reflexivity|]. split; [intros X [<-|[<-|[]]]; cbn; lia|]. split; [reflexivity|]. split; [discriminate|].
  split; [eexists; split; [reflexivity|discriminate]|]. split; [eexists; split; [reflexivity|discriminate]|].
  split; [exact Logic.I|]. split; [repeat split; exact Logic.I|]. split.
  { cbn. split.
    - intros e [<-|[<-|[<-|[]]]]; [exists fl_user|exists []|exists []]; now left.
    - intros [|[|[|m]]] Hm; [exists fl_user|exists []|exists []|lia]; reflexivity. }
  split.
  { intros m kw Hm MV. destruct (KWX m kw MV) as (K2 & K3 & K4 & K5 & K6 & K7 & K8). unfold acceptable. rewrite K4, K7, K8. cbn.
    destruct K6 as [K6|K6]; rewrite K6; cbn; (split; [lra|]); (split; [lra|]); (split; [congruence|]); (split; [lra|exact Logic.I]). }
  split.
  { intros m Hm _ u HU. rewrite (UPX m u Hm HU). destruct (Nat.eqb_spec m 0) as [E0|E0]; [subst m|constructor]. constructor; [|constructor].
    split; [|left; eexists; split; [reflexivity|discriminate]]. cbn. right; left. exists [2%nat; 1%nat], [1; 0]. split; [reflexivity|]. split; [discriminate|].
    exists 2%nat, 1%nat. split; [reflexivity|]. split; [reflexivity|]. left. auto. }
  split; [intros _ K; discriminate K|]. intros _. discriminate.
Qed.
Example ex_in_order : exists V, in_order V fl_args 1 /\ ~ dependable V fl_args 1 /\ svd_correct (e_ext V) 1 /\ svd_shapes (e_ext V) 1.
Proof.
  destruct full_svd as (E & H1 & H2). exists (Env (N:=RNum) E (fun _ => []) true). split; [apply fl_in_order|]. split; [|split; [apply H1|apply H2]].
  intros (_ & _ & K & _). exact K.
Qed.

(** ** The division by zero does happen: a start of zeros, no ridge, only C updated *)
Definition fz_args : fitR :=
  FitArgs (N:=RNum) [m11 2] (PyInt 1) (InitSeq [PNone; PSeq [py_of_mat (m11 0); PSeq [py_of_mat (m11 0)]; py_of_mat (m11 0)]]) 1 (AOne None)
    no_kw RNone 1 (CBool false) (IStr Zeros) (IStr Zeros) true None None None None 1 false false true false true.
Definition zs : state (N:=RNum) := St (N:=RNum) (Cmf (N:=RNum) None (m11 0) [m11 0] (m11 0)) [] [] [] None.
Lemma zs_valid : valid_state [m11 2] zs.
Proof.
  split; [|split; [|split; [constructor|split; constructor]]].
  - split; [|split; [reflexivity|]].
    + split; [apply m11_wf|]. split; [apply m11_wf|]. split; [reflexivity|]. split; [reflexivity|]. split; [|discriminate].
      intros [|i] Hi; [|cbn in Hi; lia]. split; [apply m11_wf|reflexivity].
    + intros [|i] Hi; [|cbn in Hi; lia]. split; [apply m11_wf|split; reflexivity].
  - repeat split; try (cbn; lia). intros [|i] Hi; cbn in *; lia.
Qed.
Lemma zero_system E (b : rmat) : svd_correct E 1 -> solve_mat (lhs_svd E (m11 0)) b = Err NonFinite.
Proof.
  intros HE. assert (Hd : has_svd (m11 0) 1 (lhs_svd E (m11 0))) by (apply HE; [apply m11_wf|reflexivity|cbn; lia]).
  destruct (lhs_svd E (m11 0)) as [[U s] Vh]. destruct Hd as (_ & _ & _ & LS & _ & _ & _ & SV). unfold solve_mat.
  destruct s as [|x [|y s]]; try discriminate. replace (finite_svd (U, [x], Vh)) with false; [reflexivity|]. symmetry. cbn [finite_svd forallb]. rewrite andb_true_r. apply ntruthy_false.
  destruct SV as (S1 & S2 & S3 & S4). specialize (S1 0%nat 0%nat ltac:(lia) ltac:(lia)). specialize (S2 0%nat 0%nat ltac:(lia) ltac:(lia)). specialize (S4 0%nat 0%nat ltac:(cbn; lia) ltac:(cbn; lia)).
  change (mr (m11 0)) with 1%nat in *. change (mc (m11 0)) with 1%nat in *. rewrite ?rsum_S, ?rsum_0 in *.
  change (rget (m11 0) 0 0) with 0 in S4. change (at_ [x] 0) with x in S4. change (kron 0 0) with 1 in *. cbn [num RNum] in *.
  set (u := rget U 0 0) in *. set (v := rget Vh 0 0) in *. replace x with (u * u * (v * v) * x) by (replace (u * u) with 1 by lra; replace (v * v) with 1 by lra; ring).
  replace (u * u * (v * v) * x) with (u * v * (u * x * v)) by ring. replace (u * x * v) with 0 by lra. ring.
Qed.
Lemma zs_update E : svd_correct E 1 -> admm_update_C E [m11 2] (Cmf (N:=RNum) None (m11 0) [m11 0] (m11 0)) [] 0 1 None 1 = Err NonFinite.
Proof.
  intros HE. unfold admm_update_C. cbn [cA cBs cC].
  assert (L : msum_list (N:=RNum) (C_lhs_terms [m11 2] [m11 0] (m11 0)) = Some (m11 0)) by (meq; ring).
  assert (H : msum_list (N:=RNum) (C_rhs_terms [m11 2] [m11 0] (m11 0)) = Some (m11 0)) by (meq; ring).
  rewrite L, H. cbv zeta. cbn [length].
  match goal with |- context[lhs_svd E ?m] => assert (D : m = m11 0) by (meq; field) end.
  rewrite D. cbn [inner_loop]. unfold C_step. cbn [shifted_mats mapM bind]. rewrite zero_system by exact HE. reflexivity.
Qed.
Example ex_division_by_zero rnd : exists V, in_order V fz_args 1 /\ svd_correct (e_ext V) 1 /\ svd_shapes (e_ext V) 1 /\ cmf_aoadmm V no_ext rnd fz_args = Err NonFinite.
Proof.
  destruct full_svd as (E & HE & HSH). set (V := Env (N:=RNum) E (fun _ => []) true). exists V.
  assert (HD : 0 < data_sumsq [m11 2]) by (rewrite cs_data; lra).
  split; [|split; [apply HE|split; [apply HSH|]]].
  - assert (KWX : forall m kw, mode_values (f_kw fz_args) m kw -> k_upper kw = None /\ k_norm kw = None /\ k_l1 kw = None /\ k_tv kw = None /\ k_gl2 kw = None).
    { intros m kw (M1 & M2 & M3 & M4 & M5 & M6 & M7 & M8 & M9). cbn in M1, M2, M3, M4, M5, M6, M7, M8. auto. }
    split.
    { unfold sensible. cbn [f_data f_rank f_init f_scale f_l2 f_kw f_regs fz_args]. split; [discriminate|].
      split; [constructor; [|constructor]; split; [apply m11_wf|cbn; lia]|]. split; [reflexivity|]. split; [lia|]. split; [do 5 eexists; reflexivity|]. split; [lra|].
      split; [intros m v _ K; cbn in K; subst v; cbn; lra|].
      split; [intros m r kw _ _ (_ & L & U & _ & _ & _ & _ & G & _); cbn in L, U, G; split; [intros hi K; congruence|intros M K; congruence]|].
      split; [intros m r u _ _ ->; constructor|]. intros [K|(u & -> & K)]; [discriminate K|inversion K]. }
    split; [intros X [<-|[]]; reflexivity|].
    split; [exists (Cmf (N:=RNum) None (m11 0) [m11 0] (m11 0)); split; [reflexivity|]; split; [apply zs_valid|reflexivity]|]. split; [reflexivity|]. split; [discriminate|].
    split; [eexists; split; [reflexivity|discriminate]|]. split; [eexists; split; [reflexivity|discriminate]|].
    split; [exact Logic.I|]. split; [repeat split; exact Logic.I|]. split; [exact Logic.I|].
    split.
    { intros m kw Hm MV. destruct (KWX m kw MV) as (K3 & K4 & K6 & K7 & K8). unfold acceptable. rewrite K4, K6, K7, K8. cbn.
      split; [lra|]. split; [lra|]. split; [congruence|]. split; [lra|exact Logic.I]. }
    split; [intros m Hm _ u ->; constructor|]. split; [discriminate|]. intros (t & K & _). discriminate K.
  - assert (ES : setup V no_ext rnd fz_args = Ok (zs, (None, None, None))).
    { unfold setup, fz_args. cbn [f_svd f_data f_rank f_init f_l2 f_kw f_regs f_aux f_dual f_updA f_updB f_updC negb].
      match goal with |- context[initialize_cmf ?a ?b ?c ?d ?e ?f ?g] =>
        assert (E1 : initialize_cmf a b c d e f g = Ok (Cmf (N:=RNum) None (m11 0) [m11 0] (m11 0), 0%nat)) by reflexivity end.
      rewrite E1. cbn [bind listify]. pose proof (parse29 V) as PA. unfold args29 in PA. cbn [f_kw f_aux f_dual f_regs] in PA. rewrite PA. reflexivity. }
    set (P := fit_params (N:=RNum) fz_args (None, None, None) (false, false)).
    assert (S1 : outer_step E P [m11 2] zs = Err NonFinite).
    { unfold outer_step, upd_B, upd_C, upd_A. cbn [P fit_params fz_args f_updA f_updB f_updC p_updA p_updB p_updC p_l2C p_inner p_inner_tol p_scale bind f_scale f_inner f_inner_tol l2_value].
      cbn [st_cmf st_rC zs].
      match goal with |- context[admm_update_C E ?x ?c ?r ?l ?n ?t ?q] => change (admm_update_C E x c r l n t q) with (admm_update_C E [m11 2] (Cmf (N:=RNum) None (m11 0) [m11 0] (m11 0)) [] 0 1 None 1) end.
      rewrite zs_update by apply HE. reflexivity. }
    unfold cmf_aoadmm. rewrite ES. cbn [bind]. cbn [f_data f_const f_n_iter fz_args const_flags f_return_vars].
    match goal with |- context[init_hist ?p ?x ?s] => assert (H1 : exists h, init_hist p x s = Ok h) end.
    { unfold init_hist. change (state_loss (fit_params _ _ _) [m11 2] zs) with (state_loss P [m11 2] zs). rewrite (state_loss_ok _ _ _ zs_valid (or_introl eq_refl) HD). cbn [bind]. rewrite (state_gaps_val _ _ zs_valid). cbn [bind]. eauto. }
    destruct H1 as (h & H1). rewrite H1. cbn [bind]. match goal with |- context[run ?e ?p ?x ?n ?s] => change (run e p x n s) with (run E P [m11 2] 1 zs) end.
    unfold run. change (init_hist P [m11 2] zs) with (init_hist (fit_params fz_args (None, None, None) (false, false)) [m11 2] zs).
    match type of H1 with ?x = _ => change (init_hist (fit_params fz_args (None, None, None) (false, false)) [m11 2] zs) with x end. rewrite H1. cbn [bind].
    change (Z.to_nat 1) with 1%nat. cbn [ao_loop]. rewrite S1. reflexivity.
Qed.

(** ** Objects that never fail are reliable whatever is allowed, and calls that C51 and C79
    cover are in order. *)
Lemma ok_yields {A} (al : exn -> Prop) (Q : A -> Prop) r : (exists y, r = Ok y /\ Q y) -> yields al Q r.
Proof. intros (y & -> & H). exact H. Qed.
Lemma sound_reliable {X} (al : exn -> Prop) rnd Xs rank q m (o : uobj (N:=RNum) X) : sound_object rnd Xs rank q m o -> reliable_object al rnd Xs rank q m o.
Proof.
  assert (ST : forall mm (Q : uauxval (N:=RNum) X -> Prop) D, sound_start rnd Xs rank mm Q D o -> reliable_start al rnd Xs rank mm Q D o).
  { intros mm Q D H pos. destruct (H pos) as ((v & p & E1 & Q1) & w & p' & E2 & Q2). rewrite E1, E2. auto. }
  assert (MA : forall r k I c, sound_matrix (X:=X) r k I c -> reliable_matrix al r k I c).
  { intros r k I c (H1 & H2 & H3). split; [|split].
    - intros. apply ok_yields. auto.
    - intros x M Ix SM. apply ok_yields. now apply H2.
    - intros M SM. destruct (H3 M SM) as (v & ->). exact Logic.I. }
  destruct m as [|[|m]]; cbn [sound_object reliable_object]; intros (I & SS & SM); exists I; (split; [now apply ST|]).
  - destruct q; [now apply MA|]. destruct SM as ((H1 & H2 & H3) & IA). split; [|exact IA]. split; [|split].
    + intros. apply ok_yields. auto.
    + intros x M Ix SM. apply ok_yields. now apply H2.
    + intros M SM. destruct (H3 M SM) as (v & ->). exact Logic.I.
  - destruct SM as (H1 & H2 & H3). split; [|split].
    + intros. apply ok_yields. auto.
    + intros. apply ok_yields. auto.
    + intros Ms SM. destruct (H3 Ms SM) as (v & ->). exact Logic.I.
  - now apply MA.
Qed.
Lemma dependable_in_order V a rank : dependable V a rank -> in_order V a rank.
Proof.
  intros (HS & SC & ST & SV & CO & NA & ND & WL & WK & GR & AC & UP & CA & TO).
  split; [exact HS|]. split; [exact SC|]. split; [unfold start_in_order; unfold start_ok in ST; destruct (f_init a) as [|[]]; auto; contradiction|].
  do 8 (split; [assumption|]). split; [|auto]. intros m Hm Um u HU. destruct (UP m Hm Um) as (_ & _ & K). eapply Forall_impl; [|exact (K u HU)]. intros o (RF & K1 & K2).
  split; [|now left]. destruct (o_pen o); try (now left). contradiction.
Qed.

(** ** A class of the user whose update refuses negative entries *)
Definition picky_row (row : list R) (_ : R) (_ : list R) : res (list R) := if forallb (Rleb 0) row then Ok row else Err ValueError.
Definition picky_class {X} : cls (N:=RNum) X := Cls (N:=RNum) BRow true (Some picky_row) None None None None None None None None None.
Definition args80 : fitR :=
  FitArgs (N:=RNum) [Mat (N:=RNum) 3 2 [[1; 0]; [2; 1]; [3; -1]]; Mat (N:=RNum) 1 2 [[1; 1]]] (PyInt 2) (InitName MRandom) 7 (AOne None) no_kw
    RNone 1 CB (IStr RandomUniform) (IStr RandomUniform) true (Some (1 / 100)) (Some (1 / 1000)) (Some (1 / 10000)) None 5 true true true true true.
Lemma args80_in_order E : in_order (Env (N:=RNum) E (fun _ => []) true) args80 2.
Proof.
  assert (KWX : forall m kw, mode_values (f_kw args80) m kw -> k_lower kw = None /\ k_upper kw = None /\ k_norm kw = None /\ k_uni kw = None /\ k_l1 kw = None /\ k_tv kw = None /\ k_gl2 kw = None /\ k_pf2 kw = false).
  { intros m kw (M1 & M2 & M3 & M4 & M5 & M6 & M7 & M8 & M9). cbn in *. repeat split; assumption. }
  split.
  { unfold sensible. cbn [f_data f_rank f_init f_scale f_l2 args80]. split; [discriminate|]. split.
    { repeat constructor. }
    split; [reflexivity|]. split; [lia|]. split; [exact Logic.I|]. split; [lra|]. split; [intros m v _ ->; cbn; lra|]. split.
    - intros m r kw Hm _ MV. destruct (KWX m kw MV) as (K2 & K3 & K4 & K5 & K6 & K7 & K8 & K9). split.
      + intros hi E0. congruence.
      + intros M E0. congruence.
    - split.
      + intros m r u Hm _ HU. cbn in HU. subst u. constructor.
      + intros [K|(u & HU & K)]; [discriminate K|]. cbn in HU. subst u. inversion K. }
  split; [intros X [<-|[<-|[]]]; reflexivity|]. split; [exact Logic.I|]. split; [reflexivity|]. split; [discriminate|].
  split; [eexists; split; [reflexivity|discriminate]|]. split; [eexists; split; [reflexivity|discriminate]|].
  split; [exact Logic.I|]. split; [repeat split; exact Logic.I|]. split; [exact Logic.I|].
  split.
  { intros m kw Hm MV. destruct (KWX m kw MV) as (K2 & K3 & K4 & K5 & K6 & K7 & K8 & K9). unfold acceptable. rewrite K4, K6, K7, K8. cbn.
    split; [lra|]. split; [lra|]. split; [congruence|]. split; [lra|exact Logic.I]. }
  split; [intros m Hm _ u HU; cbn in HU; subst u; constructor|].
  split.
  { intros _ _ [(kw & MV & K)|(u & HU & K)].
    - destruct (KWX 0%nat kw MV) as (K2 & K3 & K4 & K5 & K6 & K7 & K8 & K9). unfold asks_matrixwise in K. rewrite K4, K5, K7, K8 in K. cbn in K.
      destruct K as [K|[K|[K|(M & K)]]]; try discriminate K; lra.
    - cbn in HU. subst u. inversion K. }
  intros _. discriminate.
Qed.
Lemma picky_reliable {X} (al : exn -> Prop) r k : al ValueError -> reliable_rows (X:=X) al r k picky_class.
Proof.
  intros AV. split; [|split].
  - intros row rho old L1 L2 _. unfold row_method. cbn [picky_class u_row]. unfold picky_row. destruct (forallb (Rleb 0) row); cbn; auto.
  - intros x M Ix SM. apply ok_yields. now apply (plain_subtraction r k picky_class eq_refl).
  - intros M SM. destruct (hard_value (X:=X) r k picky_class eq_refl eq_refl M SM) as (v & ->). exact Logic.I.
Qed.
(** The call returns, or divides by zero, or the class has refused a row. *)
Example ex_user_failures rnd : exists V, in_order V args80 2 /\ ~ dependable V args80 2 /\ svd_correct (e_ext V) 2 /\ svd_shapes (e_ext V) 2 /\
  match user_fit V no_ext rnd (objects [user_object (X:=unit) picky_class] [user_object (except_last (e_ext V) true)] []) args80 with
  | Ok o => data_fits (f_data args80) (uo_cmf o)
  | Err e => e = NonFinite \/ e = ValueError
  end.
Proof.
  destruct full_svd as (E & HE & HSH). set (V := Env (N:=RNum) E (fun _ => []) true). exists V. split; [apply args80_in_order|]. split.
  { intros (_ & _ & _ & _ & _ & _ & _ & _ & _ & _ & _ & UP & _). destruct (UP 0%nat ltac:(lia) eq_refl) as (K & _). specialize (K None eq_refl). cbn in K. lra. }
  split; [apply HE|]. split; [apply HSH|].
  set (al := fun e => e = NonFinite \/ e = ValueError).
  assert (PS : forall c : cls (N:=RNum) unit, u_init c = None -> u_initd c = None -> plain_start (user_object c)).
  { intros c H1 H2. split; [exact H1|]. split; [exact H2|]. split; (eexists; split; [reflexivity|discriminate]). }
  pose proof (C80_user_fit_failures al V no_ext rnd [user_object (X:=unit) picky_class] [user_object (except_last E true)] [] args80 2 (or_introl eq_refl) (args80_in_order E) eq_refl (HE 2%nat) (HSH 2%nat)) as C.
  match type of C with ?A -> _ => assert (SO : A) end.
  { intros [|[|[|m]]] Hm _; [| | |lia]; cbn [pick]; [constructor; [|constructor]|constructor; [|constructor]|constructor].
    - exists (array 2 2). split; [|split; [apply picky_reliable; now right|auto]].
      intros pos. destruct (start_one rnd (f_data args80) 2 ltac:(discriminate) (user_object (X:=unit) picky_class) 0%Z (or_introl eq_refl) (PS picky_class eq_refl eq_refl) pos) as ((v & p & E1 & Q1) & w & p' & E2 & Q2).
      change (Z.of_nat 2) with 2%Z in *. rewrite E1, E2. split; [exact Q1|exact Q2].
    - apply sound_reliable. exists (arrays (f_data args80) 2). split; [exact (start_many rnd (f_data args80) 2 ltac:(discriminate) (user_object (except_last E true)) (PS (except_last E true) eq_refl eq_refl))|].
      apply matrix_matrices; try reflexivity; [discriminate| |intros; now apply hard_values].
      intros i Hi. apply except_last_sound; [|lia]. destruct i as [|[|i]]; cbn in Hi |- *; lia. }
  specialize (C SO). change (e_ext V) with E. destruct (user_fit _ _ _ _ _) as [o|e]; [exact (proj1 C)|exact C].
Qed.
