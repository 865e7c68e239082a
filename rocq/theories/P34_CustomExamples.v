(** A call with three penalty classes written by the user that meets the hypotheses of the
    theorems C74-C79. *)
From Coq Require Import Reals Lra Lia List Arith Bool ZArith.
From Verif Require Import Num Numpy RFacts Spec SpecFacts MatFacts ModelSpec Unimodal Penalties PenaltySpec PenaltyMain CoupledMatrices CmfSpec Decomp DecompSpec
  AoState TotalRun InitVars InitSpec InitProofs Parse ParseSpec ParseProofs Fit FitSpec FitProofs FitExamples DecompFacts DecompExamples P03_CoupledMatrices P05_Runs P06_Init P07_Parse P08_Fit P09_Calls P10_Start P11_Total Ideal
  Custom CustomBase CustomSpec CustomFit CustomCalls CustomExample P31_Custom P32_CustomExample CustomTotalSpec CustomTotal P33_CustomTotal.
Import ListNotations.
Local Open Scope R_scope.

(** A RowVectorPenalty with HardConstraintMixin that implements factor_matrix_row_update only:
    negative entries are replaced by zero. *)
Definition relu_row (row : list R) (_ : R) (_ : list R) : res (list R) := Ok (map (Rmax 0) row).
Definition relu_class {X} : cls (N:=RNum) X := Cls (N:=RNum) BRow true (Some relu_row) None None None None None None None None None.
Definition user_object {X} (c : cls (N:=RNum) X) : uobj (N:=RNum) X := UObj (N:=RNum) c (IStr RandomUniform) (IStr Zeros).
(** Two matrices with two columns, three and one rows; rank 2; ridge terms on all modes. *)
Definition args79 : fitR :=
  FitArgs (N:=RNum) [Mat (N:=RNum) 3 2 [[1; 0]; [2; 1]; [3; -1]]; Mat (N:=RNum) 1 2 [[1; 1]]] (PyInt 2) (InitName MRandom) 7 (AOne (Some (1 / 10))) no_kw
    RNone 1 CB (IStr RandomUniform) (IStr RandomUniform) true (Some (1 / 100)) (Some (1 / 1000)) (Some (1 / 10000)) None 5 true true true true true.

Lemma dependable79 E : dependable (Env (N:=RNum) E (fun _ => []) true) args79 2.
Proof.
  assert (KWX : forall m kw, mode_values (f_kw args79) m kw -> k_lower kw = None /\ k_upper kw = None /\ k_norm kw = None /\ k_uni kw = None /\ k_l1 kw = None /\ k_tv kw = None /\ k_gl2 kw = None /\ k_pf2 kw = false).
  { intros m kw (M1 & M2 & M3 & M4 & M5 & M6 & M7 & M8 & M9). cbn in *. repeat split; assumption. }
  split.
  { unfold sensible. cbn [f_data f_rank f_init f_scale f_l2 args79]. split; [discriminate|]. split.
    { repeat constructor. }
    split; [reflexivity|]. split; [lia|]. split; [exact Logic.I|]. split; [lra|]. split; [intros m v _ ->; cbn; lra|]. split.
    - intros m r kw Hm _ MV. destruct (KWX m kw MV) as (K2 & K3 & K4 & K5 & K6 & K7 & K8 & K9). split.
      + intros hi E0. congruence.
      + intros M E0. congruence.
    - split.
      + intros m r u Hm _ HU. cbn in HU. subst u. constructor.
      + intros [K|(u & HU & K)]; [discriminate K|]. cbn in HU. subst u. inversion K. }
  split; [intros X [<-|[<-|[]]]; reflexivity|]. split; [exact Logic.I|]. split; [reflexivity|]. split; [discriminate|].
  split; [eexists; split; [reflexivity|discriminate]|]. split; [eexists; split; [reflexivity|discriminate]|].
  split; [exact Logic.I|]. split; [repeat split; exact Logic.I|]. split; [exact Logic.I|].
  split.
  { intros m kw Hm MV. destruct (KWX m kw MV) as (K2 & K3 & K4 & K5 & K6 & K7 & K8 & K9). unfold acceptable. rewrite K4, K6, K7, K8. cbn.
    split; [lra|]. split; [lra|]. split; [congruence|]. split; [lra|exact Logic.I]. }
  split.
  { intros m Hm _. split; [intros v ->; cbn; lra|]. split.
    - intros kw MV. destruct (KWX m kw MV) as (K2 & K3 & K4 & K5 & K6 & K7 & K8 & K9). unfold asks_plain. rewrite K6, K7, K8, K9. cbn. auto.
    - intros u HU. cbn in HU. subst u. constructor. }
  split.
  { intros _ _ [(kw & MV & K)|(u & HU & K)].
    - destruct (KWX 0%nat kw MV) as (K2 & K3 & K4 & K5 & K6 & K7 & K8 & K9). unfold asks_matrixwise in K. rewrite K4, K5, K7, K8 in K. cbn in K.
      destruct K as [K|[K|[K|(M & K)]]]; try discriminate K; lra.
    - cbn in HU. subst u. inversion K. }
  intros _. discriminate.
Qed.

Lemma relu_sound {X} r k : sound_rows (X:=X) r k relu_class.
Proof.
  split; [|split].
  - intros row rho old L1 L2 _. eexists. split; [reflexivity|]. now rewrite map_length.
  - now apply plain_subtraction.
  - now apply hard_value.
Qed.
Lemma except_last_sound {X} E nn r k : (0 < r)%nat -> (1 < k)%nat -> sound_matrix (X:=X) r k (array r k) (except_last E nn).
Proof.
  intros Hr Hk. split; [|split].
  - intros V rho x (WV & V1 & V2) _ _. destruct (C78_projection E nn V WV ltac:(rn; lia) ltac:(rn; lia)) as (W & EW & WW & W1 & W2 & _).
    unfold mat_method. cbn [except_last u_mat]. unfold on_array. rewrite EW. cbn [rmap]. eexists. split; [reflexivity|]. eexists. split; [reflexivity|]. split; [exact WW|]. split; congruence.
  - now apply plain_subtraction.
  - now apply hard_value.
Qed.
Definition turned_array (r k : nat) (x : uaux (N:=RNum) (turned (N:=RNum))) : Prop := exists T, x = UOther T /\ shaped T k r.
Lemma shaped_trans (M : matR) r k : shaped M r k -> shaped (mtrans M) k r.
Proof. intros (W & H1 & H2). split; [apply mwf_mbuild|]. split; [exact H2|exact H1]. Qed.
Lemma transposed_sound rnd r k : sound_matrix r k (turned_array r k) (transposed (N:=RNum) rnd).
Proof.
  split; [|split].
  - intros V rho x (WV & V1 & V2) _ _. eexists. split; [reflexivity|]. eexists. split; [reflexivity|]. apply shaped_trans. split; [apply mwf_mbuild|]. split; [exact V1|exact V2].
  - intros x M (T & -> & ST) SM. eexists. split; [reflexivity|]. apply shaped_sub. now apply shaped_trans.
  - now apply hard_value.
Qed.
Definition oA79 : uobj (N:=RNum) (turned (N:=RNum)) := user_object relu_class.
Definition oB79 E : uobj (N:=RNum) (turned (N:=RNum)) := user_object (except_last E true).
Definition oC79 rnd : uobj (N:=RNum) (turned (N:=RNum)) := user_object (transposed (N:=RNum) rnd).
Example C79_example rnd : exists V o v, ranks_kept no_ext /\ dependable V args79 2 /\ svd_correct (e_ext V) 2 /\
  (forall m, (m < 3)%nat -> updated_modes args79 m = true -> Forall (sound_object rnd (f_data args79) 2 (constant_for_A args79) m) (pick ([oA79], [oB79 (e_ext V)], [oC79 rnd]) m)) /\
  user_fit V no_ext rnd (objects [oA79] [oB79 (e_ext V)] [oC79 rnd]) args79 = Ok o /\ uo_vars o = Some v /\
  (1 <= f_n_iter args79)%Z /\ (1 <= f_inner args79)%Z /\
  (exists p x, uv_auxA v = p ++ [x] /\ rows_from (N:=RNum) relu_row x) /\
  (exists p l, uv_auxB v = p ++ [UList l] /\ Forall (holds_except_last true) l) /\
  (exists p T, uv_auxC v = p ++ [UOther T]).
Proof.
  destruct ideal_exists as (E & HE & _). set (V := Env (N:=RNum) E (fun _ => []) true).
  assert (PS : forall c : cls (N:=RNum) (turned (N:=RNum)), u_init c = None -> u_initd c = None -> plain_start (user_object c)).
  { intros c H1 H2. split; [exact H1|]. split; [exact H2|]. split; (eexists; split; [reflexivity|discriminate]). }
  assert (SO : forall m, (m < 3)%nat -> updated_modes args79 m = true -> Forall (sound_object rnd (f_data args79) 2 (constant_for_A args79) m) (pick ([oA79], [oB79 E], [oC79 rnd]) m)).
  { intros [|[|[|m]]] Hm _; [| | |lia]; (constructor; [|constructor]); cbn [sound_object].
    - exists (array 2 2). split; [exact (start_one rnd (f_data args79) 2 ltac:(discriminate) oA79 0%Z (or_introl eq_refl) (PS relu_class eq_refl eq_refl))|]. split; [apply relu_sound|auto].
    - exists (arrays (f_data args79) 2). split; [exact (start_many rnd (f_data args79) 2 ltac:(discriminate) (oB79 E) (PS (except_last E true) eq_refl eq_refl))|].
      apply matrix_matrices; try reflexivity; [discriminate| |intros; now apply hard_values].
      intros i Hi. apply except_last_sound; [|lia]. destruct i as [|[|i]]; cbn in Hi |- *; lia.
    - exists (turned_array 2 2). split; [|apply transposed_sound]. intros pos. split.
      + destruct (start_fits rnd (f_data args79) 2 ltac:(discriminate) (IStr RandomUniform) 2 pos ltac:(eexists; split; [reflexivity|discriminate]) ltac:(lia)) as (y & p & EY & F & _).
        destruct (fits_one (f_data args79) 2 2 y (or_intror eq_refl) F) as (M & -> & SM). exists (WMat (turn M)), p. split.
        * unfold uinit_aux. cbn [oC79 user_object w_cls w_aux transposed u_init]. rewrite EY. reflexivity.
        * eexists. split; [reflexivity|]. eexists. split; [reflexivity|]. apply shaped_trans. exact SM.
      + destruct (start_fits rnd (f_data args79) 2 ltac:(discriminate) (IStr Zeros) 2 pos ltac:(eexists; split; [reflexivity|discriminate]) ltac:(lia)) as (y & p & EY & F & _).
        destruct (fits_one (f_data args79) 2 2 y (or_intror eq_refl) F) as (M & -> & SM). exists (VMat M), p. split.
        * unfold uinit_dual. cbn [oC79 user_object w_cls w_dual transposed u_initd]. rewrite EY. reflexivity.
        * eexists. split; [reflexivity|exact SM]. }
  destruct (C79_user_fit_total V no_ext rnd [oA79] [oB79 E] [oC79 rnd] args79 2 (dependable79 E) eq_refl no_ext_ranks (HE 2%nat) SO) as (o & EO & _).
  assert (EV : exists v, uo_vars o = Some v).
  { unfold user_fit in EO. destruct (usetup V no_ext rnd _ args79) as [(s, l2)|]; [|discriminate]. cbn [bind] in EO. destruct (uinit_hist _ _ s); [|discriminate]. cbn [bind] in EO.
    destruct (const_flags _); [|discriminate]. cbn [bind] in EO. destruct (urun _ _ _ _ s) as [(s', d)|]; [|discriminate]. cbn [bind] in EO. injection EO as <-. eexists. reflexivity. }
  destruct EV as (v & EV). assert (H1 : (1 <= f_n_iter args79)%Z) by (cbn; lia). assert (H2 : (1 <= f_inner args79)%Z) by (cbn; lia).
  destruct (C77_row_classes (N:=RNum) relu_row _ _ _ _ _ _ _ _ _ EO EV ltac:(cbn; lia) ltac:(cbn; lia)) as (KA & _).
  destruct (C78_fit _ _ _ _ _ _ _ _ _ EO EV ltac:(cbn; lia) ltac:(cbn; lia)) as (KB & _).
  destruct (C76_own_variables _ _ _ _ _ _ _ _ _ EO EV) as (_ & _ & KC).
  exists V, o, v. split; [exact no_ext_ranks|]. split; [apply dependable79|]. split; [apply HE|]. split; [exact SO|]. split; [exact EO|]. split; [exact EV|].
  split; [cbn; lia|]. split; [cbn; lia|]. split; [|split].
  - destruct (KA eq_refl) as (p & q & EQ & F). inversion F as [|? x ? q' Q F']; subst. inversion F'; subst. exists p, x. split; [exact EQ|]. apply Q. repeat split.
  - destruct (KB eq_refl) as (p & q & EQ & F). inversion F as [|? x ? q' Q F']; subst. inversion F'; subst. destruct (Q E true eq_refl) as (l & -> & Fl). exists p, l. auto.
  - destruct (KC eq_refl) as (p & q & EQ & F). inversion F as [|? x ? q' Q F']; subst. inversion F'; subst.
    destruct (C76_ensured _ _ _ _ _ _ _ H1 H2 Q) as (z & W & rho & K). cbn in K. injection K as <-. exists p. eexists. exact EQ.
Qed.

(** C74: with the built-in objects of [ex_args] (a norm ball on C) both calls return. *)
Example C74_example rnd : exists V out, cmf_aoadmm V no_ext rnd ex_args = Ok out /\
  user_fit (X:=turned (N:=RNum)) V no_ext rnd (emb_regsarg (e_ext V) rnd (f_regs ex_args)) ex_args = Ok (emb_out out).
Proof.
  destruct (ex_fit rnd) as (V & out & _ & _ & _ & _ & _ & _ & _ & _ & _ & _ & H). exists V, out. split; [exact H|].
  destruct (C74_builtin_classes (X:=turned (N:=RNum)) V no_ext rnd ex_args) as [K|(_ & e & K)]; rewrite H in K; [exact K|discriminate].
Qed.
(** C75: non-negativity of C, once stored as it is, once stored transposed. *)
Example C75_example rnd : exists V o o',
  let l := turned_link (N:=RNum) (X:=turned (N:=RNum)) (e_ext V) rnd (IStr RandomUniform) (IStr Zeros) in
  user_fit V no_ext rnd (objects [] [] [k_1 l]) args79 = Ok o /\
  user_fit V no_ext rnd (objects [] [] [k_2 l]) args79 = Ok o' /\ uo_cmf o = uo_cmf o' /\
  alike rnd (constant_for_A args79) 2 l.
Proof.
  destruct ideal_exists as (E & HE & _). set (V := Env (N:=RNum) E (fun _ => []) true).
  assert (SO : forall m, (m < 3)%nat -> updated_modes args79 m = true -> Forall (sound_object rnd (f_data args79) 2 (constant_for_A args79) m)
            (pick ([], [], [uobj_of (X:=turned (N:=RNum)) E rnd (PObj (N:=RNum) NonNegativity (IStr RandomUniform) (IStr Zeros))]) m)).
  { intros [|[|[|m]]] Hm _; [constructor|constructor| |lia]. constructor; [|constructor].
    destruct (dependable79 E) as ((_ & HX & _) & _).
    apply builtin_object; auto; try discriminate; try (eexists; split; [reflexivity|discriminate]); try exact Logic.I; try (intros; exact Logic.I). }
  destruct (C79_user_fit_total V no_ext rnd [] [] _ args79 2 (dependable79 E) eq_refl no_ext_ranks (HE 2%nat) SO) as (o & EO & _).
  pose proof (C75_transposed (X:=turned (N:=RNum)) V no_ext rnd (IStr RandomUniform) (IStr Zeros) args79 false false true ltac:(discriminate)) as B. cbn [map] in B. exists V, o. cbv zeta.
  change (k_1 (turned_link (e_ext V) rnd (IStr RandomUniform) (IStr Zeros))) with (uobj_of (X:=turned (N:=RNum)) E rnd (PObj (N:=RNum) NonNegativity (IStr RandomUniform) (IStr Zeros))) in *.
  rewrite EO in B. match type of B with both _ _ ?x => destruct x as [o'|] eqn:E2; [|destruct B] end. cbn [both] in B. exists o'. split; [reflexivity || exact EO|]. split; [reflexivity || exact E2|]. split; [apply B|]. apply turned_alike. discriminate.
Qed.
(** C77: a matrix class as a penalty of A, with feasibility penalties of its own for every
    row: the call cannot return. *)
Example C77_example V rnd o : user_fit V no_ext rnd (objects [oB79 (e_ext V)] [] []) args79 <> Ok o.
Proof.
  apply C77_missing_method; [cbn; lia|cbn; lia|discriminate|]. left. split; [reflexivity|]. split; [reflexivity|]. constructor. reflexivity.
Qed.
(** C77: a MatrixPenalty without factor_matrix_update has no instances; the classes above
    have. *)
Example C77_instances rnd E : instantiate (Cls (N:=RNum) (X:=turned (N:=RNum)) BMatrix true None None None None None None None None None None) = Err TypeError /\
  instantiate (X:=turned (N:=RNum)) relu_class = Ok relu_class /\ instantiate (X:=turned (N:=RNum)) (except_last E true) = Ok (except_last E true) /\
  instantiate (transposed (N:=RNum) rnd) = Ok (transposed rnd).
Proof. repeat split. Qed.
(** C78: columns (1, 0, 1), which is not unimodal, and (-1, 2, 1). *)
Example C78_example E : let V := Mat (N:=RNum) 3 2 [[1; -1]; [0; 2]; [1; 1]] in exists W, except_last_update E true V = Ok W /\
  is_nearest 3 2 (unimodal_except_last true 3 2) (mget V) (mget W) /\ mget W 0 1 = 0 /\ mget W 1 1 = 2 /\ W <> V.
Proof.
  intros V. destruct (C78_projection E true V) as (W & EW & WW & W1 & W2 & N & _); [repeat constructor|cbn; lia|cbn; lia|]. exists W. split; [exact EW|]. split; [exact N|].
  destruct (except_last_entries _ _ _ _ EW) as (U & _ & _ & _ & _ & H). pose proof (H 0%nat 1%nat ltac:(cbn; lia) ltac:(cbn; lia)) as H0. pose proof (H 1%nat 1%nat ltac:(cbn; lia) ltac:(cbn; lia)) as H1.
  cbn [V mc mr Nat.sub Nat.ltb Nat.leb] in H0, H1. change (mget V 0 1) with (-1) in H0. change (mget V 1 1) with 2 in H1. rewrite Rmax_left in H0 by lra. rewrite Rmax_right in H1 by lra.
  split; [exact H0|]. split; [exact H1|]. intros ->. change (mget V 0 1) with (-1) in H0. lra.
Qed.
