(** C80: what a call that is in order can raise. *)
From Coq Require Import Reals Lra Lia List Arith Bool ZArith.
From Verif Require Import Num Numpy RFacts Spec SpecFacts MatFacts ModelSpec Unimodal Penalties PenaltySpec PenaltyMain CoupledMatrices CmfSpec Decomp DecompSpec
  AoState TotalRun InitVars InitSpec InitProofs Parse ParseSpec ParseProofs Fit FitSpec FitProofs DecompFacts P03_CoupledMatrices P05_Runs P06_Init P07_Parse P08_Fit P09_Calls P10_Start P11_Total
  Custom CustomBase CustomSpec CustomFit CustomCalls P31_Custom CustomTotalSpec CustomTotal P33_CustomTotal FailSpec FailRun FailBuiltin FailFit.
Import ListNotations.
Local Open Scope R_scope.

(** The built-in penalties of a call that is in order. *)
Lemma builtin_reliable {X} (al : exn -> Prop) V rnd (a : fitR) rank t : al NonFinite -> (uses_simplex a -> al RuntimeError) ->
  in_order V a rank -> svd_correct (e_ext V) rank -> parse_all V (f_kw a) (f_regs a) (f_aux a) (f_dual a) = Ok t ->
  forall m, (m < 3)%nat -> updated_modes a m = true ->
  Forall (reliable_object al rnd (f_data a) rank (constant_for_A a) m) (map (uobj_of (X:=X) (e_ext V) rnd) (pick t m)).
Proof.
  intros NF SX (HS & SC & ST & SV & CO & NA & ND & WL & WK & GR & AC & UP & CA & TO) HE EP m Hm Um.
  pose proof HS as (HX & HXs & HR & HR0 & HIR & HSC & HL2 & HKW & HUS & HPF).
  destruct (parse_all_ok _ _ _ _ _ _ EP m Hm) as (kw & pa & u & MV & PM & US & EQ). rewrite EQ.
  destruct (parsed_kinds _ _ _ _ _ PM) as (K1 & K2 & K3 & K4).
  assert (VP : forall r, mode_rows (f_data a) m r -> Forall (fun o => valid_penalty (o_pen o) r) (pa ++ u)).
  { intros r Hr. rewrite <- EQ. eapply C38_built_penalties_valid; [exact EP|exact Hm| |]; intros; eauto. }
  assert (PF2 : k_pf2 kw = (a_pf2 (f_kw a) && (m =? 1)%nat)%bool) by apply MV.
  assert (ORD : Forall (object_in_order (f_data a) rank m) (pa ++ u)).
  { apply Forall_app. split; [|now apply (UP m Hm Um)]. rewrite Forall_forall in K1 |- *. intros o Ho. destruct (K1 o Ho) as (EA & ED). unfold object_in_order. rewrite EA, ED.
    split; [|left; exact ND]. assert (Q : initial_value (f_data a) rank m (f_aux a)) by (left; exact NA).
    destruct (o_pen o) eqn:EO; auto. split; [|left; exact NA]. destruct (Nat.eqb_spec m 1) as [E1|E1]; [exact E1|]. rewrite andb_false_r in PF2. specialize (K3 PF2). rewrite Forall_forall in K3.
    exfalso. apply (K3 o Ho). rewrite EO. exact Logic.I. }
  assert (SIM : Forall (fun o => o_pen o = UnitSimplex -> al RuntimeError) (pa ++ u)).
  { apply Forall_app. split; rewrite Forall_forall in *; intros o Ho E0; [now destruct (K2 o Ho)|]. apply SX. exists m, u. split; [exact Hm|]. split; [destruct m as [|[|]]; exact Um|]. split; [exact US|].
    apply Exists_exists. eauto. }
  assert (ROW : m = 0%nat -> constant_for_A a = false -> Forall (fun o => rowwise (o_pen o)) (pa ++ u)).
  { intros -> CF. assert (NC : ~ needs_constant_A a) by (apply CA; [exact Um|]; revert CF; unfold CustomSpec.constant_for_A, FitSpec.constant_for_A; auto).
    apply Forall_app. split.
    - apply K4; [|now rewrite andb_false_r in PF2]. intros K. apply NC. left; eauto.
    - apply not_exists_rowwise. intros K. apply NC. right; eauto. }
  assert (PFR : Forall (fun o => is_parafac2 (o_pen o) -> forall i, (i < length (f_data a))%nat -> (rank <= rowsX (f_data a) i)%nat) (pa ++ u)).
  { rewrite Forall_forall. intros o Ho IP i Hi. apply HPF; [|now apply nth_In].
    assert (M1 : m = 1%nat). { rewrite Forall_forall in ORD. destruct (ORD o Ho) as (O1 & _). destruct (o_pen o); try contradiction. apply O1. }
    subst m. apply in_app_or in Ho. destruct Ho as [Ho|Ho].
    - left. destruct (a_pf2 (f_kw a)); [reflexivity|]. specialize (K3 PF2). rewrite Forall_forall in K3. now destruct (K3 o Ho).
    - right. exists u. split; [exact US|]. apply Exists_exists. eauto. }
  rewrite Forall_forall in ORD, SIM, PFR. apply Forall_forall. intros u0 Hu. apply in_map_iff in Hu. destruct Hu as (o & <- & Ho).
  apply bobject; auto.
  - exact (SIM o Ho).
  - intros r Hr. specialize (VP r Hr). rewrite Forall_forall in VP. auto.
  - intros E0 CF. specialize (ROW E0 CF). rewrite Forall_forall in ROW. auto.
  - exact (PFR o Ho).
Qed.

(** C80, classes written by the user: the call returns factor matrices of the right shapes, or
    the arithmetic divided by zero, or one of the objects' own methods raised. *)
Theorem C80_user_fit_failures {X} (allowed : exn -> Prop) V IE rnd (rA rB rC : list (uobj (N:=RNum) X)) (a : fitR) rank :
  allowed NonFinite -> in_order V a rank -> f_regs a = RNone -> svd_correct (e_ext V) rank -> svd_shapes (e_ext V) rank ->
  (forall m, (m < 3)%nat -> updated_modes a m = true -> Forall (reliable_object allowed rnd (f_data a) rank (constant_for_A a) m) (pick (rA, rB, rC) m)) ->
  yields allowed (fun o => data_fits (f_data a) (uo_cmf o) /\ mc (cA (uo_cmf o)) = rank) (user_fit V IE rnd (objects rA rB rC) a).
Proof.
  intros NF IO NR HE HSH SO. pose proof IO as (HS & SC & ST & SV & CO & NA & ND & WL & WK & GR & AC & UP & CA & TO).
  destruct (parse_all_total V (f_kw a) (f_regs a) (f_aux a) (f_dual a) GR WK AC) as (t & EP).
  assert (NS : uses_simplex a -> allowed RuntimeError).
  { intros (m & u & _ & _ & US & EX). rewrite NR in US. cbn in US. subst u. inversion EX. }
  pose proof (builtin_reliable (X:=X) allowed V rnd a rank t NF NS IO HE EP) as BR.
  destruct t as [[tA tB] tC].
  eapply fit_fail with (tA := map (uobj_of (X:=X) (e_ext V) rnd) tA ++ rA) (tB := map (uobj_of (X:=X) (e_ext V) rnd) tB ++ rB) (tC := map (uobj_of (X:=X) (e_ext V) rnd) tC ++ rC); eauto.
  - rewrite uparse_objects. rewrite NR in EP. rewrite EP. reflexivity.
  - intros m Hm Um. specialize (BR m Hm Um). specialize (SO m Hm Um). destruct m as [|[|[|m]]]; [| | |lia]; cbn [pick] in *; apply Forall_app; auto.
Qed.
Print Assumptions C80_user_fit_failures.

(** C80, built-in penalties: no shape error, no type error, no unpacking error, no failed
    lookup, whatever the data's entries, the strengths and the numbers of iterations. *)
Theorem C80_fit_failures V IE rnd (a : fitR) rank :
  in_order V a rank -> svd_correct (e_ext V) rank -> svd_shapes (e_ext V) rank ->
  match cmf_aoadmm V IE rnd a with
  | Ok out => data_fits (f_data a) (out_cmf out) /\ mc (cA (out_cmf out)) = rank
  | Err e => e = NonFinite \/ (e = RuntimeError /\ uses_simplex a)
  end.
Proof.
  intros IO HE HSH. pose proof IO as (HS & SC & ST & SV & CO & NA & ND & WL & WK & GR & AC & UP & CA & TO).
  set (al := fun e => e = NonFinite \/ (e = RuntimeError /\ uses_simplex a)).
  destruct (parse_all_total V (f_kw a) (f_regs a) (f_aux a) (f_dual a) GR WK AC) as (t & EP).
  pose proof (builtin_reliable (X:=unit) al V rnd a rank t (or_introl eq_refl) (fun K => or_intror (conj eq_refl K)) IO HE EP) as BR.
  assert (Y : yields al (fun o => data_fits (f_data a) (uo_cmf o) /\ mc (cA (uo_cmf o)) = rank) (user_fit (X:=unit) V IE rnd (emb_regsarg (e_ext V) rnd (f_regs a)) a)).
  { destruct t as [[tA tB] tC]. eapply fit_fail with (tA := map (uobj_of (X:=unit) (e_ext V) rnd) tA) (tB := map (uobj_of (X:=unit) (e_ext V) rnd) tB) (tC := map (uobj_of (X:=unit) (e_ext V) rnd) tC); eauto.
    - now left.
    - rewrite parse_emb, EP. reflexivity.
    - intros m Hm Um. specialize (BR m Hm Um). destruct m as [|[|[|m]]]; [| | |lia]; exact BR. }
  destruct (C74_builtin_classes (X:=unit) V IE rnd a) as [E0|(E0 & _)]; rewrite E0 in Y.
  - destruct (cmf_aoadmm V IE rnd a) as [out|e]; exact Y.
  - cbn in Y. destruct Y as [K|(K & _)]; discriminate K.
Qed.
Print Assumptions C80_fit_failures.
