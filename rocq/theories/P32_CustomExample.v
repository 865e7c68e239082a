(** C78: the penalty class of examples/plot_custom_penalty.py. *)
From Coq Require Import Reals Lra Lia List Arith Bool ZArith.
From Verif Require Import Num Numpy RFacts Spec SpecFacts MatFacts Unimodal Penalties ProxProofs PenaltyMain UnimodalMain CoupledMatrices Decomp InitVars Parse Fit
  Custom CustomBase CustomSpec CustomCalls CustomExample P31_Custom.
Import ListNotations.
Local Open Scope R_scope.
Notation matR := (mat (N:=RNum)).

(** Unimodal columns, all but the last of [c]; with [nn] all entries non-negative. *)
Definition unimodal_except_last (nn : bool) (r c : nat) (Z : ent) : Prop :=
  cols_unimodal r (c - 1) Z /\ (nn = true -> entries r c (fun x => 0 <= x) Z).

Lemma dist2_last r c X Y : dist2 r (S c) X Y = dist2 r c X Y + Sum r (fun i => (X i c - Y i c) ^ 2).
Proof. unfold dist2. induction r as [|r IH]; [cbn; lra|]. cbn [Sum] in *. rewrite IH. lra. Qed.
Lemma dist2_same r c X X' Y Y' : (forall i j, (i < r)%nat -> (j < c)%nat -> X i j = X' i j) -> (forall i j, (i < r)%nat -> (j < c)%nat -> Y i j = Y' i j) -> dist2 r c X Y = dist2 r c X' Y'.
Proof. intros H1 H2. unfold dist2. apply Sum_ext. intros i Hi. apply Sum_ext. intros j Hj. rewrite H1, H2 by assumption. reflexivity. Qed.
Lemma Sum_mono n f g : (forall i, (i < n)%nat -> f i <= g i) -> Sum n f <= Sum n g.
Proof. induction n as [|n IH]; intros H; cbn [Sum]; [lra|]. pose proof (H n ltac:(lia)). assert (Sum n f <= Sum n g) by (apply IH; intros; apply H; lia). lra. Qed.
Lemma relu_max x : relu (N:=RNum) x = Rmax 0 x.
Proof. unfold relu, clip1. rn. unfold nmax, nmin. rn. unfold Rleb. destruct (Rle_dec _ _); unfold Rmax; destruct (Rle_dec 0 x); lra. Qed.
Lemma except_last_entries E nn (V W : matR) : except_last_update E nn V = Ok W ->
  exists U, factor_matrix_update E (Unimodality (N:=RNum) nn) (but_last V) 0 = Ok U /\ mwf W /\ mr W = mr V /\ mc W = mc V /\
    forall i j, (i < mr V)%nat -> (j < mc V)%nat ->
      mget W i j = (if nn then Rmax 0 else (fun x => x)) (if (j <? mc V - 1)%nat then mget U i j else mget V i j).
Proof.
  unfold except_last_update, unimodal_regression_mat. intros H. change (n0 (Num:=RNum)) with 0 in H. destruct (factor_matrix_update E (Unimodality nn) (but_last V) 0) as [U|]; [|discriminate]. cbn [bind] in H.
  exists U. split; [reflexivity|]. injection H as <-. destruct nn.
  - split; [apply mwf_mbuild|]. split; [reflexivity|]. split; [reflexivity|]. intros i j Hi Hj. unfold mmap. rewrite mget_mbuild by (cbn; assumption). rewrite mget_mbuild by (cbn; assumption).
    change (clip1 (Some n0) None) with (relu (N:=RNum)). apply relu_max.
  - split; [apply mwf_mbuild|]. split; [reflexivity|]. split; [reflexivity|]. intros i j Hi Hj. rewrite mget_mbuild by assumption. reflexivity.
Qed.
Lemma except_last_nonempty E nn (V W : matR) : except_last_update E nn V = Ok W -> (0 < mr V)%nat /\ (0 < mc V - 1)%nat.
Proof.
  intros H. destruct (except_last_entries _ _ _ _ H) as (U & HU & _). cbn [factor_matrix_update] in HU. unfold unimodal_regression_cols in HU. change (mc (but_last V)) with (mc V - 1)%nat in HU.
  destruct (mc V - 1)%nat as [|c]; [discriminate|]. split; [|lia]. destruct (mr V) as [|r] eqn:ER; [|lia]. exfalso.
  assert (E0 : mcol (but_last V) 0 = []) by (unfold mcol, but_last; cbn [me mbuild]; rewrite ER; reflexivity).
  cbn [Nat.eqb seq mapM] in HU. rewrite E0, C01_empty in HU. discriminate.
Qed.
(** The update returns a nearest matrix with the property that the class is named after (and
    the same matrix if it has the property). *)
Theorem C78_projection E nn (V : matR) : mwf V -> (0 < mr V)%nat -> (1 < mc V)%nat ->
  exists W, except_last_update E nn V = Ok W /\ mwf W /\ mr W = mr V /\ mc W = mc V /\
    is_nearest (mr V) (mc V) (unimodal_except_last nn (mr V) (mc V)) (mget V) (mget W) /\
    (unimodal_except_last nn (mr V) (mc V) (mget V) -> W = V).
Proof.
  intros WV Hr Hc. destruct (unimodality_update E (but_last V) 0 nn (mwf_mbuild _ _ _) Hr ltac:(cbn; lia)) as (U & HU & WU & U1 & U2 & U3).
  assert (EW : exists W, except_last_update E nn V = Ok W).
  { unfold except_last_update, unimodal_regression_mat. change (n0 (Num:=RNum)) with 0. rewrite HU. cbn [bind]. eauto. }
  destruct EW as (W & EW). exists W. split; [exact EW|]. destruct (except_last_entries _ _ _ _ EW) as (U' & HU' & WW & W1 & W2 & W3). rewrite HU in HU'. injection HU' as <-.
  split; [exact WW|]. split; [exact W1|]. split; [exact W2|]. cbn [but_last mr mc mbuild] in U1, U2, U3. set (r := mr V) in *. set (c := (mc V - 1)%nat) in *.
  assert (EC : mc V = S c) by (unfold c; lia). destruct U3 as ((UU & UN) & UO).
  assert (WU0 : forall i j, (i < r)%nat -> (j < c)%nat -> mget W i j = mget U i j).
  { intros i j Hi Hj. rewrite W3 by lia. destruct (Nat.ltb_spec j c); [|lia]. destruct nn; [|reflexivity]. apply Rmax_right. apply (UN eq_refl); assumption. }
  assert (WL : forall i, (i < r)%nat -> mget W i c = (if nn then Rmax 0 else (fun x => x)) (mget V i c)).
  { intros i Hi. rewrite W3 by lia. rewrite Nat.ltb_irrefl. reflexivity. }
  assert (NEAR : is_nearest r (mc V) (unimodal_except_last nn r (mc V)) (mget V) (mget W)).
  { split; [split|].
    - fold c. intros j Hj. replace (column r (mget W) j) with (column r (mget U) j); [apply UU; assumption|]. apply map_ext_in. intros i Hi. apply in_seq in Hi. rewrite WU0 by lia. reflexivity.
    - intros En i j Hi Hj. rewrite W3 by assumption. rewrite En. apply Rmax_l.
    - intros Z (Z1 & Z2). rewrite EC in *. rewrite !dist2_last. fold c in Z1. replace (S c - 1)%nat with c in Z1 by lia.
      assert (D1 : dist2 r c (mget W) (mget V) <= dist2 r c Z (mget V)).
      { rewrite (dist2_same r c (mget W) (mget U) (mget V) (mget (but_last V))), (dist2_same r c Z Z (mget V) (mget (but_last V)));
          try (intros i j Hi Hj; first [reflexivity|apply WU0; assumption|unfold but_last; rewrite mget_mbuild by assumption; reflexivity]).
        apply UO. split; [exact Z1|]. intros En i j Hi Hj. apply (Z2 En); lia. }
      assert (D2 : Sum r (fun i => (mget W i c - mget V i c) ^ 2) <= Sum r (fun i => (Z i c - mget V i c) ^ 2)).
      { apply Sum_mono. intros i Hi. rewrite WL by assumption. destruct nn; [|pose proof (pow2_ge_0 (Z i c - mget V i c)); replace (mget V i c - mget V i c) with 0 by lra; lra].
        pose proof (Z2 eq_refl i c Hi ltac:(lia)) as K. cbn beta in K. unfold Rmax. destruct (Rle_dec 0 (mget V i c)) as [L|L].
        - pose proof (pow2_ge_0 (Z i c - mget V i c)). replace (mget V i c - mget V i c) with 0 by lra. lra.
        - nra. }
      lra. }
  split; [exact NEAR|]. intros HV. apply same_mat; auto. exact (is_nearest_fixed _ _ _ _ _ NEAR HV).
Qed.
Print Assumptions C78_projection.

(** Whatever it is given: if the update returns, the result has the property. *)
Lemma except_last_ensures E nn (V W : matR) : except_last_update E nn V = Ok W -> unimodal_except_last nn (mr W) (mc W) (mget W) /\ (0 < mr W)%nat /\ (1 < mc W)%nat.
Proof.
  intros H. destruct (except_last_nonempty _ _ _ _ H) as (Hr & Hc). destruct (except_last_entries _ _ _ _ H) as (U & HU & WW & W1 & W2 & W3).
  destruct (unimodality_update E (but_last V) 0 nn (mwf_mbuild _ _ _) Hr ltac:(cbn; lia)) as (U' & HU' & WU & U1 & U2 & ((U3 & U4) & _)). rewrite HU in HU'. injection HU' as <-. cbn [but_last mr mc mbuild] in *.
  rewrite W1, W2. split; [|lia]. split.
  - intros j Hj. replace (column (mr V) (mget W) j) with (column (mr V) (mget U) j); [apply U3; assumption|]. apply map_ext_in. intros i Hi. apply in_seq in Hi. rewrite W3 by lia.
    destruct (Nat.ltb_spec j (mc V - 1)); [|lia]. destruct nn; [|reflexivity]. symmetry. apply Rmax_right. apply (U4 eq_refl); lia.
  - intros En i j Hi Hj. rewrite W3 by assumption. rewrite En. apply Rmax_l.
Qed.
(** In a fit with objects of this class, in mode 1 as in the example or in mode 2: the
    auxiliary matrices that are returned are unimodal in all columns but the last, and
    non-negative if asked for, whatever data, start and other penalties. *)
Definition holds_except_last {X} (nn : bool) (x : uaux (N:=RNum) X) : Prop :=
  exists W, x = UMat W /\ unimodal_except_last nn (mr W) (mc W) (mget W) /\ (0 < mr W)%nat /\ (1 < mc W)%nat.
Theorem C78_fit {X} V IE rnd (rA rB rC : list (uobj (N:=RNum) X)) (a : fitargs (N:=RNum)) o v :
  user_fit V IE rnd (objects rA rB rC) a = Ok o -> uo_vars o = Some v -> (1 <= f_n_iter a)%Z -> (1 <= f_inner a)%Z ->
  (f_updB a = true -> exists p q, uv_auxB v = p ++ q /\
     Forall2 (fun u x => forall E nn, w_cls u = except_last E nn -> exists l, x = UList l /\ Forall (holds_except_last nn) l) rB q) /\
  (f_updC a = true -> exists p q, uv_auxC v = p ++ q /\
     Forall2 (fun u x => forall E nn, w_cls u = except_last E nn -> holds_except_last nn x) rC q).
Proof.
  intros H HV H1 H2. destruct (C76_own_variables _ _ _ _ _ _ _ _ _ H HV) as (_ & KB & KC).
  assert (ONE : forall E nn (x : uaux X), matrix_from (on_array (fun fm _ => except_last_update E nn fm)) x -> holds_except_last nn x).
  { intros E nn x (W & rho & old & K). unfold on_array in K. destruct (except_last_update E nn W) as [M|] eqn:EM; [|discriminate]. injection K as <-. exists M. split; [reflexivity|]. exact (except_last_ensures _ _ _ _ EM). }
  split; intros U.
  - destruct (KB U) as (p & q & E & F). exists p, q. split; [exact E|]. eapply F2_impl; [|exact F]. intros u x O E0 nn EC. destruct (C76_ensured _ _ _ _ _ _ _ H1 H2 O) as (z & W & rho & K).
    rewrite EC in K. unfold mats_method in K. cbn [except_last u_mats u_base] in K. destruct z as [l| |]; try discriminate. destruct (by_matrices _ W rho l) as [r|] eqn:EB; [|discriminate]. injection K as <-.
    exists r. split; [reflexivity|]. eapply Forall_impl; [|exact (by_matrices_from _ _ _ _ _ EB)]. intros y K. exact (ONE E0 nn y K).
  - destruct (KC U) as (p & q & E & F). exists p, q. split; [exact E|]. eapply F2_impl; [|exact F]. intros u x O E0 nn EC. destruct (C76_ensured _ _ _ _ _ _ _ H1 H2 O) as (z & W & rho & K).
    rewrite EC in K. apply (ONE E0). exists W, rho, z. exact K.
Qed.
Print Assumptions C78_fit.
