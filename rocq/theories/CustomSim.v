(** Fits with objects that behave alike. *)
From Coq Require Import List Arith Bool ZArith Lia.
From Verif Require Import Num Numpy Unimodal Penalties CoupledMatrices Decomp InitVars Parse Fit Custom CustomBase CustomSpec.
Import ListNotations.
Local Open Scope num_scope.

Lemma both_impl {A B} (Q Q' : A -> B -> Prop) x y : (forall a b, Q a b -> Q' a b) -> both Q x y -> both Q' x y.
Proof. intros H. destruct x, y; cbn; auto. Qed.
Lemma both_bind {A B C D} (Q : A -> B -> Prop) (Q' : C -> D -> Prop) x y f g :
  both Q x y -> (forall a b, Q a b -> both Q' (f a) (g b)) -> both Q' (bind x f) (bind y g).
Proof. destruct x, y; cbn; try contradiction; intros H1 H2; subst; auto. Qed.
Lemma both_refl {A} (x : res A) : both eq x x.
Proof. destruct x; reflexivity. Qed.
Lemma both_eq {A} (x y : res A) : both eq x y -> x = y.
Proof. destruct x, y; cbn; try contradiction; now intros ->. Qed.

Section Linked.
Context {K A B : Type}.
Implicit Types P : K -> A -> B -> Prop.
Lemma linked_impl P (Q : K -> A -> B -> Prop) ks xs ys : (forall k a b, In k ks -> P k a b -> Q k a b) -> linked P ks xs ys -> linked Q ks xs ys.
Proof. intros H L. induction L; constructor; [apply H; [now left|assumption]|]. apply IHL. intros; apply H; [now right|assumption]. Qed.
Lemma linked_app P ks xs ys ks' xs' ys' : linked P ks xs ys -> linked P ks' xs' ys' -> linked P (ks ++ ks') (xs ++ xs') (ys ++ ys').
Proof. intros L L'. induction L; cbn; [assumption|now constructor]. Qed.
Lemma linked_length P ks xs ys : linked P ks xs ys -> length xs = length ys.
Proof. intros L. induction L; cbn; congruence. Qed.
Lemma linked_mapM {C} P (f : A -> res C) (g : B -> res C) ks xs ys :
  linked P ks xs ys -> (forall k a b, P k a b -> f a = g b) -> mapM f xs = mapM g ys.
Proof. intros L H. induction L as [|k a b ks xs ys HP L IH]; [reflexivity|]. cbn. rewrite (H _ _ _ HP), IH. reflexivity. Qed.
Lemma linked_map {C} P (f : A -> C) (g : B -> C) ks xs ys :
  linked P ks xs ys -> (forall k a b, P k a b -> f a = g b) -> map f xs = map g ys.
Proof. intros L H. induction L as [|k a b ks xs ys HP L IH]; [reflexivity|]. cbn. rewrite (H _ _ _ HP), IH. reflexivity. Qed.
Lemma linked_both {C D} P (Q : K -> C -> D -> Prop) (f : A -> res C) (g : B -> res D) ks xs ys :
  linked P ks xs ys -> (forall k a b, P k a b -> both (Q k) (f a) (g b)) -> both (linked Q ks) (mapM f xs) (mapM g ys).
Proof.
  intros L H. induction L as [|k a b ks xs ys HP L IH]; [constructor|]. cbn. eapply both_bind; [apply (H _ _ _ HP)|]. intros x y HQ.
  eapply both_bind; [apply IH|]. intros xs' ys' HL. now constructor.
Qed.
Lemma linked_maps {C D} P (Q : K -> C -> D -> Prop) (f : A -> C) (g : B -> D) ks xs ys :
  linked P ks xs ys -> (forall k a b, P k a b -> Q k (f a) (g b)) -> linked Q ks (map f xs) (map g ys).
Proof. intros L H. induction L; cbn; constructor; auto. Qed.
End Linked.

Lemma inner_both {S T} (Q : S -> T -> Prop) step step' conv conv' n s t :
  (forall s t, Q s t -> both Q (step s) (step' t)) -> (forall s t s' t', Q s t -> Q s' t' -> conv s s' = conv' t t') -> Q s t ->
  both Q (inner_loop step conv n s) (inner_loop step' conv' n t).
Proof.
  intros H1 H2. revert s t. induction n as [|n IH]; intros s t H; [exact H|]. cbn. eapply both_bind; [apply (H1 _ _ H)|]. intros s' t' H'.
  rewrite (H2 s t s' t' H H'). destruct (conv' t t') as [b|]; [|reflexivity]. cbn. destruct b; [exact H'|now apply IH].
Qed.

Section Sim.
Context {N : Num} {X Y : Type}.
Notation link := (link (N:=N) X Y).
(** what is needed of the objects of a mode *)
Definition okA (constant : bool) (k : link) : Prop :=
  if constant then alike_matrix (k_R k) (w_cls (k_1 k)) (w_cls (k_2 k))
  else alike_rows (w_cls (k_1 k)) (w_cls (k_2 k)) /\ forall a b, k_R k a b <-> same_array a b.
Definition okB (k : link) : Prop := alike_matrices (k_Q k) (w_cls (k_1 k)) (w_cls (k_2 k)).
Definition okC (k : link) : Prop := alike_matrix (k_R k) (w_cls (k_1 k)) (w_cls (k_2 k)).
Definition rel_reg (ok : link -> Prop) (k : link) (g : ureg X) (h : ureg Y) : Prop :=
  ok k /\ ug_cls g = w_cls (k_1 k) /\ ug_cls h = w_cls (k_2 k) /\ k_R k (ug_aux g) (ug_aux h) /\ ug_dual g = ug_dual h.
Definition rel_regs (k : link) (g : uregs X) (h : uregs Y) : Prop :=
  okB k /\ ub_cls g = w_cls (k_1 k) /\ ub_cls h = w_cls (k_2 k) /\ k_Q k (ub_aux g) (ub_aux h) /\ ub_dual g = ub_dual h.

Definition subs_ok (ok : link -> Prop) : Prop :=
  forall k, ok k -> (forall a b M, k_R k a b -> sub_method (w_cls (k_1 k)) a M = sub_method (w_cls (k_2 k)) b M) /\
                    (forall M, pen_method (w_cls (k_1 k)) (inl M) = pen_method (w_cls (k_2 k)) (inl M)).
Lemma subs_A constant : subs_ok (okA constant).
Proof.
  intros k H. unfold okA in H. destruct constant; [destruct H as (_ & H1 & H2); split; assumption|].
  destruct H as ((_ & H1 & H2) & H3). split; [|assumption]. intros a b M HR. apply H3 in HR. destruct HR as (A & -> & ->). apply H1.
Qed.
Lemma subs_C : subs_ok okC.
Proof. intros k (_ & H1 & H2). split; assumption. Qed.

Lemma sim_gap ok M k g h : subs_ok ok -> rel_reg ok k g h -> ugap M g = ugap M h.
Proof. intros HS (H0 & H1 & H2 & H3 & H4). unfold ugap. rewrite H1, H2. rewrite (proj1 (HS k H0) _ _ M H3). reflexivity. Qed.
Lemma sim_gaps Bs k g h : rel_regs k g h -> ugaps Bs g = ugaps Bs h.
Proof. intros ((_ & H0 & _) & H1 & H2 & H3 & H4). unfold ugaps. rewrite H1, H2. rewrite (H0 _ _ Bs H3). reflexivity. Qed.
Lemma sim_pen ok M k g h : subs_ok ok -> rel_reg ok k g h -> pen_method (ug_cls g) (inl M) = pen_method (ug_cls h) (inl M).
Proof. intros HS (H0 & H1 & H2 & _). rewrite H1, H2. apply (proj2 (HS k H0)). Qed.
Lemma sim_pens Ms k g h : rel_regs k g h -> pen_method (ub_cls g) (inr Ms) = pen_method (ub_cls h) (inr Ms).
Proof. intros ((_ & _ & H0) & H1 & H2 & _). rewrite H1, H2. apply H0. Qed.
Lemma sim_shift ok k g h : subs_ok ok -> rel_reg ok k g h -> sub_method (ug_cls g) (ug_aux g) (ug_dual g) = sub_method (ug_cls h) (ug_aux h) (ug_dual h).
Proof. intros HS (H0 & H1 & H2 & H3 & H4). rewrite H1, H2, H4. apply (proj1 (HS k H0)); assumption. Qed.
Lemma sim_shifts k g h : rel_regs k g h -> subs_method (ub_cls g) (ub_aux g) (ub_dual g) = subs_method (ub_cls h) (ub_aux h) (ub_dual h).
Proof. intros ((_ & H0 & _) & H1 & H2 & H3 & H4). rewrite H1, H2, H4. apply H0; assumption. Qed.

Definition relM (ok : link -> Prop) (L : list link) (s : mat * list (ureg X)) (t : mat * list (ureg Y)) : Prop :=
  fst s = fst t /\ linked (rel_reg ok) L (snd s) (snd t).
Definition relL (L : list link) (s : list mat * list (uregs X)) (t : list mat * list (uregs Y)) : Prop :=
  fst s = fst t /\ linked rel_regs L (snd s) (snd t).
Lemma sim_conv ok L tol s t s' t' : subs_ok ok -> relM ok L s t -> relM ok L s' t' -> uconv tol s s' = uconv tol t t'.
Proof.
  intros HS (H1 & H2) (H3 & H4). unfold uconv. rewrite H1, H3. rewrite (linked_mapM _ (ugap (fst t')) (ugap (fst t')) _ _ _ H4); [reflexivity|].
  intros k a b H. now apply (sim_gap ok _ k).
Qed.
Lemma sim_convs L tol s t s' t' : relL L s t -> relL L s' t' -> uconvs tol s s' = uconvs tol t t'.
Proof.
  intros (H1 & H2) (H3 & H4). unfold uconvs. rewrite H1, H3. rewrite (linked_mapM _ (ugaps (fst t')) (ugaps (fst t')) _ _ _ H4); [reflexivity|].
  intros k a b H. now apply (sim_gaps _ k).
Qed.
Lemma sim_shifted ok L rs rs' : subs_ok ok -> linked (rel_reg ok) L rs rs' -> ushifted rs = ushifted rs'.
Proof. intros HS H. apply (linked_mapM _ _ _ _ _ _ H). intros k a b K. now apply (sim_shift ok k). Qed.
Lemma sim_shifteds L rs rs' : linked rel_regs L rs rs' -> ushifteds rs = ushifteds rs'.
Proof. intros H. apply (linked_mapM _ _ _ _ _ _ H). intros k a b K. now apply (sim_shifts k). Qed.

Lemma sim_A_reg constant fps A k g h : rel_reg (okA constant) k g h -> both (rel_reg (okA constant) k) (uA_reg_step constant fps A g) (uA_reg_step constant fps A h).
Proof.
  intros (H0 & H1 & H2 & H3 & H4). unfold uA_reg_step. rewrite H1, H2, H4.
  assert (K : both (k_R k) (if constant then mat_method (w_cls (k_1 k)) (madd A (ug_dual h)) (nth 0 fps n0) (ug_aux g) else urows_update (w_cls (k_1 k)) (madd A (ug_dual h)) fps (ug_aux g))
                           (if constant then mat_method (w_cls (k_2 k)) (madd A (ug_dual h)) (nth 0 fps n0) (ug_aux h) else urows_update (w_cls (k_2 k)) (madd A (ug_dual h)) fps (ug_aux h))).
  { pose proof H0 as Q. unfold okA in Q. destruct constant; [apply Q; exact H3|]. destruct Q as ((Q1 & _) & Q2). pose proof H3 as Q3. apply Q2 in Q3. destruct Q3 as (M & E1 & E2). rewrite E1, E2. cbn [urows_update].
    assert (E : mapM (fun i => row_method (w_cls (k_1 k)) (mrow (madd A (ug_dual h)) i) (nth i fps n0) (mrow M i)) (seq 0 (length fps)) =
                mapM (fun i => row_method (w_cls (k_2 k)) (mrow (madd A (ug_dual h)) i) (nth i fps n0) (mrow M i)) (seq 0 (length fps))).
    { generalize (seq 0 (length fps)). intros l. induction l as [|i l IH]; [reflexivity|]. cbn [mapM]. rewrite Q1, IH. reflexivity. }
    rewrite E. match goal with |- both _ (bind ?x _) _ => destruct x end; cbn; [|reflexivity]. apply Q2. eexists. split; reflexivity. }
  eapply both_bind; [exact K|]. intros a b HR. rewrite (proj1 (subs_A constant k H0) a b _ HR). destruct (sub_method _ b _) as [sh|]; [|reflexivity].
  cbn. split; [exact H0|]. auto.
Qed.
Lemma sim_C_reg fp C k g h : rel_reg okC k g h -> both (rel_reg okC k) (uC_reg_step fp C g) (uC_reg_step fp C h).
Proof.
  intros (H0 & H1 & H2 & H3 & H4). unfold uC_reg_step. rewrite H1, H2, H4. eapply both_bind; [apply H0; exact H3|]. intros a b HR.
  rewrite (proj1 (subs_C k H0) a b _ HR). destruct (sub_method _ b _) as [sh|]; [|reflexivity]. cbn. split; [exact H0|]. auto.
Qed.
Lemma sim_B_reg fps Bs k g h : rel_regs k g h -> both (rel_regs k) (uB_reg_step fps Bs g) (uB_reg_step fps Bs h).
Proof.
  intros (H0 & H1 & H2 & H3 & H4). unfold uB_reg_step. rewrite H1, H2, H4. eapply both_bind; [apply H0; exact H3|]. intros a b HR.
  rewrite (proj1 (proj2 H0) a b _ HR). destruct (subs_method _ b _) as [sh|]; [|reflexivity]. cbn. split; [exact H0|]. auto.
Qed.
Lemma sim_A_step constant L svds fps rhses s t : relM (okA constant) L s t ->
  both (relM (okA constant) L) (uA_step constant svds fps rhses s) (uA_step constant svds fps rhses t).
Proof.
  destruct s as (A, rs), t as (A', rs'). intros (H1 & H2). cbn [fst snd] in *. subst A'. unfold uA_step. rewrite (sim_shifted _ _ _ _ (subs_A constant) H2).
  destruct (ushifted rs') as [sh|]; [|reflexivity]. cbn [bind]. destruct (mapM _ (seq 0 (mr A))) as [rows|]; [|reflexivity]. cbn [bind].
  eapply both_bind; [apply (linked_both _ (rel_reg (okA constant)) _ _ _ _ _ H2)|].
  - intros k a b H. apply sim_A_reg. exact H.
  - intros x y H. split; [reflexivity|exact H].
Qed.
Lemma sim_C_step L d fp rhs s t : relM okC L s t -> both (relM okC L) (uC_step d fp rhs s) (uC_step d fp rhs t).
Proof.
  destruct s as (C, rs), t as (C', rs'). intros (H1 & H2). cbn [fst snd] in *. subst C'. unfold uC_step. rewrite (sim_shifted _ _ _ _ subs_C H2).
  destruct (ushifted rs') as [sh|]; [|reflexivity]. cbn [bind]. destruct (solve_mat _ _) as [C'|]; [|reflexivity]. cbn [bind].
  eapply both_bind; [apply (linked_both _ (rel_reg okC) _ _ _ _ _ H2)|].
  - intros k a b H. apply sim_C_reg. exact H.
  - intros x y H. split; [reflexivity|exact H].
Qed.
Lemma sim_B_step L svds fps rhses s t : relL L s t -> both (relL L) (uB_step svds fps rhses s) (uB_step svds fps rhses t).
Proof.
  destruct s as (Bs, rs), t as (Bs', rs'). intros (H1 & H2). cbn [fst snd] in *. subst Bs'. unfold uB_step. rewrite (sim_shifteds _ _ _ H2).
  destruct (ushifteds rs') as [sh|]; [|reflexivity]. cbn [bind]. destruct (mapM _ (seq 0 (length Bs))) as [Bs'|]; [|reflexivity]. cbn [bind].
  eapply both_bind; [apply (linked_both _ rel_regs _ _ _ _ _ H2)|].
  - intros k a b H. apply sim_B_reg. exact H.
  - intros x y H. split; [reflexivity|exact H].
Qed.

Definition relS (constant : bool) (LA LB LC : list link) (s : ustate X) (t : ustate Y) : Prop :=
  us_cmf s = us_cmf t /\ us_inter s = us_inter t /\ linked (rel_reg (okA constant)) LA (us_rA s) (us_rA t) /\
  linked rel_regs LB (us_rB s) (us_rB t) /\ linked (rel_reg okC) LC (us_rC s) (us_rC t).

Lemma sim_outer E P Xs LA LB LC s t : relS (p_constA P) LA LB LC s t -> both (relS (p_constA P) LA LB LC) (uouter_step E P Xs s) (uouter_step E P Xs t).
Proof.
  intros H. unfold uouter_step. apply (both_bind (relS (p_constA P) LA LB LC)).
  { destruct H as (H1 & H2 & H3 & H4 & H5). unfold uupd_B. destruct (p_updB P); [|repeat split; cbn; assumption]. unfold uupdate_B. rewrite H1, (linked_length _ _ _ _ H4).
    destruct (feas_penalties _ _ _) as [fps|]; [|reflexivity]. cbn [bind].
    match goal with |- context [inner_loop (uB_step (X:=X) ?a ?b ?d)] => pose proof (inner_both (relL LB) (uB_step a b d) (uB_step a b d) (uconvs (p_inner_tol P)) (uconvs (p_inner_tol P)) (p_inner P)
      (cBs (us_cmf t), us_rB s) (cBs (us_cmf t), us_rB t) (sim_B_step LB a b d) (fun s t s' t' => sim_convs LB _ s t s' t') (conj eq_refl H4)) as K end.
    destruct (inner_loop _ _ _ (cBs (us_cmf t), us_rB s)) as [(Bs, r)|], (inner_loop _ _ _ (cBs (us_cmf t), us_rB t)) as [(Bs', r')|]; cbn in K |- *; try contradiction; [|exact K].
    destruct K as (K1 & K2). cbn in K1, K2. subst Bs'. repeat split; cbn; assumption. }
  clear H. intros s1 t1 H. apply (both_bind (relS (p_constA P) LA LB LC)).
  { destruct H as (H1 & H2 & H3 & H4 & H5). unfold uupd_C. destruct (p_updC P); [|repeat split; cbn; assumption]. unfold uupdate_C. rewrite H1, (linked_length _ _ _ _ H5).
    destruct (msum_list _) as [lhs|]; [|reflexivity]. destruct (msum_list _) as [rhs|]; [|reflexivity].
    match goal with |- context [inner_loop (uC_step (X:=X) ?a ?b ?d)] => pose proof (inner_both (relM okC LC) (uC_step a b d) (uC_step a b d) (uconv (p_inner_tol P)) (uconv (p_inner_tol P)) (p_inner P)
      (cC (us_cmf t1), us_rC s1) (cC (us_cmf t1), us_rC t1) (sim_C_step LC a b d) (fun s t s' t' => sim_conv okC LC _ s t s' t' subs_C) (conj eq_refl H5)) as K end.
    destruct (inner_loop _ _ _ (cC (us_cmf t1), us_rC s1)) as [(C, r)|], (inner_loop _ _ _ (cC (us_cmf t1), us_rC t1)) as [(C', r')|]; cbn in K |- *; try contradiction; [|exact K].
    destruct K as (K1 & K2). cbn in K1, K2. subst C'. repeat split; cbn; assumption. }
  clear. intros s t (H1 & H2 & H3 & H4 & H5). unfold uupd_A. destruct (p_updA P); [|repeat split; cbn; assumption]. unfold uupdate_A. rewrite H1, (linked_length _ _ _ _ H3).
  destruct (feas_penalties _ _ _) as [fps|]; [|reflexivity]. cbn [bind].
  match goal with |- context [inner_loop (uA_step (X:=X) ?q ?a ?b ?d)] => pose proof (inner_both (relM (okA q) LA) (uA_step q a b d) (uA_step q a b d) (uconv (p_inner_tol P)) (uconv (p_inner_tol P)) (p_inner P)
    (cA (us_cmf t), us_rA s) (cA (us_cmf t), us_rA t) (sim_A_step q LA a b d) (fun s t s' t' => sim_conv (okA q) LA _ s t s' t' (subs_A q)) (conj eq_refl H3)) as K end.
  destruct (inner_loop _ _ _ (cA (us_cmf t), us_rA s)) as [(A, r)|], (inner_loop _ _ _ (cA (us_cmf t), us_rA t)) as [(A', r')|]; cbn in K |- *; try contradiction; [|exact K].
  destruct K as (K1 & K2). cbn in K1, K2. subst A'. repeat split; cbn; assumption.
Qed.
Lemma sim_state_gaps q LA LB LC s t : relS q LA LB LC s t -> ustate_gaps s = ustate_gaps t.
Proof.
  intros (H1 & H2 & H3 & H4 & H5). unfold ustate_gaps, ucompute_gaps. rewrite H1.
  rewrite (linked_mapM _ (ugap (cA (us_cmf t))) (ugap (cA (us_cmf t))) _ _ _ H3) by (intros k a b H; now apply (sim_gap (okA q) _ k); [apply subs_A|]).
  rewrite (linked_mapM _ (ugaps (cBs (us_cmf t))) (ugaps (cBs (us_cmf t))) _ _ _ H4) by (intros k a b H; now apply (sim_gaps _ k)).
  rewrite (linked_mapM _ (ugap (cC (us_cmf t))) (ugap (cC (us_cmf t))) _ _ _ H5) by (intros k a b H; now apply (sim_gap okC _ k); [apply subs_C|]).
  reflexivity.
Qed.
Lemma sim_loss q P Xs LA LB LC s t : relS q LA LB LC s t -> ustate_loss P Xs s = ustate_loss P Xs t.
Proof.
  intros (H1 & H2 & H3 & H4 & H5). unfold ustate_loss, ureg_penalty, ustate_error. rewrite H1, H2.
  rewrite (linked_mapM _ (fun g => pen_method (ug_cls g) (inl (cA (us_cmf t)))) (fun g => pen_method (ug_cls g) (inl (cA (us_cmf t)))) _ _ _ H3) by (intros k a b H; now apply (sim_pen (okA q) _ k); [apply subs_A|]).
  rewrite (linked_mapM _ (fun g => pen_method (ub_cls g) (inr (cBs (us_cmf t)))) (fun g => pen_method (ub_cls g) (inr (cBs (us_cmf t)))) _ _ _ H4) by (intros k a b H; now apply (sim_pens _ k)).
  rewrite (linked_mapM _ (fun g => pen_method (ug_cls g) (inl (cC (us_cmf t)))) (fun g => pen_method (ug_cls g) (inl (cC (us_cmf t)))) _ _ _ H5) by (intros k a b H; now apply (sim_pen okC _ k); [apply subs_C|]).
  reflexivity.
Qed.
Lemma sim_error q Xs LA LB LC s t : relS q LA LB LC s t -> ustate_error Xs s = ustate_error Xs t.
Proof. intros (H1 & H2 & _). unfold ustate_error. rewrite H1, H2. reflexivity. Qed.
Lemma sim_hist q P Xs LA LB LC s t : relS q LA LB LC s t -> uinit_hist P Xs s = uinit_hist P Xs t.
Proof. intros H. unfold uinit_hist. rewrite (sim_error _ _ _ _ _ _ _ H), (sim_loss _ _ _ _ _ _ _ _ H), (sim_state_gaps _ _ _ _ _ _ H). reflexivity. Qed.
Definition rel4 q LA LB LC (x : ustate X * hist * nat * message) (y : ustate Y * hist * nat * message) : Prop :=
  let '(s, h, i, m) := x in let '(t, h', i', m') := y in relS q LA LB LC s t /\ h = h' /\ i = i' /\ m = m'.
Lemma sim_loop E P Xs LA LB LC n it s t h : relS (p_constA P) LA LB LC s t ->
  both (rel4 (p_constA P) LA LB LC) (uloop E P Xs n it s h) (uloop E P Xs n it t h).
Proof.
  revert it s t h. induction n as [|n IH]; intros it s t h H; [cbn; auto|]. cbn [uloop]. eapply both_bind; [apply (sim_outer _ _ _ _ _ _ _ _ H)|]. intros s' t' H'.
  destruct (_ || p_return_errors P); [|now apply IH]. rewrite (sim_state_gaps _ _ _ _ _ _ H'). destruct (ustate_gaps t') as [g|]; [|reflexivity]. cbn [bind].
  destruct (_ && negb (p_return_errors P)); [now apply IH|]. rewrite (sim_loss _ _ _ _ _ _ _ _ H'). destruct (ustate_loss P Xs t') as [l|]; [|reflexivity]. cbn [bind].
  rewrite (sim_error _ _ _ _ _ _ _ H'). destruct (p_tol P) as [tol|]; [|now apply IH]. destruct (ntruthy tol); [|now apply IH]. destruct (p_abs_tol P) as [ab|]; [|reflexivity].
  destruct (_ && rel_crit _ _ _); [cbn; auto|]. destruct (_ && xlt l ab); [cbn; auto|]. now apply IH.
Qed.
Lemma sim_run E P Xs LA LB LC n s t : relS (p_constA P) LA LB LC s t ->
  both (fun x y => relS (p_constA P) LA LB LC (fst x) (fst y) /\ snd x = snd y) (urun E P Xs n s) (urun E P Xs n t).
Proof.
  intros H. unfold urun. rewrite (sim_hist _ _ _ _ _ _ _ _ H). destruct (uinit_hist P Xs t) as [h|]; [|reflexivity]. cbn [bind].
  eapply both_bind; [apply (sim_loop E P Xs LA LB LC _ 0 s t h H)|]. intros (((s', h1), i1), m1) (((t', h2), i2), m2) (H' & -> & -> & ->).
  rewrite (sim_state_gaps _ _ _ _ _ _ H'). destruct (match p_feas_tol P with Some _ => _ | None => _ end) as [f|]; [|reflexivity]. cbn [bind].
  destruct H' as (H1 & H2 & H3 & H4 & H5). rewrite H1. destruct (revalidate _) as [c|]; [|reflexivity]. cbn [bind].
  destruct (p_return_errors P); cbn; (split; [repeat split; cbn; assumption|reflexivity]).
Qed.
End Sim.
