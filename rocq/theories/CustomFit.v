(** Whole calls: with objects that behave alike, and with built-in penalties. *)
From Coq Require Import List Arith Bool ZArith Lia.
From Verif Require Import Num Numpy Unimodal Penalties CoupledMatrices Decomp InitVars Parse Fit Custom CustomBase CustomSpec CustomSim.
Import ListNotations.
Local Open Scope num_scope.

Section CustomFit.
Context {N : Num}.

(** ** Parsing *)
Definition three_map {A B} (f : A -> B) (t : three A) : three B := let '(a, b, c) := t in (f a, f b, f c).
Lemma upens_all {X} (l : list (uobj X)) : upens (map UPen l) = l.
Proof. unfold upens. induction l as [|o l IH]; [reflexivity|]. cbn. now rewrite IH. Qed.
Lemma uall_all {X} (l : list (uobj X)) : uall_pens (map UPen l) = true.
Proof. induction l as [|o l IH]; [reflexivity|exact IH]. Qed.
Lemma uparse_objects {X} V rnd k (rA rB rC : list (uobj X)) x d :
  uparse_all V rnd k (objects rA rB rC) x d =
  rmap (fun t => let '(p, q, r) := t in (map (uobj_of (e_ext V) rnd) p ++ rA, map (uobj_of (e_ext V) rnd) q ++ rB, map (uobj_of (e_ext V) rnd) r ++ rC))
       (parse_all V k RNone x d).
Proof.
  unfold uparse_all, parse_all, objects. cbn [ucheck_regs check_regs forallb uent_ok]. rewrite !uall_all. cbn [andb bind].
  repeat (match goal with |- context [listify ?y] => destruct (listify y) as [((?, ?), ?)|]; [|reflexivity]; cbn [bind] end).
  destruct (parse_mode V _ x d) as [p0|]; [|reflexivity]. cbn [bind uadd_user add_user nth_error pens flat_map]. rewrite upens_all.
  destruct (parse_mode V _ x d) as [p1|]; [|reflexivity]. cbn [bind uadd_user add_user nth_error pens flat_map]. rewrite upens_all.
  destruct (parse_mode V _ x d) as [p2|]; [|reflexivity]. cbn [bind uadd_user add_user nth_error pens flat_map rmap]. rewrite upens_all, !app_nil_r. reflexivity.
Qed.

(** ** Alike objects *)
Section Two.
Context {X Y : Type}.
Notation link := (link (N:=N) X Y).
Lemma sim_init_aux rnd Xs rank m (L : list link) : (forall k, In k L -> alike_start rnd m k) -> forall pos,
  both (fun v w => linked related_value L (fst v) (fst w) /\ snd v = snd w)
       (mapS (fun o => uinit_aux rnd o Xs rank (PyInt m)) (map k_1 L) pos) (mapS (fun o => uinit_aux rnd o Xs rank (PyInt m)) (map k_2 L) pos).
Proof.
  induction L as [|k L IH]; intros H pos; [cbn; split; [constructor|reflexivity]|]. cbn.
  eapply both_bind; [apply (H k (or_introl eq_refl))|]. intros (v, p) (w, q) (H1 & H2). cbn in H1, H2. subst q.
  eapply both_bind; [apply (IH (fun k K => H k (or_intror K)) p)|]. intros (vs, p') (ws, q') (H3 & H5). cbn in *. split; [now constructor|assumption].
Qed.
Lemma sim_init_dual rnd Xs rank m (L : list link) : (forall k, In k L -> alike_start rnd m k) -> forall pos,
  mapS (fun o => uinit_dual rnd o Xs rank (PyInt m)) (map k_1 L) pos = mapS (fun o => uinit_dual rnd o Xs rank (PyInt m)) (map k_2 L) pos.
Proof.
  induction L as [|k L IH]; intros H pos; [reflexivity|]. cbn. rewrite (proj2 (H k (or_introl eq_refl))). destruct (uinit_dual _ _ _ _ _ _) as [(v, p)|]; [|reflexivity]. cbn.
  rewrite (IH (fun k K => H k (or_intror K))). reflexivity.
Qed.
Lemma sim_make (ok : link -> Prop) L vs ws ds : (forall k, In k L -> ok k) -> linked related_value L vs ws ->
  both (linked (rel_reg ok) L) (umake (map k_1 L) vs ds) (umake (map k_2 L) ws ds).
Proof.
  intros H HL. revert ds. induction HL as [|k v w L vs ws HR HL IH]; intros ds; [destruct ds; cbn; constructor|]. cbn.
  destruct v as [a|a], w as [b|b]; cbn in HR; try contradiction; [|reflexivity]. destruct ds as [|[D|D] ds]; try reflexivity.
  eapply both_bind; [apply IH; intros; apply H; now right|]. intros x y K. cbn. constructor; [|exact K]. split; [apply H; now left|]. auto.
Qed.
Lemma sim_makes (L : list link) vs ws ds : (forall k, In k L -> okB k) -> linked related_value L vs ws ->
  both (linked rel_regs L) (umakes (map k_1 L) vs ds) (umakes (map k_2 L) ws ds).
Proof.
  intros H HL. revert ds. induction HL as [|k v w L vs ws HR HL IH]; intros ds; [destruct ds; cbn; constructor|]. cbn.
  destruct v as [a|a], w as [b|b]; cbn in HR; try contradiction; [reflexivity|]. destruct ds as [|[D|[D|D1 D2]] ds]; try reflexivity.
  eapply both_bind; [apply IH; intros; apply H; now right|]. intros x y K. cbn. constructor; [|exact K]. split; [apply H; now left|]. auto.
Qed.

(** a built-in penalty and itself *)
Definition self (E : ext) (rnd : rand) (o : pobj) : link := Link (uobj_of E rnd o) (uobj_of E rnd o) same_array equal_values.
Lemma lift_related E rnd o v : related_value (self E rnd o) (lift_val v) (lift_val v).
Proof. destruct v as [M|a]; cbn; [exists M|exists a]; split; reflexivity. Qed.
Lemma uinit_aux_builtin {Z} E rnd o Xs rank m pos :
  uinit_aux rnd (uobj_of (X:=Z) E rnd o) Xs rank m pos = rmap (fun v => (lift_val (fst v), snd v)) (init_aux rnd true o Xs rank m pos).
Proof.
  unfold uinit_aux, init_aux, uobj_of. cbn [w_cls w_aux]. destruct (o_pen o); cbn [builtin u_init];
  try (match goal with |- context [init_common ?a ?b ?c ?d ?e ?f] => destruct (init_common a b c d e f) as [(v, p)|] end; reflexivity).
  match goal with |- context [pf2_init_aux ?a ?b ?c ?d ?e ?f ?g] => destruct (pf2_init_aux a b c d e f g) as [(v, p)|] end; reflexivity.
Qed.
Lemma uinit_dual_builtin {Z} E rnd o Xs rank m pos : uinit_dual rnd (uobj_of (X:=Z) E rnd o) Xs rank m pos = init_dual rnd o Xs rank m pos.
Proof. unfold uinit_dual, init_dual, uobj_of. cbn [w_cls w_dual]. destruct (o_pen o); reflexivity. Qed.
Lemma self_start E rnd m o : alike_start rnd m (self E rnd o).
Proof.
  split.
  - intros Xs rank pos. cbn [self k_1 k_2]. rewrite !uinit_aux_builtin. destruct (init_aux _ _ _ _ _ _ _) as [(v, p)|]; [|reflexivity]. cbn [rmap both fst snd]. split; [apply lift_related|reflexivity].
  - intros Xs rank pos. cbn [self k_1 k_2]. rewrite !uinit_dual_builtin. reflexivity.
Qed.
Lemma self_matrix E rnd o : okC (self E rnd o).
Proof.
  split; [|split].
  - intros V rho a b _. cbn. rewrite !mat_builtin. destruct (factor_matrix_update _ _ _ _) as [M|]; [|reflexivity]. exists M. split; reflexivity.
  - intros a b M (A & -> & ->). cbn. rewrite !sub_builtin. reflexivity.
  - intros M. cbn. rewrite !pen_builtin. reflexivity.
Qed.
Lemma self_rows E rnd o c : okA c (self E rnd o).
Proof.
  destruct c; [apply self_matrix|]. split; [|intros; reflexivity]. split; [|split].
  - intros row rho old. cbn. destruct (o_pen o); reflexivity.
  - intros A M. cbn. rewrite !sub_builtin. reflexivity.
  - intros M. cbn. rewrite !pen_builtin. reflexivity.
Qed.
Lemma self_matrices E rnd o : okB (self E rnd o).
Proof.
  split; [|split].
  - intros V rho a b (v & -> & ->). cbn. rewrite !mats_builtin. destruct (factor_matrices_update _ _ _ _ _) as [M|]; [|reflexivity]. exists M. split; reflexivity.
  - intros a b M (v & -> & ->). cbn. rewrite !subs_builtin. reflexivity.
  - intros M. cbn. rewrite !pens_builtin. reflexivity.
Qed.
Lemma map_self1 E rnd ps L : map k_1 (map (self E rnd) ps ++ L) = map (uobj_of E rnd) ps ++ map k_1 L.
Proof. rewrite map_app, map_map. reflexivity. Qed.
Lemma map_self2 E rnd ps L : map k_2 (map (self E rnd) ps ++ L) = map (uobj_of E rnd) ps ++ map k_2 L.
Proof. rewrite map_app, map_map. reflexivity. Qed.

Definition full (upd : bool) E rnd (ps : list pobj) (L : list link) : list link := if upd then map (self E rnd) ps ++ L else [].
Lemma full_1 (upd : bool) E rnd ps L : (if upd then map (uobj_of E rnd) ps ++ map k_1 L else []) = map k_1 (full upd E rnd ps L).
Proof. destruct upd; [symmetry; apply map_self1|reflexivity]. Qed.
Lemma full_2 (upd : bool) E rnd ps L : (if upd then map (uobj_of E rnd) ps ++ map k_2 L else []) = map k_2 (full upd E rnd ps L).
Proof. destruct upd; [symmetry; apply map_self2|reflexivity]. Qed.
Lemma full_in (Q : link -> Prop) upd E rnd ps L : (forall o, Q (self E rnd o)) -> (forall k, In k L -> Q k) -> forall k, In k (full upd E rnd ps L) -> Q k.
Proof.
  intros H1 H2 k K. destruct upd; [|destruct K]. apply in_app_or in K. destruct K as [K|K]; [|now apply H2]. apply in_map_iff in K. destruct K as (o & <- & _). apply H1.
Qed.

Lemma sim_setup V IE rnd LA LB LC (a : fitargs) :
  (forall k, In k LA -> alike rnd (constant_for_A a) 0 k) -> (forall k, In k LB -> alike rnd (constant_for_A a) 1 k) -> (forall k, In k LC -> alike rnd (constant_for_A a) 2 k) ->
  both (fun x y => snd x = snd y /\ exists pA pB pC, relS (constant_for_A a) (full (f_updA a) (e_ext V) rnd pA LA) (full (f_updB a) (e_ext V) rnd pB LB) (full (f_updC a) (e_ext V) rnd pC LC) (fst x) (fst y))
       (usetup V IE rnd (objects (map k_1 LA) (map k_1 LB) (map k_1 LC)) a) (usetup V IE rnd (objects (map k_2 LA) (map k_2 LB) (map k_2 LC)) a).
Proof.
  intros HA HB HC. unfold usetup. destruct (negb (f_svd a)); [reflexivity|]. destruct (initialize_cmf _ _ _ _ _ _ _) as [(c, pos)|]; [|reflexivity]. cbn [bind].
  destruct (listify (f_l2 a)) as [l2|]; [|reflexivity]. cbn [bind]. rewrite !uparse_objects. destruct (parse_all _ _ _ _ _) as [((pA, pB), pC)|]; [|reflexivity]. cbn [rmap bind].
  rewrite !full_1, !full_2. set (KA := full (f_updA a) (e_ext V) rnd pA LA). set (KB := full (f_updB a) (e_ext V) rnd pB LB). set (KC := full (f_updC a) (e_ext V) rnd pC LC).
  assert (SA : forall k, In k KA -> alike_start rnd 0 k) by (apply full_in; [intros; apply self_start|intros k K; apply (HA k K)]).
  assert (SB : forall k, In k KB -> alike_start rnd 1 k) by (apply full_in; [intros; apply self_start|intros k K; apply (HB k K)]).
  assert (SC : forall k, In k KC -> alike_start rnd 2 k) by (apply full_in; [intros; apply self_start|intros k K; apply (HC k K)]).
  assert (OA : forall k, In k KA -> okA (constant_for_A a) k) by (apply full_in; [intros; apply self_rows|intros k K; apply (HA k K)]).
  assert (OB : forall k, In k KB -> okB k) by (apply full_in; [intros; apply self_matrices|intros k K; apply (HB k K)]).
  assert (OC : forall k, In k KC -> okC k) by (apply full_in; [intros; apply self_matrix|intros k K; apply (HC k K)]).
  unfold uinitialize.
  pose proof (sim_init_aux rnd (f_data a) (f_rank a) 0 KA SA pos) as I1.
  destruct (mapS _ (map k_1 KA) pos) as [(a1, p1)|], (mapS _ (map k_2 KA) pos) as [(a1', p1')|]; cbn in I1; try contradiction; [|subst; reflexivity]. destruct I1 as (I1 & <-). cbn [bind].
  pose proof (sim_init_aux rnd (f_data a) (f_rank a) 1 KB SB p1) as I2.
  destruct (mapS _ (map k_1 KB) p1) as [(a2, p2)|], (mapS _ (map k_2 KB) p1) as [(a2', p2')|]; cbn in I2; try contradiction; [|subst; reflexivity]. destruct I2 as (I2 & <-). cbn [bind].
  pose proof (sim_init_aux rnd (f_data a) (f_rank a) 2 KC SC p2) as I3.
  destruct (mapS _ (map k_1 KC) p2) as [(a3, p3)|], (mapS _ (map k_2 KC) p2) as [(a3', p3')|]; cbn in I3; try contradiction; [|subst; reflexivity]. destruct I3 as (I3 & <-). cbn [bind].
  rewrite (sim_init_dual rnd _ _ 0 KA SA). destruct (mapS _ (map k_2 KA) p3) as [(d1, q1)|]; [|reflexivity]. cbn [bind].
  rewrite (sim_init_dual rnd _ _ 1 KB SB). destruct (mapS _ (map k_2 KB) q1) as [(d2, q2)|]; [|reflexivity]. cbn [bind].
  rewrite (sim_init_dual rnd _ _ 2 KC SC). destruct (mapS _ (map k_2 KC) q2) as [(d3, q3)|]; [|reflexivity]. cbn [bind].
  assert (NN : forall L : list link, is_nil (map k_1 L) = is_nil (map k_2 L)) by (intros []; reflexivity). rewrite !NN.
  destruct (negb (shapes_match _ _ _ _)); [reflexivity|].
  eapply both_bind; [apply (sim_make (okA (constant_for_A a)) KA a1 a1' d1 OA I1)|]. intros gA gA' GA.
  eapply both_bind; [apply (sim_makes KB a2 a2' d2 OB I2)|]. intros gB gB' GB.
  eapply both_bind; [apply (sim_make okC KC a3 a3' d3 OC I3)|]. intros gC gC' GC. cbn [both fst snd]. split; [reflexivity|]. exists pA, pB, pC. repeat split; cbn; assumption.
Qed.

Lemma linked_split {A B} (P : link -> A -> B -> Prop) K L xs ys : linked P (K ++ L) xs ys ->
  exists p p' q q', xs = p ++ q /\ ys = p' ++ q' /\ linked P K p p' /\ linked P L q q'.
Proof.
  revert xs ys. induction K as [|k K IH]; intros xs ys H; [exists [], [], xs, ys; repeat split; [constructor|assumption]|]. inversion H as [|? x y ? xs' ys' HP HL]; subst.
  destruct (IH _ _ HL) as (p & p' & q & q' & -> & -> & H1 & H2). exists (x :: p), (y :: p'), q, q'. repeat split; [now constructor|assumption].
Qed.
Lemma full_vars {A B} (P : link -> A -> B -> Prop) (W : A -> B -> Prop) upd E rnd ps L xs ys :
  (forall o x y, P (self E rnd o) x y -> W x y) -> linked P (full upd E rnd ps L) xs ys ->
  exists p p' q q', xs = p ++ q /\ ys = p' ++ q' /\ Forall2 W p p' /\ linked P (if upd then L else []) q q'.
Proof.
  intros HW H. destruct upd; cbn [full] in H.
  - destruct (linked_split P _ _ _ _ H) as (p & p' & q & q' & E1 & E2 & H1 & H2). exists p, p', q, q'. repeat split; try assumption. clear -H1 HW.
    revert p p' H1. induction ps as [|o ps IH]; intros p p' H1; inversion H1; subst; constructor; [eapply HW; eassumption|now apply IH].
  - inversion H; subst. exists [], [], [], []. repeat split; constructor.
Qed.

Theorem alike_fit V IE rnd (LA LB LC : list link) (a : fitargs) :
  (forall k, In k LA -> alike rnd (constant_for_A a) 0 k) -> (forall k, In k LB -> alike rnd (constant_for_A a) 1 k) -> (forall k, In k LC -> alike rnd (constant_for_A a) 2 k) ->
  both (same_output (updated_modes a) LA LB LC)
       (user_fit V IE rnd (objects (map k_1 LA) (map k_1 LB) (map k_1 LC)) a) (user_fit V IE rnd (objects (map k_2 LA) (map k_2 LB) (map k_2 LC)) a).
Proof.
  intros HA HB HC. unfold user_fit. eapply both_bind; [apply (sim_setup V IE rnd LA LB LC a HA HB HC)|]. intros (s, l2) (t, l2') (H0 & pA & pB & pC & H). cbn [fst snd] in *. subst l2'.
  rewrite (sim_hist _ _ _ _ _ _ _ _ H). destruct (uinit_hist _ _ t) as [h|]; [|reflexivity]. cbn [bind].
  destruct (const_flags (f_const a)) as [flags|] eqn:EF; [|reflexivity]. cbn [bind].
  assert (EC : constant_for_A a = p_constA (fit_params a l2 flags)).
  { destruct l2 as ((x, y), z). cbn. unfold constant_for_A. destruct (f_const a); cbn in EF; inversion EF; reflexivity. }
  rewrite EC in H. eapply both_bind; [apply (sim_run (e_ext V) _ (f_data a) _ _ _ (f_n_iter a) _ _ H)|]. intros (s', d) (t', d') (H' & E'). cbn [fst snd] in *. subst d'.
  destruct H' as (H1 & H2 & H3 & H4 & H5). cbn [both]. split; [exact H1|]. split; [reflexivity|]. cbn [uo_vars]. destruct (f_return_vars a); [|exact I]. cbn [uvars_of uv_dualA uv_dualB uv_dualC uv_auxA uv_auxB uv_auxC].
  split; [apply (linked_map _ _ _ _ _ _ H3); intros k x y (_ & _ & _ & _ & K); exact K|].
  split; [apply (linked_map _ _ _ _ _ _ H4); intros k x y (_ & _ & _ & _ & K); exact K|].
  split; [apply (linked_map _ _ _ _ _ _ H5); intros k x y (_ & _ & _ & _ & K); exact K|].
  split; [|split].
  - apply (full_vars k_R same_array (f_updA a) (e_ext V) rnd pA LA); [intros o x y K; exact K|]. apply (linked_maps _ _ _ _ _ _ _ H3). intros k x y (_ & _ & _ & K & _); exact K.
  - apply (full_vars k_Q equal_values (f_updB a) (e_ext V) rnd pB LB); [intros o x y K; exact K|]. apply (linked_maps _ _ _ _ _ _ _ H4). intros k x y (_ & _ & _ & K & _); exact K.
  - apply (full_vars k_R same_array (f_updC a) (e_ext V) rnd pC LC); [intros o x y K; exact K|]. apply (linked_maps _ _ _ _ _ _ _ H5). intros k x y (_ & _ & _ & K & _); exact K.
Qed.
End Two.

(** ** Built-in penalties *)
Section Builtin.
Context {X : Type}.
Definition emb_vars (v : admmvars) : uvars X :=
  UVars (map UMat (v_auxA v)) (map lift_aux (v_auxB v)) (map UMat (v_auxC v)) (v_dualA v) (v_dualB v) (v_dualC v).
Definition emb_out (o : output) : uoutput X := UOutput (out_cmf o) (option_map emb_vars (out_vars o)) (out_diag o).
Definition emb_elem (E : ext) (rnd : rand) (e : regelem) : uelem X := match e with RPen o => UPen (uobj_of E rnd o) | RNotPen => UNotPen end.
Definition emb_ent (E : ext) (rnd : rand) (e : modeent) : uent X :=
  match e with ENotIter => UENotIter | EList l => UEList (map (emb_elem E rnd) l) | ETuple l => UETuple (map (emb_elem E rnd) l) end.
Definition emb_regsarg (E : ext) (rnd : rand) (r : regsarg) : uregsarg X :=
  match r with RNone => URNone | RNotIter => URNotIter | RList l => URList (map (emb_ent E rnd) l) end.

Lemma all_pens_emb E rnd l : uall_pens (map (emb_elem E rnd) l) = all_pens l.
Proof. induction l as [|e l IH]; [reflexivity|]. unfold uall_pens, all_pens in *. cbn. rewrite IH. destruct e; reflexivity. Qed.
Lemma pens_emb E rnd l : upens (map (emb_elem E rnd) l) = map (uobj_of E rnd) (pens l).
Proof. induction l as [|e l IH]; [reflexivity|]. unfold upens, pens in *. destruct e; cbn; rewrite IH; reflexivity. Qed.
Lemma check_emb E rnd r : ucheck_regs (emb_regsarg E rnd r) = rmap (map (emb_ent E rnd)) (check_regs r).
Proof.
  destruct r as [| |l]; try reflexivity. cbn. assert (H : forallb uent_ok (map (emb_ent E rnd) l) = forallb ent_ok l).
  { induction l as [|e l IH]; [reflexivity|]. cbn. rewrite IH. destruct e; cbn; rewrite ?all_pens_emb; reflexivity. }
  rewrite H. destruct (forallb ent_ok l); reflexivity.
Qed.
Lemma add_emb E rnd p l m : uadd_user (map (uobj_of E rnd) p) (map (emb_ent E rnd) l) m = rmap (map (uobj_of E rnd)) (add_user p l m).
Proof.
  unfold uadd_user, add_user. rewrite nth_error_map. destruct (nth_error l m) as [[|u|u]|]; cbn; try reflexivity. rewrite pens_emb, map_app. reflexivity.
Qed.
Lemma parse_emb V rnd k r x d : uparse_all V rnd k (emb_regsarg (e_ext V) rnd r) x d = rmap (three_map (map (uobj_of (e_ext V) rnd))) (parse_all V k r x d).
Proof.
  unfold uparse_all, parse_all. rewrite check_emb. destruct (check_regs r) as [u|]; [|reflexivity]. cbn [rmap bind].
  repeat (match goal with |- context [listify ?y] => destruct (listify y) as [((?, ?), ?)|]; [|reflexivity]; cbn [bind] end).
  destruct (parse_mode V _ x d) as [p0|]; [|reflexivity]. cbn [bind]. rewrite add_emb. destruct (add_user p0 u 0) as [r0|]; [|reflexivity]. cbn [rmap bind].
  destruct (parse_mode V _ x d) as [p1|]; [|reflexivity]. cbn [bind]. rewrite add_emb. destruct (add_user p1 u 1) as [r1|]; [|reflexivity]. cbn [rmap bind].
  destruct (parse_mode V _ x d) as [p2|]; [|reflexivity]. cbn [bind]. rewrite add_emb. destruct (add_user p2 u 2) as [r2|]; reflexivity.
Qed.
Lemma init_aux_emb E rnd Xs rank m l : forall pos,
  mapS (fun o => uinit_aux rnd o Xs rank (PyInt m)) (map (uobj_of (X:=X) E rnd) l) pos = rmap (fun v => (map lift_val (fst v), snd v)) (mapS (fun o => init_aux rnd true o Xs rank (PyInt m)) l pos).
Proof.
  induction l as [|o l IH]; intros pos; [reflexivity|]. cbn. rewrite uinit_aux_builtin. destruct (init_aux _ _ _ _ _ _ _) as [(v, p)|]; [|reflexivity]. cbn.
  rewrite IH. destruct (mapS _ l p) as [(vs, q)|]; reflexivity.
Qed.
Lemma init_dual_emb E rnd Xs rank m l : forall pos,
  mapS (fun o => uinit_dual rnd o Xs rank (PyInt m)) (map (uobj_of (X:=X) E rnd) l) pos = mapS (fun o => init_dual rnd o Xs rank (PyInt m)) l pos.
Proof. induction l as [|o l IH]; intros pos; [reflexivity|]. cbn. rewrite uinit_dual_builtin. destruct (init_dual _ _ _ _ _ _) as [(v, p)|]; [|reflexivity]. cbn. rewrite IH. reflexivity. Qed.
Lemma make_emb E rnd l : forall vs ds, umake (map (uobj_of (X:=X) E rnd) l) (map lift_val vs) ds = rmap (map (emb_reg E rnd)) (make_mregs l vs ds).
Proof.
  induction l as [|o l IH]; intros [|[v|v] vs] [|[d|d] ds]; try reflexivity. cbn. rewrite IH. destruct (make_mregs l vs ds); reflexivity.
Qed.
Lemma makes_emb E rnd l : forall vs ds, umakes (map (uobj_of (X:=X) E rnd) l) (map lift_val vs) ds = rmap (map (emb_regs E rnd)) (make_bregs l vs ds).
Proof.
  induction l as [|o l IH]; intros [|[v|v] vs] [|[d|[d|d1 d2]] ds]; try reflexivity. cbn. rewrite IH. destruct (make_bregs l vs ds); reflexivity.
Qed.
Lemma if_map {A B} (f : A -> B) (b : bool) l : (if b then map f l else []) = map f (if b then l else []).
Proof. destruct b; reflexivity. Qed.
Definition not_followed {A B} (x : res A) (y : res B) : Prop := x = Err NotModelled /\ exists e, y = Err e.
Lemma setup_emb V IE rnd a :
  usetup V IE rnd (emb_regsarg (e_ext V) rnd (f_regs a)) a = rmap (fun r => (emb (e_ext V) rnd (fst r), snd r)) (setup V IE rnd a) \/
  not_followed (usetup V IE rnd (emb_regsarg (e_ext V) rnd (f_regs a)) a) (setup V IE rnd a).
Proof.
  unfold usetup, setup. destruct (negb (f_svd a)); [now left|]. destruct (initialize_cmf _ _ _ _ _ _ _) as [(c, pos)|]; [|now left]. cbn [bind].
  destruct (listify (f_l2 a)) as [l2|]; [|now left]. cbn [bind]. rewrite parse_emb. destruct (parse_all _ _ _ _ _) as [((pA, pB), pC)|]; [|now left]. cbn [rmap bind three_map].
  rewrite !if_map. set (rA := if f_updA a then pA else []). set (rB := if f_updB a then pB else []). set (rC := if f_updC a then pC else []).
  unfold uinitialize, initialize_aux, initialize_dual, initialize. rewrite init_aux_emb.
  destruct (mapS _ rA pos) as [(a1, p1)|]; [|now left]. cbn [rmap bind fst snd]. rewrite init_aux_emb.
  destruct (mapS _ rB p1) as [(a2, p2)|]; [|now left]. cbn [rmap bind fst snd]. rewrite init_aux_emb.
  destruct (mapS _ rC p2) as [(a3, p3)|]; [|now left]. cbn [rmap bind fst snd].
  rewrite init_dual_emb. destruct (mapS _ rA p3) as [(d1, q1)|]; [|now left]. cbn [bind].
  rewrite init_dual_emb. destruct (mapS _ rB q1) as [(d2, q2)|]; [|now left]. cbn [bind].
  rewrite init_dual_emb. destruct (mapS _ rC q2) as [(d3, q3)|]; [|now left]. cbn [bind].
  assert (NN : forall l, is_nil (map (uobj_of (X:=X) (e_ext V) rnd) l) = is_nil l) by (intros []; reflexivity). rewrite !NN.
  destruct (negb (shapes_match _ _ _ _)).
  - unfold mismatch. destruct (first_products _ _ _) as [e|]; [now left|]. right. split; [reflexivity|eexists; reflexivity].
  - left. rewrite make_emb. destruct (make_mregs rA a1 d1) as [gA|]; [|reflexivity]. cbn [rmap bind].
    rewrite makes_emb. destruct (make_bregs rB a2 d2) as [gB|]; [|reflexivity]. cbn [rmap bind].
    rewrite make_emb. destruct (make_mregs rC a3 d3) as [gC|]; reflexivity.
Qed.
Lemma vars_emb E rnd s : uvars_of (emb (X:=X) E rnd s) = emb_vars (vars_of s).
Proof. unfold uvars_of, emb_vars, vars_of, emb. cbn. rewrite !map_map. reflexivity. Qed.
Theorem fit_emb V IE rnd a :
  user_fit V IE rnd (emb_regsarg (e_ext V) rnd (f_regs a)) a = rmap emb_out (cmf_aoadmm V IE rnd a) \/
  not_followed (user_fit V IE rnd (emb_regsarg (e_ext V) rnd (f_regs a)) a) (cmf_aoadmm V IE rnd a).
Proof.
  unfold user_fit, cmf_aoadmm. destruct (setup_emb V IE rnd a) as [H|(H1 & e & H2)].
  - left. rewrite H. destruct (setup V IE rnd a) as [(s, l2)|]; [|reflexivity]. cbn [rmap bind fst snd]. rewrite hist_emb. destruct (init_hist _ _ s) as [h|]; [|reflexivity]. cbn [bind].
    destruct (const_flags (f_const a)) as [flags|]; [|reflexivity]. cbn [bind]. rewrite run_emb. destruct (run _ _ _ _ s) as [(s', d)|]; [|reflexivity]. cbn [rmap bind fst snd].
    unfold emb_out. cbn. destruct (f_return_vars a); [|reflexivity]. cbn. rewrite vars_emb. reflexivity.
  - right. rewrite H1, H2. split; [reflexivity|]. exists e. reflexivity.
Qed.
End Builtin.
End CustomFit.
