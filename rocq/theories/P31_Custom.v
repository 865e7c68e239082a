(** C74-C78: penalties written by the user (penalties.py:19-485, examples/plot_custom_penalty.py). *)
From Coq Require Import Reals Lra Lia List Arith Bool ZArith.
From Verif Require Import Num Numpy RFacts Spec SpecFacts MatFacts Unimodal Penalties PenaltyMain CoupledMatrices Decomp InitVars Parse ParseSpec Fit FitSpec
  FitExamples P11_Total Ideal Custom CustomBase CustomSpec CustomSim CustomFit CustomCalls CustomExample.
Import ListNotations.

(** C74.  Built-in penalties are classes like any others: a fit in which [regs] holds objects
    that have exactly the methods of the built-in classes returns or raises what the fit of
    Fit.v, about which C01-C73 are proved, returns or raises.  (With data, start and rank
    of differing shapes both raise; the model of C74-C79 leaves open which exception.) *)
Theorem C74_builtin_classes {N : Num} {X} (V : env (N:=N)) IE rnd (a : fitargs (N:=N)) :
  user_fit (X:=X) V IE rnd (emb_regsarg (e_ext V) rnd (f_regs a)) a = rmap emb_out (cmf_aoadmm V IE rnd a) \/
  (user_fit (X:=X) V IE rnd (emb_regsarg (e_ext V) rnd (f_regs a)) a = Err NotModelled /\ exists e, cmf_aoadmm V IE rnd a = Err e).
Proof. apply fit_emb. Qed.
Print Assumptions C74_builtin_classes.

(** C75.  How a penalty stores its auxiliary variables makes no difference. *)
Theorem C75_parametrisation {N : Num} {X Y} (V : env (N:=N)) IE rnd (LA LB LC : list (link (N:=N) X Y)) (a : fitargs (N:=N)) :
  (forall k, In k LA -> alike rnd (constant_for_A a) 0 k) ->
  (forall k, In k LB -> alike rnd (constant_for_A a) 1 k) ->
  (forall k, In k LC -> alike rnd (constant_for_A a) 2 k) ->
  both (same_output (updated_modes a) LA LB LC)
       (user_fit V IE rnd (objects (map k_1 LA) (map k_1 LB) (map k_1 LC)) a)
       (user_fit V IE rnd (objects (map k_2 LA) (map k_2 LB) (map k_2 LC)) a).
Proof. apply alike_fit. Qed.
Print Assumptions C75_parametrisation.

(** C76.  The auxiliary variables that a fit returns for the objects in [regs] are the values
    of the objects' own methods, each call given the result of the one before, from the
    object's own start. *)
Theorem C76_own_variables {N : Num} {X} (V : env (N:=N)) IE rnd (rA rB rC : list (uobj X)) (a : fitargs (N:=N)) o v :
  user_fit V IE rnd (objects rA rB rC) a = Ok o -> uo_vars o = Some v ->
  (f_updA a = true -> exists p q, uv_auxA v = p ++ q /\ Forall2 (own_variable WMat (first_mode_call a) rnd 0 a) rA q) /\
  (f_updB a = true -> exists p q, uv_auxB v = p ++ q /\ Forall2 (own_variable WMats matrices_call rnd 1 a) rB q) /\
  (f_updC a = true -> exists p q, uv_auxC v = p ++ q /\ Forall2 (own_variable WMat matrix_call rnd 2 a) rC q).
Proof. apply own_calls. Qed.
Print Assumptions C76_own_variables.
(** Hence what a start and every call ensure holds of the variable that is returned, *)
Theorem C76_invariant {N : Num} {X A} (wrap : A -> uauxval X) (call : cls X -> A -> A -> Prop) rnd m (a : fitargs (N:=N)) o x (I : A -> Prop) :
  (forall x0 pos pos', uinit_aux rnd o (f_data a) (f_rank a) (PyInt m) pos = Ok (wrap x0, pos') -> I x0) ->
  (forall x y, I x -> call (w_cls o) x y -> I y) ->
  own_variable wrap call rnd m a o x -> I x.
Proof. intros H0 H (x0 & pos & pos' & k & E & C & _). apply (calls_inv _ I _ _ _ H (H0 _ _ _ E) C). Qed.
Print Assumptions C76_invariant.
(** and what a single call ensures, too, as soon as there is an outer and an inner iteration. *)
Theorem C76_ensured {N : Num} {X A} (wrap : A -> uauxval X) (call : cls X -> A -> A -> Prop) rnd m (a : fitargs (N:=N)) o x :
  (1 <= f_n_iter a)%Z -> (1 <= f_inner a)%Z ->
  own_variable wrap call rnd m a o x -> exists z, call (w_cls o) z x.
Proof. intros H1 H2 (x0 & pos & pos' & k & _ & C & _ & K). apply (calls_last _ _ _ _ (K H1 H2) C). Qed.
Print Assumptions C76_ensured.

(** C77.  The templates: a class with only a row update is applied row by row, a class with
    only a matrix update matrix by matrix. *)
Definition row_class {N : Num} {X} (f : list num -> num -> list num -> res (list num)) (c : cls (N:=N) X) : Prop :=
  u_base c = BRow /\ u_row c = Some f /\ u_mat c = None /\ u_mats c = None.
Definition matrix_class {N : Num} {X} (f : mat -> num -> uaux X -> res (uaux X)) (c : cls (N:=N) X) : Prop :=
  u_base c = BMatrix /\ u_row c = None /\ u_mat c = Some f /\ u_mats c = None.
Definition rows_from {N : Num} {X} (f : list num -> num -> list num -> res (list num)) (x : uaux (N:=N) X) : Prop :=
  exists M, x = UMat M /\ forall r, In r (me M) -> exists row rho old, f row rho old = Ok r.
Definition matrix_from {N : Num} {X} (f : mat -> num -> uaux X -> res (uaux X)) (x : uaux (N:=N) X) : Prop :=
  exists V rho old, f V rho old = Ok x.
Definition list_of {N : Num} {X} (P : uaux (N:=N) X -> Prop) (x : uauxes X) : Prop := exists l, x = UList l /\ Forall P l.

Lemma by_rows_from {N : Num} (f : list num -> num -> list num -> res (list num)) rho rows : forall aux r, by_rows (N:=N) f rho rows aux = Ok r ->
  forall x, In x r -> exists row rho old, f row rho old = Ok x.
Proof.
  induction rows as [|v rows IH]; intros aux r H x Hx; cbn in H; [injection H as <-; destruct Hx|]. destruct aux as [|o aux]; [discriminate|].
  destruct (f v rho o) as [y|] eqn:E; [|discriminate]. cbn in H. destruct (by_rows f rho rows aux) as [ys|] eqn:E2; [|discriminate]. injection H as <-. destruct Hx as [<-|Hx]; eauto.
Qed.
Lemma by_matrices_from {N : Num} {X} (f : mat -> num -> uaux X -> res (uaux X)) : forall fms rhos l r, by_matrices (N:=N) f fms rhos l = Ok r -> Forall (matrix_from f) r.
Proof.
  induction fms as [|V fms IH]; intros [|rho rhos] [|a l] r H; cbn in H; try (injection H as <-; constructor).
  destruct (f V rho a) as [y|] eqn:E; [|discriminate]. cbn in H. destruct (by_matrices f fms rhos l) as [ys|] eqn:E2; [|discriminate]. injection H as <-. constructor; [|eauto]. exists V, rho, a. exact E.
Qed.
Lemma row_matrix {N : Num} {X} f (c : cls (N:=N) X) x y : row_class f c -> matrix_call c x y -> rows_from f y.
Proof.
  intros (B & R & M & _) (V & rho & H). unfold mat_method in H. rewrite M, B in H. destruct x as [A|]; [|discriminate]. unfold row_method in H. rewrite R in H.
  destruct (by_rows f rho (me V) (me A)) as [r|] eqn:E; [|discriminate]. injection H as <-. eexists. split; [reflexivity|]. exact (by_rows_from _ _ _ _ _ E).
Qed.
Lemma row_rows {N : Num} {X} f n (c : cls (N:=N) X) x y : row_class f c -> rows_call n c x y -> rows_from f y.
Proof.
  intros (B & R & M & _) (A & D & rows & rhos & _ & -> & L & H). exists D. split; [reflexivity|]. intros r Hr. destruct (In_nth _ _ [] Hr) as (i & Hi & <-). unfold row_method in H. rewrite R in H.
  do 3 eexists. apply H. now rewrite <- L.
Qed.
Lemma row_matrices {N : Num} {X} f (c : cls (N:=N) X) x y : row_class f c -> matrices_call c x y -> list_of (rows_from f) y.
Proof.
  intros C (V & rho & H). pose proof C as (B & R & M & MS). unfold mats_method in H. rewrite MS, B in H. destruct x as [l| |]; try discriminate.
  destruct (by_matrices (mat_method c) V rho l) as [r|] eqn:E; [|discriminate]. injection H as <-. exists r. split; [reflexivity|]. eapply Forall_impl; [|exact (by_matrices_from _ _ _ _ _ E)].
  intros z (W & p & o & K). apply (row_matrix f c o z C). exists W, p. exact K.
Qed.
Theorem C77_row_classes {N : Num} {X} f (V : env (N:=N)) IE rnd (rA rB rC : list (uobj X)) (a : fitargs (N:=N)) o v :
  user_fit V IE rnd (objects rA rB rC) a = Ok o -> uo_vars o = Some v -> (1 <= f_n_iter a)%Z -> (1 <= f_inner a)%Z ->
  (f_updA a = true -> exists p q, uv_auxA v = p ++ q /\ Forall2 (fun u x => row_class f (w_cls u) -> rows_from f x) rA q) /\
  (f_updB a = true -> exists p q, uv_auxB v = p ++ q /\ Forall2 (fun u x => row_class f (w_cls u) -> list_of (rows_from f) x) rB q) /\
  (f_updC a = true -> exists p q, uv_auxC v = p ++ q /\ Forall2 (fun u x => row_class f (w_cls u) -> rows_from f x) rC q).
Proof.
  intros H HV H1 H2. destruct (C76_own_variables _ _ _ _ _ _ _ _ _ H HV) as (KA & KB & KC). split; [|split]; intros U.
  - destruct (KA U) as (p & q & E & F). exists p, q. split; [exact E|]. eapply F2_impl; [|exact F]. intros u x O C. destruct (C76_ensured _ _ _ _ _ _ _ H1 H2 O) as (z & K).
    unfold first_mode_call, one_row_call in K. destruct (constant_for_A a); [exact (row_matrix _ _ _ _ C K)|exact (row_rows _ _ _ _ _ C K)].
  - destruct (KB U) as (p & q & E & F). exists p, q. split; [exact E|]. eapply F2_impl; [|exact F]. intros u x O C. destruct (C76_ensured _ _ _ _ _ _ _ H1 H2 O) as (z & K). exact (row_matrices _ _ _ _ C K).
  - destruct (KC U) as (p & q & E & F). exists p, q. split; [exact E|]. eapply F2_impl; [|exact F]. intros u x O C. destruct (C76_ensured _ _ _ _ _ _ _ H1 H2 O) as (z & K). exact (row_matrix _ _ _ _ C K).
Qed.
Print Assumptions C77_row_classes.
Theorem C77_matrix_classes {N : Num} {X} f (V : env (N:=N)) IE rnd (rA rB rC : list (uobj X)) (a : fitargs (N:=N)) o v :
  user_fit V IE rnd (objects rA rB rC) a = Ok o -> uo_vars o = Some v -> (1 <= f_n_iter a)%Z -> (1 <= f_inner a)%Z ->
  (f_updA a = true -> constant_for_A a = true -> exists p q, uv_auxA v = p ++ q /\ Forall2 (fun u x => matrix_class f (w_cls u) -> matrix_from f x) rA q) /\
  (f_updB a = true -> exists p q, uv_auxB v = p ++ q /\ Forall2 (fun u x => matrix_class f (w_cls u) -> list_of (matrix_from f) x) rB q) /\
  (f_updC a = true -> exists p q, uv_auxC v = p ++ q /\ Forall2 (fun u x => matrix_class f (w_cls u) -> matrix_from f x) rC q).
Proof.
  intros H HV H1 H2. destruct (C76_own_variables _ _ _ _ _ _ _ _ _ H HV) as (KA & KB & KC). split; [|split]; intros U.
  - intros Q. destruct (KA U) as (p & q & E & F). exists p, q. split; [exact E|]. eapply F2_impl; [|exact F]. intros u x O (B & R & M & MS). destruct (C76_ensured _ _ _ _ _ _ _ H1 H2 O) as (z & K).
    unfold first_mode_call, one_row_call in K. rewrite Q in K. destruct K as (W & rho & K). unfold mat_method in K. rewrite M in K. exists W, rho, z. exact K.
  - destruct (KB U) as (p & q & E & F). exists p, q. split; [exact E|]. eapply F2_impl; [|exact F]. intros u x O (B & R & M & MS). destruct (C76_ensured _ _ _ _ _ _ _ H1 H2 O) as (z & W & rho & K).
    unfold mats_method in K. rewrite MS, B in K. destruct z as [l| |]; try discriminate. destruct (by_matrices _ W rho l) as [r|] eqn:EB; [|discriminate]. injection K as <-. exists r. split; [reflexivity|].
    apply by_matrices_from in EB. unfold mat_method in EB. rewrite M in EB. exact EB.
  - destruct (KC U) as (p & q & E & F). exists p, q. split; [exact E|]. eapply F2_impl; [|exact F]. intros u x O (B & R & M & MS). destruct (C76_ensured _ _ _ _ _ _ _ H1 H2 O) as (z & W & rho & K).
    unfold mat_method in K. rewrite M in K. exists W, rho, z. exact K.
Qed.
Print Assumptions C77_matrix_classes.
(** A class without the method that a mode calls cannot be used there: no such fit returns.
    Mode 0 needs a row update, or a matrix update if the feasibility penalty of A is
    constant; mode 2 needs a matrix update. *)
Definition lacks_rows {N : Num} {X} (c : cls (N:=N) X) : Prop := u_row c = None.
Lemma no_rows {N : Num} {X} n (c : cls (N:=N) X) x y : lacks_rows c -> (0 < n)%nat -> ~ rows_call n c x y.
Proof. intros L Hn (A & B & rows & rhos & _ & _ & _ & H). specialize (H 0%nat Hn). unfold row_method in H. rewrite L in H. discriminate. Qed.
Theorem C77_missing_method {N : Num} {X} (V : env (N:=N)) IE rnd (rA rB rC : list (uobj X)) (a : fitargs (N:=N)) o :
  (1 <= f_n_iter a)%Z -> (1 <= f_inner a)%Z -> f_data a <> [] ->
  (f_updA a = true /\ constant_for_A a = false /\ Exists (fun u => lacks_rows (w_cls u)) rA) \/
  (f_updA a = true /\ constant_for_A a = true /\ Exists (fun u => u_mat (w_cls u) = None /\ u_base (w_cls u) <> BRow) rA) \/
  (f_updC a = true /\ Exists (fun u => u_mat (w_cls u) = None /\ u_base (w_cls u) <> BRow) rC) ->
  user_fit V IE rnd (objects rA rB rC) a <> Ok o.
Proof.
  intros H1 H2 HD HX H.
  (* ask for the variables *)
  set (a' := FitArgs (f_data a) (f_rank a) (f_init a) (f_n_iter a) (f_l2 a) (f_kw a) (f_regs a) (f_scale a) (f_const a) (f_aux a) (f_dual a) (f_svd a) (f_tol a) (f_abs_tol a) (f_feas_tol a)
    (f_inner_tol a) (f_inner a) (f_updA a) (f_updB a) (f_updC a) true (f_return_errors a)).
  assert (K : exists o' v, user_fit V IE rnd (objects rA rB rC) a' = Ok o' /\ uo_vars o' = Some v).
  { unfold user_fit in H |- *. change (usetup V IE rnd (objects rA rB rC) a') with (usetup V IE rnd (objects rA rB rC) a). destruct (usetup _ _ _ _ a) as [(s, l2)|]; [|discriminate]. cbn [bind] in *.
    change (fit_params a' l2) with (fit_params a l2). change (f_data a') with (f_data a). change (f_n_iter a') with (f_n_iter a). change (f_const a') with (f_const a).
    destruct (uinit_hist _ _ s) as [h|]; [|discriminate]. cbn [bind] in *. destruct (const_flags _) as [fl|]; [|discriminate]. cbn [bind] in *.
    destruct (urun _ _ _ _ _) as [(s', d)|]; [|discriminate]. cbn [bind] in *. eexists _, _. split; reflexivity. }
  destruct K as (o' & v & K & HV). destruct (C76_own_variables _ _ _ _ _ _ _ _ _ K HV) as (KA & _ & KC).
  assert (EX : forall A (call : cls X -> A -> A -> Prop) (wrap : A -> uauxval X) m rs p, Forall2 (own_variable wrap call rnd m a') rs p -> forall Q, Exists Q rs ->
    exists u z x, Q u /\ call (w_cls u) z x).
  { intros A call wrap m rs p F Q E. revert p F. induction E as [u rs HQ|u rs E IH]; intros p F; inversion F as [|? x ? p' O F']; subst; [|eauto].
    destruct (C76_ensured wrap call rnd m a' u x H1 H2 O) as (z & C). eauto 6. }
  assert (NM : forall u z x, u_mat (w_cls u) = None /\ u_base (w_cls u) <> BRow -> ~ matrix_call (X:=X) (w_cls (N:=N) u) z x).
  { intros u z x (E & B) (W & rho & C). unfold mat_method in C. rewrite E in C. destruct (u_base (w_cls u)); [discriminate..|congruence]. }
  destruct HX as [(U & Q & E)|[(U & Q & E)|(U & E)]].
  - destruct (KA U) as (p & q & _ & F). destruct (EX _ _ _ _ _ _ F _ E) as (u & z & x & L & C). unfold first_mode_call, one_row_call in C. change (constant_for_A a') with (constant_for_A a) in C. rewrite Q in C.
    apply (no_rows _ _ _ _ L) in C; [exact C|]. change (f_data a') with (f_data a). destruct (f_data a); [congruence|cbn; lia].
  - destruct (KA U) as (p & q & _ & F). destruct (EX _ _ _ _ _ _ F _ E) as (u & z & x & L & C). unfold first_mode_call, one_row_call in C. change (constant_for_A a') with (constant_for_A a) in C. rewrite Q in C.
    exact (NM u z x L C).
  - destruct (KC U) as (p & q & _ & F). destruct (EX _ _ _ _ _ _ F _ E) as (u & z & x & L & C). exact (NM u z x L C).
Qed.
Print Assumptions C77_missing_method.

(** Classes with undefined abstract methods cannot be instantiated; of an instance, no method
    ends in the NotImplementedError of a base class. *)
Definition never {A} (e : exn) (x : res A) : Prop := x <> Err e.
Definition own_methods_implemented {N : Num} {X} (c : cls (N:=N) X) : Prop :=
  (forall f, u_row c = Some f -> forall r rho x, never RuntimeError (f r rho x)) /\
  (forall f, u_mat c = Some f -> forall V rho x, never RuntimeError (f V rho x)) /\
  (forall f, u_mats c = Some f -> forall V rho x, never RuntimeError (f V rho x)) /\
  (forall f, u_pen c = Some f -> forall x, never RuntimeError (f x)).
Theorem C77_abstract_classes {N : Num} {X} (c : cls (N:=N) X) :
  (instantiate c = Err TypeError <->
     (u_hard c = false /\ u_pen c = None) \/ (u_base c = BRow /\ u_row c = None) \/
     (u_base c = BMatrix /\ u_mat c = None) \/ (u_base c = BMatrices /\ u_mats c = None)) /\
  (instantiate c = Ok c -> own_methods_implemented c ->
     (forall r rho x, never RuntimeError (row_method c r rho x)) /\ (forall V rho x, never RuntimeError (mat_method c V rho x)) /\
     (forall V rho x, never RuntimeError (mats_method c V rho x)) /\ (forall x, never RuntimeError (pen_method c x))).
Proof.
  split.
  - unfold instantiate, abstract. destruct (u_hard c), (u_pen c), (u_base c), (u_row c), (u_mat c), (u_mats c); cbn; (split; [intros E; try discriminate E; tauto|intros E; try reflexivity; exfalso]);
    repeat (match goal with H : _ \/ _ |- _ => destruct H | H : _ /\ _ |- _ => destruct H end); discriminate.
  - intros HI (H1 & H2 & H3 & H4). unfold instantiate in HI. destruct (abstract c) eqn:EA; [discriminate|]. unfold abstract in EA. apply orb_false_iff in EA. destruct EA as (EP & EB).
    assert (RM : forall r rho x, never RuntimeError (row_method c r rho x)) by (intros r rho x; unfold row_method; destruct (u_row c); [now apply H1|discriminate]).
    assert (BR : forall rho rows aux, never RuntimeError (by_rows (row_method c) rho rows aux)).
    { intros rho. induction rows as [|r rows IH]; intros aux; cbn; [discriminate|]. destruct aux as [|x aux]; [discriminate|]. pose proof (RM r rho x) as K. destruct (row_method c r rho x) as [y|e]; cbn.
      - specialize (IH aux). destruct (by_rows _ _ rows aux); cbn; [discriminate|]. intros E; injection E as ->. now apply IH.
      - intros E; injection E as ->. now apply K. }
    assert (MM : forall V rho x, never RuntimeError (mat_method c V rho x)).
    { intros V rho x. unfold mat_method. destruct (u_mat c) eqn:EM; [now apply (H2 _ eq_refl)|]. destruct (u_base c); try discriminate. destruct x; [|discriminate]. specialize (BR rho (me V) (me M)).
      destruct (by_rows _ _ _ _); cbn; [discriminate|]. intros E; injection E as ->. now apply BR. }
    split; [exact RM|]. split; [exact MM|]. split.
    + intros V rho x. unfold mats_method. destruct (u_mats c) eqn:EM; [now apply (H3 _ eq_refl)|].
      assert (K : never RuntimeError (match x with UList l => let* xs := by_matrices (mat_method c) V rho l in Ok (UList xs) | UPair _ _ => Err TypeError | UWhole _ => Err NotModelled end)).
      { destruct x as [l| |]; try discriminate. revert rho l. induction V as [|W V IH]; intros [|r rho] [|y l]; cbn; try discriminate. pose proof (MM W r y) as K. destruct (mat_method c W r y) as [z|e]; cbn.
        - specialize (IH rho l). destruct (by_matrices _ V rho l); cbn in *; [discriminate|]. intros E; injection E as ->. now apply IH.
        - intros E; injection E as ->. now apply K. }
      destruct (u_base c); [discriminate EB|exact K|exact K].
    + intros x. unfold pen_method. destruct (u_pen c) eqn:EC; [now apply (H4 _ eq_refl)|]. destruct (u_hard c); [discriminate|discriminate EP].
Qed.
Print Assumptions C77_abstract_classes.

(** *** A concrete case of C74-C77: non-negativity, and the same with auxiliary variables
    that are stored transposed, on modes 1 and 2 and, with a constant feasibility penalty,
    on mode 0 *)
Section Turned.
Context {N : Num} {X : Type}.
Variables (E : ext (N:=N)) (rnd : rand (N:=N)) (i d : initval (N:=N)).
Definition turned_link : link (N:=N) X turned :=
  Link (UObj (builtin E rnd NonNegativity) i d) (UObj (transposed rnd) i d)
    (fun a b => exists M, a = UMat M /\ b = turn M)
    (fun a b => exists l, a = UList (map UMat l) /\ b = UList (map turn l)).
Lemma mget_build r c f i0 j0 : (i0 < r)%nat -> (j0 < c)%nat -> mget (N:=N) (mbuild r c f) i0 j0 = f i0 j0.
Proof.
  intros Hi Hj. unfold mget, mbuild. cbn [me]. rewrite (nth_indep _ [] (map (f 0%nat) (seq 0 c))) by now rewrite map_length, seq_length.
  rewrite (map_nth (fun i => map (f i) (seq 0 c))), seq_nth by exact Hi. rewrite (nth_indep _ n0 (f (0 + i0)%nat 0%nat)) by now rewrite map_length, seq_length.
  rewrite map_nth, seq_nth by exact Hj. reflexivity.
Qed.
Lemma turn_back (M : mat (N:=N)) d0 : msub (mtrans (mtrans M)) d0 = msub M d0.
Proof.
  unfold msub, mmap2. cbn [mr mc mtrans mbuild]. unfold mbuild. f_equal. apply map_ext_in. intros r Hr. apply map_ext_in. intros c Hc. apply in_seq in Hr, Hc.
  f_equal. unfold mtrans at 1. rewrite mget_build by (cbn in *; lia). unfold mtrans. rewrite mget_build by (cbn in *; lia). reflexivity.
Qed.
Lemma common_kind (init : initval (N:=N)) Xs rank mode pos v p : init_common rnd init Xs rank mode pos = Ok (v, p) -> forall b c, v <> VMats (APf2 b c).
Proof.
  unfold init_common. destruct rank as [r|]; [|discriminate]. destruct mode as [m|]; [|discriminate]. intros H b c ->. revert H.
  destruct (negb _); [discriminate|]. destruct init as [[| | |]|sh da|l|l|]; try discriminate.
  - destruct (m =? 0)%Z; [destruct (draw_mat _ _ _ _ _) as [(M, q)|]; cbn; discriminate|]. destruct (m =? 1)%Z; [destruct (mapS _ _ _) as [(l, q)|]; cbn; discriminate|].
    destruct (first_cols Xs); [|discriminate]. cbn. destruct (draw_mat _ _ _ _ _) as [(M, q)|]; cbn; discriminate.
  - destruct (m =? 0)%Z; [destruct (draw_mat _ _ _ _ _) as [(M, q)|]; cbn; discriminate|]. destruct (m =? 1)%Z; [destruct (mapS _ _ _) as [(l, q)|]; cbn; discriminate|].
    destruct (first_cols Xs); [|discriminate]. cbn. destruct (draw_mat _ _ _ _ _) as [(M, q)|]; cbn; discriminate.
  - destruct (m =? 0)%Z; [destruct (zeros _ _); cbn; discriminate|]. destruct (m =? 1)%Z; [destruct (mapM _ _); cbn; discriminate|].
    destruct (first_cols Xs); [|discriminate]. cbn. destruct (zeros _ _); cbn; discriminate.
  - destruct (m =? 1)%Z; [discriminate|]. destruct sh as [|x [|y [|z sh]]]; try discriminate. destruct (first_cols Xs); [|discriminate]. cbn. destruct (_ || _); [discriminate|]. destruct (_ || _); discriminate.
  - destruct (negb _); [discriminate|]. destruct (any_mismatch _ _ _) as [[|]|]; try discriminate. cbn. destruct (negb _); discriminate.
Qed.
Lemma turned_alike constant m : (m = 0%nat -> constant = true) -> alike rnd constant m turned_link.
Proof.
  intros Hm. split.
  - split; [|reflexivity]. intros Xs rank pos. unfold uinit_aux. cbn [turned_link k_1 k_2 w_cls w_aux u_init builtin transposed].
    destruct (init_common rnd i Xs rank (PyInt (Z.of_nat m)) pos) as [(v, p)|] eqn:EI; [|reflexivity]. cbn [bind]. pose proof (common_kind _ _ _ _ _ _ _ EI) as K.
    destruct v as [M|[l|b c]]; cbn [turn_val bind lift_val lift_aux both fst snd related_value]; [split; [|reflexivity]; exists M; auto|split; [|reflexivity]; exists l; auto|now destruct (K b c)].
  - assert (AM : alike_matrix (k_R turned_link) (w_cls (k_1 turned_link)) (w_cls (k_2 turned_link))).
    { split; [|split]; [| |reflexivity].
      - intros V rho a b _. cbn. exists (mmap relu V). auto.
      - intros a b M (A & -> & ->). cbn. rewrite turn_back. reflexivity. }
    destruct m as [|[|m]]; [rewrite (Hm eq_refl); exact AM| |exact AM]. destruct AM as (AM1 & AM2 & _). split; [|split]; [| |reflexivity].
    + intros Vs rhos a b (l & -> & ->). cbn.
      assert (KM : both (fun x y => exists l, x = map UMat l /\ y = map turn l) (by_matrices (mat_method (builtin (X:=X) E rnd NonNegativity)) Vs rhos (map UMat l)) (by_matrices (mat_method (transposed rnd)) Vs rhos (map turn l))).
      { revert rhos l. induction Vs as [|V Vs IH]; intros [|rho rhos] [|M l]; cbn; try (exists []; auto; fail).
        eapply both_bind; [apply IH|]. intros x y (l' & -> & ->). exists (mmap relu V :: l'). auto. }
      eapply both_bind; [exact KM|]. intros x y (l' & -> & ->). exists l'. auto.
    + intros a b Ms (l & -> & ->). cbn. revert Ms. induction l as [|M l IH]; intros [|D Ms]; cbn; try reflexivity. rewrite turn_back. cbn in IH. rewrite IH. reflexivity.
Qed.
End Turned.
(** Over all data: C75's hypotheses hold of these objects. *)
Theorem C75_transposed {N : Num} {X} (V : env (N:=N)) IE rnd (i d : initval (N:=N)) (a : fitargs (N:=N)) (onA onB onC : bool) :
  (onA = true -> constant_for_A a = true) ->
  let l (b : bool) := if b then [turned_link (X:=X) (e_ext V) rnd i d] else [] in
  both (same_output (updated_modes a) (l onA) (l onB) (l onC))
       (user_fit V IE rnd (objects (map k_1 (l onA)) (map k_1 (l onB)) (map k_1 (l onC))) a)
       (user_fit V IE rnd (objects (map k_2 (l onA)) (map k_2 (l onB)) (map k_2 (l onC))) a).
Proof.
  intros HA l. apply C75_parametrisation; intros k; unfold l.
  - destruct onA; intros K; [|destruct K]. destruct K as [<-|[]]. apply turned_alike. auto.
  - destruct onB; intros K; [|destruct K]. destruct K as [<-|[]]. apply turned_alike. discriminate.
  - destruct onC; intros K; [|destruct K]. destruct K as [<-|[]]. apply turned_alike. discriminate.
Qed.
Print Assumptions C75_transposed.
