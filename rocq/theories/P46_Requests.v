(** C90: different ways of asking for the same penalties. *)
From Coq Require Import Reals Lra Lia List Arith Bool ZArith.
From Verif Require Import Num Numpy Unimodal Penalties CoupledMatrices Decomp InitVars Parse ParseSpec ParseProofs Fit Custom CustomBase CustomSpec CustomSim CustomFit KeywordSpec Binary64 FitSpec FitExamples Ideal RFacts.
Import ListNotations.

Section Requests.
Context {N : Num}.

Lemma pens_of (l : list (pobj (N:=N))) : pens (map RPen l) = l.
Proof. unfold pens. induction l as [|o l IH]; [reflexivity|]. cbn. now rewrite IH. Qed.
Lemma all_pens_of (l : list (pobj (N:=N))) : all_pens (map RPen l) = true.
Proof. induction l as [|o l IH]; [reflexivity|exact IH]. Qed.

(** ** The keywords of a mode *)
Lemma bind_iff {A B} (x : res A) (f : A -> res B) (l : B) : bind x f = Ok l <-> exists y, x = Ok y /\ f y = Ok l.
Proof. destruct x as [y|e]; cbn; split; [eauto|intros (z & [= ->] & H); exact H|discriminate|intros (z & H & _); discriminate]. Qed.
Lemma made_iff (obj : penalty (N:=N) -> pobj (N:=N)) (c : bool) (call : res penalty) l :
  (if c then let* p := call in Ok [obj p] else Ok []) = Ok l <-> exists q, made (N:=N) c call q /\ l = map obj q.
Proof.
  unfold made. destruct c.
  - rewrite bind_iff. split; [intros (p & -> & [= <-]); exists [p]; eauto|intros (q & (p & -> & ->) & ->); eauto].
  - split; [intros [= <-]; exists []; eauto|intros (q & -> & ->); reflexivity].
Qed.
Lemma gl2_iff (obj : penalty (N:=N) -> pobj (N:=N)) (g : option gl2) (call : mat -> res penalty) l :
  match g with None | Some GFalse => Ok [] | Some (GMat M) => let* p := call M in Ok [obj p] | Some GNoMat => Err NotModelled end = Ok l <->
  exists q, match g with Some (GMat M) => made (N:=N) true (call M) q | Some GNoMat => False | _ => q = [] end /\ l = map obj q.
Proof.
  destruct g as [[|M|]|].
  - split; [intros [= <-]; exists []; eauto|intros (q & -> & ->); reflexivity].
  - apply (made_iff obj true).
  - split; [discriminate|intros (q & [] & _)].
  - split; [intros [= <-]; exists []; eauto|intros (q & -> & ->); reflexivity].
Qed.
Lemma given_if {A} (x : option num) (f : num -> A) (z : A) :
  match x with Some b => if ntruthy b then f b else z | None => z end = if given (N:=N) x then f (amount x) else z.
Proof. destruct x; reflexivity. Qed.
Lemma stands_for_iff V k ai di l : parse_mode (N:=N) V k ai di = Ok l <-> stands_for V k ai di l.
Proof.
  set (obj := fun p => PObj p ai di).
  assert (X : forall gl ball tv one : list penalty,
    (if k_pf2 k then [obj (Parafac2 1 true true)] else []) ++ (if btruthy (k_uni k) then [obj (Unimodality (btruthy (k_nn k)))] else []) ++
    map obj gl ++ map obj ball ++ map obj tv ++ map obj one ++ map obj (bounds_object k) ++ map obj (sign_object k) =
    map obj ((if k_pf2 k then [Parafac2 1 true true] else []) ++ (if on (k_uni k) then [Unimodality (on (k_nn k))] else []) ++
           gl ++ ball ++ tv ++ one ++ bounds_object k ++ sign_object k)).
  { intros gl ball tv one. rewrite !map_app. unfold on, btruthy. destruct (k_pf2 k), (k_uni k) as [[]|]; reflexivity. }
  assert (BX : forall nn : bool, nn = on (k_nn k) -> match k_lower k, k_upper k with
             | None, None => []
             | lo, hi => [obj (Box (if nn then Some (match lo with None => n0 | Some x => nmax x n0 end) else lo) hi)] end = map obj (bounds_object k)).
  { intros nn ->. unfold bounds_object. destruct (k_lower k), (k_upper k); reflexivity. }
  assert (E : parse_mode V k ai di =
    let* gl := match k_gl2 k with None | Some GFalse => Ok [] | Some (GMat M) => let* p := mk_GenL2 (e_ext V) (e_eigvals V) M true in Ok [obj p] | Some GNoMat => Err NotModelled end in
    let* ball := if given (k_norm k) then let* p := mk_L2Ball (amount (k_norm k)) (on (k_nn k)) in Ok [obj p] else Ok [] in
    let* tv := if given (k_tv k) then let* p := mk_TV (e_has_tv V) (amount (k_tv k)) (amount (k_l1 k)) in Ok [obj p] else Ok [] in
    let* one := if own_l1 k then let* p := mk_L1 (l1_amount k) (on (k_nn k)) in Ok [obj p] else Ok [] in
    Ok ((if k_pf2 k then [obj (Parafac2 1 true true)] else []) ++ (if btruthy (k_uni k) then [obj (Unimodality (btruthy (k_nn k)))] else []) ++
      gl ++ ball ++ tv ++ one ++ map obj (bounds_object k) ++ map obj (sign_object k))).
  { unfold parse_mode. cbv zeta. fold obj. 
    replace (map obj (sign_object k)) with (if btruthy (k_nn k) && negb (btruthy (k_uni k) || match k_norm k with Some b => ntruthy b | None => false end || own_l1 k ||
       match map obj (bounds_object k) with [] => false | _ => true end) then [obj NonNegativity] else []).
    2:{ unfold sign_object, on, btruthy, given. destruct (bounds_object k); cbn [map]; destruct (andb _ _); reflexivity. }
    rewrite <- (BX (btruthy (k_nn k)) eq_refl). unfold own_l1, l1_amount, amount, given, otruthy, on, btruthy.
    destruct (k_gl2 k) as [[|M|]|]; destruct (k_norm k); destruct (k_tv k); reflexivity. }
  rewrite E. rewrite bind_iff. setoid_rewrite gl2_iff. setoid_rewrite bind_iff. setoid_rewrite made_iff. setoid_rewrite bind_iff. setoid_rewrite made_iff.
  setoid_rewrite bind_iff. setoid_rewrite made_iff. unfold stands_for. fold obj. split.
  - intros (? & (gl & G & ->) & ? & (ball & B & ->) & ? & (tv & T & ->) & ? & (one & O & ->) & [= <-]). exists gl, ball, tv, one. rewrite <- X. auto.
  - intros (gl & ball & tv & one & G & B & T & O & ->). rewrite <- X. do 2 (eexists; split; [eauto|]). do 2 (eexists; split; [eauto|]). reflexivity.
Qed.

(** ** The three modes *)
Lemma parse_form V k regs ai di (kw : nat -> modekw) (u : nat -> list pobj) :
  regs_give (N:=N) regs u -> (forall m, (m < 3)%nat -> mode_values k m (kw m)) ->
  parse_all V k regs ai di =
    let* p := parse_mode V (kw 0%nat) ai di in let* q := parse_mode V (kw 1%nat) ai di in let* r := parse_mode V (kw 2%nat) ai di in
    Ok (p ++ u 0%nat, q ++ u 1%nat, r ++ u 2%nat).
Proof.
  intros U K.
  destruct (K 0%nat ltac:(lia)) as (A0 & B0 & C0 & D0 & E0 & F0 & G0 & H0 & P0). destruct (K 1%nat ltac:(lia)) as (A1 & B1 & C1 & D1 & E1 & F1 & G1 & H1 & P1).
  destruct (K 2%nat ltac:(lia)) as (A2 & B2 & C2 & D2 & E2 & F2 & G2 & H2 & P2).
  assert (RU : exists es, check_regs regs = Ok es /\ forall p m, (m < 3)%nat -> add_user p es m = Ok (p ++ u m)).
  { destruct regs as [| |es]; [|destruct U|]; cbn [regs_give] in U.
    - eexists; split; [reflexivity|]. intros p m Hm. rewrite U. destruct m as [|[|[|m]]]; [reflexivity..|lia].
    - subst es. eexists; split; [cbn [check_regs forallb ent_ok]; rewrite !all_pens_of; reflexivity|].
      intros p m Hm. destruct m as [|[|[|m]]]; [..|lia]; cbn [add_user nth_error]; rewrite pens_of; reflexivity. }
  destruct RU as (es & CR & AU).
  unfold parse_all. rewrite CR. cbn [bind].
  rewrite (proj2 (listify_iff (a_nn k) _ _ _) (conj A0 (conj A1 A2))). cbn [bind].
  rewrite (proj2 (listify_iff (a_upper k) _ _ _) (conj C0 (conj C1 C2))). cbn [bind].
  rewrite (proj2 (listify_iff (a_lower k) _ _ _) (conj B0 (conj B1 B2))). cbn [bind].
  rewrite (proj2 (listify_iff (a_norm k) _ _ _) (conj D0 (conj D1 D2))). cbn [bind].
  rewrite (proj2 (listify_iff (a_uni k) _ _ _) (conj E0 (conj E1 E2))). cbn [bind].
  rewrite (proj2 (listify_iff (a_l1 k) _ _ _) (conj F0 (conj F1 F2))). cbn [bind].
  rewrite (proj2 (listify_iff (a_gl2 k) _ _ _) (conj H0 (conj H1 H2))). cbn [bind].
  rewrite (proj2 (listify_iff (a_tv k) _ _ _) (conj G0 (conj G1 G2))). cbn [bind].
  cbn [Nat.eqb] in P0, P1, P2. rewrite andb_false_r in P0, P2. rewrite andb_true_r in P1. rewrite <- P0 at 1. rewrite <- P1. rewrite <- P2.
  replace (ModeKw (k_nn (kw 0%nat)) _ _ _ _ _ _ _ _) with (kw 0%nat) by (destruct (kw 0%nat); reflexivity).
  replace (ModeKw (k_nn (kw 1%nat)) _ _ _ _ _ _ _ _) with (kw 1%nat) by (destruct (kw 1%nat); reflexivity).
  replace (ModeKw (k_nn (kw 2%nat)) _ _ _ _ _ _ _ _) with (kw 2%nat) by (destruct (kw 2%nat); reflexivity).
  destruct (parse_mode V (kw 0%nat) ai di) as [p|]; [|reflexivity]. cbn [bind]. rewrite AU by lia. cbn [bind].
  destruct (parse_mode V (kw 1%nat) ai di) as [q|]; [|reflexivity]. cbn [bind]. rewrite AU by lia. cbn [bind].
  destruct (parse_mode V (kw 2%nat) ai di) as [r|]; [|reflexivity]. cbn [bind]. rewrite AU by lia. reflexivity.
Qed.

(** ** Whole calls *)
Lemma fit_requests V IE rnd l2 k r (a : fitargs (N:=N)) :
  listify l2 = listify (f_l2 a) -> parse_all V k r (f_aux a) (f_dual a) = parse_all V (f_kw a) (f_regs a) (f_aux a) (f_dual a) ->
  cmf_aoadmm V IE rnd (with_requests l2 k r a) = cmf_aoadmm V IE rnd a.
Proof.
  intros HL HP. unfold cmf_aoadmm. assert (ES : setup V IE rnd (with_requests l2 k r a) = setup V IE rnd a) by (unfold setup; cbn; rewrite HL, HP; reflexivity).
  rewrite ES. destruct a. reflexivity.
Qed.
Lemma no_keywords_parse V r ai di (l : nat -> list pobj) : ntruthy n0 = false -> regs_give r l -> parse_all (N:=N) V no_keywords r ai di = Ok (l 0%nat, l 1%nat, l 2%nat).
Proof.
  intros Z G. rewrite (parse_form V no_keywords r ai di (fun _ => ModeKw None None None None None false None None None) l G).
  2:{ intros m Hm. unfold mode_values. cbn. tauto. }
  unfold parse_mode. cbn. rewrite Z. reflexivity.
Qed.

(** *** Objects with the same methods *)
Lemma request_same {X} E rnd o o' : same_request (N:=N) o o' -> uobj_of (X:=X) E rnd o = uobj_of E rnd o'.
Proof.
  destruct o as [p x d], o' as [p' x' d']. intros (H1 & H2 & H). cbn in H1, H2, H. subst x' d'. unfold uobj_of. cbn. f_equal.
  destruct H as [-> |[(-> & ->)|(-> & ->)]]; reflexivity.
Qed.
Lemma map_inj {A B} (f : A -> B) (F : forall x y, f x = f y -> x = y) : forall l l', map f l = map f l' -> l = l'.
Proof. induction l as [|x l IH]; intros [|y l'] H; try discriminate; [reflexivity|]. cbn in H. injection H as H1 H2. f_equal; auto. Qed.
Lemma emb_out_inj {X} o o' : emb_out (N:=N) (X:=X) o = emb_out o' -> o = o'.
Proof.
  destruct o as [c v d], o' as [c' v' d']. unfold emb_out. cbn. intros H. injection H as -> HV ->. f_equal.
  destruct v as [v|], v' as [v'|]; try discriminate; [|reflexivity]. cbn in HV. destruct v as [a1 a2 a3 a4 a5 a6], v' as [b1 b2 b3 b4 b5 b6]. unfold emb_vars in HV. cbn in HV. injection HV as H1 H2 H3 -> -> ->.
  apply map_inj in H1; [|intros ? ? [= ->]; reflexivity]. apply map_inj in H3; [|intros ? ? [= ->]; reflexivity].
  apply map_inj in H2; [|intros x y Q; destruct x, y; cbn in Q; inversion Q; try reflexivity]. 2:{ f_equal. eapply map_inj; [|eassumption]. intros ? ? [= ->]; reflexivity. }
  subst. reflexivity.
Qed.
Lemma emb_elems E rnd (l l' : list (pobj (N:=N))) {X} : Forall2 same_request l l' -> map (emb_elem (X:=X) E rnd) (map RPen l) = map (emb_elem E rnd) (map RPen l').
Proof. induction 1 as [|o o' l l' H _ IH]; [reflexivity|]. cbn [map emb_elem]. rewrite (request_same _ _ _ _ H), IH. reflexivity. Qed.
Lemma fit_same V IE rnd (l l' : nat -> list pobj) (a : fitargs (N:=N)) out : (forall m, (m < 3)%nat -> Forall2 same_request (l m) (l' m)) ->
  cmf_aoadmm V IE rnd (with_objects l a) = Ok out -> cmf_aoadmm V IE rnd (with_objects l' a) = Ok out.
Proof.
  intros S H. pose proof (fit_emb (X:=unit) V IE rnd (with_objects l a)) as F. pose proof (fit_emb (X:=unit) V IE rnd (with_objects l' a)) as F'.
  rewrite H in F. destruct F as [F|(_ & e & Q)]; [|discriminate]. cbn [rmap] in F.
  assert (EQ : user_fit (X:=unit) V IE rnd (emb_regsarg (e_ext V) rnd (f_regs (with_objects l' a))) (with_objects l' a) = Ok (emb_out out)).
  { rewrite <- F. unfold with_objects at 1 3. cbn [f_regs with_requests emb_regsarg map emb_ent].
    rewrite (emb_elems _ _ _ _ (S 0%nat ltac:(lia))), (emb_elems _ _ _ _ (S 1%nat ltac:(lia))), (emb_elems _ _ _ _ (S 2%nat ltac:(lia))). reflexivity. }
  rewrite EQ in F'. destruct F' as [F'|(Q & _)]; [|discriminate]. destruct (cmf_aoadmm V IE rnd (with_objects l' a)) as [o|]; [|discriminate].
  cbn [rmap] in F'. injection F' as F'. apply (f_equal (@Ok _)). apply (emb_out_inj (X:=unit)). unfold emb_out. congruence.
Qed.
End Requests.

(** C90.  Every keyword stands for penalty objects: the call without keywords, with those
    objects in front of the user's own, does exactly the same (result or exception). *)
Theorem C90_keywords {N : Num} V IE rnd (a : fitargs (N:=N)) (kw : nat -> modekw) (l u : nat -> list pobj) :
  ntruthy n0 = false ->
  (forall m, (m < 3)%nat -> mode_values (f_kw a) m (kw m) /\ stands_for V (kw m) (f_aux a) (f_dual a) (l m)) -> regs_give (f_regs a) u ->
  cmf_aoadmm V IE rnd (with_objects (fun m => l m ++ u m) a) = cmf_aoadmm V IE rnd a.
Proof.
  intros Z K U. apply fit_requests; [reflexivity|]. rewrite (no_keywords_parse V (RList _) (f_aux a) (f_dual a) (fun m => l m ++ u m) Z); [|reflexivity].
  rewrite (parse_form V (f_kw a) (f_regs a) (f_aux a) (f_dual a) kw u U); [|intros m Hm; apply K; exact Hm].
  rewrite (proj2 (stands_for_iff _ _ _ _ _) (proj2 (K 0%nat ltac:(lia)))), (proj2 (stands_for_iff _ _ _ _ _) (proj2 (K 1%nat ltac:(lia)))),
    (proj2 (stands_for_iff _ _ _ _ _) (proj2 (K 2%nat ltac:(lia)))). reflexivity.
Qed.
Print Assumptions C90_keywords.

(** Arguments with the same values for the modes, whether one value for all, three values or
    a dictionary, and the same user penalties: the same result or exception. *)
Theorem C90_same_values {N : Num} V IE rnd (a : fitargs (N:=N)) l2 k r (w : nat -> option num) (kw : nat -> modekw) (u : nat -> list pobj) :
  (forall m, (m < 3)%nat -> means (f_l2 a) m (w m) /\ mode_values (f_kw a) m (kw m)) -> regs_give (f_regs a) u ->
  (forall m, (m < 3)%nat -> means l2 m (w m) /\ mode_values k m (kw m)) -> regs_give r u ->
  cmf_aoadmm V IE rnd (with_requests l2 k r a) = cmf_aoadmm V IE rnd a.
Proof.
  intros K U K' U'. apply fit_requests.
  - rewrite (proj2 (listify_iff l2 _ _ _) (conj (proj1 (K' 0%nat ltac:(lia))) (conj (proj1 (K' 1%nat ltac:(lia))) (proj1 (K' 2%nat ltac:(lia)))))).
    rewrite (proj2 (listify_iff (f_l2 a) _ _ _) (conj (proj1 (K 0%nat ltac:(lia))) (conj (proj1 (K 1%nat ltac:(lia))) (proj1 (K 2%nat ltac:(lia)))))). reflexivity.
  - rewrite (parse_form V (f_kw a) (f_regs a) _ _ kw u U) by (intros m Hm; apply K; exact Hm).
    rewrite (parse_form V k r _ _ kw u U') by (intros m Hm; apply K'; exact Hm). reflexivity.
Qed.
Print Assumptions C90_same_values.

(** A non-negativity constraint and a lower bound of zero are interchangeable, as objects *)
Theorem C90_same_objects {N : Num} V IE rnd (l l' : nat -> list pobj) (a : fitargs (N:=N)) out :
  (forall m, (m < 3)%nat -> Forall2 same_request (l m) (l' m)) ->
  cmf_aoadmm V IE rnd (with_objects l a) = Ok out <-> cmf_aoadmm V IE rnd (with_objects l' a) = Ok out.
Proof.
  intros S. split; apply fit_same; [exact S|]. intros m Hm. specialize (S m Hm). induction S as [|o o' x y H _ IH]; constructor; [|exact IH].
  destruct H as (E1 & E2 & H). split; [congruence|]. split; [congruence|]. destruct H as [->|H]; tauto.
Qed.
Print Assumptions C90_same_objects.

(** and as keywords, also together with an upper bound, for every choice of modes: the same
    factors, variables, diagnostics. *)
Section Sign.
Context {N : Num}.
Lemma same_refl (l : list (pobj (N:=N))) : Forall2 same_request l l.
Proof. induction l as [|o l IH]; constructor; [|exact IH]. unfold same_request. tauto. Qed.
Lemma sign_objects (k k' : modekw (N:=N)) ai di : sign_as_bound k k' ->
  forall l, Forall2 same_request (map (fun p => PObj p ai di) (l ++ bounds_object k ++ sign_object k)) (map (fun p => PObj p ai di) (l ++ bounds_object k' ++ sign_object k')).
Proof.
  intros (E1 & E2 & E3 & E4 & E5 & ->) l. rewrite !(map_app _ l). apply Forall2_app; [apply same_refl|].
  unfold sign_object, bounds_object. rewrite E1, E2, E3, E4, E5. cbn [on k_nn k_lower k_upper andb orb negb]. destruct (k_upper k) as [hi|]; cbn; repeat constructor; cbn; tauto.
Qed.
Lemma sign_stands V k k' ai di : sign_as_bound (N:=N) k k' ->
  (forall l, stands_for V k ai di l -> exists l', stands_for V k' ai di l' /\ Forall2 same_request l l') /\
  (forall l', stands_for V k' ai di l' -> exists l, stands_for V k ai di l /\ Forall2 same_request l l').
Proof.
  intros S. assert (Q := sign_objects k k' ai di S). destruct S as (E1 & E2 & E3 & E4 & E5 & E6).
  assert (O : own_l1 k' = own_l1 k) by (rewrite E6; reflexivity).
  assert (Q6 : forall a b c d e f, Forall2 same_request (map (fun p => PObj p ai di) (a ++ b ++ c ++ d ++ e ++ f ++ bounds_object k ++ sign_object k))
    (map (fun p => PObj p ai di) (a ++ b ++ c ++ d ++ e ++ f ++ bounds_object k' ++ sign_object k'))).
  { intros a b c d e f. specialize (Q (a ++ b ++ c ++ d ++ e ++ f)). rewrite <- !app_assoc in Q. exact Q. }
  split; intros ? (gl & ball & tv & one & G & B & T & O' & ->); (eexists; split; [exists gl, ball, tv, one|]).
  - rewrite O, E5. rewrite E5 in O'. subst k'. cbn in *. rewrite E4 in *. do 4 (split; [assumption|]). reflexivity.
  - subst k'. cbn [k_nn k_uni k_pf2]. rewrite E3. exact (Q6 _ [] _ _ _ _).
  - rewrite E5. rewrite O, E5 in O'. subst k'. cbn in *. rewrite E4 in *. do 4 (split; [assumption|]). reflexivity.
  - subst k'. cbn [k_nn k_uni k_pf2]. rewrite E3. exact (Q6 _ [] _ _ _ _).
Qed.
(** A call that succeeds has keywords that stand for something. *)
Lemma fit_stands V IE rnd l2 k r (a : fitargs (N:=N)) kw u out : regs_give r u -> (forall m, (m < 3)%nat -> mode_values k m (kw m)) ->
  cmf_aoadmm V IE rnd (with_requests l2 k r a) = Ok out -> exists l, forall m, (m < 3)%nat -> stands_for V (kw m) (f_aux a) (f_dual a) (l m).
Proof.
  intros U K H. unfold cmf_aoadmm in H. apply bind_iff in H as ((s, l2') & H & _). unfold setup in H. cbn [with_requests f_svd f_data f_rank f_init f_l2 f_kw f_regs f_aux f_dual f_updA f_updB f_updC] in H.
  destruct (negb (f_svd a)); [discriminate|]. apply bind_iff in H as ((c, pos) & _ & H). apply bind_iff in H as (v & _ & H). apply bind_iff in H as (v3 & H & _).
  rewrite (parse_form V k r _ _ kw u U K) in H. apply bind_iff in H as (p & H0 & H). apply bind_iff in H as (q & H1 & H). apply bind_iff in H as (t & H2 & _).
  exists (fun m => match m with 0 => p | 1 => q | _ => t end). intros m Hm. apply stands_for_iff. destruct m as [|[|[|m]]]; [assumption..|lia].
Qed.
End Sign.

(** The keywords of every mode agree, or one call asks for non-negativity where the other sets the lower bound zero. *)
Theorem C90_lower_bound_zero {N : Num} V IE rnd (a : fitargs (N:=N)) k' (kw kw' : nat -> modekw) (u : nat -> list pobj) out :
  ntruthy n0 = false ->
  (forall m, (m < 3)%nat -> mode_values (f_kw a) m (kw m) /\ mode_values k' m (kw' m) /\ (kw' m = kw m \/ sign_as_bound (kw m) (kw' m))) ->
  regs_give (f_regs a) u ->
  cmf_aoadmm V IE rnd (with_requests (f_l2 a) k' (f_regs a) a) = Ok out <-> cmf_aoadmm V IE rnd a = Ok out.
Proof.
  intros Z K U.
  assert (EA : with_requests (f_l2 a) (f_kw a) (f_regs a) a = a) by (destruct a; reflexivity).
  set (b := with_requests (f_l2 a) k' (f_regs a) a).
  assert (G : forall l l', (forall m, (m < 3)%nat -> stands_for V (kw m) (f_aux a) (f_dual a) (l m) /\ stands_for V (kw' m) (f_aux a) (f_dual a) (l' m) /\ Forall2 same_request (l m) (l' m)) ->
    cmf_aoadmm V IE rnd b = Ok out <-> cmf_aoadmm V IE rnd a = Ok out).
  { intros l l' S. rewrite <- (C90_keywords V IE rnd a kw l u Z) by first [exact U|intros m Hm; split; [apply K|apply S]; exact Hm].
    rewrite <- (C90_keywords V IE rnd b kw' l' u Z) by first [exact U|intros m Hm; split; [apply K|apply S]; exact Hm].
    change (with_objects (fun m => l' m ++ u m) b) with (with_objects (fun m => l' m ++ u m) a).
    symmetry. apply C90_same_objects. intros m Hm. apply Forall2_app; [apply S; exact Hm|apply same_refl]. }
  assert (C : forall P : nat -> list pobj -> Prop, (forall m, (m < 3)%nat -> exists l, P m l) -> exists l, forall m, (m < 3)%nat -> P m (l m)).
  { intros P X. destruct (X 0%nat ltac:(lia)) as (x & X0). destruct (X 1%nat ltac:(lia)) as (y & X1). destruct (X 2%nat ltac:(lia)) as (z & X2).
    exists (fun m => match m with 0 => x | 1 => y | _ => z end)%nat. intros [|[|[|m]]] Hm; [assumption..|lia]. }
  split; intros H.
  - destruct (fit_stands V IE rnd _ k' (f_regs a) a kw' u out U ltac:(intros m Hm; apply K; exact Hm) H) as (l' & L').
    destruct (C (fun m x => stands_for V (kw m) (f_aux a) (f_dual a) x /\ Forall2 same_request x (l' m))) as (l & L).
    { intros m Hm. destruct (K m Hm) as (_ & _ & [E|S]); [exists (l' m); rewrite <- E; split; [exact (L' m Hm)|apply same_refl]|]. exact (proj2 (sign_stands V _ _ _ _ S) _ (L' m Hm)). }
    apply (G l l'); [|exact H]. intros m Hm. destruct (L m Hm). auto.
  - assert (H' := H). rewrite <- EA in H'. destruct (fit_stands V IE rnd _ _ (f_regs a) a kw u out U ltac:(intros m Hm; apply K; exact Hm) H') as (l & L).
    destruct (C (fun m x => stands_for V (kw' m) (f_aux a) (f_dual a) x /\ Forall2 same_request (l m) x)) as (l' & L').
    { intros m Hm. destruct (K m Hm) as (_ & _ & [E|S]); [exists (l m); rewrite E; split; [exact (L m Hm)|apply same_refl]|]. exact (proj1 (sign_stands V _ _ _ _ S) _ (L m Hm)). }
    apply (G l l'); [|exact H]. intros m Hm. destruct (L' m Hm). auto.
Qed.
Print Assumptions C90_lower_bound_zero.

(** Beside the theorems: zero is falsy among the reals and the doubles, *)
Example ex_zero_falsy : ntruthy (N:=RNum) (@n0 RNum) = false /\ ntruthy (N:=DNum) (@n0 DNum) = false.
Proof. split; [apply ntruthy_R_false; reflexivity|vm_compute; reflexivity]. Qed.
(** and a fit of two matrices with non-negative A and C, bounded non-negative unimodal B, and a norm ball for C among the
    objects, called in three ways. *)
Local Open Scope R_scope.
Definition ex_values (m : nat) : modekw (N:=RNum) :=
  ModeKw (N:=RNum) (Some true) None (if (m =? 1)%nat then Some 5 else None) None (if (m =? 1)%nat then Some true else None) false None (Some 0) (Some GFalse).
Definition ex_bounds (m : nat) : modekw (N:=RNum) :=
  if (m =? 1)%nat then ex_values 1 else ModeKw (N:=RNum) None (Some 0) None None None false None (Some 0) (Some GFalse).
Definition ex_bound_kw : kwargs (N:=RNum) :=
  KwArgs (ADict (fun m => if (m =? 1)%nat then Some (Some true) else None)) (AIter [Some 0; None; Some 0]) (ADict (fun m => if (m =? 1)%nat then Some (Some 5) else None))
    (AOne None) (AIter [None; Some true; None]) false (AOne None) (AOne (Some 0)) (AOne (Some GFalse)).
Definition ex_objects (m : nat) : list (pobj (N:=RNum)) :=
  map (fun p => PObj (N:=RNum) p (IStr RandomUniform) (IStr RandomUniform)) (if (m =? 1)%nat then [Unimodality true; Box (N:=RNum) (Some 0) (Some 5)] else [NonNegativity]).
Definition ex_own (m : nat) : list (pobj (N:=RNum)) := if (m =? 2)%nat then ex_user else [].
Example ex_requests rnd : exists V out, cmf_aoadmm V no_ext rnd ex_args = Ok out /\
  cmf_aoadmm V no_ext rnd (with_requests (f_l2 ex_args) ex_bound_kw (f_regs ex_args) ex_args) = Ok out /\
  cmf_aoadmm V no_ext rnd (with_objects (fun m => ex_objects m ++ ex_own m) ex_args) = Ok out.
Proof.
  destruct (ex_fit rnd) as (V & out & _ & _ & _ & _ & _ & _ & _ & _ & _ & _ & H). exists V, out. split; [exact H|].
  assert (Z := proj1 ex_zero_falsy). assert (U : regs_give (f_regs ex_args) ex_own) by reflexivity.
  assert (A : forall m, (m < 3)%nat -> mode_values (f_kw ex_args) m (ex_values m)).
  { intros [|[|[|m]]] Hm; [..|lia]; unfold mode_values; cbn; repeat split; auto. }
  assert (OZ : own_l1 (ex_values 0) = false) by (unfold own_l1, l1_amount; cbn [given k_tv k_l1 amount ex_values]; destruct (ntruthy (N:=RNum) 0); exact Z).
  split.
  - apply (C90_lower_bound_zero V no_ext rnd ex_args ex_bound_kw ex_values ex_bounds ex_own out Z); [|exact U|exact H].
    intros m Hm. split; [apply A; exact Hm|]. split; [destruct m as [|[|[|m]]]; [..|lia]; unfold mode_values; cbn; repeat split; auto|].
    destruct m as [|[|[|m]]]; [right|left; reflexivity|right|lia]; repeat split; exact OZ.
  - rewrite <- H. apply (C90_keywords V no_ext rnd ex_args ex_values ex_objects ex_own Z); [|exact U]. intros m Hm. split; [apply A; exact Hm|].
    assert (OZ' : own_l1 (ex_values m) = false) by exact OZ.
    exists [], [], [], []. split; [reflexivity|]. split; [reflexivity|]. split; [assert (T : given (k_tv (ex_values m)) = false) by exact Z; rewrite T; reflexivity|].
    split; [rewrite OZ'; reflexivity|]. unfold sign_object. rewrite OZ'. destruct m as [|[|[|m]]]; [reflexivity..|lia].
Qed.
