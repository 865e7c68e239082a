(** Parsing of the regularisation arguments: proofs. *)
From Coq Require Import Reals Lra Lia List Arith Bool ZArith.
From Verif Require Import Num Numpy RFacts Spec SpecFacts MatFacts ModelSpec Penalties PenaltySpec CoupledMatrices CmfSpec CmfProofs Decomp DecompSpec
  DecompFacts InitVars Parse ParseSpec.
Import ListNotations.
Local Open Scope R_scope.

Notation pobjR := (pobj (N:=RNum)).

(** distribution over the modes *)
Lemma listify_means {A} (a : arg A) x y z : listify a = Ok (x, y, z) -> well_formed a /\ means a 0 x /\ means a 1 y /\ means a 2 z.
Proof.
  destruct a as [v|d|l]; cbn.
  - intros H. injection H as <- <- <-. auto.
  - intros H. injection H as <- <- <-. unfold dict_get. split; [exact Logic.I|]. split; [|split]; (destruct (d _) as [v|]; [left|right]; auto).
  - destruct l as [|u [|v [|w [|q l]]]]; try discriminate. intros H. injection H as <- <- <-. cbn. auto 10.
Qed.
Lemma means_fun {A} (a : arg A) m v w : means a m v -> means a m w -> v = w.
Proof.
  destruct a as [x|d|l]; cbn; [congruence| |intros (_ & H1) (_ & H2); congruence].
  intros [H1|(H1 & E1)] [H2|(H2 & E2)]; congruence.
Qed.
Lemma listify_total {A} (a : arg A) : well_formed a -> exists x y z, listify a = Ok (x, y, z).
Proof.
  destruct a as [v|d|l]; cbn; intros H; [eauto|eauto|]. destruct l as [|u [|v [|w [|q l]]]]; try discriminate. eauto.
Qed.
Lemma listify_bad {A} (a : arg A) : ~ well_formed a -> listify a = Err ValueError.
Proof.
  destruct a as [v|d|l]; cbn; intros H; [tauto|tauto|]. destruct l as [|u [|v [|w [|q l]]]]; try reflexivity. cbn in H. tauto.
Qed.
Lemma listify_iff {A} (a : arg A) x y z : listify a = Ok (x, y, z) <-> means a 0 x /\ means a 1 y /\ means a 2 z.
Proof.
  split; [intros H; apply listify_means in H; tauto|]. intros (H0 & H1 & H2).
  assert (W : well_formed a) by (destruct a; cbn in *; tauto). destruct (listify_total a W) as (x' & y' & z' & E).
  destruct (listify_means _ _ _ _ E) as (_ & M0 & M1 & M2).
  now rewrite (means_fun _ _ _ _ H0 M0), (means_fun _ _ _ _ H1 M1), (means_fun _ _ _ _ H2 M2).
Qed.

(** lists of penalties *)
Lemma imposed_app l1 l2 r c X : imposed (l1 ++ l2) r c X <-> imposed l1 r c X /\ imposed l2 r c X.
Proof. unfold imposed. apply Forall_app. Qed.
Lemma imposed_nil r c X : imposed [] r c X <-> True.
Proof. unfold imposed. split; auto. Qed.
Lemma imposed_one o r c X : imposed [o] r c X <-> doc_domain (o_pen o) r c X.
Proof. unfold imposed. split; [intros H; now inversion H|auto]. Qed.
Lemma total_app l1 l2 r c X : total_penalty (l1 ++ l2) r c X = total_penalty l1 r c X + total_penalty l2 r c X.
Proof. induction l1 as [|o l1 IH]; cbn [app total_penalty]; [lra|]. rewrite IH. lra. Qed.
Lemma total_one o r c X : total_penalty [o] r c X = doc_penalty (o_pen o) r c X.
Proof. cbn. lra. Qed.
Lemma count_app l1 l2 : parafac2_count (l1 ++ l2) = (parafac2_count l1 + parafac2_count l2)%nat.
Proof. induction l1 as [|o l1 IH]; cbn [app parafac2_count]; [reflexivity|]. rewrite IH. lia. Qed.

Lemma btruthy_wants b : btruthy b = true <-> wants b.
Proof. unfold wants. destruct b as [[]|]; cbn; split; congruence. Qed.
Lemma ntruthy_true (x : R) : ntruthy (N:=RNum) x = true <-> x <> 0.
Proof. apply ntruthy_R. Qed.
Lemma ntruthy_false (x : R) : ntruthy (N:=RNum) x = false <-> x = 0.
Proof. apply ntruthy_R_false. Qed.
Lemma nleb_true (x y : R) : nleb (Num:=RNum) x y = true <-> x <= y.
Proof. cbn. unfold Rleb. destruct (Rle_dec x y); intuition (congruence || lra). Qed.
Lemma nleb_false (x y : R) : nleb (Num:=RNum) x y = false <-> y < x.
Proof. cbn. unfold Rleb. destruct (Rle_dec x y); intuition (congruence || lra). Qed.

(** the pieces *)
Section Pieces.
Variables (V : env (N:=RNum)) (k : modekw (N:=RNum)) (ai di : initval (N:=RNum)).
Let obj (p : penalty (N:=RNum)) : pobjR := PObj p ai di.
Let nn := btruthy (k_nn k).
Let l1 : num (Num:=RNum) := strength (k_l1 k).
Let tv_on := otruthy (N:=RNum) (k_tv k).
Let l1' : num (Num:=RNum) := if tv_on then n0 else l1.
Definition s_pf2 : list pobjR := if k_pf2 k then [obj (Parafac2 1 true true)] else [].
Definition s_uni : list pobjR := if btruthy (k_uni k) then [obj (Unimodality nn)] else [].
Definition s_ball : list pobjR := match k_norm k with Some b => if ntruthy (N:=RNum) b then [obj (L2Ball b nn)] else [] | None => [] end.
Definition s_tv : list pobjR := match k_tv k with Some t => if ntruthy (N:=RNum) t then [obj (TotalVariation t l1)] else [] | None => [] end.
Definition s_l1 : list pobjR := if ntruthy (N:=RNum) l1' then [obj (L1Penalty l1' nn)] else [].
Definition s_box : list pobjR :=
  match k_lower k, k_upper k with
  | None, None => []
  | lo, hi => [obj (Box (if nn then Some (match lo with None => n0 | Some x => nmax x n0 end) else lo) hi)]
  end.
Definition s_skip : bool :=
  btruthy (k_uni k) || match k_norm k with Some b => ntruthy (N:=RNum) b | None => false end || ntruthy (N:=RNum) l1' || match s_box with [] => false | _ => true end.
Definition s_non : list pobjR := if nn && negb s_skip then [obj NonNegativity] else [].
Definition gl_ok (gl : list pobjR) : Prop :=
  match k_gl2 k with
  | None | Some GFalse => gl = []
  | Some (GMat M) => exists U s, gl = [obj (GeneralizedL2 M U s)] /\ mk_GenL2 (e_ext V) (e_eigvals V) M true = Ok (GeneralizedL2 M U s)
  | Some GNoMat => False
  end.
Definition positive_ok : Prop :=
  (forall b, k_norm k = Some b -> b <> 0 -> 0 < b) /\ (forall t, k_tv k = Some t -> t <> 0 -> e_has_tv V = true /\ 0 < t) /\ 0 <= l1.

Lemma mk_GenL2_shape E ev (M : matR) p : mk_GenL2 (N:=RNum) E ev M true = Ok p -> exists U s, p = GeneralizedL2 M U s.
Proof.
  unfold mk_GenL2. destruct (negb _); [discriminate|]. destruct (true && _)%bool; [discriminate|]. destruct (true && _)%bool; [discriminate|].
  destruct (x_svd E M (mr M)) as [[U s] W]. intros H. injection H as <-. eauto.
Qed.

Lemma parse_mode_iff l : parse_mode V k ai di = Ok l <->
  positive_ok /\ exists gl, gl_ok gl /\ l = s_pf2 ++ s_uni ++ gl ++ s_ball ++ s_tv ++ s_l1 ++ s_box ++ s_non.
Proof.
  set (mgl := match k_gl2 k with
             | None | Some GFalse => Ok []
             | Some (GMat M) => let* p := mk_GenL2 (e_ext V) (e_eigvals V) M true in Ok [obj p]
             | Some GNoMat => Err NotModelled
             end).
  set (mball := match k_norm k with
               | Some b => if ntruthy b then let* p := mk_L2Ball b nn in Ok [obj p] else Ok []
               | None => Ok []
               end).
  set (mtv := match k_tv k with Some t => if ntruthy t then let* p := mk_TV (e_has_tv V) t l1 in Ok [obj p] else Ok [] | None => Ok [] end).
  set (ml1 := if ntruthy l1' then let* p := mk_L1 l1' nn in Ok [obj p] else Ok []).
  assert (EQ0 : parse_mode V k ai di = let* gl := mgl in let* b := mball in let* tv := mtv in let* lone := ml1 in
    Ok (s_pf2 ++ s_uni ++ gl ++ b ++ tv ++ lone ++ s_box ++ s_non)) by reflexivity.
  rewrite EQ0. clear EQ0.
  assert (GL : match mgl with Ok gl => gl_ok gl /\ forall gl', gl_ok gl' -> gl' = gl | Err _ => forall gl', ~ gl_ok gl' end).
  { unfold mgl, gl_ok. destruct (k_gl2 k) as [[|M|]|]; try (split; [reflexivity|auto]); auto.
    destruct (mk_GenL2 _ _ M true) as [p|] eqn:E; cbn [bind].
    - destruct (mk_GenL2_shape _ _ _ _ E) as (U & s & ->). split; [eauto|]. intros gl' (U' & s' & -> & K). injection K as <- <-. reflexivity.
    - intros gl' (U & s & _ & K). discriminate. }
  assert (BA : match mball with Ok b => b = s_ball /\ (forall b, k_norm k = Some b -> b <> 0 -> 0 < b) | Err _ => ~ (forall b, k_norm k = Some b -> b <> 0 -> 0 < b) end).
  { unfold mball, s_ball. destruct (k_norm k) as [b|]; [|split; [reflexivity|discriminate]]. destruct (ntruthy b) eqn:T.
    - apply ntruthy_true in T. unfold mk_L2Ball. destruct (nleb b n0) eqn:L; cbn [bind].
      + apply nleb_true in L. intros K. specialize (K b eq_refl T). rn. lra.
      + split; [reflexivity|]. intros b' E _. injection E as <-. apply nleb_false in L. exact L.
    - apply ntruthy_false in T. split; [reflexivity|]. intros b' E NZ. injection E as <-. contradiction. }
  assert (TV : match mtv with Ok b => b = s_tv /\ (forall t, k_tv k = Some t -> t <> 0 -> e_has_tv V = true /\ 0 < t) /\ (tv_on = true -> 0 <= l1)
               | Err _ => ~ ((forall t, k_tv k = Some t -> t <> 0 -> e_has_tv V = true /\ 0 < t) /\ 0 <= l1) end).
  { unfold mtv, s_tv, tv_on, otruthy. destruct (k_tv k) as [t|]; [|split; [reflexivity|split; discriminate]]. destruct (ntruthy t) eqn:T.
    - apply ntruthy_true in T. unfold mk_TV. destruct (e_has_tv V); cbn [negb]; [|intros (K & _); destruct (K t eq_refl T); discriminate].
      destruct (nleb t n0) eqn:L; cbn [bind].
      { apply nleb_true in L. intros (K & _). destruct (K t eq_refl T). rn. lra. }
      apply nleb_false in L. destruct (nltb l1 n0) eqn:L1; cbn [bind].
      { apply nltb_true in L1. intros (_ & K). rn. lra. }
      apply nltb_false in L1. split; [reflexivity|]. split; [|auto]. intros t' E _. injection E as <-. auto.
    - apply ntruthy_false in T. split; [reflexivity|]. split; [|discriminate]. intros b' E NZ. injection E as <-. contradiction. }
  assert (LO : match ml1 with Ok b => b = s_l1 /\ (tv_on = false -> 0 <= l1) | Err _ => ~ (0 <= l1) end).
  { unfold ml1, s_l1, l1'. destruct tv_on.
    - replace (ntruthy (N:=RNum) n0) with false by (symmetry; now apply ntruthy_false). split; [reflexivity|discriminate].
    - destruct (ntruthy l1) eqn:T.
      + unfold mk_L1. destruct (nltb l1 n0) eqn:L; cbn [bind].
        * apply nltb_true in L. rn. lra.
        * apply nltb_false in L. auto.
      + apply ntruthy_false in T. split; [reflexivity|]. lra. }
  destruct mgl as [gl|e]; cbn [bind].
  2:{ split; [discriminate|]. intros (_ & gl & G & _). destruct (GL gl G). }
  destruct GL as (GL & GU). destruct mball as [ball|e]; cbn [bind].
  2:{ split; [discriminate|]. intros ((P & _) & _). destruct (BA P). }
  destruct BA as (-> & BP). destruct mtv as [tv|e]; cbn [bind].
  2:{ split; [discriminate|]. intros ((_ & P) & _). destruct (TV P). }
  destruct TV as (-> & TP & TL). destruct ml1 as [lone|e]; cbn [bind].
  2:{ split; [discriminate|]. intros ((_ & _ & P) & _). destruct (LO P). }
  destruct LO as (-> & LL).
  assert (PO : positive_ok) by (split; [exact BP|split; [exact TP|destruct tv_on; auto]]).
  split.
  - intros H. injection H as <-. split; [exact PO|]. now exists gl.
  - intros (_ & gl' & G & ->). now rewrite (GU gl' G).
Qed.

Lemma nonneg_max lo x : (match lo with None => 0 | Some y => nmax (N:=RNum) y 0 end <= x) <-> (0 <= x /\ forall y, lo = Some y -> y <= x).
Proof.
  destruct lo as [y|].
  - rewrite nmax_R. split.
    + intros H. split; [eapply Rle_trans; [apply Rmax_r|exact H]|]. intros z E. injection E as <-. eapply Rle_trans; [apply Rmax_l|exact H].
    + intros (H1 & H2). apply Rmax_lub; auto.
  - split; [intros H; split; [exact H|discriminate]|tauto].
Qed.
Lemma box_imposed r c X : imposed s_box r c X <->
  (k_lower k <> None \/ k_upper k <> None -> (nn = true -> entries r c (fun x => 0 <= x) X) /\
   (forall lo, k_lower k = Some lo -> entries r c (fun x => lo <= x) X) /\ (forall hi, k_upper k = Some hi -> entries r c (fun x => x <= hi) X)).
Proof.
  assert (G : imposed [obj (Box (if nn then Some (match k_lower k with None => n0 | Some x => nmax x n0 end) else k_lower k) (k_upper k))] r c X <->
    (nn = true -> entries r c (fun x => 0 <= x) X) /\
   (forall lo, k_lower k = Some lo -> entries r c (fun x => lo <= x) X) /\ (forall hi, k_upper k = Some hi -> entries r c (fun x => x <= hi) X)).
  { rewrite imposed_one. cbn [o_pen obj doc_domain]. unfold entries, within. destruct nn.
    - split.
      + intros H. split; [intros _ i j Hi Hj|split; [intros lo E i j Hi Hj|intros hi E i j Hi Hj]]; destruct (H i j Hi Hj) as (K1 & K2).
        * specialize (K1 _ eq_refl). now apply nonneg_max in K1.
        * specialize (K1 _ eq_refl). apply nonneg_max in K1. now apply K1.
        * auto.
      + intros (H1 & H2 & H3) i j Hi Hj. split; [|auto]. intros y E. injection E as <-. apply nonneg_max. split; [auto|]. intros z Ez. now apply H2.
    - split.
      + intros H. split; [discriminate|]. split; intros; destruct (H i j); auto.
      + intros (_ & H2 & H3) i j Hi Hj. split; [intros y E; now apply H2|auto]. }
  unfold s_box. destruct (k_lower k) as [lo|] eqn:EL.
  - rewrite G. intuition congruence.
  - destruct (k_upper k) as [hi|] eqn:EU; [rewrite G; intuition congruence|]. rewrite imposed_nil. intuition congruence.
Qed.
Lemma s_box_on : match s_box with [] => false | _ => true end = true <-> (k_lower k <> None \/ k_upper k <> None).
Proof. unfold s_box. destruct (k_lower k), (k_upper k); intuition congruence. Qed.

Lemma imposed_requested gl r c X : gl_ok gl -> positive_ok ->
  (imposed (s_pf2 ++ s_uni ++ gl ++ s_ball ++ s_tv ++ s_l1 ++ s_box ++ s_non) r c X <-> requested_domain k r c X).
Proof.
  intros GL PO. rewrite !imposed_app, box_imposed.
  assert (P1 : imposed s_pf2 r c X) by (unfold s_pf2; destruct (k_pf2 k); [apply imposed_one; exact Logic.I|now apply imposed_nil]).
  assert (P2 : imposed gl r c X).
  { unfold gl_ok in GL. destruct (k_gl2 k) as [[|M|]|]; try (subst gl; now apply imposed_nil); [|tauto].
    destruct GL as (U & s & -> & _). apply imposed_one. exact Logic.I. }
  assert (P3 : imposed s_tv r c X).
  { unfold s_tv. destruct (k_tv k) as [t|]; [destruct (ntruthy t)|]; try now apply imposed_nil. apply imposed_one. exact Logic.I. }
  assert (Q1 : imposed s_uni r c X <-> (btruthy (k_uni k) = true -> cols_unimodal r c X /\ (nn = true -> entries r c (fun x => 0 <= x) X))).
  { unfold s_uni. destruct (btruthy (k_uni k)); [rewrite imposed_one; cbn; tauto|rewrite imposed_nil; intuition congruence]. }
  assert (Q2 : imposed s_ball r c X <-> (forall b, k_norm k = Some b -> b <> 0 -> cols_in_ball r c b X /\ (nn = true -> entries r c (fun x => 0 <= x) X))).
  { unfold s_ball. destruct (k_norm k) as [b|]; [|rewrite imposed_nil; intuition congruence]. destruct (ntruthy b) eqn:T.
    - apply ntruthy_true in T. rewrite imposed_one. cbn [o_pen obj doc_domain]. split.
      + intros H b' E _. injection E as <-. exact H.
      + intros H. now apply H.
    - apply ntruthy_false in T. rewrite imposed_nil. split; [|auto]. intros _ b' E NZ. injection E as <-. contradiction. }
  assert (Q3 : imposed s_l1 r c X <-> (ntruthy l1' = true -> nn = true -> entries r c (fun x => 0 <= x) X)).
  { unfold s_l1. destruct (ntruthy l1'); [rewrite imposed_one; cbn; tauto|rewrite imposed_nil; intuition congruence]. }
  assert (Q4 : imposed s_non r c X <-> (s_skip = false -> nn = true -> entries r c (fun x => 0 <= x) X)).
  { unfold s_non. destruct nn, s_skip; cbn [andb negb]; rewrite ?imposed_one, ?imposed_nil; cbn; intuition congruence. }
  rewrite Q1, Q2, Q3, Q4. unfold requested_domain. rewrite <- !btruthy_wants. fold nn.
  assert (SK : s_skip = true -> btruthy (k_uni k) = true \/ (exists b, k_norm k = Some b /\ b <> 0) \/ ntruthy l1' = true \/ (k_lower k <> None \/ k_upper k <> None)).
  { unfold s_skip. rewrite !orb_true_iff, s_box_on. intros [[[H|H]|H]|H]; auto. right. left.
    destruct (k_norm k) as [b|]; [|discriminate]. apply ntruthy_true in H. eauto. }
  split.
  - intros (_ & H1 & _ & H2 & _ & H3 & H4 & H5).
    assert (NN : nn = true -> entries r c (fun x => 0 <= x) X).
    { intros E. destruct s_skip; [|auto]. destruct (SK eq_refl) as [K|[(b & K1 & K2)|[K|K]]].
      - exact (proj2 (H1 K) E).
      - exact (proj2 (H2 b K1 K2) E).
      - auto.
      - exact (proj1 (H4 K) E). }
    split; [exact NN|]. split; [|split; [|split]].
    + intros lo E. apply H4; [left; congruence|exact E].
    + intros lo E. apply H4; [right; congruence|exact E].
    + intros b E NZ. exact (proj1 (H2 b E NZ)).
    + intros E. exact (proj1 (H1 E)).
  - intros (N0 & LO & UP & BA & UN). split; [exact P1|]. split; [auto|]. split; [exact P2|]. split; [intros b E NZ; split; [now apply BA|exact N0]|].
    split; [exact P3|]. auto 10.
Qed.
Lemma penalty_requested gl r c X : gl_ok gl ->
  total_penalty (s_pf2 ++ s_uni ++ gl ++ s_ball ++ s_tv ++ s_l1 ++ s_box ++ s_non) r c X = requested_penalty k r c X.
Proof.
  intros GL. rewrite !total_app. unfold requested_penalty.
  replace (total_penalty s_pf2 r c X) with 0 by (unfold s_pf2; destruct (k_pf2 k); cbn; lra).
  replace (total_penalty s_uni r c X) with 0 by (unfold s_uni; destruct (btruthy (k_uni k)); cbn; lra).
  replace (total_penalty s_ball r c X) with 0 by (unfold s_ball; destruct (k_norm k) as [b|]; [destruct (ntruthy b)|]; cbn; lra).
  replace (total_penalty s_box r c X) with 0 by (unfold s_box; destruct (k_lower k), (k_upper k); cbn; lra).
  replace (total_penalty s_non r c X) with 0 by (unfold s_non; destruct (nn && negb s_skip)%bool; cbn; lra).
  replace (total_penalty gl r c X) with (match k_gl2 k with Some (GMat M) => quad r c (mget M) X | _ => 0 end).
  2:{ unfold gl_ok in GL. destruct (k_gl2 k) as [[|M|]|]; try (subst gl; reflexivity); [|tauto].
      destruct GL as (U & s & -> & _). cbn. lra. }
  assert (TV : total_penalty s_tv r c X + total_penalty s_l1 r c X = l1 * abs_sum r c X + strength (k_tv k) * total_variation r c X).
  { unfold s_tv, s_l1, l1', tv_on, otruthy. destruct (k_tv k) as [t|]; cbn [strength].
    - destruct (ntruthy t) eqn:T.
      + replace (ntruthy (N:=RNum) n0) with false by (symmetry; now apply ntruthy_false). cbn. fold l1. lra.
      + apply ntruthy_false in T. subst t. destruct (ntruthy l1) eqn:T1; cbn; [lra|]. apply ntruthy_false in T1. rewrite T1. lra.
    - destruct (ntruthy l1) eqn:T1; cbn; [lra|]. apply ntruthy_false in T1. rewrite T1. lra. }
  fold l1. lra.
Qed.
Lemma count_parsed gl : gl_ok gl ->
  parafac2_count (s_pf2 ++ s_uni ++ gl ++ s_ball ++ s_tv ++ s_l1 ++ s_box ++ s_non) = if k_pf2 k then 1%nat else 0%nat.
Proof.
  intros GL. rewrite !count_app.
  replace (parafac2_count s_uni) with 0%nat by (unfold s_uni; destruct (btruthy (k_uni k)); reflexivity).
  replace (parafac2_count s_ball) with 0%nat by (unfold s_ball; destruct (k_norm k) as [b|]; [destruct (ntruthy b)|]; reflexivity).
  replace (parafac2_count s_tv) with 0%nat by (unfold s_tv; destruct (k_tv k) as [b|]; [destruct (ntruthy b)|]; reflexivity).
  replace (parafac2_count s_l1) with 0%nat by (unfold s_l1; destruct (ntruthy l1'); reflexivity).
  replace (parafac2_count s_box) with 0%nat by (unfold s_box; destruct (k_lower k), (k_upper k); reflexivity).
  replace (parafac2_count s_non) with 0%nat by (unfold s_non; destruct (nn && negb s_skip)%bool; reflexivity).
  replace (parafac2_count gl) with 0%nat.
  2:{ unfold gl_ok in GL. destruct (k_gl2 k) as [[|M|]|]; try (subst gl; reflexivity); [|tauto].
      destruct GL as (U & s & -> & _). reflexivity. }
  unfold s_pf2. destruct (k_pf2 k); reflexivity.
Qed.
Lemma inits_parsed gl : gl_ok gl ->
  Forall (fun o => o_aux o = ai /\ o_dual o = di) (s_pf2 ++ s_uni ++ gl ++ s_ball ++ s_tv ++ s_l1 ++ s_box ++ s_non).
Proof.
  intros GL. rewrite !Forall_app.
  assert (O : forall p, Forall (fun o : pobjR => o_aux o = ai /\ o_dual o = di) [obj p]) by (intros p; constructor; [now split|constructor]).
  assert (Z : Forall (fun o : pobjR => o_aux o = ai /\ o_dual o = di) []) by constructor.
  split; [unfold s_pf2; destruct (k_pf2 k); auto|]. split; [unfold s_uni; destruct (btruthy (k_uni k)); auto|].
  split. { unfold gl_ok in GL. destruct (k_gl2 k) as [[|M|]|]; try (subst gl; auto; fail); [|tauto]. destruct GL as (U & s & -> & _). auto. }
  split; [unfold s_ball; destruct (k_norm k) as [b|]; [destruct (ntruthy b)|]; auto|].
  split; [unfold s_tv; destruct (k_tv k) as [b|]; [destruct (ntruthy b)|]; auto|].
  split; [unfold s_l1; destruct (ntruthy l1'); auto|]. split; [unfold s_box; destruct (k_lower k), (k_upper k); auto|].
  unfold s_non; destruct (nn && negb s_skip)%bool; auto.
Qed.
End Pieces.

(** acceptance *)
Lemma mk_GenL2_iff E ev (M : matR) :
  (exists p, mk_GenL2 (N:=RNum) E ev M true = Ok p) <-> mr M = mc M /\ symmetric (mr M) (mget M) /\ Forall (fun e => - (1 / 100000000000000) <= e) (ev M).
Proof.
  unfold mk_GenL2. destruct (Nat.eqb_spec (mr M) (mc M)) as [S|S]; cbn [negb andb].
  2:{ split; [intros (p & K); discriminate|tauto]. }
  match goal with |- context[forallb ?f (seq 0 (mr M))] => destruct (forallb f (seq 0 (mr M))) eqn:SY end; cbn [negb].
  - assert (SYM : symmetric (mr M) (mget M)).
    { intros i j Hi Hj. rewrite forallb_forall in SY. specialize (SY i ltac:(apply in_seq; lia)). rewrite forallb_forall in SY.
      specialize (SY j ltac:(apply in_seq; lia)). apply neqb_true in SY. rewrite mget_mtrans in SY by lia. now rewrite SY. }
    destruct (existsb _ (ev M)) eqn:EX; cbn [negb].
    + split; [intros (p & K); discriminate|]. intros (_ & _ & F). apply existsb_exists in EX. destruct EX as (e & He & L). apply nltb_true in L.
      rewrite Forall_forall in F. specialize (F e He). exfalso. cbn in L. lra.
    + split.
      * intros _. split; [exact S|]. split; [exact SYM|]. apply Forall_forall. intros e He.
        destruct (Rle_dec (- (1 / 100000000000000)) e) as [L|L]; [exact L|]. exfalso.
        assert (K : existsb (fun e : num => nltb e (nlit (-1) 100000000000000)) (ev M) = true).
        { apply existsb_exists. exists e. split; [exact He|]. apply nltb_true. cbn. lra. }
        congruence.
      * intros _. destruct (x_svd E M (mr M)) as [[U s] W]. eauto.
  - split; [intros (p & K); discriminate|]. intros (_ & SYM & _). exfalso. rewrite <- not_true_iff_false in SY. apply SY.
    apply forallb_forall. intros i Hi. apply in_seq in Hi. apply forallb_forall. intros j Hj. apply in_seq in Hj. apply neqb_true.
    rewrite mget_mtrans by lia. apply SYM; lia.
Qed.
Lemma parse_mode_accepts V k ai di : (exists l, parse_mode (N:=RNum) V k ai di = Ok l) <-> acceptable V k.
Proof.
  assert (P : positive_ok V k <-> 0 <= strength (k_l1 k) /\ 0 <= strength (k_tv k) /\ (strength (k_tv k) <> 0 -> e_has_tv V = true) /\ 0 <= strength (k_norm k)).
  { unfold positive_ok, strength. split.
    - intros (H1 & H2 & H3). split; [exact H3|]. split; [|split].
      + destruct (k_tv k) as [t|]; [|lra]. destruct (Req_dec t 0) as [->|NZ]; [lra|]. destruct (H2 t eq_refl NZ). lra.
      + destruct (k_tv k) as [t|]; [|lra]. intros NZ. now apply (H2 t).
      + destruct (k_norm k) as [t|]; [|lra]. destruct (Req_dec t 0) as [->|NZ]; [lra|]. specialize (H1 t eq_refl NZ). lra.
    - intros (H1 & H2 & H3 & H4). split; [|split; [|exact H1]].
      + intros b E NZ. rewrite E in H4. lra.
      + intros b E NZ. rewrite E in H2, H3. split; [auto|lra]. }
  assert (G : (exists gl, gl_ok V k ai di gl) <-> match k_gl2 k with
    | Some (GMat M) => mr M = mc M /\ symmetric (mr M) (mget M) /\ Forall (fun e => - (1 / 100000000000000) <= e) (e_eigvals V M)
    | Some GNoMat => False | _ => True end).
  { unfold gl_ok. destruct (k_gl2 k) as [[|M|]|]; try (split; [auto|intros _; now exists []]).
    - rewrite <- (mk_GenL2_iff (e_ext V) (e_eigvals V) M). split.
      + intros (gl & U & s & _ & K). eauto.
      + intros (p & K). destruct (mk_GenL2_shape _ _ _ _ K) as (U & s & ->). eauto.
    - split; [intros (gl & []) | intros []]. }
  unfold acceptable. split.
  - intros (l & H). apply parse_mode_iff in H. destruct H as (H1 & gl & H2 & _). apply P in H1. assert (H3 := proj1 G (ex_intro _ gl H2)). tauto.
  - intros (H1 & H2 & H3 & H4 & H5). apply G in H5. destruct H5 as (gl & Hgl). eexists. apply parse_mode_iff. split; [apply P; auto|]. exists gl. split; [exact Hgl|reflexivity].
Qed.

(** valid parameters *)
Lemma parsed_valid V k ai di l r : parse_mode (N:=RNum) V k ai di = Ok l -> bounds_consistent k -> gl2_sound V k r ->
  Forall (fun o => valid_penalty (o_pen o) r) l.
Proof.
  intros H BC GS. apply parse_mode_iff in H. destruct H as ((PB & PT & PL) & gl & GL & ->). rewrite !Forall_app.
  assert (Z : Forall (fun o : pobjR => valid_penalty (o_pen o) r) []) by constructor.
  assert (O : forall p, valid_penalty p r -> Forall (fun o : pobjR => valid_penalty (o_pen o) r) [PObj p ai di]) by (intros p Hp; constructor; [exact Hp|constructor]).
  split; [unfold s_pf2; destruct (k_pf2 k); [apply O; exact Logic.I|exact Z]|].
  split; [unfold s_uni; destruct (btruthy (k_uni k)); [apply O; exact Logic.I|exact Z]|].
  split.
  { unfold gl_ok in GL. unfold gl2_sound in GS. destruct (k_gl2 k) as [[|M|]|]; try (subst gl; exact Z); [|tauto].
    destruct GL as (U & s & -> & K). apply O. destruct (GS M eq_refl) as (W & Hr & PSD & SV).
    assert (K' := proj1 (mk_GenL2_iff _ _ M) (ex_intro _ _ K)). destruct K' as (SQ & SY & _). cbn [valid_penalty].
    split; [exact W|]. split; [exact Hr|]. split; [lia|]. split; [now rewrite <- Hr|]. split; [exact PSD|].
    unfold mk_GenL2 in K. destruct (negb _); [discriminate|]. destruct (true && _)%bool; [discriminate|]. destruct (true && _)%bool; [discriminate|].
    assert (SVM : has_svd M r (x_svd (e_ext V) M (mr M))) by (rewrite Hr; apply SV; [exact W|lia|lia]).
    destruct (x_svd (e_ext V) M (mr M)) as [[U' s'] Vh]. injection K as <- <-. now exists Vh. }
  split. { unfold s_ball. destruct (k_norm k) as [b|]; [|exact Z]. destruct (ntruthy b) eqn:T; [|exact Z]. apply O. apply ntruthy_true in T. now apply PB. }
  split. { unfold s_tv. destruct (k_tv k) as [b|]; [|exact Z]. destruct (ntruthy b) eqn:T; [|exact Z]. apply O. apply ntruthy_true in T. split; [now apply PT|exact PL]. }
  split. { unfold s_l1. destruct (ntruthy _) eqn:T; [|exact Z]. apply O. cbn [valid_penalty]. destruct (otruthy _); [rn; lra|exact PL]. }
  split.
  { assert (B : (k_lower k <> None \/ k_upper k <> None) ->
      valid_penalty (Box (if btruthy (k_nn k) then Some (match k_lower k with None => n0 | Some x => nmax x n0 end) else k_lower k) (k_upper k)) r).
    { intros HB. cbn [valid_penalty]. split.
      - intros lo hi E1 E2. destruct (BC hi E2) as (B1 & B2). destruct (btruthy (k_nn k)) eqn:NN.
        + injection E1 as <-. apply nonneg_max. apply btruthy_wants in NN. split; auto.
        + auto.
      - destruct (btruthy (k_nn k)); [left; discriminate|exact HB]. }
    unfold s_box. destruct (k_lower k) as [lo|]; [apply O; apply B; left; discriminate|].
    destruct (k_upper k) as [hi|]; [apply O; apply B; right; discriminate|exact Z]. }
  unfold s_non. destruct (_ && _)%bool; [apply O; exact Logic.I|exact Z].
Qed.

(** all modes *)
Lemma all_pens_map {N : Num} l : all_pens l = true <-> exists os, l = map RPen os.
Proof.
  unfold all_pens. split.
  - induction l as [|e l IH]; cbn; intros H; [now exists []|]. destruct e as [o|]; [|discriminate]. destruct (IH H) as (os & ->). now exists (o :: os).
  - intros (os & ->). induction os as [|o os IH]; [reflexivity|exact IH].
Qed.
Lemma pens_map {N : Num} os : pens (map RPen os) = os.
Proof. unfold pens. induction os as [|o os IH]; [reflexivity|]. cbn. now rewrite IH. Qed.
Lemma check_regs_user {N : Num} regs l m p rs : check_regs regs = Ok l -> (m < 3)%nat -> add_user p l m = Ok rs ->
  exists u, user_penalties regs m u /\ rs = p ++ u.
Proof.
  intros H Hm HA. unfold check_regs in H. unfold add_user in HA. destruct regs as [| |es]; [|discriminate|].
  - injection H as <-. exists []. split; [reflexivity|]. destruct m as [|[|[|m]]]; cbn in HA; [| | |lia]; now injection HA as <-.
  - destruct (forallb ent_ok es) eqn:F; [|discriminate]. injection H as <-. rewrite forallb_forall in F.
    destruct (nth_error es m) as [e|] eqn:NE; [|discriminate]. destruct e as [|u|u]; try discriminate.
    specialize (F _ (nth_error_In _ _ NE)). cbn in F. apply all_pens_map in F. destruct F as (os & ->). rewrite pens_map in HA.
    injection HA as <-. exists os. now split.
Qed.
Lemma parse_all_ok {N : Num} V k regs ai di t : parse_all V k regs ai di = Ok t -> forall m, (m < 3)%nat ->
  exists kw parsed u, mode_values k m kw /\ parse_mode V kw ai di = Ok parsed /\ user_penalties regs m u /\ pick t m = parsed ++ u.
Proof.
  intros H. unfold parse_all in H. destruct (check_regs regs) as [user|] eqn:CR; [|discriminate]. cbn [bind] in H.
  destruct (listify (a_nn k)) as [[[nn0 nn1] nn2]|] eqn:E1; [|discriminate]. cbn [bind] in H.
  destruct (listify (a_upper k)) as [[[up0 up1] up2]|] eqn:E2; [|discriminate]. cbn [bind] in H.
  destruct (listify (a_lower k)) as [[[lo0 lo1] lo2]|] eqn:E3; [|discriminate]. cbn [bind] in H.
  destruct (listify (a_norm k)) as [[[nb0 nb1] nb2]|] eqn:E4; [|discriminate]. cbn [bind] in H.
  destruct (listify (a_uni k)) as [[[un0 un1] un2]|] eqn:E5; [|discriminate]. cbn [bind] in H.
  destruct (listify (a_l1 k)) as [[[l10 l11] l12]|] eqn:E6; [|discriminate]. cbn [bind] in H.
  destruct (listify (a_gl2 k)) as [[[gl0 gl1] gl2']|] eqn:E7; [|discriminate]. cbn [bind] in H.
  destruct (listify (a_tv k)) as [[[tv0 tv1] tv2]|] eqn:E8; [|discriminate]. cbn [bind] in H.
  apply listify_means in E1, E2, E3, E4, E5, E6, E7, E8.
  match type of H with (let* p0 := ?x in _) = _ => destruct x as [p0|] eqn:P0 end; [|discriminate]. cbn [bind] in H.
  destruct (add_user p0 user 0) as [r0|] eqn:A0; [|discriminate]. cbn [bind] in H.
  match type of H with (let* p0 := ?x in _) = _ => destruct x as [p1|] eqn:P1 end; [|discriminate]. cbn [bind] in H.
  destruct (add_user p1 user 1) as [r1|] eqn:A1; [|discriminate]. cbn [bind] in H.
  match type of H with (let* p0 := ?x in _) = _ => destruct x as [p2|] eqn:P2 end; [|discriminate]. cbn [bind] in H.
  destruct (add_user p2 user 2) as [r2|] eqn:A2; [|discriminate]. cbn [bind] in H. injection H as <-.
  destruct (check_regs_user _ _ 0%nat _ _ CR ltac:(lia) A0) as (u0 & U0 & ->).
  destruct (check_regs_user _ _ 1%nat _ _ CR ltac:(lia) A1) as (u1 & U1 & ->).
  destruct (check_regs_user _ _ 2%nat _ _ CR ltac:(lia) A2) as (u2 & U2 & ->).
  intros [|[|[|m]]] Hm; [| | |lia]; cbn [pick]; unfold mode_values.
  - eexists _, p0, u0. split; [|split; [exact P0|split; [exact U0|reflexivity]]]. cbn [k_nn k_lower k_upper k_norm k_uni k_l1 k_tv k_gl2 k_pf2]. rewrite andb_false_r. tauto.
  - eexists _, p1, u1. split; [|split; [exact P1|split; [exact U1|reflexivity]]]. cbn [k_nn k_lower k_upper k_norm k_uni k_l1 k_tv k_gl2 k_pf2]. rewrite andb_true_r. tauto.
  - eexists _, p2, u2. split; [|split; [exact P2|split; [exact U2|reflexivity]]]. cbn [k_nn k_lower k_upper k_norm k_uni k_l1 k_tv k_gl2 k_pf2]. rewrite andb_false_r. tauto.
Qed.
(** everything well formed and acceptable: success *)
Lemma check_regs_good regs : good_regs regs -> exists l, check_regs regs = Ok l /\ forall m p, (m < 3)%nat -> exists u, add_user p l m = Ok (p ++ u).
Proof.
  destruct regs as [| |es]; cbn [good_regs check_regs]; [|tauto|].
  - intros _. eexists. split; [reflexivity|]. intros [|[|[|m]]] p Hm; [| | |lia]; exists []; reflexivity.
  - intros (H1 & H2). assert (F : forallb ent_ok es = true).
    { apply forallb_forall. intros e He. destruct (H1 e He) as (l & [-> | ->]); apply all_pens_map; eauto. }
    rewrite F. exists es. split; [reflexivity|]. intros m p Hm. destruct (H2 m Hm) as (l & E). unfold add_user. rewrite E, pens_map. eauto.
Qed.
Lemma parse_all_total V k regs ai di : good_regs regs -> all_well_formed k ->
  (forall m kw, (m < 3)%nat -> mode_values k m kw -> acceptable V kw) -> exists t, parse_all V k regs ai di = Ok t.
Proof.
  intros GR (W1 & W2 & W3 & W4 & W5 & W6 & W7 & W8) AC. destruct (check_regs_good regs GR) as (user & CR & AU).
  unfold parse_all. rewrite CR. cbn [bind].
  destruct (listify_total _ W1) as (nn0 & nn1 & nn2 & E1). rewrite E1. cbn [bind].
  destruct (listify_total _ W2) as (up0 & up1 & up2 & E2). rewrite E2. cbn [bind].
  destruct (listify_total _ W3) as (lo0 & lo1 & lo2 & E3). rewrite E3. cbn [bind].
  destruct (listify_total _ W4) as (nb0 & nb1 & nb2 & E4). rewrite E4. cbn [bind].
  destruct (listify_total _ W5) as (un0 & un1 & un2 & E5). rewrite E5. cbn [bind].
  destruct (listify_total _ W6) as (l10 & l11 & l12 & E6). rewrite E6. cbn [bind].
  destruct (listify_total _ W7) as (gl0 & gl1 & gl2' & E7). rewrite E7. cbn [bind].
  destruct (listify_total _ W8) as (tv0 & tv1 & tv2 & E8). rewrite E8. cbn [bind].
  apply listify_means in E1, E2, E3, E4, E5, E6, E7, E8.
  destruct (proj2 (parse_mode_accepts V (ModeKw nn0 lo0 up0 nb0 un0 false l10 tv0 gl0) ai di)) as (p0 & P0).
  { apply (AC 0%nat); [lia|]. unfold mode_values. cbn [k_nn k_lower k_upper k_norm k_uni k_l1 k_tv k_gl2 k_pf2]. rewrite andb_false_r. tauto. }
  rewrite P0. cbn [bind]. destruct (AU 0%nat p0 ltac:(lia)) as (u0 & U0). rewrite U0. cbn [bind].
  destruct (proj2 (parse_mode_accepts V (ModeKw nn1 lo1 up1 nb1 un1 (a_pf2 k) l11 tv1 gl1) ai di)) as (p1 & P1).
  { apply (AC 1%nat); [lia|]. unfold mode_values. cbn [k_nn k_lower k_upper k_norm k_uni k_l1 k_tv k_gl2 k_pf2]. rewrite andb_true_r. tauto. }
  rewrite P1. cbn [bind]. destruct (AU 1%nat p1 ltac:(lia)) as (u1 & U1). rewrite U1. cbn [bind].
  destruct (proj2 (parse_mode_accepts V (ModeKw nn2 lo2 up2 nb2 un2 false l12 tv2 gl2') ai di)) as (p2 & P2).
  { apply (AC 2%nat); [lia|]. unfold mode_values. cbn [k_nn k_lower k_upper k_norm k_uni k_l1 k_tv k_gl2 k_pf2]. rewrite andb_false_r. tauto. }
  rewrite P2. cbn [bind]. destruct (AU 2%nat p2 ltac:(lia)) as (u2 & U2). rewrite U2. cbn [bind]. eauto.
Qed.
Lemma parse_all_bad V k regs ai di : good_regs regs -> ~ all_well_formed k -> parse_all V k regs ai di = Err ValueError.
Proof.
  intros GR NW. destruct (check_regs_good regs GR) as (user & CR & _). unfold parse_all. rewrite CR. cbn [bind]. unfold all_well_formed in NW.
  assert (D : forall A (a : arg A), well_formed a \/ ~ well_formed a).
  { intros A [x|d|l]; cbn; auto. destruct (Nat.eq_dec (length l) 3); auto. }
  destruct (D _ (a_nn k)) as [W1|W1]; [|now rewrite (listify_bad _ W1)]. destruct (listify_total _ W1) as (? & ? & ? & E1). rewrite E1. cbn [bind].
  destruct (D _ (a_upper k)) as [W2|W2]; [|now rewrite (listify_bad _ W2)]. destruct (listify_total _ W2) as (? & ? & ? & E2). rewrite E2. cbn [bind].
  destruct (D _ (a_lower k)) as [W3|W3]; [|now rewrite (listify_bad _ W3)]. destruct (listify_total _ W3) as (? & ? & ? & E3). rewrite E3. cbn [bind].
  destruct (D _ (a_norm k)) as [W4|W4]; [|now rewrite (listify_bad _ W4)]. destruct (listify_total _ W4) as (? & ? & ? & E4). rewrite E4. cbn [bind].
  destruct (D _ (a_uni k)) as [W5|W5]; [|now rewrite (listify_bad _ W5)]. destruct (listify_total _ W5) as (? & ? & ? & E5). rewrite E5. cbn [bind].
  destruct (D _ (a_l1 k)) as [W6|W6]; [|now rewrite (listify_bad _ W6)]. destruct (listify_total _ W6) as (? & ? & ? & E6). rewrite E6. cbn [bind].
  destruct (D _ (a_gl2 k)) as [W7|W7]; [|now rewrite (listify_bad _ W7)]. destruct (listify_total _ W7) as (? & ? & ? & E7). rewrite E7. cbn [bind].
  destruct (D _ (a_tv k)) as [W8|W8]; [|now rewrite (listify_bad _ W8)]. tauto.
Qed.
