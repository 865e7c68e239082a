(** C105: random shapes and factorizations of the testing module. *)
From Coq Require Import Reals Lra Lia List Arith Bool ZArith.
From Verif Require Import Num Numpy RFacts Spec SpecFacts MatFacts PenaltySpec CoupledMatrices CmfSpec CmfProofs DecompSpec InitVars InitSpec RandomGen RandomSpec P13_Random Fixtures FixtureSpec.
Import ListNotations.
Local Open Scope R_scope.

Section Fixed.
Variable g : source (N:=RNum).
Hypothesis HG : sound_source g.

Lemma length_ok mn mean pos : (mn < mean)%Z -> exists z, random_length g mn mean pos = Ok (z, S pos) /\ (mn <= z)%Z.
Proof.
  intros H. unfold random_length. destruct (Z.leb_spec mean mn); [lia|]. eexists. split; [reflexivity|]. pose proof (proj1 HG (mean - mn)%Z pos). lia.
Qed.
Lemma ragged_go mn mean K : (mn < mean)%Z -> forall (l : list nat) pos, exists shapes p,
  mapS (fun _ p => let* (J, q) := random_length g mn mean p in Ok ((Z.to_nat J, Z.to_nat K), q)) l pos = Ok (shapes, p) /\ length shapes = length l /\
  forall s, In s shapes -> (Z.to_nat mn <= fst s)%nat /\ snd s = Z.to_nat K.
Proof.
  intros H. induction l as [|x l IH]; intros pos; cbn [mapS].
  - exists [], pos. split; [reflexivity|]. split; [reflexivity|]. intros s [].
  - destruct (length_ok mn mean pos H) as (z & -> & Hz). cbn [bind]. destruct (IH (S pos)) as (shapes & p & -> & L & F). cbn [bind].
    eexists _, _. split; [reflexivity|]. split; [cbn; now rewrite L|]. intros s [<-|Hs]; [cbn; split; [lia|reflexivity]|now apply F].
Qed.
Lemma ragged_ok mn mean nI K pos : (mn < mean)%Z -> (2 <= nI)%Z -> (2 <= K)%Z -> exists shapes p, ragged g mn mean nI K pos = Ok (shapes, p) /\ good_shapes (Z.to_nat mn) shapes.
Proof.
  intros H HI HK. destruct (ragged_go mn mean K H (seq 0 (Z.to_nat nI)) pos) as (shapes & p & E & L & F). exists shapes, p. split; [exact E|].
  rewrite seq_length in L. split; [lia|]. split.
  - intros s t Hs Ht. destruct (F s Hs) as (_ & ->). now destruct (F t Ht) as (_ & ->).
  - intros s Hs. destruct (F s Hs) as (K1 & ->). split; [exact K1|lia].
Qed.
Lemma drawn_positive r c pos (M : matR) p : (0 < r)%nat -> drawn (s_num g) RandomUniform r c pos M p -> nonzero_columns r c (mget M).
Proof.
  intros Hr (_ & _ & D) j Hj. exists 0%nat. split; [exact Hr|]. rewrite D by assumption. apply Rgt_not_eq. apply (proj2 (proj2 HG)).
Qed.
Lemma drawn_list_positive c : forall rows pos (l : list matR) p, (forall r, In r rows -> (0 < r)%nat) -> drawn_list (s_num g) RandomUniform rows c pos l p ->
  forall i, (i < length rows)%nat -> nonzero_columns (nth i rows 0%nat) c (mget (nth i l no_mat)).
Proof.
  induction rows as [|r rows IH]; intros pos l p H D i Hi; [cbn in Hi; lia|]. destruct l as [|M l]; [destruct D|]. destruct D as (q & D1 & D2). destruct i as [|i].
  - cbn [nth]. eapply drawn_positive; [apply H; now left|exact D1].
  - cbn [nth]. eapply IH; [|exact D2|cbn in Hi; lia]. intros x Hx. apply H. now right.
Qed.
Lemma cmf_ok shapes rows (rank : nat) pos : (1 <= rank <= rows)%nat -> good_shapes rows shapes ->
  exists c, cmf_of_shapes g shapes (Z.of_nat rank) pos = Ok (Factorization c, shapes, Z.of_nat rank) /\ good_factorization shapes rank c.
Proof.
  intros Hr (H2 & HE & HS). assert (NE : shapes <> []) by (intros ->; cbn in H2; lia).
  destruct (C43_random_factorization (s_num g) shapes rank pos true false NE HE) as (A0 & Bs0 & C0 & pos' & (p1 & p2 & DA & DB & DC) & K). cbv zeta in K.
  assert (S0 : In (nth 0 shapes (0, 0)%nat) shapes) by (apply nth_In; lia).
  destruct K as (c & w & EQ & V & _ & _ & SA & SC & LB & SB & _ & U1 & U2 & _).
  - intros _. split; [eapply drawn_positive; [|exact DA]; lia|eapply drawn_positive; [|exact DC]]. destruct (HS _ S0). lia.
  - intros _ i Hi. assert (L : forall i, (i < length shapes)%nat -> nth i (map fst shapes) 0%nat = fst (nth i shapes (0, 0)%nat)) by (intros k _; exact (map_nth fst shapes (0, 0)%nat k)).
    rewrite <- L by exact Hi. eapply drawn_list_positive; [|exact DB|now rewrite map_length].
    intros r Hin. apply in_map_iff in Hin. destruct Hin as (s & <- & Hs). destruct (HS s Hs). lia.
  - exists c. unfold cmf_of_shapes. rewrite EQ. cbn [bind]. split; [reflexivity|]. destruct (U1 eq_refl) as (UA & UC).
    split; [lia|]. split; [intros s Hs; destruct (HS s Hs); lia|]. split; [exact V|]. split; [exact SA|]. split; [exact LB|]. split.
    { intros i Hi. split; [now apply SB|]. rewrite (HE (nth i shapes (0, 0)%nat) (nth 0 shapes (0, 0)%nat)); [exact SC|now apply nth_In|exact S0]. }
    split; [exact UA|]. split; [|intros i Hi; now apply U2; [left|]]. destruct SC as (_ & -> & _). exact UC.
Qed.

(** The documented contract of [random_length]. *)
Theorem C105_random_length mn mean pos :
  (random_length g mn mean pos = Err ValueError <-> (mean <= mn)%Z) /\ ((mn < mean)%Z -> exists z, random_length g mn mean pos = Ok (z, S pos) /\ (mn <= z)%Z).
Proof.
  split; [|apply length_ok]. unfold random_length. destruct (Z.leb_spec mean mn); split; intros K; try reflexivity; try lia; discriminate.
Qed.
(** Every fixture returns, whatever the generator gives, and what it returns is usable: between one component and the smallest number of rows. *)
Theorem C105_fixtures pos :
  (exists shapes p, random_ragged_shapes g pos = Ok (shapes, p) /\ good_shapes 2 shapes) /\
  (exists shapes p, random_regular_shapes g pos = Ok (shapes, p) /\ good_shapes 2 shapes /\ forall s t, In s shapes -> In t shapes -> s = t) /\
  (exists shapes rank c, random_ragged_cmf g pos = Ok (Factorization c, shapes, Z.of_nat rank) /\ good_shapes 2 shapes /\ good_factorization shapes rank c) /\
  (exists shapes c, random_rank5_ragged_cmf g pos = Ok (Factorization c, shapes, 5%Z) /\ good_shapes 5 shapes /\ good_factorization shapes 5 c) /\
  (exists shapes rank c, random_regular_cmf g pos = Ok (Factorization c, shapes, Z.of_nat rank) /\ good_shapes 2 shapes /\ good_factorization shapes rank c).
Proof.
  assert (R1 : exists shapes p, random_ragged_shapes g pos = Ok (shapes, p) /\ good_shapes 2 shapes).
  { unfold random_ragged_shapes. destruct (length_ok 2 5 pos ltac:(lia)) as (nI & -> & HI). cbn [bind]. destruct (length_ok 2 5 (S pos) ltac:(lia)) as (K & -> & HK). cbn [bind].
    exact (ragged_ok 2 5 nI K _ ltac:(lia) HI HK). }
  assert (R2 : exists shapes p, random_regular_shapes g pos = Ok (shapes, p) /\ good_shapes 2 shapes /\ forall s t, In s shapes -> In t shapes -> s = t).
  { unfold random_regular_shapes. destruct (length_ok 2 5 pos ltac:(lia)) as (nI & -> & HI). cbn [bind]. destruct (length_ok 2 5 (S pos) ltac:(lia)) as (J & -> & HJ). cbn [bind].
    destruct (length_ok 2 5 (S (S pos)) ltac:(lia)) as (K & -> & HK). cbn [bind]. eexists _, _. split; [reflexivity|].
    assert (F : forall s, In s (map (fun _ : nat => (Z.to_nat J, Z.to_nat K)) (seq 0 (Z.to_nat nI))) -> s = (Z.to_nat J, Z.to_nat K)).
    { intros s Hs. apply in_map_iff in Hs. now destruct Hs as (_ & <- & _). }
    split; [|intros s t Hs Ht; now rewrite (F s Hs), (F t Ht)]. split; [rewrite map_length, seq_length; lia|]. split.
    - intros s t Hs Ht. now rewrite (F s Hs), (F t Ht).
    - intros s Hs. rewrite (F s Hs). cbn. lia. }
  split; [exact R1|]. split; [exact R2|]. split; [|split].
  - destruct R1 as (shapes & p & E & GS). unfold random_ragged_cmf. rewrite E. cbn [bind]. pose proof GS as (H2 & HE & HS).
    destruct shapes as [|s0 shapes]; [cbn in H2; lia|]. cbn [map]. cbn [bind].
    assert (M1 : forall l x, (forall y, In y l -> (2 <= y)%nat) -> (2 <= x)%nat -> (2 <= fold_left Nat.min l x)%nat /\ (fold_left Nat.min l x <= x)%nat /\ forall y, In y l -> (fold_left Nat.min l x <= y)%nat).
    { induction l as [|y l IH]; intros x Hl Hx; cbn [fold_left]; [repeat split; auto; intros y []|].
      destruct (IH (Nat.min x y)) as (A1 & A2 & A3); [intros z Hz; apply Hl; now right|specialize (Hl y (or_introl eq_refl)); lia|].
      split; [exact A1|]. split; [lia|]. intros z [<-|Hz]; [lia|auto]. }
    destruct (M1 (map fst shapes) (fst s0)) as (A1 & A2 & A3).
    { intros y Hy. apply in_map_iff in Hy. destruct Hy as (s & <- & Hs). apply HS. now right. }
    { apply HS. now left. }
    set (sJ := fold_left Nat.min (map fst shapes) (fst s0)) in *.
    unfold randint. destruct (Z.leb_spec (Z.of_nat sJ + 1) 1); [lia|]. cbn [bind].
    destruct (proj1 (proj2 HG) 1%Z (Z.of_nat sJ + 1)%Z p ltac:(lia)) as (B1 & B2).
    set (rk := s_randint g 1 (Z.of_nat sJ + 1) p) in *. replace rk with (Z.of_nat (Z.to_nat rk)) by lia.
    destruct (cmf_ok (s0 :: shapes) sJ (Z.to_nat rk) (S p)) as (c & EC & GC).
    + lia.
    + split; [exact H2|]. split; [exact HE|]. intros s Hs. split; [|now apply HS]. destruct Hs as [<-|Hs]; [exact A2|]. apply A3. apply in_map. exact Hs.
    + exists (s0 :: shapes), (Z.to_nat rk), c. split; [exact EC|]. split; [exact GS|exact GC].
  - unfold random_rank5_ragged_cmf. destruct (length_ok 2 5 pos ltac:(lia)) as (nI & -> & HI). cbn [bind]. destruct (length_ok 2 5 (S pos) ltac:(lia)) as (K & -> & HK). cbn [bind].
    destruct (ragged_ok 5 7 nI K (S (S pos)) ltac:(lia) HI HK) as (shapes & p & -> & GS). cbn [bind]. change (Z.to_nat 5) with 5%nat in GS.
    destruct (cmf_ok shapes 5 5 p ltac:(lia) GS) as (c & EC & GC). exists shapes, c. split; [exact EC|]. split; assumption.
  - destruct R2 as (shapes & p & E & GS & SS). unfold random_regular_cmf. rewrite E. cbn [bind]. pose proof GS as (H2 & HE & HS).
    destruct shapes as [|s0 shapes]; [cbn in H2; lia|]. cbn [bind]. destruct (HS s0 (or_introl eq_refl)) as (A1 & _).
    unfold randint. destruct (Z.leb_spec (Z.of_nat (fst s0) + 1) 1); [lia|]. cbn [bind].
    destruct (proj1 (proj2 HG) 1%Z (Z.of_nat (fst s0) + 1)%Z p ltac:(lia)) as (B1 & B2).
    set (rk := s_randint g 1 (Z.of_nat (fst s0) + 1) p) in *. replace rk with (Z.of_nat (Z.to_nat rk)) by lia.
    destruct (cmf_ok (s0 :: shapes) (fst s0) (Z.to_nat rk) (S p)) as (c & EC & GC).
    + lia.
    + split; [exact H2|]. split; [exact HE|]. intros s Hs. rewrite (SS s s0 Hs (or_introl eq_refl)). split; [lia|]. apply HS. now left.
    + exists (s0 :: shapes), (Z.to_nat rk), c. split; [exact EC|]. split; [exact GS|exact GC].
Qed.
End Fixed.
Print Assumptions C105_random_length.
Print Assumptions C105_fixtures.

(** The hypothesis is met: a generator whose numbers change along the stream. *)
Definition source105 : source (N:=RNum) :=
  Source (N:=RNum) (fun _ n => / INR (S n)) (fun _ p => Z.of_nat (p mod 4)) (fun lo hi p => (lo + Z.of_nat p mod (hi - lo))%Z).
Example C105_nonvacuous : sound_source source105 /\
  random_ragged_shapes source105 0 = Ok ([(4, 3); (5, 3)]%nat, 4%nat) /\
  exists c, random_ragged_cmf source105 0 = Ok (Factorization c, [(4, 3); (5, 3)]%nat, 1%Z).
Proof.
  assert (HS : sound_source source105).
  { split; [intros; apply Nat2Z.is_nonneg|]. split.
    - intros lo hi p H. cbn. pose proof (Z.mod_pos_bound (Z.of_nat p) (hi - lo) ltac:(lia)). lia.
    - intros p. cbn [s_num source105]. apply Rinv_0_lt_compat, lt_0_INR. lia. }
  split; [exact HS|]. split; [vm_compute; reflexivity|].
  destruct (C105_fixtures source105 HS 0) as (_ & _ & (shapes & rank & c & E & _) & _). exists c. rewrite E. f_equal.
  assert (K : forall x y, random_ragged_cmf source105 0 = Ok (x, shapes, y) -> shapes = [(4, 3); (5, 3)]%nat /\ y = 1%Z).
  { intros x y. unfold random_ragged_cmf. replace (random_ragged_shapes source105 0) with (Ok ([(4, 3); (5, 3)]%nat, 4%nat)) by (vm_compute; reflexivity). cbn [bind map fst fold_left Nat.min].
    unfold randint. cbn [Z.leb Z.of_nat Pos.of_succ_nat Z.add]. cbn -[cmf_of_shapes]. unfold cmf_of_shapes. destruct (random_coupled_matrices _ _ _ _ _ _ _) as [[f q]|]; [|discriminate]. cbn [bind]. intros H. injection H as _ H1 H2. now subst. }
  destruct (K _ _ E) as (-> & ->). reflexivity.
Qed.
