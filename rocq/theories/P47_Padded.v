(** C91: rows and columns of zeros play no part. *)
From Coq Require Import Reals Lra Lia List Arith Bool ZArith Classical IndefiniteDescription.
From Verif Require Import Num Numpy RFacts Spec SpecFacts MatFacts ModelSpec SvdFacts Penalties PenaltySpec CoupledMatrices CmfSpec CmfProofs Decomp DecompSpec
  DecompFacts AoRun TotalRun InitVars InitSpec InitProofs Parse ParseSpec ParseProofs Fit FitSpec FitProofs P10_Start P11_Total ResumeSpec StartSpec ReorderFit
  SymSpec SymFacts SymPen SymStep SymRun SymLoop SymFit SymCall Ideal FitExamples P25_Starts P29_Symmetry DecompExamples TurnSpec TurnFacts PadSpec PadFacts TurnRun TurnLoop TurnFit TurnPolar TurnRefuse P39_Turned.
Import ListNotations.
Local Open Scope R_scope.
Local Notation shaped := PenaltySpec.shaped.

(** ** Padding is a change of coordinates *)
Definition place (h r : nat) (f : nat -> nat) : matR := mbuild (N:=RNum) h r (fun i k => kron i (f k)).
Lemma place_placed h r f : into f r h -> placed (place h r f) r f.
Proof. intros HI. split; [exact HI|]. intros i k Hi Hk. unfold place in *. mshape. now rewrite mget_mbuild by assumption. Qed.
Lemma place_frame h r f : into f r h -> frame (place h r f) r.
Proof.
  intros HI. pose proof (place_placed h r f HI) as (_ & HG). destruct HI as (I1 & I2). split; [unfold place; auto with mwf|]. split; [reflexivity|]. intros k l Hk Hl. etransitivity; [apply Sum_rsum|]. change (mr (place h r f)) with h in *.
  rewrite (rsum_single h (f k)).
  - change (mget (place h r f)) with (rget (place h r f)). rewrite !HG by auto. unfold kron. rewrite Nat.eqb_refl. destruct (Nat.eqb_spec (f k) (f l)) as [E|E], (Nat.eqb_spec k l) as [E'|E']; try ring; exfalso; [apply E'; now apply I2|congruence].
  - auto.
  - intros i Hi NE. change (mget (place h r f)) with (rget (place h r f)). rewrite HG by auto. unfold kron. destruct (Nat.eqb_spec i (f k)); [contradiction|]. ring.
Qed.
Definition pad_coords (z : sizes) (q : padding) : coords :=
  Coords (fun i => place (q_rows q i) (z_rows z i) (q_row q i)) (place (q_cols q) (z_cols z) (q_col q)).
Lemma pad_frames z q : paddable z q -> frames z (pad_coords z q).
Proof. intros (H1 & H2). split; [now apply place_frame|]. intros i Hi. apply place_frame. now apply H2. Qed.
Lemma spread_turned r c h f M M' : into f r h -> (spread r c h f M M' <-> turned r c (place h r f) M M').
Proof.
  intros HI. pose proof (place_frame h r f HI) as FQ. pose proof (place_placed h r f HI) as PQ. rewrite (tm_turned r c (place h r f) M M' eq_refl). split.
  - intros (S1 & S2 & H1 & H2). apply (placed_intro r c (place h r f) FQ f PQ); assumption.
  - intros HM. split; [apply HM|]. split; [apply (tm_shape r _ c _ _ HM)|]. split; [intros k j Hk Hj; now apply (placed_hit r c (place h r f) FQ f PQ)|intros i j Hi Hj NH; now apply (placed_miss r c (place h r f) FQ f PQ M M')].
Qed.
Lemma spread_both_turned r c h w f g X X' : into f r h -> into g c w -> spread_both r c h w f g X X' -> turned_both r c (place h r f) (place w c g) X X'.
Proof.
  intros HF HG (S1 & S2 & H1 & H2). split; [exact S1|]. split; [exact S2|]. change (mr (place h r f)) with h. change (mr (place w c g)) with w. intros i j Hi Hj.
  pose proof (place_placed h r f HF) as (_ & GF). pose proof (place_placed w c g HG) as (_ & GG). change (mget (place h r f)) with (rget (place h r f)). change (mget (place w c g)) with (rget (place w c g)).
  rewrite (Sum_ext r _ (fun k => Sum c (fun l => kron i (f k) * mget X k l * kron j (g l)))) by (intros k Hk; apply Sum_ext; intros l Hl; now rewrite GF, GG).
  destruct (hit_or f i r) as [(k & Hk & <-)|NH].
  - destruct (hit_or g j c) as [(l & Hl & <-)|NG].
    + rewrite H1 by assumption. symmetry. etransitivity; [apply Sum_rsum|]. rewrite (rsum_single r k); [|assumption|].
      * etransitivity; [apply Sum_rsum|]. rewrite (rsum_single c l); [|assumption|].
        -- unfold kron. rewrite !Nat.eqb_refl. rn; ring.
        -- intros l' Hl' NE. unfold kron. destruct (Nat.eqb_spec (g l) (g l')) as [E|E]; [exfalso; apply NE; symmetry; now apply HG|rn; ring].
      * intros k' Hk' NE. etransitivity; [apply Sum_rsum|]. apply rsum_zero. intros l' Hl'. unfold kron. destruct (Nat.eqb_spec (f k) (f k')) as [E|E]; [exfalso; apply NE; symmetry; now apply HF|rn; ring].
    + rewrite (H2 _ _ Hi Hj) by now right. symmetry. etransitivity; [apply Sum_rsum|]. apply rsum_zero. intros k' Hk'. etransitivity; [apply Sum_rsum|]. apply rsum_zero. intros l' Hl'. unfold kron. destruct (Nat.eqb_spec j (g l')) as [E|E]; [exfalso; exact (NG l' Hl' (eq_sym E))|rn; ring].
  - rewrite (H2 _ _ Hi Hj) by now left. symmetry. etransitivity; [apply Sum_rsum|]. apply rsum_zero. intros k' Hk'. etransitivity; [apply Sum_rsum|]. apply rsum_zero. intros l' Hl'. unfold kron. destruct (Nat.eqb_spec i (f k')) as [E|E]; [exfalso; exact (NH k' Hk' (eq_sym E))|rn; ring].
Qed.
Section Pad.
Variables (z : sizes) (q : padding).
Hypothesis HP : paddable z q.
Local Notation t := (pad_coords z q).
Lemma pad_list l l' : padded_list z q l l' <-> turned_list (z_n z) (z_rows z) (z_rank z) (t_rows t) l l'.
Proof.
  split; intros (L1 & L2 & H); (split; [exact L1|]); (split; [exact L2|]); intros i Hi; apply spread_turned; try apply H; try (apply HP; exact Hi); exact Hi.
Qed.
Lemma pad_mat M M' : padded_mat z q M M' <-> turned (z_cols z) (z_rank z) (t_cols t) M M'.
Proof. apply spread_turned. apply HP. Qed.
Lemma pad_data Xs Xs' : padded_data z q Xs Xs' -> turned_data z t Xs Xs'.
Proof. intros (L1 & L2 & H). split; [exact L1|]. split; [exact L2|]. intros i Hi. apply spread_both_turned; [apply HP; exact Hi|apply HP|now apply H]. Qed.
Lemma pad_cmf c c' : padded_cmf z q c c' <-> turned_cmf z t c c'.
Proof. unfold padded_cmf, turned_cmf. now rewrite pad_list, pad_mat. Qed.
Lemma F2_iff {A B} (P0 P1 : A -> B -> Prop) : (forall x y, P0 x y <-> P1 x y) -> forall l l', Forall2 P0 l l' <-> Forall2 P1 l l'.
Proof. intros H l l'. split; apply F2_impl; intros x y; apply H. Qed.
Lemma pad_auxes a a' : padded_auxes z q a a' <-> turned_auxes z t a a'.
Proof. destruct a, a'; cbn; rewrite ?pad_list; reflexivity. Qed.
Lemma pad_vars v v' : padded_vars z q v v' <-> turned_vars z t v v'.
Proof.
  unfold padded_vars, turned_vars. rewrite (F2_iff _ _ pad_auxes), (F2_iff _ _ pad_list), !(F2_iff _ _ pad_mat). reflexivity.
Qed.
Lemma pad_output o o' : turned_output z t o o' -> padded_output z q o o'.
Proof.
  intros (H1 & H2 & H3). split; [now apply pad_cmf|]. split; [|exact H3]. destruct (out_vars o), (out_vars o'); auto. now apply pad_vars.
Qed.
Lemma pad_rows_straight : rows_kept z q -> rows_straight z t.
Proof.
  intros H i Hi. destruct (H i Hi) as (E & K). split; [exact E|]. intros x y Hx Hy. pose proof (place_placed _ _ _ (proj2 HP i Hi)) as (_ & G). cbn [pad_coords t_rows]. etransitivity; [apply G|]; [cbn; lia|exact Hy|]. now rewrite K.
Qed.
Lemma pad_cols_straight : cols_kept z q -> cols_straight z t.
Proof.
  intros (E & K). split; [exact E|]. intros x y Hx Hy. pose proof (place_placed _ _ _ (proj1 HP)) as (_ & G). cbn [pad_coords t_cols]. etransitivity; [apply G|]; [cbn; lia|exact Hy|]. now rewrite K.
Qed.
End Pad.
(** ** Requests *)
Lemma zero_pens V a m l : (m < 3)%nat -> keeps_zero_mode a m -> penalties_of V a m l -> Forall keeps_zero l.
Proof.
  intros Hm (F1 & F2) (t & EP & ->). destruct (parse_all_ok _ _ _ _ _ _ EP m Hm) as (kw & pa & u & MV & PM & US & ->). rewrite map_app, Forall_app. split; [|rewrite Forall_map; exact (F2 u US)].
  destruct (F1 kw MV) as (LO & UP & NU & TV & GG). apply parse_mode_iff in PM as (_ & gl & GL & ->).
  assert (G : gl = []) by (unfold gl_ok in GL; now destruct GG as [GG|GG]; rewrite GG in GL). subst gl.
  assert (B2 : btruthy (k_uni kw) = false) by (destruct (btruthy (k_uni kw)) eqn:E0; [apply btruthy_wants in E0; tauto|reflexivity]).
  assert (S5 : s_tv kw (f_aux a) (f_dual a) = []).
  { unfold s_tv. destruct (k_tv kw) as [b|]; [|reflexivity]. cbn in TV. subst b. now rewrite zero_not_truthy. }
  rewrite S5. unfold s_pf2, s_uni, s_ball, s_l1, s_non. rewrite B2. cbn [app]. rewrite !map_app, !Forall_app.
  split; [destruct (k_pf2 kw); repeat constructor|]. split; [destruct (k_norm kw) as [b|]; [destruct (ntruthy b)|]; repeat constructor|]. split; [match goal with |- context[if ntruthy ?x then _ else _] => destruct (ntruthy x) end; repeat constructor|]. split.
  { unfold s_box. assert (K : forall x, (if btruthy (k_nn kw) then Some (match k_lower kw with None => 0 | Some y => nmax (N:=RNum) y 0 end) else k_lower kw) = Some x -> x <= 0).
    { intros x. destruct (btruthy (k_nn kw)); [|apply LO]. intros E0. injection E0 as <-. destruct (k_lower kw) as [y|]; [|lra]. specialize (LO y eq_refl). unfold nmax. rn. destruct (Rleb_spec y 0); [lra|exact LO]. }
    destruct (k_lower kw), (k_upper kw); cbn [map o_pen]; [| | |constructor]; (constructor; [|constructor]); (split; [exact K|intros x0 E0; try discriminate; auto]). }
  destruct (_ && _)%bool; repeat constructor.
Qed.
Lemma pad_unseen V a z q : paddable z q -> keeps_zero_mode a 1 \/ rows_kept z q -> keeps_zero_mode a 2 \/ cols_kept z q -> unseen V a z (pad_coords z q).
Proof.
  intros HP FB FC. pose proof (pad_frames z q HP) as HF. split; intros l p PL IN NP.
  - intros i Hi. destruct FB as [FM|RS]; [|left; apply straight_eye; [apply HF; exact Hi|exact (pad_rows_straight z q HP RS i Hi)]]. right. right. split; [exists (q_row q i); apply place_placed; now apply HP|]. pose proof (zero_pens V a 1 l ltac:(lia) FM PL) as K. rewrite Forall_forall in K. auto.
  - destruct FC as [FM|CS]; [|left; apply straight_eye; [apply HF|exact (pad_cols_straight z q HP CS)]]. right. right. split; [exists (q_col q); apply place_placed; apply HP|]. pose proof (zero_pens V a 2 l ltac:(lia) FM PL) as K. rewrite Forall_forall in K. auto.
Qed.
Lemma outcome_pad z q x y : paddable z q -> same_outcome (turned_output z (pad_coords z q)) x y -> same_outcome (padded_output z q) x y.
Proof. intros HP. destruct x, y; cbn; auto. now apply pad_output. Qed.

(** ** From corresponding starts *)
(** The second call is the first with rows and columns of zeros added to the data matrices; the others may
    be moved.  Zeros satisfy what is asked of the B_i, and of C, or no rows, or columns, are added.  If the
    calls start at corresponding points, both return: the same A, rows of zeros added to the B_i and to C
    and to the variables, the same diagnostics; or both raise the same exception. *)
Theorem C91_padded V IE IE' rnd rnd' (a b : fitR) rank q c c' v v' :
  let z := data_sizes a rank in
  sensible V a rank -> sensible V b rank -> ranks_kept IE -> ranks_kept IE' -> svd_correct (e_ext V) rank ->
  paddable z q -> padded_data z q (f_data a) (f_data b) -> same_settings a b -> same_requests a b ->
  keeps_zero_mode a 1 \/ rows_kept z q -> keeps_zero_mode a 2 \/ cols_kept z q -> ~ wants_parafac2 a \/ rows_kept z q ->
  starts_at V IE rnd a c v -> starts_at V IE' rnd' b c' v' -> padded_cmf z q c c' -> padded_vars z q v v' ->
  same_outcome (padded_output z q) (cmf_aoadmm V IE rnd a) (cmf_aoadmm V IE' rnd' b).
Proof.
  intros z HS HS' RK RK' HE HP HX SS RQ FB FC NP ST ST' MC MV. apply outcome_pad; [exact HP|].
  apply (turned_any V IE IE' rnd rnd' a b rank (pad_coords z q) c c' v v'); auto.
  - now apply pad_frames.
  - now apply pad_data.
  - now apply pad_unseen.
  - destruct NP as [NP|RS]; [now left|right; now apply pad_rows_straight].
  - now apply pad_cmf.
  - now apply pad_vars.
Qed.
(** With PARAFAC2 when rows are added: as in C83, if the first call returns with a routine that refuses
    to decompose matrices whose columns are dependent, both calls return and the results correspond. *)
Theorem C91_parafac2 V Vc IE IE' rnd rnd' (a b : fitR) rank q c c' v v' o :
  let z := data_sizes a rank in
  sensible V a rank -> sensible V b rank -> ranks_kept IE -> ranks_kept IE' -> svd_correct (e_ext V) rank -> refuses_dependent V Vc rank ->
  paddable z q -> padded_data z q (f_data a) (f_data b) -> same_settings a b -> same_requests a b ->
  keeps_zero_mode a 1 \/ rows_kept z q -> keeps_zero_mode a 2 \/ cols_kept z q ->
  starts_at V IE rnd a c v -> starts_at V IE' rnd' b c' v' -> padded_cmf z q c c' -> padded_vars z q v v' ->
  start_without_svd a -> norms_independent a rank -> cmf_aoadmm Vc IE rnd a = Ok o ->
  cmf_aoadmm V IE rnd a = Ok o /\ exists o', cmf_aoadmm V IE' rnd' b = Ok o' /\ padded_output z q o o'.
Proof.
  intros z HS HS' RK RK' HE HV HP HX SS RQ FB FC ST ST' MC MV SW NI HO.
  destruct (parafac2_any V Vc IE IE' rnd rnd' a b rank (pad_coords z q) c c' v v' o HS HS' RK RK' HE HV (pad_frames z q HP) (pad_data z q HP _ _ HX) SS RQ (pad_unseen V a z q HP FB FC) ST ST' (proj1 (pad_cmf z q HP _ _) MC) (proj1 (pad_vars z q HP _ _) MV) SW NI HO) as (H1 & o' & H2 & H3).
  split; [exact H1|]. exists o'. split; [exact H2|]. now apply pad_output.
Qed.
(** With given factors and variables that start at zero. *)
Theorem C91_given V IE rnd (a b : fitR) rank q c c' :
  let z := data_sizes a rank in
  sensible V a rank -> sensible V b rank -> accepted V a -> accepted V b -> svd_correct (e_ext V) rank ->
  paddable z q -> padded_data z q (f_data a) (f_data b) -> same_settings a b -> same_requests a b ->
  keeps_zero_mode a 1 \/ rows_kept z q -> keeps_zero_mode a 2 \/ cols_kept z q -> ~ wants_parafac2 a -> without_parafac2 a -> without_parafac2 b ->
  starts_from a c -> starts_from b c' -> padded_cmf z q c c' -> zero_vars a -> zero_vars b ->
  same_outcome (padded_output z q) (cmf_aoadmm V IE rnd a) (cmf_aoadmm V IE rnd b).
Proof.
  intros z HS HS' AC AC' HE HP HX SS RQ FB FC NW NP NP' SF SF' MC ZV ZV'. apply outcome_pad; [exact HP|].
  apply (given_any V IE rnd a b rank (pad_coords z q) c c'); auto.
  - now apply pad_frames.
  - now apply pad_data.
  - now apply pad_unseen.
  - now apply pad_cmf.
Qed.
Print Assumptions C91_padded.
Print Assumptions C91_parafac2.
Print Assumptions C91_given.

(** ** A padded call *)
(** Rank 2; ridge terms; all factors non-negative, a bound on the column norms of the B_i, bounds on the
    entries of C. *)
Definition args91 (Xs : list matR) (c : rcmf) : fitR :=
  FitArgs (N:=RNum) Xs (PyInt 2) (InitSeq (seq66 c)) 3 (AIter [Some (1 / 10); Some (1 / 5); Some (3 / 10)])
    (KwArgs (AOne (Some true)) (AIter [None; None; Some (- 1)]) (AIter [None; None; Some 2]) (AIter [None; Some 2; None]) (AOne None) false (AOne None) (AOne None) (AOne None)) RNone
    1 (CBool false) (IStr Zeros) (IStr Zeros) true (Some (1 / 100)) (Some (1 / 1000)) (Some (1 / 10000)) None 5 true true true true true.
Lemma kw91 Xs c m kw : (m < 3)%nat -> mode_values (f_kw (args91 Xs c)) m kw -> k_nn kw = Some true /\ k_lower kw = (if (m =? 2)%nat then Some (- 1) else None) /\ k_upper kw = (if (m =? 2)%nat then Some 2 else None) /\
  k_norm kw = (if (m =? 1)%nat then Some 2 else None) /\ k_uni kw = None /\ k_l1 kw = None /\ k_tv kw = None /\ k_gl2 kw = None /\ k_pf2 kw = false.
Proof. intros Hm (M1 & (_ & M2) & (_ & M3) & (_ & M4) & M5 & M6 & M7 & M8 & M9). cbn in M1, M5, M6, M7, M8, M9. destruct m as [|[|[|m]]]; [| | |lia]; cbn in M2, M3, M4; injection M2 as M2; injection M3 as M3; injection M4 as M4; auto 12. Qed.
Definition start91 (B1 B2 C : matR) : rcmf := Cmf (N:=RNum) None (m22 1 2 3 1) [B1; B2] C.
Lemma valid91 (B1 B2 C : matR) : shaped B1 (mr B1) 2 -> shaped B2 (mr B2) 2 -> shaped C (mr C) 2 -> valid_cmf (start91 B1 B2 C).
Proof.
  intros (W1 & _ & C1) (W2 & _ & C2) (W3 & _ & C3). split; [repeat constructor|]. split; [exact W3|]. split; [exact C3|]. split; [reflexivity|]. split; [|discriminate].
  intros [|[|i]] Hi; [split; assumption|split; assumption|cbn in Hi; lia].
Qed.
Lemma dependable91 E (X1 X2 B1 B2 C : matR) : shaped X1 (mr B1) (mr C) -> shaped X2 (mr B2) (mr C) -> shaped B1 (mr B1) 2 -> shaped B2 (mr B2) 2 -> shaped C (mr C) 2 -> (0 < mr B1)%nat -> (0 < mr B2)%nat -> (0 < mr C)%nat ->
  dependable (Env (N:=RNum) E (fun _ => []) true) (args91 [X1; X2] (start91 B1 B2 C)) 2.
Proof.
  intros SX1 SX2 SB1 SB2 SC P1 P2 PC. set (a := args91 _ _). pose proof SX1 as (WX1 & RX1 & CX1). pose proof SX2 as (WX2 & RX2 & CX2).
  assert (UPX : forall m u, user_penalties (f_regs a) m u -> u = []) by (intros m u H; exact H).
  assert (KWX : forall m kw, (m < 3)%nat -> mode_values (f_kw a) m kw -> _) by (intros m kw; apply kw91).
  assert (L2X : forall m v, (m < 3)%nat -> means (f_l2 a) m v -> 0 < strength v) by (intros m v Hm (_ & K); destruct m as [|[|[|m]]]; [| | |lia]; cbn in K; injection K as <-; cbn; lra).
  split.
  { unfold sensible. split; [discriminate|]. split; [constructor; [split; [exact WX1|lia]|constructor; [split; [exact WX2|lia]|constructor]]|].
    split; [reflexivity|]. split; [lia|]. split; [do 5 eexists; reflexivity|]. split; [cbn; lra|]. split; [intros m v Hm MV; apply Rlt_le, (L2X m v Hm MV)|]. split.
    - intros m r kw Hm _ MV. destruct (KWX m kw Hm MV) as (K1 & K2 & K3 & K4 & K5 & K6 & K7 & K8 & K9). split; [|intros M E0; congruence]. intros hi E0. rewrite K3 in E0. rewrite K2. destruct (m =? 2)%nat; [|discriminate]. injection E0 as <-. split; [intros lo E1; injection E1 as <-|intros _]; lra.
    - split.
      + intros m r u Hm _ HU. rewrite (UPX m u HU). constructor.
      + intros [K|(u & HU & K)]; [discriminate K|]. rewrite (UPX 1%nat u HU) in K. inversion K. }
  split; [intros M [<-|[<-|[]]]; [reflexivity|exact (eq_trans CX2 (eq_sym CX1))]|]. split.
  { eexists. split; [reflexivity|]. split; [|reflexivity]. split; [now apply valid91|]. split; [reflexivity|].
    intros [|[|i]] Hi; [exact SX1|exact SX2|cbn in Hi; lia]. }
  split; [reflexivity|]. split; [discriminate|].
  split; [eexists; split; [reflexivity|discriminate]|]. split; [eexists; split; [reflexivity|discriminate]|].
  split; [reflexivity|]. split; [repeat split; exact Logic.I|]. split; [exact Logic.I|]. split.
  { intros m kw Hm MV. destruct (KWX m kw Hm MV) as (K1 & K2 & K3 & K4 & K5 & K6 & K7 & K8 & K9). unfold acceptable. rewrite K4, K6, K7, K8. cbn [strength].
    split; [lra|]. split; [lra|]. split; [intros K; now destruct K|]. split; [destruct (m =? 1)%nat; cbn [strength]; lra|exact Logic.I]. }
  split.
  { intros m Hm _. split; [intros v MV; now apply (L2X m v)|]. split.
    - intros kw MV. destruct (KWX m kw Hm MV) as (K1 & K2 & K3 & K4 & K5 & K6 & K7 & K8 & K9). unfold asks_plain. rewrite K6, K7, K8, K9. cbn. auto.
    - intros u HU. rewrite (UPX m u HU). constructor. }
  split.
  { intros _ _ [(kw & MV & K)|(u & HU & K)].
    - destruct (KWX 0%nat kw ltac:(lia) MV) as (K1 & K2 & K3 & K4 & K5 & K6 & K7 & K8 & K9). unfold asks_matrixwise, wants in K. rewrite K4, K5, K7, K8 in K. cbn in K.
      destruct K as [K|[K|[K|(M & K)]]]; try discriminate K; lra.
    - rewrite (UPX 0%nat u HU) in K. inversion K. }
  intros _. discriminate.
Qed.
(** A row of zeros between the rows of the first matrix, one before the row of the second, and a column of
    zeros before the others; the other columns change places. *)
Definition q91 : padding := Padding (fun i => if (i =? 0)%nat then 3%nat else 2%nat) 3 (fun i k => if (i =? 0)%nat then (2 * k)%nat else 1%nat) (fun k => (2 - k)%nat).
Definition c91 : rcmf := start91 (m22 1 0 2 1) (m12 1 3) (m22 1 2 0 1).
Definition c91' : rcmf := start91 (m32 1 0 0 0 2 1) (m22 0 0 1 3) (m32 0 0 0 1 1 2).
Definition a91 : fitR := args91 [m22 1 2 3 4; m12 5 6] c91.
Definition b91 : fitR := args91 [Mat (N:=RNum) 3 3 [[0; 2; 1]; [0; 0; 0]; [0; 4; 3]]; Mat (N:=RNum) 2 3 [[0; 0; 0]; [0; 6; 5]]] c91'.
Ltac hits H := exfalso; first [apply (H 0%nat); [cbn; lia|reflexivity]|apply (H 1%nat); [cbn; lia|reflexivity]].
Example C91_nonvacuous rnd : exists V out out', let z := data_sizes a91 2 in sensible V a91 2 /\ sensible V b91 2 /\ accepted V a91 /\ accepted V b91 /\ svd_correct (e_ext V) 2 /\
  paddable z q91 /\ padded_data z q91 (f_data a91) (f_data b91) /\ same_settings a91 b91 /\ same_requests a91 b91 /\ keeps_zero_mode a91 1 /\ keeps_zero_mode a91 2 /\
  ~ wants_parafac2 a91 /\ without_parafac2 a91 /\ without_parafac2 b91 /\ starts_from a91 c91 /\ starts_from b91 c91' /\ padded_cmf z q91 c91 c91' /\ zero_vars a91 /\ zero_vars b91 /\
  cmf_aoadmm V no_ext rnd a91 = Ok out /\ cmf_aoadmm V no_ext rnd b91 = Ok out' /\ padded_output z q91 out out'.
Proof.
  destruct ideal_exists as (E & HE & _). set (V := Env (N:=RNum) E (fun _ => []) true).
  assert (D : dependable V a91 2) by (apply dependable91; try (repeat constructor); cbn; lia). assert (D' : dependable V b91 2) by (apply dependable91; try (repeat constructor); cbn; lia).
  destruct (C51_fit_total V no_ext rnd _ 2 D no_ext_ranks (HE 2%nat)) as (out & H). exists V, out.
  assert (NP : forall Xs c, without_parafac2 (args91 Xs c)).
  { intros Xs c m Hm _. split; [intros kw MV; apply (kw91 Xs c m kw Hm MV)|intros u K; cbn in K; rewrite K; constructor]. }
  set (z := data_sizes a91 2). assert (H1 : sensible V a91 2) by apply D. assert (H2 : sensible V b91 2) by apply D'. assert (H3 : accepted V a91) by now apply (accepted_dependable V _ 2). assert (H4 : accepted V b91) by now apply (accepted_dependable V _ 2).
  assert (H5 : paddable z q91).
  { split; [|intros [|[|i]] Hi; [| |cbn in Hi; lia]]; split; intros k; [intros Hk|intros l Hk Hl|intros Hk|intros l Hk Hl|intros Hk|intros l Hk Hl]; fin k; try fin l; cbn; try lia; try reflexivity; intros E0; discriminate E0. }
  assert (H6 : padded_data z q91 (f_data a91) (f_data b91)).
  { split; [reflexivity|]. split; [reflexivity|]. intros [|[|i]] Hi; [| |cbn in Hi; lia]; (split; [repeat constructor|split; [repeat constructor|split]]).
    - intros p l Hp Hl; fin p; fin l; reflexivity.
    - intros p l Hp Hl NH; fin p; fin l; try reflexivity; destruct NH as [NH|NH]; hits NH.
    - intros p l Hp Hl; fin p; fin l; reflexivity.
    - intros p l Hp Hl NH; fin p; fin l; try reflexivity; destruct NH as [NH|NH]; hits NH. }
  assert (H7 : same_settings a91 b91) by repeat split.
  assert (H8 : same_requests a91 b91) by (split; [reflexivity|split; [reflexivity|intros m u u' Hm K K'; cbn in K, K'; rewrite K, K'; reflexivity]]).
  assert (FM : forall m, (m < 3)%nat -> keeps_zero_mode a91 m).
  { intros m Hm. split; [|intros u K; cbn in K; rewrite K; constructor]. intros kw MV. destruct (kw91 _ _ m kw ltac:(lia) MV) as (K1 & K2 & K3 & K4 & K5 & K6 & K7 & K8 & K9). rewrite K2, K3, K5, K7, K8.
    destruct (m =? 2)%nat; (split; [intros x E0; try discriminate; injection E0 as <-; lra|]); (split; [intros x E0; try discriminate; injection E0 as <-; lra|]); (split; [discriminate|]); (split; [reflexivity|now left]). }
  assert (H9 : ~ wants_parafac2 a91) by (intros [K|(u & HU & K)]; [discriminate K|cbn in HU; rewrite HU in K; inversion K]).
  assert (G1 : starts_from a91 c91) by (split; [apply valid91; repeat constructor|]; exists (seq66 c91); split; reflexivity).
  assert (G2 : starts_from b91 c91') by (split; [apply valid91; repeat constructor|]; exists (seq66 c91'); split; reflexivity).
  assert (G3 : padded_cmf z q91 c91 c91').
  { split; [reflexivity|]. split; [reflexivity|]. split; [split; [reflexivity|split; [reflexivity|]]|]; [intros [|[|i]] Hi; [| |cbn in Hi; lia]|]; (split; [repeat constructor|split; [repeat constructor|split]]).
    1,3,5: intros p l Hp Hl; fin p; fin l; reflexivity.
    all: intros p l Hp Hl NH; fin p; fin l; try reflexivity; hits NH. }
  assert (G4 : forall Xs c, zero_vars (args91 Xs c)) by (intros Xs c; split; [reflexivity|split; [reflexivity|intros m u _ K; cbn in K; rewrite K; constructor]]).
  pose proof (C91_given V no_ext rnd a91 b91 2 q91 c91 c91' H1 H2 H3 H4 (HE 2%nat) H5 H6 H7 H8 (or_introl (FM 1%nat ltac:(lia))) (or_introl (FM 2%nat ltac:(lia))) H9 (NP _ _) (NP _ _) G1 G2 G3 (G4 _ _) (G4 _ _)) as OUT.
  destruct (outcome_ok _ _ _ _ OUT H) as (out' & EO & PO). exists out'. cbv zeta.
  do 9 (split; [assumption || apply HE|]). split; [apply FM; lia|]. split; [apply FM; lia|]. split; [exact H9|]. split; [apply NP|]. split; [apply NP|]. split; [exact G1|]. split; [exact G2|]. split; [exact G3|]. split; [apply G4|]. split; [apply G4|]. auto.
Qed.
