(** Proofs about the front ends (Fit.v). *)
From Coq Require Import Reals Lra Lia List Arith Bool ZArith.
From Verif Require Import Num Numpy RFacts Spec SpecFacts MatFacts ModelSpec Penalties PenaltySpec CoupledMatrices CmfSpec CmfProofs Decomp DecompSpec
  DecompFacts AoMain TotalRun InitVars InitSpec InitProofs Parse ParseSpec ParseProofs P06_Init P07_Parse Fit FitSpec.
Import ListNotations.
Local Open Scope R_scope.

Notation pyR := (pyobj (N:=RNum)).

(** ** What construction of a factorization yields *)
Lemma py_iter_ok_len (o : pyR) l n : py_iter o = Ok l -> py_len o = Ok n -> length l = n.
Proof.
  destruct o as [| |sh d|l0]; try discriminate.
  - destruct sh as [|k [|k2 rest]]; try discriminate; cbn; intros H1 H2; injection H1 as <-; injection H2 as <-.
    + apply repeat_length.
    + now rewrite map_length, seq_length.
  - cbn. intros H1 H2. injection H1 as <-. now injection H2.
Qed.
Lemma cmf_init_valid (w A B C : pyR) sh k c :
  (w = PNone \/ exists v, w = py_of_vec (N:=RNum) v) ->
  cmf_init (PSeq [w; PSeq [A; B; C]]) = Ok (sh, k, c) ->
  valid_cmf c /\ mc (cA c) = k /\ (exists n d, A = PArr [n; k] d) /\ (exists K d, C = PArr [K; k] d /\ mr (cC c) = K) /\
  cA c = arr_mat A /\ cC c = arr_mat C /\ (exists Bs, py_iter B = Ok Bs /\ cBs c = map arr_mat Bs) /\ (w = PNone -> cw c = None).
Proof.
  intros HW H. unfold cmf_init, validate_cmf in H. cbn [unpack2 unpack3 py_iter bind] in H.
  destruct (weights_shape w) as [wn|] eqn:EW; [|discriminate]. cbn [bind] in H.
  destruct (matrix_shape A) as [[nI r]|] eqn:EA; [|discriminate]. cbn [bind] in H.
  destruct (matrix_shape C) as [[K rC]|] eqn:EC; [|discriminate]. cbn [bind] in H.
  destruct (rC =? r)%nat eqn:ER; [|discriminate]. cbn [negb] in H. apply Nat.eqb_eq in ER. subst rC.
  destruct (py_iter B) as [Bs|] eqn:EB; [|discriminate]. cbn [bind] in H.
  destruct (validate_Bs r K Bs) as [shp|] eqn:EV; [|discriminate]. cbn [bind] in H.
  destruct (match wn with Some n => negb (n =? r)%nat | None => false end) eqn:EN; [discriminate|].
  destruct (py_len B) as [nB|] eqn:EL; [|discriminate]. cbn [bind] in H.
  destruct (nI =? nB)%nat eqn:EI; [|discriminate]. cbn [negb bind] in H. apply Nat.eqb_eq in EI. subst nB.
  injection H as <- <- <-. cbn [cA cBs cC cw].
  apply matrix_shape_ok in EA as (dA & ->). apply matrix_shape_ok in EC as (dC & ->).
  apply validate_Bs_ok in EV.
  destruct (arr_mat_shaped nI r dA) as (WA & RA & CA). destruct (arr_mat_shaped K r dC) as (WC & RC & CC).
  assert (LB := py_iter_ok_len _ _ _ EB EL).
  split; [|split; [exact CA|split; [eauto|split; [exists K, dC; split; [reflexivity|exact RC]|split; [reflexivity|split; [reflexivity|split; [eauto|]]]]]]].
  - split; [exact WA|]. split; [exact WC|]. split; [cbn [cA cC]; congruence|]. split; [cbn [cA cBs]; rewrite map_length; congruence|]. split.
    + intros i Hi. unfold nthB. cbn [cBs cA] in *. rewrite map_length in Hi.
      assert (X : exists J d, nth i Bs PNone = PArr [J; r] d).
      { clear - EV Hi. revert i Hi. induction EV as [|b s l l' (J & d & -> & _) F IH]; intros [|i] Hi; cbn in *; try lia; eauto. apply IH. lia. }
      destruct X as (J & d & X). rewrite (nth_indep _ no_mat (arr_mat PNone)) by now rewrite map_length.
      rewrite map_nth, X. destruct (arr_mat_shaped J r d) as (W1 & _ & C1). split; [exact W1|congruence].
    + intros v. cbn [cw cA]. destruct HW as [->|(v0 & ->)]; [discriminate|]. intros E0. injection E0 as <-.
      cbn in EW. injection EW as <-. apply negb_false_iff, Nat.eqb_eq in EN. exact EN.
  - intros ->. reflexivity.
Qed.
Lemma revalidate_valid (c c' : rcmf) : revalidate c = Ok c' ->
  valid_cmf c' /\ mc (cA c') = mc (cA c) /\ mr (cA c') = mr (cA c) /\ mr (cC c') = mr (cC c) /\ cw c' = cw c /\ map mr (cBs c') = map mr (cBs c).
Proof.
  intros H. unfold revalidate in H. destruct (cmf_init (py_of_cmf c)) as [[[sh k] c0]|] eqn:E0; [|discriminate]. cbn [bind] in H. injection H as <-.
  unfold py_of_cmf in E0.
  assert (HW : match cw c with None => PNone | Some w => py_of_vec w end = PNone \/ exists v, match cw c with None => PNone | Some w => py_of_vec w end = py_of_vec (N:=RNum) v).
  { destruct (cw c); eauto. }
  pose proof E0 as E1. apply cmf_init_valid in E0; [|exact HW].
  destruct E0 as (V0 & K0 & _ & _ & EA & EC & (Bs & EB & ECB) & _). split; [exact V0|]. rewrite EA, EC, ECB.
  split; [reflexivity|]. split; [reflexivity|]. split; [reflexivity|]. split.
  - unfold cmf_init in E1. destruct (validate_cmf _) as [[? ?]|]; [|discriminate]. cbn [bind unpack2 unpack3 py_iter] in E1. injection E1 as _ _ <-. cbn.
    now destruct (cw c).
  - cbn in EB. injection EB as <-. rewrite !map_map. reflexivity.
Qed.
Lemma arr_mat_dims (r c : nat) (d : list R) : mr (arr_mat (N:=RNum) (PArr [r; c] d)) = r /\ mc (arr_mat (N:=RNum) (PArr [r; c] d)) = c.
Proof. split; reflexivity. Qed.

(** ** The initial factorization *)
Lemma times_weights_ok (w : pyR) n k d A' : times_weights w (PArr [n; k] d) = Ok A' -> exists d', A' = PArr [n; k] d'.
Proof.
  destruct w as [| |[|m [|m2 sh]] dw|]; try discriminate. cbn [times_weights].
  destruct (m =? k)%nat; [|destruct ((m =? 1)%nat || (k =? 1)%nat); discriminate]. intros H. injection H as <-. eexists. reflexivity.
Qed.
Lemma in_cpf_rank (t : cpt (N:=RNum)) sh c : from_CPTensor t sh = Ok c -> valid_cmf c /\ exists A, In A (cpf t) /\ mc (cA c) = mc A.
Proof.
  unfold from_CPTensor. destruct (cp_check t); [|discriminate]. cbn [negb]. destruct (cpf t) as [|A [|B [|C [|D l]]]]; try discriminate.
  intros H. match type of H with (let* Bs := ?x in _) = _ => destruct x as [Bs|]; [|discriminate] end. cbn [bind] in H.
  destruct (revalidate_valid _ _ H) as (V0 & K & _). split; [exact V0|]. exists A. split; [now left|exact K].
Qed.
Lemma initialize_ok E IE rnd Xs rank init pos c p :
  initialize_cmf E IE rnd Xs (PyInt (Z.of_nat rank)) init pos = Ok (c, p) -> ranks_kept IE -> init_rank init rank ->
  valid_cmf c /\ mc (cA c) = rank.
Proof.
  intros H (K1 & K2 & K3) HI. destruct init as [l|m].
  - destruct HI as (w & nA & d & Bs & C & ->). unfold initialize_cmf in H. cbn [unpack2 unpack3 py_iter bind] in H.
    assert (KEY : forall w' A', (exists d', A' = PArr [nA; rank] d') -> w' = PNone ->
      (let* (_, _, c0) := cmf_init (PSeq [w'; PSeq [A'; Bs; C]]) in Ok (c0, pos)) = Ok (c, p) -> valid_cmf c /\ mc (cA c) = rank).
    { intros w' A' (d' & ->) -> X. destruct (cmf_init (PSeq [PNone; PSeq [PArr [nA; rank] d'; Bs; C]])) as [[[sh k] c0]|] eqn:E0; [|discriminate X]. cbn [bind] in X. injection X as <- _.
      apply cmf_init_valid in E0; [|now left]. destruct E0 as (V0 & _ & _ & _ & EA & _). split; [exact V0|]. now rewrite EA. }
    destruct w as [| |sh dw|lw]; [exact (KEY _ _ (ex_intro _ d eq_refl) eq_refl H)|discriminate H| |discriminate H].
    destruct (times_weights (PArr sh dw) (PArr [nA; rank] d)) as [A'|] eqn:ET; [|discriminate H]. cbn [bind] in H.
    exact (KEY PNone A' (times_weights_ok _ _ _ _ _ ET) eq_refl H).
  - assert (AR : as_rank (PyInt (Z.of_nat rank)) = Ok rank).
    { unfold as_rank. destruct (Z.ltb_spec (Z.of_nat rank) 0); [lia|]. now rewrite Nat2Z.id. }
    assert (CPC : forall g T, (forall r pos t p, g (T : ten) (PyInt r) pos = Ok (t, p) -> forall F, In F (cpf t) -> Z.of_nat (mc F) = r) ->
      (let* (t, p0) := g T (PyInt (Z.of_nat rank)) pos in let* c0 := from_CPTensor t (Some (get_shapes Xs)) in Ok (c0, p0)) = Ok (c, p) ->
      valid_cmf c /\ mc (cA c) = rank).
    { intros g T HG X. destruct (g T (PyInt (Z.of_nat rank)) pos) as [[t p0]|] eqn:EG; [|discriminate]. cbn [bind] in X.
      destruct (from_CPTensor t (Some (get_shapes Xs))) as [c0|] eqn:EF; [|discriminate X]. cbn [bind] in X. injection X as <- _.
      destruct (in_cpf_rank _ _ _ EF) as (V0 & A & HA & EA). split; [exact V0|]. specialize (HG _ _ _ _ EG A HA). lia. }
    destruct m; unfold initialize_cmf in H.
    + destruct (first_cols Xs) as [K|]; [|discriminate]. cbn [bind] in H. rewrite AR in H. cbn [bind] in H.
      destruct (draw_mat rnd Uniform (length Xs) (Z.of_nat rank) pos) as [[A q1]|] eqn:EA; [|discriminate]. cbn [bind] in H.
      destruct (draw_mat rnd Uniform K (Z.of_nat rank) q1) as [[C q2]|] eqn:EC; [|discriminate]. cbn [bind] in H.
      match type of H with context[mapS ?f Xs q2] => destruct (mapS f Xs q2) as [[Bs q3]|] eqn:EB; [|discriminate H] end. cbn [bind] in H.
      match type of H with context[revalidate ?z] => destruct (revalidate z) as [c0|] eqn:ER; [|discriminate H] end. cbn [bind] in H. injection H as <- _.
      destruct (revalidate_valid _ _ ER) as (V0 & KA & _). split; [exact V0|]. rewrite KA. cbn [cA].
      destruct (draw_ok _ _ _ _ _ _ _ EA) as (_ & (_ & _ & S1) & _). rewrite S1. apply Nat2Z.id.
    + rewrite AR in H. cbn [bind] in H. destruct Xs as [|X Xs]; [discriminate|]. cbn [bind] in H. match type of H with (if ?b then _ else _) = _ => destruct b; [discriminate H|] end. cbv zeta in H.
      match type of H with context[revalidate ?z] => destruct (revalidate z) as [c0|] eqn:ER; [|discriminate H] end. cbn [bind] in H. injection H as <- _.
      destruct (revalidate_valid _ _ ER) as (V0 & KA & _). split; [exact V0|]. rewrite KA. reflexivity.
    + rewrite AR in H. cbn [bind] in H. destruct Xs as [|X Xs]; [discriminate|]. cbn [bind] in H. match type of H with (if ?b then _ else _) = _ => destruct b; [discriminate H|] end. cbv zeta in H.
      match type of H with context[revalidate ?z] => destruct (revalidate z) as [c0|] eqn:ER; [|discriminate H] end. cbn [bind] in H. injection H as <- _.
      destruct (revalidate_valid _ _ ER) as (V0 & KA & _). split; [exact V0|]. rewrite KA. reflexivity.
    + destruct (i_parafac2 IE Xs (PyInt (Z.of_nat rank)) pos) as [[t p0]|] eqn:EG; [|discriminate]. cbn [bind] in H.
      destruct (from_Parafac2Tensor t) as [c0|] eqn:EF; [|discriminate]. cbn [bind] in H. injection H as <- _.
      destruct (revalidate_valid _ _ EF) as (V0 & KA & _). split; [exact V0|]. rewrite KA. cbn [cA]. specialize (K1 _ _ _ _ _ EG). lia.
    + destruct (create_padded_tensor Xs) as [T|]; [|discriminate]. cbn [bind] in H. exact (CPC _ T (K2 T) H).
    + destruct (create_padded_tensor Xs) as [T|]; [|discriminate]. cbn [bind] in H. exact (CPC _ T (K3 T) H).
    + destruct (create_padded_tensor Xs) as [T|]; [|discriminate]. discriminate H.
Qed.

(** ** The state before the first iteration *)
Notation pobjR := (pobj (N:=RNum)).
Notation auxvalR := (auxval (N:=RNum)).
Lemma make_mregs_F2 (QA QD : pobjR -> auxvalR -> Prop) l : forall a d gs, Forall2 QA l a -> Forall2 QD l d -> make_mregs l a d = Ok gs ->
  Forall2 (fun o g => g_pen g = o_pen o /\ QA o (VMat (g_aux g)) /\ QD o (VMat (g_dual g))) l gs.
Proof.
  induction l as [|o l IH]; intros a d gs FA FD H; inversion FA as [|? v ? a' QV FA']; subst; inversion FD as [|? w ? d' QW FD']; subst; cbn [make_mregs] in H.
  - injection H as <-. constructor.
  - destruct v as [M|x]; [|discriminate]. destruct w as [D|x]; [|discriminate].
    destruct (make_mregs l a' d') as [r|] eqn:ER; [|discriminate]. cbn [bind] in H. injection H as <-. constructor; [cbn; auto|]. now apply (IH a' d').
Qed.
Lemma make_bregs_F2 (QA QD : pobjR -> auxvalR -> Prop) l : forall a d gs, Forall2 QA l a -> Forall2 QD l d -> make_bregs l a d = Ok gs ->
  Forall2 (fun o g => b_pen g = o_pen o /\ QA o (VMats (b_aux g)) /\ QD o (VMats (AList (b_dual g)))) l gs.
Proof.
  induction l as [|o l IH]; intros a d gs FA FD H; inversion FA as [|? v ? a' QV FA']; subst; inversion FD as [|? w ? d' QW FD']; subst; cbn [make_bregs] in H.
  - injection H as <-. constructor.
  - destruct v as [M|x]; [discriminate|]. destruct w as [D|[D|P0 D]]; try discriminate.
    destruct (make_bregs l a' d') as [r|] eqn:ER; [|discriminate]. cbn [bind] in H. injection H as <-. constructor; [cbn; auto|]. now apply (IH a' d').
Qed.
Lemma F2_pens {B} (f : B -> penalty) (Q : pobjR -> B -> Prop) l gs : Forall2 (fun o g => f g = o_pen o /\ Q o g) l gs -> map f gs = map o_pen l.
Proof. induction 1 as [|o g l gs (E0 & _) F IH]; [reflexivity|]. cbn. now rewrite E0, IH. Qed.
Lemma F2_right {A B} (Q : A -> B -> Prop) (P : A -> Prop) (R0 : B -> Prop) l gs : Forall2 Q l gs -> Forall P l -> (forall x y, Q x y -> P x -> R0 y) -> Forall R0 gs.
Proof. induction 1 as [|o g l gs E0 F IH]; intros HP H; inversion HP; subst; constructor; eauto. Qed.
Lemma list_shaped_rows n J J' c (l : list matR) : (forall i, (i < n)%nat -> J i = J' i) -> list_shaped n J c l -> list_shaped n J' c l.
Proof. intros H (L & K). split; [exact L|]. intros i Hi. rewrite <- H by assumption. now apply K. Qed.
Lemma shapes_match_fits Xs (c : rcmf) rank b : valid_cmf c -> Forall mwf Xs -> shapes_match Xs c rank b = true -> data_fits Xs c.
Proof.
  intros V HW H. unfold shapes_match in H. apply andb_prop in H as (H & _). apply andb_prop in H as (HL & HF). apply Nat.eqb_eq in HL.
  split; [exact V|]. split; [exact HL|]. intros i Hi. rewrite forallb_forall in HF.
  specialize (HF (nthX Xs i, nthB c i)). cbn [fst snd] in HF.
  assert (IN : In (nthX Xs i, nthB c i) (combine Xs (cBs c))).
  { unfold nthX, nthB. rewrite <- combine_nth by assumption. apply nth_In. rewrite combine_length. lia. }
  apply HF, andb_prop in IN as (E1 & E2). apply Nat.eqb_eq in E1, E2. split; [|auto]. rewrite Forall_forall in HW. apply HW. now apply nth_In.
Qed.

Definition parsed_as (V : envR) (a : fitR) (t : three (list pobjR)) (s : state (N:=RNum)) : Prop :=
  parse_all V (f_kw a) (f_regs a) (f_aux a) (f_dual a) = Ok t /\
  map g_pen (st_rA s) = map o_pen (if f_updA a then pick t 0 else []) /\
  map b_pen (st_rB s) = map o_pen (if f_updB a then pick t 1 else []) /\
  map g_pen (st_rC s) = map o_pen (if f_updC a then pick t 2 else []).
Lemma parafac2_wanted V a t : parse_all V (f_kw a) (f_regs a) (f_aux a) (f_dual a) = Ok t -> Exists (fun o => is_parafac2 (o_pen o)) (pick t 1) -> wants_parafac2 a.
Proof.
  intros H HE. destruct (C38_penalties_are_those_requested _ _ _ _ _ _ H 1%nat ltac:(lia)) as (kw & pa & u & MV & U & E0 & _ & _ & CN & _).
  rewrite E0 in HE. apply Exists_app in HE as [HE|HE].
  - left. destruct MV as (_ & _ & _ & _ & _ & _ & _ & _ & E1). cbn [Nat.eqb] in E1. rewrite andb_true_r in E1. rewrite <- E1.
    destruct (k_pf2 kw); [reflexivity|]. exfalso. clear - HE CN. induction HE as [o l Ho|o l Ho IH]; cbn in CN.
    + destruct (o_pen o); try contradiction. discriminate.
    + apply IH. lia.
  - right. exists u. auto.
Qed.
Lemma setup_ok V IE rnd a s l2 rank : sensible V a rank -> ranks_kept IE -> setup V IE rnd a = Ok (s, l2) ->
  valid_state (f_data a) s /\ st_inter s = None /\ mc (cA (st_cmf s)) = rank /\ listify (f_l2 a) = Ok l2 /\
  (exists pos, initialize_cmf (e_ext V) IE rnd (f_data a) (f_rank a) (f_init a) 0 = Ok (st_cmf s, pos)) /\
  exists t, parsed_as V a t s.
Proof.
  intros (HX & HS & HR & HR0 & HIR & HSC & HL2 & HK & HU & HPF) RK H. unfold setup in H.
  destruct (negb (f_svd a)); [discriminate|]. rewrite HR in H.
  destruct (initialize_cmf (e_ext V) IE rnd (f_data a) (PyInt (Z.of_nat rank)) (f_init a) 0) as [[c pos]|] eqn:EI; [|discriminate]. cbn [bind] in H.
  destruct (listify (f_l2 a)) as [l2'|] eqn:EL; [|discriminate]. cbn [bind] in H.
  destruct (parse_all V (f_kw a) (f_regs a) (f_aux a) (f_dual a)) as [[[rA rB] rC]|] eqn:EP; [|discriminate]. cbn [bind] in H. cbv zeta in H.
  set (uA := if f_updA a then rA else []) in *. set (uB := if f_updB a then rB else []) in *. set (uC := if f_updC a then rC else []) in *.
  destruct (initialize_aux rnd (f_data a) (PyInt (Z.of_nat rank)) (uA, uB, uC) pos) as [[[[aA aB] aC] pos1]|] eqn:EX; [|discriminate]. cbn [bind] in H.
  destruct (initialize_dual rnd (f_data a) (PyInt (Z.of_nat rank)) (uA, uB, uC) pos1) as [[[[dA dB] dC] pos2]|] eqn:ED; [|discriminate]. cbn [bind] in H.
  match type of H with (if negb ?b then _ else _) = _ => destruct b eqn:ES; [|discriminate H] end. cbn [negb] in H.
  destruct (make_mregs uA aA dA) as [gA|] eqn:GA; [|discriminate]. cbn [bind] in H.
  destruct (make_bregs uB aB dB) as [gB|] eqn:GB; [|discriminate]. cbn [bind] in H.
  destruct (make_mregs uC aC dC) as [gC|] eqn:GC; [|discriminate]. cbn [bind] in H. injection H as <- <-. cbn [st_cmf st_inter st_rA st_rB st_rC].
  destruct (initialize_ok _ _ _ _ _ _ _ _ _ EI RK HIR) as (VC & MC).
  assert (HW : Forall mwf (f_data a)) by (eapply Forall_impl; [|exact HS]; intros X K; apply K).
  pose proof (shapes_match_fits _ _ _ _ VC HW ES) as DF. destruct DF as (_ & DL & DS).
  set (Xs := f_data a) in *.
  assert (QA : forall o m p0 v q, init_aux rnd true o Xs (PyInt (Z.of_nat rank)) (PyInt m) p0 = Ok (v, q) -> fits_mode Xs rank m v /\ (is_pair v <-> is_parafac2 (o_pen o))).
  { intros o m p0 v q K. destruct (C17_init_aux_shapes _ _ _ _ _ _ _ _ _ K) as (r' & m' & E1 & E2 & F & B). injection E1 as <-. injection E2 as <-.
    rewrite Nat2Z.id in F. exact (conj F B). }
  assert (QD : forall o m p0 v q, init_dual rnd o Xs (PyInt (Z.of_nat rank)) (PyInt m) p0 = Ok (v, q) -> fits_mode Xs rank m v).
  { intros o m p0 v q K. destruct (C17_init_dual_shapes _ _ _ _ _ _ _ _ K) as (r' & m' & E1 & E2 & F & B). injection E1 as <-. injection E2 as <-.
    rewrite Nat2Z.id in F. exact F. }
  destruct (initialize_Forall2 _ _ _ _ _ _ _ _ _ _ _ (fun m o v => fits_mode Xs rank m v /\ (is_pair v <-> is_parafac2 (o_pen o))) QA EX) as (FAa & FAb & FAc).
  destruct (initialize_Forall2 _ _ _ _ _ _ _ _ _ _ _ (fun m o v => fits_mode Xs rank m v) QD ED) as (FDa & FDb & FDc).
  pose proof (make_mregs_F2 _ _ _ _ _ _ FAa FDa GA) as MA. pose proof (make_bregs_F2 _ _ _ _ _ _ FAb FDb GB) as MB.
  pose proof (make_mregs_F2 _ _ _ _ _ _ FAc FDc GC) as MCc. clear EX ED GA GB GC FAa FAb FAc FDa FDb FDc.
  assert (VP : forall m r, (m < 3)%nat -> mode_rows Xs m r -> Forall (fun o => valid_penalty (o_pen o) r) (pick (rA, rB, rC) m)).
  { intros m r Hm Hr. eapply C38_built_penalties_valid; [exact EP|exact Hm| |]; intros; eauto. }
  assert (LX : (0 < length Xs)%nat) by (destruct Xs; [exfalso; now apply HX|cbn; lia]).
  assert (RX : forall i, (i < length Xs)%nat -> rowsX Xs i = rowsB c i).
  { intros i Hi. unfold rowsX, rowsB. now destruct (DS i Hi) as (_ & -> & _). }
  assert (CX : colsX Xs = mr (cC c)) by (unfold colsX; now destruct (DS 0%nat LX) as (_ & _ & ->)).
  assert (NX : forall i, (i < length Xs)%nat -> (0 < mr (nthX Xs i))%nat /\ (0 < mc (nthX Xs i))%nat).
  { intros i Hi. rewrite Forall_forall in HS. apply (HS (nthX Xs i)). now apply nth_In. }
  split; [|split; [reflexivity|split; [exact MC|split; [reflexivity|split; [exists pos; rewrite HR; exact EI|]]]]].
  - unfold valid_state. cbn [st_cmf st_rA st_rB st_rC]. cbv zeta. split; [exact (conj VC (conj DL DS))|]. split.
    + split; [now rewrite <- DL|]. split; [rewrite <- CX; apply (NX 0%nat LX)|]. split; [now rewrite MC|].
      intros i Hi. rewrite <- DL in Hi. destruct (NX i Hi) as (K & _). now destruct (DS i Hi) as (_ & <- & _).
    + split; [|split].
      * refine (F2_right _ (fun o => valid_penalty (o_pen o) (length Xs)) _ _ _ MA _ _).
        { unfold uA. destruct (f_updA a); [|constructor]. apply (VP 0%nat); [lia|reflexivity]. }
        intros o g (E0 & (F1 & F2) & F3) VO. unfold mreg_valid. rewrite E0. split; [intros K; now apply F2 in K|].
        destruct VC as (_ & _ & _ & RA & _). rewrite RA, <- DL, MC. split; [exact VO|].
        destruct F1 as [(_ & F1)|(F1 & _)]; [|discriminate F1]. destruct F3 as [(_ & F3)|(F3 & _)]; [|discriminate F3]. auto.
      * refine (F2_right _ (fun o => (forall i, (i < length Xs)%nat -> valid_penalty (o_pen o) (rowsX Xs i)) /\ (is_parafac2 (o_pen o) -> forall X, In X Xs -> (rank <= mr X)%nat)) _ _ _ MB _ _).
        { unfold uB. destruct (f_updB a); [|constructor]. apply Forall_forall. intros o Ho. split.
          - intros i Hi. assert (K := VP 1%nat (rowsX Xs i) ltac:(lia) (ex_intro _ i (conj Hi eq_refl))). rewrite Forall_forall in K. now apply K.
          - intros K. apply HPF. eapply parafac2_wanted; [exact EP|]. apply Exists_exists. eauto. }
        intros o g (E0 & (F1 & F2) & F3) (VO & PO). unfold breg_valid. rewrite E0, <- DL, MC. cbn [fits_mode] in F3. destruct F3 as (_ & F3).
        split; [exact (list_shaped_rows _ _ _ _ _ RX F3)|].
        destruct (b_aux g) as [l|P0 D]; cbn [fits_mode is_pair] in *.
        -- destruct F1 as (_ & F1). assert (NP : ~ is_parafac2 (o_pen o)) by tauto.
           assert (K : list_shaped (length Xs) (rowsB c) rank l /\ forall i, (i < length Xs)%nat -> valid_penalty (o_pen o) (rowsB c i)).
           { split; [exact (list_shaped_rows _ _ _ _ _ RX F1)|]. intros i Hi. rewrite <- RX by assumption. auto. }
           destruct (o_pen o); try exact K. now apply NP.
        -- assert (YP : is_parafac2 (o_pen o)) by tauto. destruct F1 as (_ & F1 & FD).
           destruct (o_pen o) as [|lo hi|reg nn|M U s0|reg l1|b nn| |nn|n0 ub uc]; try contradiction.
           split; [exact (list_shaped_rows _ _ _ _ _ RX F1)|]. split; [exact FD|]. intros i Hi. rewrite <- RX by assumption. apply PO; [exact Logic.I|]. now apply nth_In.
      * refine (F2_right _ (fun o => valid_penalty (o_pen o) (colsX Xs)) _ _ _ MCc _ _).
        { unfold uC. destruct (f_updC a); [|constructor]. apply (VP 2%nat); [lia|reflexivity]. }
        intros o g (E0 & (F1 & F2) & F3) VO. unfold mreg_valid. rewrite E0. split; [intros K; now apply F2 in K|].
        rewrite <- CX, MC. split; [exact VO|].
        destruct F1 as [(F1 & _)|(_ & F1)]; [discriminate F1|]. destruct F3 as [(F3 & _)|(_ & F3)]; [discriminate F3|]. auto.
  - exists (rA, rB, rC). split; [exact EP|]. cbn [pick st_rA st_rB st_rC]. fold uA uB uC.
    rewrite (F2_pens _ _ _ _ MA), (F2_pens _ _ _ _ MB), (F2_pens _ _ _ _ MCc). auto.
Qed.

(** ** The whole call *)
Lemma fit_run V IE rnd (a : fitR) out : cmf_aoadmm V IE rnd a = Ok out ->
  exists s l2 flags s' d, setup V IE rnd a = Ok (s, l2) /\ const_flags (f_const a) = Ok flags /\
    run (e_ext V) (fit_params a l2 flags) (f_data a) (f_n_iter a) s = Ok (s', d) /\
    out = Output (st_cmf s') (if f_return_vars a then Some (vars_of s') else None) d.
Proof.
  intros H. unfold cmf_aoadmm in H.
  destruct (setup V IE rnd a) as [[s l2]|]; [|discriminate]. cbn [bind] in H.
  destruct (init_hist (fit_params a l2 (false, false)) (f_data a) s) as [h|]; [|discriminate]. cbn [bind] in H.
  destruct (const_flags (f_const a)) as [flags|]; [|discriminate]. cbn [bind] in H.
  destruct (run (e_ext V) (fit_params a l2 flags) (f_data a) (f_n_iter a) s) as [[s' d]|] eqn:ER; [|discriminate]. cbn [bind] in H. injection H as <-.
  exists s, l2, flags, s', d. auto.
Qed.
Lemma fit_params_ok V a rank l2 flags : sensible V a rank -> listify (f_l2 a) = Ok l2 -> params_ok (fit_params a l2 flags).
Proof.
  intros (_ & _ & _ & _ & _ & HSC & HL2 & _) H. destruct l2 as [[x y] z]. apply listify_iff in H as (M0 & M1 & M2).
  unfold params_ok, fit_params. cbn [p_l2A p_l2B p_l2C p_scale]. repeat split; [apply (HL2 0%nat x)|apply (HL2 1%nat y)|apply (HL2 2%nat z)|exact HSC]; auto; lia.
Qed.
Lemma fit_params_fields a l2 flags : let P := fit_params (N:=RNum) a l2 flags in
  p_updA P = f_updA a /\ p_updB P = f_updB a /\ p_updC P = f_updC a /\ p_inner P = Z.to_nat (f_inner a) /\ p_inner_tol P = f_inner_tol a /\
  p_tol P = f_tol a /\ p_abs_tol P = f_abs_tol a /\ p_feas_tol P = f_feas_tol a /\ p_return_errors P = f_return_errors a /\
  p_constA P = fst flags /\ p_constB P = snd flags /\ p_scale P = f_scale a.
Proof. destruct l2 as [[x y] z]. cbn. auto 15. Qed.

(** ** Every requested constraint has a penalty of its own *)
Lemma parsed_has V k ai di l : parse_mode (N:=RNum) V k ai di = Ok l -> forall c,
  constraints_met k c (fun Q => Exists (fun o => ~ is_parafac2 (o_pen o) /\ forall r X, exact_domain (o_pen o) r c X -> Q r X) l).
Proof.
  intros H c. apply parse_mode_iff in H as (PO & gl & GL & ->).
  set (Ex := fun (Q : nat -> ent -> Prop) l => Exists (fun o : pobjR => ~ is_parafac2 (o_pen o) /\ forall r X, exact_domain (o_pen o) r c X -> Q r X) l).
  assert (S1 : forall Q : nat -> ent -> Prop, Ex Q (s_uni k ai di) -> Ex Q (s_pf2 k ai di ++ s_uni k ai di ++ gl ++ s_ball k ai di ++ s_tv k ai di ++ s_l1 k ai di ++ s_box k ai di ++ s_non k ai di))
    by (intros Q K; unfold Ex in *; rewrite !Exists_app; tauto).
  assert (S2 : forall Q, Ex Q (s_ball k ai di) -> Ex Q (s_pf2 k ai di ++ s_uni k ai di ++ gl ++ s_ball k ai di ++ s_tv k ai di ++ s_l1 k ai di ++ s_box k ai di ++ s_non k ai di))
    by (intros Q K; unfold Ex in *; rewrite !Exists_app; tauto).
  assert (S3 : forall Q, Ex Q (s_l1 k ai di) -> Ex Q (s_pf2 k ai di ++ s_uni k ai di ++ gl ++ s_ball k ai di ++ s_tv k ai di ++ s_l1 k ai di ++ s_box k ai di ++ s_non k ai di))
    by (intros Q K; unfold Ex in *; rewrite !Exists_app; tauto).
  assert (S4 : forall Q, Ex Q (s_box k ai di) -> Ex Q (s_pf2 k ai di ++ s_uni k ai di ++ gl ++ s_ball k ai di ++ s_tv k ai di ++ s_l1 k ai di ++ s_box k ai di ++ s_non k ai di))
    by (intros Q K; unfold Ex in *; rewrite !Exists_app; tauto).
  assert (S5 : forall Q, Ex Q (s_non k ai di) -> Ex Q (s_pf2 k ai di ++ s_uni k ai di ++ gl ++ s_ball k ai di ++ s_tv k ai di ++ s_l1 k ai di ++ s_box k ai di ++ s_non k ai di))
    by (intros Q K; unfold Ex in *; rewrite !Exists_app; tauto).
  unfold constraints_met.
  assert (ONE : forall p (Q : nat -> ent -> Prop), ~ is_parafac2 p -> (forall r X, exact_domain p r c X -> Q r X) -> Ex Q [PObj p ai di]) by (intros p Q NP K; constructor; auto).
  assert (BX : forall lo', s_box k ai di = [PObj (Box lo' (k_upper k)) ai di] -> Ex (fun r X => entries r c (within lo' (k_upper k)) X) (s_box k ai di)).
  { intros lo' ->. apply ONE; [intros []|]. intros r X K. exact K. }
  assert (WK : forall (Q Q' : nat -> ent -> Prop) l, (forall r X, Q r X -> Q' r X) -> Ex Q l -> Ex Q' l).
  { intros Q Q' l K. apply Exists_impl. intros o (N1 & N2). split; [exact N1|]. auto. }
  split; [|split; [|split; [|split]]].
  - intros HN. apply btruthy_wants in HN. destruct (s_skip k ai di) eqn:SK.
    + unfold s_skip in SK. apply orb_prop in SK as [SK|SK]; [apply orb_prop in SK as [SK|SK]; [apply orb_prop in SK as [SK|SK]|]|].
      * apply S1. unfold s_uni. rewrite SK. apply ONE; [intros []|]. intros r X (_ & K). apply K, HN.
      * apply S2. unfold s_ball. destruct (k_norm k) as [b|]; [|discriminate]. rewrite SK. apply ONE; [intros []|]. intros r X (_ & K). apply K, HN.
      * apply S3. unfold s_l1. rewrite SK. apply ONE; [intros []|]. intros r X K. apply K, HN.
      * apply S4. assert (K : exists lo, s_box k ai di = [PObj (Box (Some (match lo with None => 0 | Some y => nmax (N:=RNum) y 0 end)) (k_upper k)) ai di]).
        { unfold s_box in *. rewrite HN. destruct (k_lower k) as [lo|]; [exists (Some lo); reflexivity|]. destruct (k_upper k); [exists None; reflexivity|discriminate SK]. }
        destruct K as (lo & ->). apply ONE; [intros []|]. intros r X K i j Hi Hj. destruct (K i j Hi Hj) as (K1 & _). specialize (K1 _ eq_refl).
        now apply nonneg_max in K1.
    + apply S5. unfold s_non. rewrite SK. rewrite HN. cbn [andb negb]. apply ONE; [intros []|]. auto.
  - intros lo EL. apply S4. unfold s_box. rewrite EL. apply ONE; [intros []|]. intros r X K i j Hi Hj. destruct (K i j Hi Hj) as (K1 & _).
    destruct (btruthy (k_nn k)).
    + specialize (K1 _ eq_refl). pose proof (proj1 (nonneg_max (Some lo) (X i j)) K1) as (_ & K2). now apply K2.
    + now apply K1.
  - intros hi EH. apply S4. unfold s_box. rewrite EH. destruct (k_lower k); (apply ONE; [intros []|]); intros r X K i j Hi Hj; destruct (K i j Hi Hj) as (_ & K1); now apply K1.
  - intros b EB NB. apply S2. unfold s_ball. rewrite EB. apply ntruthy_true in NB. rewrite NB. apply ONE; [intros []|]. intros r X (K & _). exact K.
  - intros HU. apply btruthy_wants in HU. apply S1. unfold s_uni. rewrite HU. apply ONE; [intros []|]. intros r X (K & _). exact K.
Qed.
