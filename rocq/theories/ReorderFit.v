(** Whole calls with the matrices in another order. *)
From Coq Require Import Reals Lra Lia List Arith Bool ZArith Permutation.
From Verif Require Import Num Numpy RFacts MatFacts Spec ModelSpec Unimodal Penalties PenaltySpec CoupledMatrices CmfSpec CmfProofs Decomp DecompSpec InitVars Parse ParseSpec ParseProofs
  Fit FitSpec FitProofs StartSpec OrderSpec OrderProofs OrderSizes P10_Start ReorderSpec ReorderFacts ReorderPen ReorderRun.
Import ListNotations.
Local Open Scope R_scope.

Lemma in_order_reorder {T} p (l l' : list T) : Permutation p (seq 0 (length l)) -> (in_order p l l' <-> l' = reorder p l).
Proof.
  intros Hp. assert (LP : length p = length l) by (apply (p_len _ _ Hp)). assert (LR := reorder_length p _ Hp l eq_refl).
  assert (K : forall k i, nth_error p k = Some i -> nth_error (reorder p l) k = nth_error l i).
  { intros k i Hk. assert (HI : (i < length l)%nat) by (apply (p_lt _ _ Hp); apply nth_error_In in Hk; exact Hk).
    assert (k < length p)%nat by (apply nth_error_Some; congruence). destruct l as [|x l0] eqn:EL; [cbn in HI; lia|]. rewrite <- EL in *.
    rewrite (nth_error_nth' _ x) by (rewrite LR; lia). rewrite (nth_error_nth' _ x) by exact HI. f_equal. rewrite (reorder_nth p _ Hp) by (auto; lia). f_equal.
    now apply nth_error_nth. }
  split.
  - intros (L & H). assert (G : forall k, nth_error l' k = nth_error (reorder p l) k).
    { intros k. destruct (nth_error p k) as [i|] eqn:EK; [now rewrite (H _ _ EK), (K _ _ EK)|]. apply nth_error_None in EK.
      assert (Q1 : nth_error l' k = None) by (apply nth_error_None; lia). assert (Q2 : nth_error (reorder p l) k = None) by (apply nth_error_None; lia). congruence. }
    clear - G. revert G. generalize (reorder p l) as m. induction l' as [|x l' IH]; intros [|y m] G; auto.
    + specialize (G 0%nat). discriminate.
    + specialize (G 0%nat). discriminate.
    + pose proof (G 0%nat) as G0. cbn in G0. injection G0 as ->. f_equal. apply IH. intros k. exact (G (S k)).
  - intros ->. split; [exact LR|exact K].
Qed.

Lemma given_start E IE rnd (Xs : list matR) rank (c0 : rcmf) l pos : valid_cmf c0 -> PSeq l = py_of_cmf c0 ->
  initialize_cmf E IE rnd Xs rank (InitSeq l) pos = Ok (Cmf (N:=RNum) None (scaled_A c0) (cBs c0) (cC c0), pos) /\ valid_cmf (Cmf (N:=RNum) None (scaled_A c0) (cBs c0) (cC c0)).
Proof.
  intros V EQ. unfold py_of_cmf in EQ. injection EQ as EQ. subst l. unfold initialize_cmf, scaled_A. cbn [unpack2 unpack3 py_iter bind].
  destruct (cw c0) as [w|] eqn:EW.
  - pose proof V as (HA & HC & HcC & HrA & HB & Hw). specialize (Hw w EW).
    set (c1 := Cmf (N:=RNum) None (mcolscale (cA c0) w) (cBs c0) (cC c0)).
    assert (V1 : valid_cmf c1).
    { split; [cbn; auto with mwf|]. split; [exact HC|]. split; [exact HcC|]. split; [exact HrA|]. split; [exact HB|]. discriminate. }
    destruct (cmf_init_of c1 V1) as (sh & k & E1).
    assert (T : times_weights (py_of_vec w) (py_of_mat (cA c0)) = Ok (py_of_mat (mcolscale (cA c0) w))).
    { rewrite <- (arr_mat_of_mat (cA c0) HA) at 2. unfold times_weights, py_of_vec, py_of_mat at 1. rewrite Hw, Nat.eqb_refl. reflexivity. }
    unfold py_of_vec in *. rewrite T. cbn [bind]. change (PSeq [PNone; PSeq [py_of_mat (mcolscale (cA c0) w); PSeq (map py_of_mat (cBs c0)); py_of_mat (cC c0)]]) with (py_of_cmf c1).
    rewrite E1. cbn [bind]. split; [reflexivity|exact V1].
  - destruct (cmf_init_of c0 V) as (sh & k & E1). unfold py_of_cmf in E1. rewrite EW in E1. rewrite E1. cbn [bind].
    assert (EC : c0 = Cmf (N:=RNum) None (cA c0) (cBs c0) (cC c0)) by (destruct c0 as [w0 A0 B0 C0]; cbn in *; now subst w0). rewrite <- EC. auto.
Qed.

Section Perm.
Variables (p : list nat) (n : nat).
Hypothesis Hp : Permutation p (seq 0 n).
Notation re := (reorder p).
Notation mre := (mreorder p).
Variable Xs : list matR.
Hypothesis LX : length Xs = n.
Variable KK : nat.
Hypothesis HK : forall X, In X Xs -> mc X = KK.
Lemma in_re {T} (l : list T) x : length l = n -> In x (re l) -> In x l.
Proof. intros L H. exact (Permutation_in _ (reorder_perm p n Hp l L) H). Qed.
Lemma first_cols_re : first_cols (re Xs) = first_cols Xs.
Proof.
  assert (LR := reorder_length p n Hp Xs LX). unfold first_cols. destruct Xs as [|X t] eqn:EX; [destruct (re []) as [|y u]; [reflexivity|cbn in *; lia]|]. rewrite <- EX in *.
  destruct (re Xs) as [|Y u] eqn:ER; [rewrite EX in LX; cbn in LX, LR; lia|]. f_equal. rewrite (HK X) by (rewrite EX; now left). apply HK. apply in_re; [exact LX|]. rewrite ER. now left.
Qed.
Lemma rows_re (M M' : matR) : length (me M) = n -> rows_in_order p M M' <-> M' = mre M.
Proof.
  intros L. assert (Hq : Permutation p (seq 0 (length (me M)))) by now rewrite L. unfold rows_in_order. rewrite (in_order_reorder p _ _ Hq). split.
  - intros (H1 & H2 & H3). destruct M' as [r c e]; cbn in *. subst. reflexivity.
  - intros ->. cbn. auto.
Qed.

(** ** Initial values *)
Variable rank : pyint.
Lemma init0_re rnd i i' pos v q : init_in_order p 0 i i' -> init_common rnd i Xs rank (PyInt 0) pos = Ok (v, q) ->
  q = pos /\ exists M, v = VMat M /\ tall n M /\ init_common rnd i' (re Xs) rank (PyInt 0) pos = Ok (VMat (mre M), pos).
Proof.
  intros HI H. assert (LR := reorder_length p n Hp Xs LX). destruct rank as [z|]; [|discriminate]. inversion HI as [m|M M' W W0 RO|l l'|l l' c|v0]; subst i i'.
  - cbn [init_common Z.eqb orb negb] in *. unfold zeros in *. destruct (z <? 0)%Z; [discriminate|]. cbn [bind] in *. injection H as <- <-. rewrite LX, LR in *. split; [reflexivity|].
    exists (mzeros n (Z.to_nat z)). split; [reflexivity|]. split; [apply tall_mbuild|]. unfold mzeros. now rewrite (mbuild_re p n Hp).
  - cbn [init_common Z.eqb orb negb andb] in *. rewrite first_cols_re. destruct (first_cols Xs) as [K0|]; [|discriminate]. cbn [bind] in *.
    rewrite LX in H. rewrite LR. destruct (Nat.eqb_spec (mr M) n) as [EM|]; [|rewrite orb_true_r in H; discriminate].
    assert (LM : length (me M) = n) by (destruct W as (W & _); congruence). pose proof (proj1 (rows_re M M' LM) RO) as EM'. subst M'. cbn [mreorder mr mc me].
    rewrite EM, Nat.eqb_refl in *. cbn [negb] in *. rewrite orb_false_r in *. destruct (negb (Z.of_nat (mc M) =? z)%Z); [discriminate|]. injection H as <- <-. split; [reflexivity|].
    exists M. split; [f_equal; rewrite <- EM; exact (arr_mat_of_mat M W)|]. split; [now split|].
    assert (W' : mwf (mre M)).
    { destruct W as (W1 & W2). split; [cbn; rewrite (reorder_length p n Hp); [now symmetry|exact LM]|].
      cbn [mreorder me mc]. apply Forall_forall. intros row Hr. apply in_re in Hr; [|exact LM]. rewrite Forall_forall in W2. now apply W2. }
    assert (EQ : arr_mat (PArr [n; mc M] (concat (re (me M)))) = mre M) by (rewrite <- EM; exact (arr_mat_of_mat (mre M) W')). now rewrite EQ.
Qed.
Lemma init1_re rnd i i' pos v q : init_in_order p 1 i i' -> init_common rnd i Xs rank (PyInt 1) pos = Ok (v, q) ->
  q = pos /\ exists l, v = VMats (AList l) /\ length l = n /\ init_common rnd i' (re Xs) rank (PyInt 1) pos = Ok (VMats (AList (re l)), pos).
Proof.
  intros HI H. assert (LR := reorder_length p n Hp Xs LX). destruct rank as [z|]; [|discriminate]. inversion HI as [m|M M' W W0 RO|l l' IO|l l' c|v0]; subst i i'.
  - cbn [init_common Z.eqb orb negb] in *. destruct (mapM (fun X => zeros (mr X) z) Xs) as [l|] eqn:EM; [|discriminate]. cbn [bind] in H. injection H as <- <-. split; [reflexivity|].
    exists l. split; [reflexivity|]. split; [apply mapM_length in EM; congruence|]. rewrite (mapM_reorder p _ _ _ EM). reflexivity.
  - cbn [init_common Z.eqb orb negb] in *. destruct (any_mismatch _ _ _) as [bad|] eqn:EA; [|discriminate]. cbn [bind] in H. destruct bad; [discriminate|]. rewrite map_length in *.
    destruct (Nat.eqb_spec (length l) (length Xs)) as [EL|]; [|discriminate]. injection H as <- <-. split; [reflexivity|]. exists (map arr_mat (map py_of_mat l)). split; [reflexivity|]. split; [rewrite !map_length; congruence|].
    assert (LL : length l = n) by congruence. apply (in_order_reorder p l l') in IO; [|now rewrite LL]. subst l'. rewrite (reorder_length p n Hp l LL), LR, Nat.eqb_refl. cbn [negb].
    assert (G : forall (l Ys : list matR), length l = length Ys -> (any_mismatch (map py_of_mat l) (map (@mr RNum) Ys) z = Ok false <-> Forall (fun x => shape_eqb [mr (fst x); mc (fst x)] (mr (snd x)) z = true) (combine l Ys))).
    { induction l0 as [|B l0 IH]; intros [|Y Ys] HL; try discriminate; cbn [map combine any_mismatch]; [split; constructor|]. cbn [py_shape py_of_mat bind].
      destruct (shape_eqb [mr B; mc B] (mr Y) z) eqn:ES; cbn [negb].
      - rewrite IH by (cbn in HL; lia). split; [intros; constructor; auto|intros F; now inversion F].
      - split; [discriminate|]. intros F. inversion F as [|? ? F1 _]; subst. cbn [fst snd] in F1. congruence. }
    apply (proj1 (G l Xs EL)) in EA. assert (EA' : any_mismatch (map py_of_mat (re l)) (map (@mr RNum) (re Xs)) z = Ok false).
    { apply G; [rewrite LR; now apply (reorder_length p n Hp)|]. apply Forall_forall. intros x Hx. rewrite combine_map2 in Hx. rewrite <- reorder_map2 in Hx by congruence.
      apply in_re in Hx; [|rewrite length_map2; lia]. rewrite Forall_forall in EA. apply EA. now rewrite combine_map2. }
    rewrite EA'. cbn [bind]. rewrite <- !reorder_map. reflexivity.
  - discriminate.
Qed.
Lemma init_pf2_re rnd i i' pos v q : init_in_order p 1 i i' -> pf2_init_aux rnd true i Xs rank (PyInt 1) pos = Ok (v, q) ->
  q = pos /\ exists b c, v = VMats (APf2 b c) /\ length b = n /\ (forall R, rank = PyInt (Z.of_nat R) -> Forall (fun B => mc B = R) b /\ mr c = R) /\
  pf2_init_aux rnd true i' (re Xs) rank (PyInt 1) pos = Ok (VMats (APf2 (re b) c), pos).
Proof.
  intros HI H. assert (LR := reorder_length p n Hp Xs LX). inversion HI as [m|M M' W W0 RO|l l' IO|l l' c IO|v0]; subst i i'.
  - destruct rank as [z|]; [|discriminate]. cbn [pf2_init_aux Z.eqb orb negb] in *. destruct (zeros (Z.to_nat z) z) as [c|] eqn:EZ; [|discriminate]. cbn [bind] in *.
    destruct (mapM (fun X => eye (mr X) z) Xs) as [l|] eqn:EM; [|discriminate]. cbn [bind] in H. injection H as <- <-. split; [reflexivity|]. exists l, c. split; [reflexivity|].
    split; [apply mapM_length in EM; congruence|]. split; [|now rewrite (mapM_reorder p _ _ _ EM)].
    intros R ER. injection ER as ->. split.
    + refine (mapM_Forall _ (fun B => mc B = R) _ _ _ EM). intros X B _ HB. unfold eye in HB. destruct (_ <? 0)%Z; [discriminate|]. injection HB as <-. cbn. apply Nat2Z.id.
    + unfold zeros in EZ. destruct (_ <? 0)%Z; [discriminate|]. injection EZ as <-. cbn. apply Nat2Z.id.
  - discriminate.
  - destruct rank as [z|]; [|discriminate]. cbn [pf2_init_aux Z.eqb orb negb py_of_mat] in *. destruct (negb (mr c =? mc c)%nat) eqn:E1; [discriminate|]. destruct (negb (Z.of_nat (mr c) =? z)%Z) eqn:E2; [discriminate|]. cbn [orb] in *.
    destruct (check_bases (mr c) Xs (map py_of_mat l)) as [[]|] eqn:EC; [|discriminate]. cbn [bind] in H. rewrite map_length in *.
    destruct (Nat.eqb_spec (length l) (length Xs)) as [EL|]; [|discriminate]. cbn [negb] in H. injection H as <- <-. split; [reflexivity|].
    exists (map arr_mat (map py_of_mat l)), (arr_mat (py_of_mat c)). split; [reflexivity|]. split; [rewrite !map_length; congruence|].
    assert (LL : length l = n) by congruence. apply (in_order_reorder p l l') in IO; [|now rewrite LL]. subst l'. rewrite (reorder_length p n Hp l LL), LR, Nat.eqb_refl. cbn [negb].
    assert (G : forall (l Ys : list matR), length l = length Ys -> (check_bases (mr c) Ys (map py_of_mat l) = Ok tt <-> Forall (fun x => check_basis (mr c) (snd x) (py_of_mat (fst x)) = Ok tt) (combine l Ys))).
    { induction l0 as [|B l0 IH]; intros [|Y Ys] HL; try discriminate; cbn [map combine check_bases]; [split; constructor|].
      destruct (check_basis (mr c) Y (py_of_mat B)) as [[]|] eqn:ES; cbn [bind].
      - rewrite IH by (cbn in HL; lia). split; [intros; constructor; auto|intros F; now inversion F].
      - split; [discriminate|]. intros F. inversion F as [|? ? F1 _]; subst. cbn [fst snd] in F1. congruence. }
    apply (proj1 (G l Xs EL)) in EC. split.
    + intros R ER. injection ER as ->. apply negb_false_iff, Z.eqb_eq in E2. assert (mr c = R) by lia. split; [|cbn; assumption].
      rewrite map_map. apply Forall_forall. intros B HB. apply in_map_iff in HB as (B0 & <- & HB). cbn. apply (In_nth _ _ no_mat) in HB as (j & Hj & <-).
      rewrite Forall_forall in EC. specialize (EC (nth j l no_mat, nth j Xs no_mat)). cbn [fst snd] in EC. assert (HIn : In (nth j l no_mat, nth j Xs no_mat) (combine l Xs)) by (rewrite <- combine_nth by exact EL; apply nth_In; rewrite combine_length; lia).
      specialize (EC HIn). unfold check_basis, py_of_mat in EC. destruct (negb _ || _) eqn:EB in EC; [discriminate|]. apply orb_false_iff in EB as (_ & EB). apply negb_false_iff, Nat.eqb_eq in EB. congruence.
    + assert (EC' : check_bases (mr c) (re Xs) (map py_of_mat (re l)) = Ok tt).
      { apply G; [rewrite LR; now apply (reorder_length p n Hp)|]. apply Forall_forall. intros x Hx. rewrite combine_map2 in Hx. rewrite <- reorder_map2 in Hx by congruence.
        apply in_re in Hx; [|rewrite length_map2; lia]. rewrite Forall_forall in EC. apply EC. now rewrite combine_map2. }
      rewrite EC'. cbn [bind]. rewrite <- !reorder_map. reflexivity.
Qed.
Lemma init2_re rnd i pos : init_common rnd i (re Xs) rank (PyInt 2) pos = init_common rnd i Xs rank (PyInt 2) pos.
Proof.
  assert (LR := reorder_length p n Hp Xs LX). destruct rank as [z|]; [|reflexivity]. unfold init_common. cbn [Z.eqb orb negb andb]. rewrite first_cols_re, LR, LX.
  destruct i as [s|sh d|l|l|]; try reflexivity. 
Qed.
Lemma init2_aux_re rnd o pos : init_aux rnd true o (re Xs) rank (PyInt 2) pos = init_aux rnd true o Xs rank (PyInt 2) pos.
Proof. unfold init_aux. destruct (o_pen o); try apply init2_re. unfold pf2_init_aux. destruct (o_aux o), rank; reflexivity. Qed.
Lemma mapS_ext {T U} (f g : T -> nat -> res (U * nat)) l : (forall x q, f x q = g x q) -> forall q, mapS f l q = mapS g l q.
Proof. intros H. induction l as [|x l IH]; intros q; cbn [mapS]; [reflexivity|]. rewrite H. destruct (g x q) as [[y r]|]; [|reflexivity]. cbn [bind]. now rewrite IH. Qed.

Notation rel0 := (fun o o' : pobj (N:=RNum) => pen_in_order p 0 o o' /\ order_free (o_pen o)).
Lemma mode0_re rnd : forall rA rA' pos a q d q2 g, Forall2 rel0 rA rA' ->
  mapS (fun o => init_aux rnd true o Xs rank (PyInt 0)) rA pos = Ok (a, q) -> forall pos2, mapS (fun o => init_dual rnd o Xs rank (PyInt 0)) rA pos2 = Ok (d, q2) -> make_mregs rA a d = Ok g ->
  q = pos /\ q2 = pos2 /\ Forall (gok n) g /\ exists a' d', mapS (fun o => init_aux rnd true o (re Xs) rank (PyInt 0)) rA' pos = Ok (a', pos) /\
    mapS (fun o => init_dual rnd o (re Xs) rank (PyInt 0)) rA' pos2 = Ok (d', pos2) /\ make_mregs rA' a' d' = Ok (map (greg_re p) g).
Proof.
  intros rA rA' pos a q d q2 g F. revert pos a q d q2 g. induction F as [|o o' rA rA' ((HP & HA & HD) & OF) F IH]; intros pos a q d q2 g H1 pos2 H2 H3; cbn [mapS] in *.
  - injection H1 as <- <-. injection H2 as <- <-. cbn in H3. injection H3 as <-. repeat split; auto. exists [], []. auto.
  - destruct (init_aux rnd true o Xs rank (PyInt 0) pos) as [[v q3]|] eqn:E1; [|discriminate]. cbn [bind] in H1. destruct (mapS _ rA q3) as [[vs q4]|] eqn:E2; [|discriminate]. cbn [bind] in H1. injection H1 as <- <-.
    destruct (init_dual rnd o Xs rank (PyInt 0) pos2) as [[w q5]|] eqn:E3; [|discriminate]. cbn [bind] in H2. destruct (mapS _ rA q5) as [[ws q6]|] eqn:E4; [|discriminate]. cbn [bind] in H2. injection H2 as <- <-.
    assert (NP : forall r0 (o1 : pobj (N:=RNum)), o_pen o1 = o_pen o -> init_aux r0 true o1 = init_common r0 (o_aux o1)) by (intros r0 o1 EO; unfold init_aux; rewrite EO; now destruct (o_pen o)).
    rewrite NP in E1 by reflexivity. destruct (init0_re _ _ _ _ _ _ HA E1) as (-> & M & -> & TM & K1). unfold init_dual in E3. destruct (init0_re _ _ _ _ _ _ HD E3) as (-> & D & -> & TD & K2).
    cbn [make_mregs] in H3. destruct (make_mregs rA vs ws) as [gs|] eqn:E5; [|discriminate]. cbn [bind] in H3. injection H3 as <-.
    destruct (IH _ _ _ _ _ _ E2 _ E4 E5) as (-> & -> & FG & a' & d' & K3 & K4 & K5). split; [reflexivity|]. split; [reflexivity|]. split; [constructor; [|exact FG]; split; [exact OF|now split]|].
    exists (VMat (mre M) :: a'), (VMat (mre D) :: d'). rewrite NP by exact HP. rewrite K1. unfold init_dual at 1. cbn [bind]. rewrite K2, K3. cbn [bind]. rewrite K4. cbn [bind make_mregs]. rewrite K5, HP. auto.
Qed.
Variable R : nat.
Lemma mode1_re rnd : forall rB rB' pos a q d q2 g, Forall2 (pen_in_order p 1) rB rB' -> (rB <> [] -> rank = PyInt (Z.of_nat R)) ->
  mapS (fun o => init_aux rnd true o Xs rank (PyInt 1)) rB pos = Ok (a, q) -> forall pos2, mapS (fun o => init_dual rnd o Xs rank (PyInt 1)) rB pos2 = Ok (d, q2) -> make_bregs rB a d = Ok g ->
  q = pos /\ q2 = pos2 /\ Forall (bok n R) g /\ exists a' d', mapS (fun o => init_aux rnd true o (re Xs) rank (PyInt 1)) rB' pos = Ok (a', pos) /\
    mapS (fun o => init_dual rnd o (re Xs) rank (PyInt 1)) rB' pos2 = Ok (d', pos2) /\ make_bregs rB' a' d' = Ok (map (breg_re p) g).
Proof.
  intros rB rB' pos a q d q2 g F. revert pos a q d q2 g. induction F as [|o o' rB rB' (HP & HA & HD) F IH]; intros pos a q d q2 g HR H1 pos2 H2 H3; cbn [mapS] in *.
  - injection H1 as <- <-. injection H2 as <- <-. cbn in H3. injection H3 as <-. repeat split; auto. exists [], []. auto.
  - destruct (init_aux rnd true o Xs rank (PyInt 1) pos) as [[v q3]|] eqn:E1; [|discriminate]. cbn [bind] in H1. destruct (mapS _ rB q3) as [[vs q4]|] eqn:E2; [|discriminate]. cbn [bind] in H1. injection H1 as <- <-.
    destruct (init_dual rnd o Xs rank (PyInt 1) pos2) as [[w q5]|] eqn:E3; [|discriminate]. cbn [bind] in H2. destruct (mapS _ rB q5) as [[ws q6]|] eqn:E4; [|discriminate]. cbn [bind] in H2. injection H2 as <- <-.
    specialize (HR ltac:(discriminate)).
    unfold init_dual in E3. destruct (init1_re _ _ _ _ _ _ HD E3) as (-> & D & -> & LD & K2).
    assert (K1 : q3 = pos /\ exists x, v = VMats x /\ aux_ok n R x /\ init_aux rnd true o' (re Xs) rank (PyInt 1) pos = Ok (VMats (aux_re p x), pos)).
    { unfold init_aux in *. rewrite HP. destruct (o_pen o) as [|lo hi|reg nn|Mm U s|reg l1|b nn| |nn|k ub uc];
        try (destruct (init1_re _ _ _ _ _ _ HA E1) as (-> & l & -> & LL & KL); split; [reflexivity|]; exists (AList l); auto).
      destruct (init_pf2_re _ _ _ _ _ _ HA E1) as (-> & b & c & -> & LB & WB & KB). destruct (WB R HR) as (W1 & W2). split; [reflexivity|]. exists (APf2 b c). split; [reflexivity|]. split; [|exact KB]. repeat split; auto. }
    destruct K1 as (-> & x & -> & AX & K1).
    cbn [make_bregs] in H3. destruct (make_bregs rB vs ws) as [gs|] eqn:E5; [|discriminate]. cbn [bind] in H3. injection H3 as <-.
    destruct (IH _ _ _ _ _ _ (fun _ => HR) E2 _ E4 E5) as (-> & -> & FG & a' & d' & K3 & K4 & K5). split; [reflexivity|]. split; [reflexivity|]. split; [constructor; [|exact FG]; now split|].
    exists (VMats (aux_re p x) :: a'), (VMats (AList (re D)) :: d'). rewrite K1. unfold init_dual at 1. cbn [bind]. rewrite K2, K3. cbn [bind]. rewrite K4. cbn [bind make_bregs]. rewrite K5, HP. auto.
Qed.
End Perm.

(** ** Penalties of the two calls *)
Lemma pens_map (u : list (pobj (N:=RNum))) : pens (map RPen u) = u.
Proof. unfold pens. induction u as [|o u IH]; [reflexivity|]. cbn [map flat_map app]. now rewrite IH. Qed.
Lemma parsed_attrs (V : envR) k ai di l : parse_mode (N:=RNum) V k ai di = Ok l -> Forall (fun o => o_aux o = ai /\ o_dual o = di) l.
Proof.
  intros H. apply parse_mode_iff in H as (_ & gl & GL & ->). rewrite !Forall_app.
  assert (G : Forall (fun o => o_aux o = ai /\ o_dual o = di) gl).
  { unfold gl_ok in GL. destruct (k_gl2 k) as [[|M|]|]; try (subst gl; constructor); try contradiction. destruct GL as (q & s0 & -> & _). repeat constructor. }
  unfold s_pf2, s_uni, s_ball, s_tv, s_l1, s_box, s_non.
  repeat split; try exact G;
    repeat (match goal with |- Forall _ (match ?e with _ => _ end) => destruct e | |- Forall _ (if ?e then _ else _) => destruct e end); repeat constructor.
Qed.
Lemma parsed_order_free (V : envR) k ai di l : parse_mode (N:=RNum) V k ai di = Ok l -> k_pf2 k = false -> ~ wants (k_uni k) -> strength (k_tv k) = 0 -> (k_gl2 k = None \/ k_gl2 k = Some GFalse) ->
  Forall (fun o => order_free (o_pen o)) l.
Proof.
  intros H HP HU HT HG. apply parse_mode_iff in H as (_ & gl & GL & ->). rewrite !Forall_app.
  assert (G : gl = []) by (unfold gl_ok in GL; now destruct HG as [A3|A3]; rewrite A3 in GL). subst gl.
  assert (S1 : s_pf2 k ai di = []) by (unfold s_pf2; now rewrite HP).
  assert (S2 : s_uni k ai di = []) by (unfold s_uni; destruct (k_uni k) as [[]|]; try reflexivity; now destruct HU).
  assert (S5 : s_tv k ai di = []).
  { unfold s_tv. destruct (k_tv k) as [b|]; [|reflexivity]. cbn in HT. subst b. now rewrite zero_not_truthy. }
  rewrite S1, S2, S5. unfold s_ball, s_l1, s_box, s_non.
  repeat split; try constructor;
    repeat (match goal with |- Forall _ (match ?e with _ => _ end) => destruct e | |- Forall _ (if ?e then _ else _) => destruct e end); repeat constructor.
Qed.
Lemma parse_re p (V : envR) kw r r' rA rB rC : regs_in_order p r r' -> parse_all V kw r (IStr Zeros) (IStr Zeros) = Ok (rA, rB, rC) ->
  exists rA' rB' rC', parse_all V kw r' (IStr Zeros) (IStr Zeros) = Ok (rA', rB', rC') /\
    Forall2 (pen_in_order p 0) rA rA' /\ Forall2 (pen_in_order p 1) rB rB' /\ rC' = rC.
Proof.
  intros HR H.
  assert (SELF : forall m V k l, parse_mode (N:=RNum) V k (IStr Zeros) (IStr Zeros) = Ok l -> Forall2 (pen_in_order p m) l l).
  { intros m V0 k l HL. apply parsed_attrs in HL. induction HL as [|o l (E1 & E2) F IH]; constructor; [|exact IH]. split; [reflexivity|]. rewrite E1, E2. split; constructor. }
  destruct HR as [(-> & ->)|(u0 & u1 & u2 & v0 & v1 & v2 & -> & -> & F0 & F1 & F2)].
  - exists rA, rB, rC. split; [exact H|]. assert (A := parse_all_ok _ _ _ _ _ _ H). 
    assert (G : forall m, (m < 3)%nat -> Forall2 (pen_in_order p m) (pick (rA, rB, rC) m) (pick (rA, rB, rC) m)).
    { intros m Hm. destruct (A m Hm) as (k & l & u & _ & PM & U & ->). cbn in U. subst u. rewrite app_nil_r. eapply SELF; eauto. }
    split; [exact (G 0%nat ltac:(lia))|]. split; [exact (G 1%nat ltac:(lia))|reflexivity].
  - assert (E2 : v2 = u2).
    { clear - F2. induction F2 as [|o o' u v (EP & HA & HD) F IH]; [reflexivity|]. f_equal; [|exact IH]. assert (EA : o_aux o' = o_aux o) by (inversion HA; congruence). assert (ED : o_dual o' = o_dual o) by (inversion HD; congruence).
      destruct o, o'. cbn in *. congruence. }
    subst v2. unfold parse_all in *.
    assert (AP : forall u : list (pobj (N:=RNum)), all_pens (map RPen u) = true) by (intros u; unfold all_pens; induction u as [|x u IH]; cbn; auto).
    cbn [check_regs forallb ent_ok] in *. rewrite !AP in *. cbn [andb bind] in *.
    destruct (listify (a_nn kw)) as [[[nn0 nn1] nn2]|]; [|discriminate]. cbn [bind] in *.
    destruct (listify (a_upper kw)) as [[[up0 up1] up2]|]; [|discriminate]. cbn [bind] in *.
    destruct (listify (a_lower kw)) as [[[lo0 lo1] lo2]|]; [|discriminate]. cbn [bind] in *.
    destruct (listify (a_norm kw)) as [[[nb0 nb1] nb2]|]; [|discriminate]. cbn [bind] in *.
    destruct (listify (a_uni kw)) as [[[un0 un1] un2]|]; [|discriminate]. cbn [bind] in *.
    destruct (listify (a_l1 kw)) as [[[l10 l11] l12]|]; [|discriminate]. cbn [bind] in *.
    destruct (listify (a_gl2 kw)) as [[[gl0 gl1] gl2]|]; [|discriminate]. cbn [bind] in *.
    destruct (listify (a_tv kw)) as [[[tv0 tv1] tv2]|]; [|discriminate]. cbn [bind] in *.
    destruct (parse_mode V (ModeKw nn0 lo0 up0 nb0 un0 false l10 tv0 gl0) _ _) as [p0|] eqn:P0; [|discriminate]. cbn [bind add_user nth_error] in *. 
    destruct (parse_mode V (ModeKw nn1 lo1 up1 nb1 un1 (a_pf2 kw) l11 tv1 gl1) _ _) as [p1|] eqn:P1; [|discriminate]. cbn [bind add_user nth_error] in *. 
    destruct (parse_mode V (ModeKw nn2 lo2 up2 nb2 un2 false l12 tv2 gl2) _ _) as [p2|] eqn:P2; [|discriminate]. cbn [bind add_user nth_error] in *. 
    injection H as <- <- <-. do 3 eexists. split; [reflexivity|]. rewrite !pens_map. split; [apply Forall2_app; eauto|]. split; [apply Forall2_app; eauto|reflexivity].
Qed.
