(** Returned variables are accepted as initial values, and restore the state of the run. *)
From Coq Require Import Reals Lra Lia List Arith Bool ZArith.
From Verif Require Import Num Numpy RFacts Spec SpecFacts MatFacts ModelSpec Penalties PenaltySpec Parafac2Proofs CoupledMatrices CmfSpec CmfProofs Decomp DecompSpec
  DecompFacts AdmmProofs AdmmB AdmmA AdmmRegs AdmmLoop AdmmOne AoState AoLoop AoRun AoMain TotalRun InitVars InitSpec InitProofs Parse ParseSpec ParseProofs P05_Runs P06_Init P07_Parse Fit FitSpec FitProofs
  P11_Total ReorderFit ResumeSpec ResumeLoop.
Import ListNotations.
Local Open Scope R_scope.

(** ** The basis matrices of PARAFAC2 stay orthonormal up to 1e-8 *)
Lemma near_ortho_ext J c (P Q : ent) : (forall i q, (i < J)%nat -> (q < c)%nat -> P i q = Q i q) -> near_ortho J c P -> near_ortho J c Q.
Proof.
  intros H. unfold near_ortho. intros K. eapply Rle_lt_trans; [|exact K]. right. apply sumsq_ext. intros p q Hp Hq. f_equal. apply Sum_ext. intros j Hj. rewrite !H by assumption. reflexivity.
Qed.
Lemma ortho_near J c (P : ent) : ortho_cols J c P -> near_ortho J c P.
Proof.
  intros H. unfold near_ortho. assert (Z : sumsq c c (fun p q => Sum J (fun j => P j p * P j q) - (if (p =? q)%nat then 1 else 0)) = 0).
  { rewrite sumsq_rsum. apply rsum_zero. intros p Hp. apply rsum_zero. intros q Hq. rewrite H by assumption. unfold kron. destruct (p =? q)%nat; ring. }
  rewrite Z. lra.
Qed.
Definition b_near (n : nat) (J : nat -> nat) (c : nat) (g : bregR) : Prop :=
  match b_aux g with APf2 P _ => forall i, (i < n)%nat -> near_ortho (J i) c (mget (nth i P no_mat)) | AList _ => True end.
Lemma pf2_loop_fixed E (fms : list rmat) (rhos : list R) ub uc n : forall b b' (D D' : rmat), ~ (n <> 0%nat /\ ub = true) -> pf2_loop E ub uc fms rhos n b D = Ok (b', D') -> b' = b.
Proof.
  destruct n as [|n]; intros b b' D D' HN H; cbn [pf2_loop] in H; [now injection H|].
  destruct ub; [exfalso; apply HN; auto|]. cbn [bind] in H. rewrite orb_true_r in H. destruct (if uc then _ else _) as [c1|]; [|discriminate]. cbn [bind] in H. now injection H.
Qed.
Lemma near_step E (fps : list R) V n J c M g g' : bstep n J c M g g' -> factor_matrices_update E (b_pen g) V fps (b_aux g) = Ok (b_aux g') -> breg_valid n J c g -> b_near n J c g -> b_near n J c g'.
Proof.
  intros (EP & VG & OR & _) F (_ & VA) HN. unfold b_near in *. destruct (b_pen g) as [| | | | | | | |k ub uc] eqn:EG;
    try (destruct (b_aux g) as [l|P D]; [|contradiction]; cbn [factor_matrices_update] in F; destruct (matrices_update_list _ _ _ _ _); [|discriminate]; cbn [bind] in F; injection F as <-; exact Logic.I).
  destruct (b_aux g) as [l|P D] eqn:EA; [contradiction|]. cbn [factor_matrices_update] in F. destruct (pf2_loop E ub uc V fps k P D) as [[P' D']|] eqn:EL; [|discriminate]. cbn [bind] in F. injection F as EF. rewrite <- EF.
  intros i Hi. assert (DEC : (k <> 0%nat /\ ub = true) \/ ~ (k <> 0%nat /\ ub = true)) by (destruct k, ub; [right; intros (? & ?)|right; intros (? & ?)|left|right; intros (? & ?)]; auto; discriminate).
  destruct DEC as [K|K].
  - assert (O : b_ortho n J c g') by (apply OR; left; exact K). unfold b_ortho in O. rewrite EP, <- EF in O. apply ortho_near. now apply O.
  - apply pf2_loop_fixed in EL; [|exact K]. subst P'. now apply HN.
Qed.
Lemma near_B E (Xs : list rmat) (c c' : rcmf) (regs regs' : list bregR) l2 scale constant n tol :
  data_fits Xs c -> nonempty c -> 0 <= l2 -> 0 <= scale -> svd_correct E (mc (cA c)) ->
  Forall (breg_valid (length (cBs c)) (rowsB c) (mc (cA c))) regs -> Forall (b_near (length (cBs c)) (rowsB c) (mc (cA c))) regs ->
  admm_update_B E Xs c regs l2 n tol scale constant = Ok (c', regs') -> Forall (b_near (length (cBs c)) (rowsB c) (mc (cA c))) regs'.
Proof.
  intros HF HN Hl2 Hsc Hsvd. assert (EL : length (cBs c) = length Xs) by (destruct HF as (_ & L & _); now symmetry). rewrite EL.
  intros Hv HNr H. destruct (update_B_trace E Xs c l2 scale constant HF HN Hl2 Hsc Hsvd regs regs' c' n tol Hv H) as (m & tr & HI & Hinv).
  pose proof HI as (I1 & I2 & I3 & _).
  assert (HP : forall i, (i <= m)%nat -> B_inv Xs c (tr i) /\ Forall (b_near (length Xs) (rowsB c) (mc (cA c))) (snd (tr i))).
  { apply (iterates_inv _ _ _ _ _ _ _ (fun s => B_inv Xs c s /\ Forall (b_near (length Xs) (rowsB c) (mc (cA c))) (snd s)) HI).
    - split; [|assumption]. rewrite <- I2. apply Hinv. lia.
    - intros a b (A1 & A2) Hs. destruct (B_inv_step E Xs c l2 scale constant HF HN Hl2 Hsc Hsvd a b A1 Hs) as (B1 & _). split; [assumption|].
      destruct a as [ca ra], b as [cb rb]. cbn [fst snd] in *. pose proof A1 as (J1 & J2 & J3). cbn [fst snd] in J1, J2, J3. fold (rowsB c) in J2, J3.
      rewrite J1 in Hs. assert (I2' := J2). rewrite <- EL in I2'.
      assert (HF' := data_fits_B Xs c (cBs ca) HF I2'). pose proof (rowsB_shaped c (cBs ca) I2' (cA c) (cC c) None) as RB.
      assert (HN' : nonempty (Cmf (N:=RNum) None (cA c) (cBs ca) (cC c))) by (apply (nonempty_sizes c); [now apply sizes_B|exact HN]).
      destruct (update_B_one E Xs _ l2 scale constant HF' HN' Hl2 Hsc Hsvd ra rb cb None) as (_ & _ & fps & _ & _ & _ & K4).
      { fold (rowsB (Cmf (N:=RNum) None (cA c) (cBs ca) (cC c))). rewrite RB. exact J3. } { exact Hs. }
      fold (rowsB (Cmf (N:=RNum) None (cA c) (cBs ca) (cC c))) in K4. rewrite RB in K4. cbn [cA] in K4.
      clear - K4 A2 J3. induction K4 as [|g g' x y (K1 & K2) F IH]; [constructor|]. inversion A2; subst. inversion J3; subst. constructor; [|now apply IH]. eapply near_step; eassumption. }
  destruct (HP m (le_n m)) as (_ & X). rewrite I3 in X. exact X.
Qed.
Definition near_state (s : state (N:=RNum)) : Prop :=
  Forall (b_near (length (cBs (st_cmf s))) (rowsB (st_cmf s)) (mc (cA (st_cmf s)))) (st_rB s).
Lemma near_sizes (c c' : rcmf) r : same_sizes c c' -> Forall (b_near (length (cBs c)) (rowsB c) (mc (cA c))) r -> Forall (b_near (length (cBs c')) (rowsB c') (mc (cA c'))) r.
Proof. intros SS. rewrite (same_sizes_rows _ _ SS). destruct SS as (_ & -> & _ & -> & _). auto. Qed.
Lemma near_outer E (P : params (N:=RNum)) Xs s s' : params_ok P -> valid_state Xs s -> svd_correct E (mc (cA (st_cmf s))) -> outer_step E P Xs s = Ok s' -> near_state s -> near_state s'.
Proof.
  intros HP V0 Hsvd H HN. pose proof (outer_step_ok E P Xs HP s s' V0 Hsvd H) as ((_ & SS & _) & _). unfold outer_step in H.
  destruct (upd_B E P Xs s) as [s1|] eqn:H1; [|discriminate]. cbn [bind] in H. destruct (upd_C E P Xs s1) as [s2|] eqn:H2; [|discriminate]. cbn [bind] in H.
  destruct (upd_B_ok E P Xs HP s s1 V0 Hsvd H1) as (KB & IB & B1 & B2 & B3 & B4 & B5 & B6 & B7). pose proof KB as (V1 & SB & _).
  assert (Hsvd1 : svd_correct E (mc (cA (st_cmf s1)))) by (rewrite B3; exact Hsvd).
  destruct (upd_C_ok E P Xs HP s1 s2 V1 Hsvd1 H2) as (KC & IC & C1 & C2 & C3 & C4 & C5 & C6 & C7). pose proof KC as (V2 & SC & _).
  assert (Hsvd2 : svd_correct E (mc (cA (st_cmf s2)))) by (rewrite C3; exact Hsvd1).
  destruct (upd_A_ok E P Xs HP s2 s' V2 Hsvd2 H) as (KA & A1 & A2 & A3 & A4 & A5 & A6 & A7).
  unfold near_state. rewrite A1, C2. apply (near_sizes _ _ _ SS). unfold upd_B in H1. destruct (p_updB P).
  - destruct (admm_update_B _ _ _ _ _ _ _ _ _) as [[c' r']|] eqn:HB; [|discriminate]. cbn [bind] in H1. injection H1 as <-. cbn [st_rB].
    destruct V0 as (V01 & V02 & _ & V04 & _). destruct HP as (PA & PB & PC & PS). eapply near_B; [exact V01|exact V02|exact PB|exact PS|exact Hsvd|exact V04|exact HN|exact HB].
  - injection H1 as <-. exact HN.
Qed.
Lemma near_trajectory E (P : params (N:=RNum)) Xs n tr : params_ok P -> trajectory E P Xs n tr -> valid_state Xs (tr 0%nat) -> svd_correct E (mc (cA (st_cmf (tr 0%nat)))) -> near_state (tr 0%nat) ->
  forall j, (j <= n)%nat -> near_state (tr j).
Proof.
  intros HP HT V Hsvd HN. induction j as [|j IH]; intros Hj; [exact HN|].
  destruct (trajectory_ok E P Xs HP n tr HT V Hsvd j ltac:(lia)) as ((V' & (S1 & S2 & _) & _) & _).
  apply (near_outer E P Xs (tr j)); [exact HP|exact V'|rewrite S2; exact Hsvd|apply HT; lia|apply IH; lia].
Qed.

(** ** At the start *)
Definition near_val (Xs : list matR) (rank : nat) (v : auxval (N:=RNum)) : Prop :=
  match v with
  | VMats (APf2 P _) => (forall i, (i < length Xs)%nat -> (rank <= rowsX Xs i)%nat) -> forall i, (i < length Xs)%nat -> near_ortho (rowsX Xs i) rank (mget (nth i P no_mat))
  | _ => True
  end.
Lemma eye_near J c (M : matR) : (c <= J)%nat -> is_eye J c M -> near_ortho J c (mget M).
Proof.
  intros HJ (_ & H). apply ortho_near. intros a b Ha Hb.
  rewrite Sum_rsum. transitivity (rsum J (fun i => if (i =? a)%nat then kron a b else 0)).
  - apply rsum_ext. intros i Hi. rewrite !H by assumption. unfold kron. destruct (Nat.eqb_spec i a) as [->|]; [|lra]. destruct (a =? b)%nat; lra.
  - rewrite (rsum_single J a); [now rewrite Nat.eqb_refl|lia|]. intros i Hi NE. destruct (Nat.eqb_spec i a); [contradiction|reflexivity].
Qed.

Lemma mapM_eyes (f : matR -> res matR) rank (Xs : list matR) : (forall X M, f X = Ok M -> is_eye (mr X) rank M) -> forall l, mapM f Xs = Ok l ->
  forall i, (i < length Xs)%nat -> is_eye (rowsX Xs i) rank (nth i l no_mat).
Proof.
  intros Hf. induction Xs as [|X Xs IH]; intros l H i Hi; cbn in H, Hi; [lia|].
  destruct (f X) as [M|] eqn:HX; [|discriminate]. cbn in H. destruct (mapM f Xs) as [l'|]; [|discriminate]. cbn in H. injection H as <-.
  destruct i as [|i]; [now apply Hf|]. apply (IH l' eq_refl). lia.
Qed.
Lemma eye_is_eye r rank (M : matR) : eye (N:=RNum) r (Z.of_nat rank) = Ok M -> is_eye r rank M.
Proof.
  intros H. destruct (eye_ok _ _ _ H) as (_ & S). rewrite Nat2Z.id in S. split; [exact S|]. unfold eye in H. destruct (Z.ltb_spec (Z.of_nat rank) 0); [lia|]. injection H as <-. rewrite Nat2Z.id.
  intros i j Hi Hj. rewrite mget_mbuild by assumption. reflexivity.
Qed.
Lemma near_init rnd o (Xs : list matR) rank m pos v q : init_aux rnd true o Xs (PyInt (Z.of_nat rank)) (PyInt m) pos = Ok (v, q) -> near_val Xs rank v.
Proof.
  intros H. destruct (C17_init_aux_shapes _ _ _ _ _ _ _ _ _ H) as (_ & _ & _ & _ & _ & PI).
  destruct v as [M|[l|P D]]; [exact Logic.I|exact Logic.I|]. cbn [near_val]. intros HR.
  assert (YP : is_parafac2 (o_pen o)) by (apply PI; exact Logic.I). unfold init_aux in H. destruct (o_pen o); try contradiction. destruct (o_aux o) as [s|sh d|l|l|]; try discriminate H.
  - intros i Hi. assert (EY : forall l, mapM (fun X => eye (N:=RNum) (mr X) (Z.of_nat rank)) Xs = Ok l -> near_ortho (rowsX Xs i) rank (mget (nth i l no_mat))).
    { intros l HM. apply eye_near; [now apply HR|]. refine (mapM_eyes _ _ _ _ _ HM i Hi). intros X M. apply eye_is_eye. }
    unfold pf2_init_aux in H. destruct (m =? 1)%Z; cbn [negb] in H; [|discriminate]. destruct s; try discriminate.
    1,2: destruct (draw_mat _ _ _ _ _) as [[c q0]|]; [|discriminate]; cbn [bind] in H; destruct (mapM _ Xs) as [l|] eqn:HM; [|discriminate]; cbn [bind] in H; injection H as <- <- <-; now apply EY.
    destruct (zeros _ _) as [c|]; [|discriminate]. cbn [bind] in H. destruct (mapM _ Xs) as [l|] eqn:HM; [|discriminate]; cbn [bind] in H; injection H as <- <- <-; now apply EY.
  - apply init_pair_iff in H as ((_ & basis & r & d & -> & Hr & HL & HF) & (basis' & c & EQ & EV) & _). injection EQ as <- <-. injection EV as -> ->. apply Nat2Z.inj in Hr. subst r.
    intros i Hi. destruct (HF i Hi) as (e & EN & K). rewrite (nth_indep _ no_mat (arr_mat (N:=RNum) PNone)) by (rewrite map_length; lia). rewrite map_nth, EN.
    eapply near_ortho_ext; [|exact K]. intros j p Hj Hp. cbv beta. symmetry. now apply arr_mat_entries.
Qed.
Lemma near_setup V IE rnd a s l2 rank : sensible V a rank -> ranks_kept IE -> setup V IE rnd a = Ok (s, l2) -> near_state s.
Proof.
  intros HS RK H. destruct (setup_ok _ _ _ _ _ _ _ HS RK H) as ((V1 & V2 & V3 & V4 & V5) & _ & MC & _). destruct HS as (HX & _ & HR & _). unfold setup in H.
  destruct (negb (f_svd a)); [discriminate|]. rewrite HR in H.
  destruct (initialize_cmf (e_ext V) IE rnd (f_data a) (PyInt (Z.of_nat rank)) (f_init a) 0) as [[c pos]|]; [|discriminate]. cbn [bind] in H.
  destruct (listify (f_l2 a)) as [l2'|]; [|discriminate]. cbn [bind] in H.
  destruct (parse_all V (f_kw a) (f_regs a) (f_aux a) (f_dual a)) as [[[rA rB] rC]|]; [|discriminate]. cbn [bind] in H. cbv zeta in H.
  set (uA := if f_updA a then rA else []) in *. set (uB := if f_updB a then rB else []) in *. set (uC := if f_updC a then rC else []) in *.
  destruct (initialize_aux rnd (f_data a) (PyInt (Z.of_nat rank)) (uA, uB, uC) pos) as [[[[aA aB] aC] pos1]|] eqn:EX; [|discriminate]. cbn [bind] in H.
  destruct (initialize_dual rnd (f_data a) (PyInt (Z.of_nat rank)) (uA, uB, uC) pos1) as [[[[dA dB] dC] pos2]|] eqn:ED; [|discriminate]. cbn [bind] in H.
  match type of H with (if negb ?b then _ else _) = _ => destruct b eqn:ES; [|discriminate H] end. cbn [negb] in H.
  destruct (make_mregs uA aA dA) as [gA|]; [|discriminate]. cbn [bind] in H.
  destruct (make_bregs uB aB dB) as [gB|] eqn:GB; [|discriminate]. cbn [bind] in H.
  destruct (make_mregs uC aC dC) as [gC|]; [|discriminate]. cbn [bind] in H. injection H as <- <-. cbn [st_cmf st_rB] in *. unfold near_state. cbn [st_cmf st_rB].
  destruct (initialize_Forall2 _ _ _ _ _ _ _ _ _ _ _ (fun m o v => near_val (f_data a) rank v) (fun o m p v q K => near_init rnd o (f_data a) rank m p v q K) EX) as (_ & FAb & _).
  destruct (initialize_Forall2 _ _ _ _ _ _ _ _ _ _ _ (fun m o v => True) (fun o m p v q K => Logic.I) ED) as (_ & FDb & _).
  pose proof (make_bregs_F2 _ _ _ _ _ _ FAb FDb GB) as MB. clear - MB V1 V4 MC. destruct V1 as (_ & DL & DS).
  induction MB as [|o g x y (_ & K & _) F IH]; [constructor|]. inversion V4; subst. constructor; [|now apply IH].
  unfold b_near. destruct H1 as (_ & H1). destruct (b_aux g) as [l|P D]; [exact Logic.I|]. cbn [near_val] in K. destruct (b_pen g); try contradiction. destruct H1 as (_ & _ & H1).
  rewrite <- DL in *. intros i Hi. assert (RX : forall j, (j < length (f_data a))%nat -> rowsX (f_data a) j = rowsB c j).
  { intros j Hj. unfold rowsX, rowsB. now destruct (DS j Hj) as (_ & -> & _). }
  rewrite <- RX by assumption. apply K; [|exact Hi]. intros j Hj. rewrite RX by assumption. now apply H1.
Qed.

(** ** Given variables *)
Lemma mapS_given {A B} (f : A -> nat -> res (B * nat)) (l : list A) (vs : list B) : Forall2 (fun o v => forall pos, f o pos = Ok (v, pos)) l vs -> forall pos, mapS f l pos = Ok (vs, pos).
Proof. induction 1 as [|o v l vs K F IH]; intros pos; cbn [mapS]; [reflexivity|]. rewrite K. cbn [bind]. rewrite IH. reflexivity. Qed.
Lemma concat_py (M : matR) : PArr [mr M; mc M] (concat (me M)) = py_of_mat M.
Proof. reflexivity. Qed.
Lemma given_list_good (Xs : list matR) rank (l : list matR) : list_shaped (length Xs) (rowsX Xs) rank l -> good_list Xs (Z.of_nat rank) 1 (map py_of_mat l) /\ map arr_mat (map (py_of_mat (N:=RNum)) l) = l.
Proof.
  intros (L & H). split.
  - split; [reflexivity|]. split; [now rewrite map_length|]. intros i Hi. rewrite (nth_indep _ PNone (py_of_mat no_mat)) by (rewrite map_length; lia). rewrite map_nth. destruct (H i Hi) as (_ & R1 & C1).
    unfold py_of_mat. rewrite R1, C1. eauto.
  - rewrite map_map. rewrite <- (map_id l) at 2. apply map_ext_in. intros M HM. apply (In_nth _ _ no_mat) in HM as (i & Hi & <-). rewrite L in Hi. apply arr_mat_of_mat. apply (H i Hi).
Qed.
Definition same_mreg (o : pobjR) (g : mregR) : Prop := o_pen o = g_pen g /\ o_aux o = given_mat (g_aux g) /\ o_dual o = given_mat (g_dual g).
Definition same_breg (o : pobjR) (g : bregR) : Prop := o_pen o = b_pen g /\ o_aux o = given_auxes (b_aux g) /\ o_dual o = given_mats (b_dual g).
Lemma given_mreg rnd (Xs : list matR) rank m r o g : Xs <> [] -> (m = 0%Z /\ r = length Xs) \/ (m = 2%Z /\ r = colsX Xs) -> mreg_valid r rank g -> same_mreg o g ->
  (forall pos, init_aux rnd true o Xs (PyInt (Z.of_nat rank)) (PyInt m) pos = Ok (VMat (g_aux g), pos)) /\ (forall pos, init_dual rnd o Xs (PyInt (Z.of_nat rank)) (PyInt m) pos = Ok (VMat (g_dual g), pos)).
Proof.
  intros HX HM (NP & _ & (WA & RA & CA) & (WD & RD & CD)) (EP & EA & ED). split; intros pos.
  - rewrite <- EP in NP. apply (C17_given_tensor rnd true o _ _ Xs _ _ pos _ pos NP EA). split; [|split; [reflexivity|now rewrite concat_py, arr_mat_of_mat]].
    split; [exact HX|]. exists (mr (g_aux g)), (mc (g_aux g)). rewrite RA, CA. auto.
  - pose proof (C17_given_dual rnd o Xs (Z.of_nat rank) m pos (VMat (g_dual g)) pos) as K. rewrite ED in K. cbn [given_mat] in K. apply K. split; [|split; [reflexivity|now rewrite concat_py, arr_mat_of_mat]].
    split; [exact HX|]. exists (mr (g_dual g)), (mc (g_dual g)). rewrite RD, CD. auto.
Qed.
Lemma given_breg rnd (Xs : list matR) rank J o g : (forall i, (i < length Xs)%nat -> J i = rowsX Xs i) -> breg_valid (length Xs) J rank g -> b_near (length Xs) J rank g -> same_breg o g ->
  (forall pos, init_aux rnd true o Xs (PyInt (Z.of_nat rank)) (PyInt 1) pos = Ok (VMats (b_aux g), pos)) /\ (forall pos, init_dual rnd o Xs (PyInt (Z.of_nat rank)) (PyInt 1) pos = Ok (VMats (AList (b_dual g)), pos)).
Proof.
  intros HJ (HD & HA) HN (EP & EA & ED). apply (list_shaped_rows _ _ _ _ _ HJ) in HD. split; intros pos.
  - destruct (b_aux g) as [l|P D] eqn:EX.
    + assert (K : list_shaped (length Xs) J rank l /\ ~ is_parafac2 (o_pen o)) by (rewrite EP; destruct (b_pen g); split; try apply HA; try exact (fun x => x); contradiction).
      destruct K as (K & NP). apply (list_shaped_rows _ _ _ _ _ HJ) in K. destruct (given_list_good Xs rank l K) as (G1 & G2).
      apply (C17_given_list rnd true o (map py_of_mat l) Xs _ _ pos _ pos NP EA). rewrite G2. auto.
    + assert (K : (list_shaped (length Xs) J rank P /\ shaped D rank rank) /\ is_parafac2 (o_pen o)) by (rewrite EP; destruct (b_pen g); try contradiction; split; [split; apply HA|exact Logic.I]).
      destruct K as ((K & KD) & YP). apply (list_shaped_rows _ _ _ _ _ HJ) in K. destruct (given_list_good Xs rank P K) as (G1 & G2). destruct KD as (WD & RD & CD).
      apply (C17_given_pair rnd true o _ Xs _ _ pos _ pos YP EA). split; [|split; [reflexivity|exists (map py_of_mat P), (py_of_mat D); split; [reflexivity|now rewrite G2, arr_mat_of_mat]]].
      split; [reflexivity|]. exists (map py_of_mat P), rank, (concat (me D)). split; [unfold py_of_mat at 2; now rewrite RD, CD|]. split; [reflexivity|]. split; [rewrite map_length; apply K|].
      intros i Hi. rewrite (nth_indep _ PNone (py_of_mat no_mat)) by (rewrite map_length; destruct K; lia). rewrite map_nth. destruct K as (LP & K). destruct (K i Hi) as (W & R1 & C1).
      exists (concat (me (nth i P no_mat))). split; [unfold py_of_mat; now rewrite R1, C1|]. unfold b_near in HN. rewrite EX in HN. specialize (HN i Hi). rewrite HJ in HN by assumption.
      eapply near_ortho_ext; [|exact HN]. intros j q Hj Hq. cbv beta. rewrite <- R1 in Hj. rewrite <- C1 in Hq |- *. symmetry. now apply (mflat_nth (nth i P no_mat)).
  - destruct (given_list_good Xs rank _ HD) as (G1 & G2). pose proof (C17_given_dual rnd o Xs (Z.of_nat rank) 1 pos (VMats (AList (b_dual g))) pos) as K. rewrite ED in K. cbn [given_mats] in K. apply K. rewrite G2. auto.
Qed.
Lemma make_mregs_same l gs : Forall2 same_mreg l gs -> make_mregs l (map (fun g => VMat (g_aux g)) gs) (map (fun g => VMat (g_dual g)) gs) = Ok gs.
Proof.
  induction 1 as [|o g l gs (EP & _) F IH]; [reflexivity|]. cbn [map make_mregs]. rewrite IH. cbn [bind]. rewrite EP. now destruct g.
Qed.
Lemma make_bregs_same l gs : Forall2 same_breg l gs -> make_bregs l (map (fun g => VMats (b_aux g)) gs) (map (fun g => VMats (AList (b_dual g))) gs) = Ok gs.
Proof.
  induction 1 as [|o g l gs (EP & _) F IH]; [reflexivity|]. cbn [map make_bregs]. rewrite IH. cbn [bind]. rewrite EP. now destruct g.
Qed.
Lemma F2_map_r {A B C} (Q : A -> C -> Prop) (f : B -> C) l gs : Forall2 (fun o g => Q o (f g)) l gs -> Forall2 Q l (map f gs).
Proof. induction 1; constructor; auto. Qed.
Lemma pens_RPen (u : list pobjR) : pens (map RPen u) = u.
Proof. unfold pens. induction u as [|o u IH]; [reflexivity|]. cbn. now rewrite IH. Qed.
Lemma all_RPen (u : list pobjR) : all_pens (map RPen u) = true.
Proof. unfold all_pens. induction u as [|o u IH]; [reflexivity|]. exact IH. Qed.
Lemma parse_given (V : envR) ai di u0 u1 u2 : parse_all V no_kw (RList [EList (map RPen u0); EList (map RPen u1); EList (map RPen u2)]) ai di = Ok (u0, u1, u2).
Proof.
  unfold parse_all. cbn [check_regs forallb ent_ok]. rewrite !all_RPen. cbn [andb bind no_kw a_nn a_upper a_lower a_norm a_uni a_l1 a_gl2 a_tv a_pf2 listify].
  assert (Z : ntruthy (N:=RNum) 0 = false) by now apply ntruthy_false.
  unfold parse_mode. cbn [k_nn k_lower k_upper k_norm k_uni k_pf2 k_l1 k_tv k_gl2 btruthy otruthy bind]. change (@n0 RNum) with 0. rewrite Z. cbn. rewrite !pens_RPen. reflexivity.
Qed.

(** ** The second call starts where the first one ended *)
Lemma setup_again V IE rnd (b : fitR) (s : state (N:=RNum)) l2 rank l u0 u1 u2 :
  f_data b <> [] -> f_rank b = PyInt (Z.of_nat rank) -> f_svd b = true -> listify (f_l2 b) = Ok l2 -> valid_state (f_data b) s -> near_state s -> mc (cA (st_cmf s)) = rank ->
  cw (st_cmf s) = None -> f_init b = InitSeq l -> PSeq l = py_of_cmf (st_cmf s) -> f_kw b = no_kw -> f_regs b = RList [EList (map RPen u0); EList (map RPen u1); EList (map RPen u2)] ->
  Forall2 same_mreg (if f_updA b then u0 else []) (st_rA s) -> Forall2 same_breg (if f_updB b then u1 else []) (st_rB s) -> Forall2 same_mreg (if f_updC b then u2 else []) (st_rC s) ->
  setup V IE rnd b = Ok (noi s, l2).
Proof.
  intros HX HR HSV HL (DF & NE & VA & VB & VC) HN MC CW FI EL FK FR FA FB FC. unfold setup. rewrite HSV. cbn [negb].
  pose proof DF as (VCM & DL & DS). rewrite FI. destruct (given_start (e_ext V) IE rnd (f_data b) (f_rank b) (st_cmf s) l 0 VCM EL) as (G1 & _). rewrite G1. cbn [bind]. rewrite HL. cbn [bind].
  rewrite FK, FR, parse_given. cbn [bind]. cbv zeta.
  assert (SC : Cmf (N:=RNum) None (scaled_A (st_cmf s)) (cBs (st_cmf s)) (cC (st_cmf s)) = st_cmf s) by (unfold scaled_A; rewrite CW; destruct (st_cmf s); cbn in *; now subst). rewrite SC.
  set (w0 := if f_updA b then u0 else []) in *. set (w1 := if f_updB b then u1 else []) in *. set (w2 := if f_updC b then u2 else []) in *. clearbody w0 w1 w2.
  set (Xs := f_data b) in *. assert (LX : (0 < length Xs)%nat) by (destruct Xs; [exfalso; now apply HX|cbn; lia]).
  assert (RX : forall i, (i < length Xs)%nat -> rowsB (st_cmf s) i = rowsX Xs i).
  { intros i Hi. unfold rowsX, rowsB. now destruct (DS i Hi) as (_ & -> & _). }
  assert (CX : mr (cC (st_cmf s)) = colsX Xs) by (unfold colsX; now destruct (DS 0%nat LX) as (_ & _ & ->)).
  assert (RA : mr (cA (st_cmf s)) = length Xs) by (destruct VCM as (_ & _ & _ & K & _); congruence).
  unfold near_state in HN. rewrite <- DL, MC in *. rewrite HR.
  assert (JA : Forall2 (fun o g => (forall pos, init_aux rnd true o Xs (PyInt (Z.of_nat rank)) (PyInt 0) pos = Ok (VMat (g_aux g), pos)) /\
       (forall pos, init_dual rnd o Xs (PyInt (Z.of_nat rank)) (PyInt 0) pos = Ok (VMat (g_dual g), pos))) w0 (st_rA s)).
  { clear - FA VA RA HX. induction FA as [|o g x y K F IH]; [constructor|]. inversion VA; subst. constructor; [|now apply IH]. apply (given_mreg rnd Xs rank 0 (length Xs)); auto. now rewrite <- RA. }
  assert (JC : Forall2 (fun o g => (forall pos, init_aux rnd true o Xs (PyInt (Z.of_nat rank)) (PyInt 2) pos = Ok (VMat (g_aux g), pos)) /\
       (forall pos, init_dual rnd o Xs (PyInt (Z.of_nat rank)) (PyInt 2) pos = Ok (VMat (g_dual g), pos))) w2 (st_rC s)).
  { clear - FC VC CX HX. induction FC as [|o g x y K F IH]; [constructor|]. inversion VC; subst. constructor; [|now apply IH]. apply (given_mreg rnd Xs rank 2 (colsX Xs)); auto. now rewrite <- CX. }
  assert (JB : Forall2 (fun o g => (forall pos, init_aux rnd true o Xs (PyInt (Z.of_nat rank)) (PyInt 1) pos = Ok (VMats (b_aux g), pos)) /\
       (forall pos, init_dual rnd o Xs (PyInt (Z.of_nat rank)) (PyInt 1) pos = Ok (VMats (AList (b_dual g)), pos))) w1 (st_rB s)).
  { clear - FB VB HN RX. induction FB as [|o g x y K F IH]; [constructor|]. inversion VB; subst. inversion HN; subst. constructor; [|now apply IH]. apply (given_breg rnd Xs rank (rowsB (st_cmf s))); auto. }
  unfold initialize_aux, initialize_dual, initialize.
  rewrite (mapS_given _ w0 (map (fun g => VMat (g_aux g)) (st_rA s))) by (apply F2_map_r; eapply F2_impl; [|exact JA]; intros o g K; apply K). cbn [bind].
  rewrite (mapS_given _ w1 (map (fun g => VMats (b_aux g)) (st_rB s))) by (apply F2_map_r; eapply F2_impl; [|exact JB]; intros o g K; apply K). cbn [bind].
  rewrite (mapS_given _ w2 (map (fun g => VMat (g_aux g)) (st_rC s))) by (apply F2_map_r; eapply F2_impl; [|exact JC]; intros o g K; apply K). cbn [bind].
  rewrite (mapS_given _ w0 (map (fun g => VMat (g_dual g)) (st_rA s))) by (apply F2_map_r; eapply F2_impl; [|exact JA]; intros o g K; apply K). cbn [bind].
  rewrite (mapS_given _ w1 (map (fun g => VMats (AList (b_dual g))) (st_rB s))) by (apply F2_map_r; eapply F2_impl; [|exact JB]; intros o g K; apply K). cbn [bind].
  rewrite (mapS_given _ w2 (map (fun g => VMat (g_dual g)) (st_rC s))) by (apply F2_map_r; eapply F2_impl; [|exact JC]; intros o g K; apply K). cbn [bind].
  rewrite shapes_match_ok by assumption. cbn [negb]. rewrite (make_mregs_same _ _ FA), (make_bregs_same _ _ FB), (make_mregs_same _ _ FC). reflexivity.
Qed.
