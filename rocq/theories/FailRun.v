(** Runs raise nothing but what the methods of the penalties raise, or run into a division
    by zero. *)
From Coq Require Import Reals Lra Lia List Arith Bool ZArith.
From Verif Require Import Num Numpy Unimodal RFacts Spec SpecFacts MatFacts SvdFacts ModelSpec Penalties PenaltySpec
  ProxProofs TVProofs GenL2Proofs SimplexProofs Parafac2Proofs Parafac2Main PenaltyMain CoupledMatrices CmfSpec CmfProofs
  Decomp DecompSpec DecompFacts AdmmProofs AdmmB AdmmA AdmmRegs AdmmLoop AdmmOne AoState AoLoop AoRun AdmmOpt Total TotalRun
  InitVars InitSpec InitProofs Parse ParseSpec ParseProofs Fit FitSpec FitProofs P05_Runs P06_Init P11_Total
  Custom CustomBase CustomSpec CustomFit CustomCalls CustomTotalSpec CustomTotal FailSpec.
Import ListNotations.
Local Open Scope R_scope.

Section Yields.
Variable al : exn -> Prop.
Notation Y := (yields al).
Lemma y_bind {A B} (Q : A -> Prop) (Q' : B -> Prop) (r : res A) (f : A -> res B) : Y Q r -> (forall a, Q a -> Y Q' (f a)) -> Y Q' (bind r f).
Proof. destruct r as [a|e]; cbn; auto. Qed.
Lemma y_weak {A} (Q Q' : A -> Prop) r : (forall a, Q a -> Q' a) -> Y Q r -> Y Q' r.
Proof. destruct r; cbn; auto. Qed.
Lemma y_true {A} (Q : A -> Prop) r : Y Q r -> Y (fun _ => True) r.
Proof. now apply y_weak. Qed.
Lemma y_if {A} (Q : A -> Prop) (b : bool) r s : (b = true -> Y Q r) -> (b = false -> Y Q s) -> Y Q (if b then r else s).
Proof. destruct b; auto. Qed.
Lemma y_mapM {A B} (f : A -> res B) (Q : B -> Prop) (l : list A) : Forall (fun x => Y Q (f x)) l -> Y (fun r => Forall Q r /\ length r = length l) (mapM f l).
Proof.
  induction 1 as [|x l H _ IH]; cbn [mapM]; [cbn; auto|]. eapply y_bind; [exact H|]. intros b Hb. eapply y_bind; [exact IH|]. intros r (F & L). cbn. auto.
Qed.
Lemma y_map_true {A B} (f : A -> res B) (R : A -> Prop) l : (forall x, R x -> Y (fun _ => True) (f x)) -> Forall R l -> Y (fun _ => True) (mapM f l).
Proof. intros H F. eapply y_true, y_mapM with (Q := fun _ => True). eapply Forall_impl; [|exact F]. exact H. Qed.
Lemma y_inner {S} (step : S -> res S) (conv : S -> S -> res bool) (I : S -> Prop) n : forall s, I s ->
  (forall s, I s -> Y (fun s' => I s' /\ Y (fun _ => True) (conv s s')) (step s)) -> Y I (inner_loop step conv n s).
Proof.
  induction n as [|n IH]; intros s Hs H; cbn [inner_loop]; [exact Hs|].
  eapply y_bind; [apply (H s Hs)|]. intros s' (Hs' & C). eapply y_bind; [exact C|]. intros b _. destruct b; [exact Hs'|]. now apply IH.
Qed.
Lemma y_conv tol x y gs : Y (fun _ => True) gs -> Y (fun _ => True) (inner_conv (N:=RNum) tol x y gs).
Proof.
  intros H. unfold inner_conv. destruct tol as [t|]; [|exact Logic.I]. destruct (negb _ || _)%bool; [exact Logic.I|]. destruct (nltb _ _); [exact Logic.I|].
  eapply y_bind; [exact H|]. intros g _. destruct (xmax_list g); exact Logic.I.
Qed.
Lemma y_mapS {A B} (f : A -> nat -> res (B * nat)) (Q : A -> B -> Prop) (l : list A) : (forall x pos, In x l -> Y (fun v => Q x (fst v)) (f x pos)) ->
  forall pos, Y (fun v => Forall2 Q l (fst v)) (mapS f l pos).
Proof.
  induction l as [|x l IH]; intros H pos; cbn [mapS]; [cbn; constructor|].
  eapply y_bind; [apply H; now left|]. intros (v, p) Hv. eapply y_bind; [apply IH; intros; apply H; now right|]. intros (vs, q) Hvs. cbn in *. now constructor.
Qed.
(** *** systems with or without a ridge *)
Lemma y_solve (M : rmat) n d (b : rmat) : (finite_svd d = true \/ al NonFinite) -> mc M = n -> has_svd M n d -> Y (fun Z => shaped Z (mr b) n) (solve_mat d b).
Proof.
  intros F Hc Hd. destruct (solve_mat d b) as [Z|e] eqn:E; cbn; [eapply solve_shape; eauto|]. revert E. unfold solve_mat. destruct d as ((U, s), Vh). destruct (finite_svd _); [discriminate|].
  intros E. injection E as <-. destruct F; [discriminate|assumption].
Qed.
Lemma y_solve_row (M : rmat) n d (b : list R) : (finite_svd d = true \/ al NonFinite) -> mc M = n -> has_svd M n d -> Y (fun z => length z = n) (solve_row d b).
Proof.
  intros F Hc Hd. destruct (solve_row d b) as [Z|e] eqn:E; cbn; [eapply solve_row_len; eauto|]. revert E. unfold solve_row. destruct d as ((U, s), Vh). destruct (finite_svd _); [discriminate|].
  intros E. injection E as <-. destruct F; [discriminate|assumption].
Qed.
End Yields.

Section Run.
Context {X : Type}.
Variable al : exn -> Prop.
Notation Y := (yields al).
Variables (E : ext (N:=RNum)) (P : params (N:=RNum)) (Xs : list rmat) (n : nat).
Notation I0 := (length Xs).
Notation J := (rowsX Xs).
Notation K := (colsX Xs).
Hypothesis HX : Forall (fun X => mwf X /\ (0 < mr X)%nat /\ (0 < mc X)%nat) Xs.
Hypothesis HC : same_columns Xs.
Hypothesis HE : svd_correct E n.
Hypothesis HP : params_ok P.
Implicit Types (g : ureg (N:=RNum) X) (h : uregs (N:=RNum) X).

Definition relM (r : nat) g : Prop := shaped (ug_dual g) r n /\ exists I, I (ug_aux g) /\ reliable_matrix al r n I (ug_cls g).
Definition relR (r : nat) g : Prop := shaped (ug_dual g) r n /\ array r n (ug_aux g) /\ reliable_rows al r n (ug_cls g).
Definition relA (constant : bool) g : Prop := if constant then relM I0 g else relR I0 g.
Definition relL h : Prop := list_shaped I0 J n (ub_dual h) /\ exists I, I (ub_aux h) /\ reliable_matrices al I0 J n I (ub_cls h).
Notation fitting := (fitting Xs n).

(** *** gaps *)
Lemma relM_gap r M g : shaped M r n -> relM r g -> Y (fun _ => True) (ugap M g).
Proof. intros SM (_ & I & Ig & _ & S & _). unfold ugap. eapply y_bind; [exact (S _ _ Ig SM)|]. intros; exact Logic.I. Qed.
Lemma relR_gap r M g : shaped M r n -> relR r g -> Y (fun _ => True) (ugap M g).
Proof. intros SM (_ & Ig & _ & S & _). unfold ugap. eapply y_bind; [exact (S _ _ Ig SM)|]. intros; exact Logic.I. Qed.
Lemma relA_gap q M g : shaped M I0 n -> relA q g -> Y (fun _ => True) (ugap M g).
Proof. destruct q; [apply relM_gap|apply relR_gap]. Qed.
Lemma relL_gap Bs h : list_shaped I0 J n Bs -> relL h -> Y (fun _ => True) (ugaps Bs h).
Proof. intros SM (_ & I & Ig & _ & S & _). unfold ugaps. eapply y_bind; [exact (S _ _ Ig SM)|]. intros; exact Logic.I. Qed.
Lemma relM_sub r g : relM r g -> Y (fun _ => True) (sub_method (ug_cls g) (ug_aux g) (ug_dual g)).
Proof. intros (SD & I & Ig & _ & S & _). eapply y_true. exact (S _ _ Ig SD). Qed.
Lemma relA_sub q g : relA q g -> Y (fun _ => True) (sub_method (ug_cls g) (ug_aux g) (ug_dual g)).
Proof. destruct q; [apply relM_sub|]. intros (SD & Ig & _ & S & _). eapply y_true. exact (S _ _ Ig SD). Qed.
Lemma relL_sub h : relL h -> Y (fun _ => True) (subs_method (ub_cls h) (ub_aux h) (ub_dual h)).
Proof. intros (SD & I & Ig & _ & S & _). eapply y_true. exact (S _ _ Ig SD). Qed.

(** *** C *)
Lemma C_rel fp C g : shaped C K n -> 0 <= fp -> relM K g -> Y (relM K) (uC_reg_step fp C g).
Proof.
  intros SC Hf (SD & I & Ig & S). pose proof S as (S1 & S2 & _). unfold uC_reg_step. eapply y_bind; [apply (S1 (madd C (ug_dual g)) fp (ug_aux g)); auto using shaped_add|].
  intros y Iy. eapply y_bind; [apply (S2 y (ug_dual g) Iy SD)|]. intros D SD'. cbn. split; cbn [ug_dual ug_aux ug_cls]; [now apply shaped_sub|]. exists I. auto.
Qed.
Lemma C_fail c regs l2 scale k tol : fitting c -> 0 < l2 \/ al NonFinite -> 0 <= l2 -> 0 <= scale -> Forall (relM K) regs ->
  Y (fun v => exists C, fst v = Cmf None (cA c) (cBs c) C /\ shaped C K n /\ Forall (relM K) (snd v)) (uupdate_C E Xs c regs l2 k tol scale).
Proof.
  intros Fc Hl2 Hl0 Hsc FR. destruct (fitting_shapes Xs n c Fc) as (SA & SB & SC & L0 & Hn & EK). destruct Fc as (HF & HN & MC). unfold uupdate_C.
  destruct (nth_terms (fun _ D => mmul (mtrans D) D) Xs c no_mat HF) as (L1 & _).
  destruct (nth_terms (fun X D => mmul (mtrans X) D) Xs c no_mat HF) as (L2 & _).
  destruct (msum_some (C_lhs_terms Xs (cBs c) (cA c))) as (lhs & El).
  { unfold C_lhs_terms. intros Z. rewrite Z in L1. cbn in L1. lia. }
  destruct (msum_some (C_rhs_terms Xs (cBs c) (cA c))) as (rhs & Er).
  { unfold C_rhs_terms. intros Z. rewrite Z in L2. cbn in L2. lia. }
  rewrite El, Er. cbv zeta. set (fp := feas_penalty (N:=RNum) scale lhs).
  destruct (C_lhs_spec _ _ _ HF El) as ((W1 & S1 & S2) & HT & Hl & Ht). rewrite MC in S1, S2.
  assert (Hfp : fp = rho_C scale c).
  { unfold fp. rewrite feas_penalty_scale, Ht. unfold rho_C. rewrite Rmult_1_r. apply Rmult_comm. }
  assert (Hf0 : 0 <= fp) by (rewrite Hfp; now apply rho_C_nonneg).
  set (M := ridge (N:=RNum) lhs fp (length regs) l2).
  destruct (ridge_shape lhs fp (length regs) l2) as (M1 & M2 & M3). fold M in M1, M2, M3.
  assert (Hd : has_svd M n (lhs_svd E M)) by (unfold lhs_svd; rewrite M1, S1; apply HE; auto; try congruence; rewrite M1, S1; apply le_n).
  assert (Fin : finite_svd (lhs_svd E M) = true \/ al NonFinite).
  { destruct Hl2 as [Hl2|Hl2]; [left|now right]. apply (ridge_finite lhs n _ fp (length regs) l2); auto.
    - intros Z (WY & Y1 & Y2). rewrite Hl by (auto; congruence). apply rsum_nonneg. intros i Hi.
      destruct (DA_shape Xs c i HF Hi) as (D1 & D2 & D3 & _). rewrite gram_psd by (auto; congruence). apply nsq_nonneg.
    - apply well_posed_mu; [lra|exact Hf0|now left]. }
  destruct (C_rhs_spec _ _ _ HF Er) as ((Wr & R1 & R2) & _).
  eapply y_bind; [apply (y_inner al (uC_step (lhs_svd E M) fp rhs) (uconv tol) (fun s => shaped (fst s) K n /\ Forall (relM K) (snd s)) k (cC c, regs))|].
  - auto.
  - intros (C1, r1) (I1 & I2). cbn [fst snd] in *. unfold uC_step, ushifted.
    eapply y_bind; [exact (y_map_true al _ _ _ (relM_sub K) I2)|]. intros sh _.
    eapply y_bind; [apply (y_solve al M n); [exact Fin|now rewrite M2|exact Hd]|]. intros Z HZ.
    assert (HZs : shaped Z K n).
    { revert HZ. mshape. rewrite sum_mats_rows, R1, EK. auto. }
    eapply y_bind; [apply (y_mapM al (uC_reg_step fp Z) (relM K) r1)|].
    { eapply Forall_impl; [|exact I2]. intros g Hg. now apply C_rel. }
    intros r2 (F2 & _). cbn [yields]. cbn [fst snd]. split; [auto|]. apply y_conv. cbn [fst snd]. apply (y_map_true al _ (relM K)); [|exact F2]. intros g. now apply relM_gap.
  - intros (C', r') (Q1 & Q2). cbn [yields fst snd]. exists C'. auto.
Qed.

(** *** A *)
Lemma A_rel q fps A g : shaped A I0 n -> length fps = I0 -> (forall i, (i < I0)%nat -> 0 <= vg fps i) -> (0 < I0)%nat -> relA q g -> Y (relA q) (uA_reg_step q fps A g).
Proof.
  intros SA Lf Hf L0. unfold uA_reg_step, relA. cbv zeta. destruct q.
  - intros (SD & I & Ig & S). pose proof S as (S1 & S2 & _). eapply y_bind; [apply (S1 (madd A (ug_dual g)) (nth 0 fps n0) (ug_aux g)); [now apply shaped_add|now apply (Hf 0%nat)|exact Ig]|].
    intros y Iy. eapply y_bind; [apply (S2 y (ug_dual g) Iy SD)|]. intros D SD'. cbn [yields]. split; cbn [ug_dual ug_aux ug_cls]; [now apply shaped_sub|]. exists I. auto.
  - intros (SD & (B & EB & SB) & S). pose proof S as (S1 & S2 & _). unfold urows_update. rewrite EB.
    assert (SV : shaped (madd A (ug_dual g)) I0 n) by now apply shaped_add. set (V := madd A (ug_dual g)) in *.
    eapply y_bind with (Q := array I0 n).
    + eapply y_bind; [apply (y_mapM al (fun i => row_method (ug_cls g) (mrow V i) (nth i fps n0) (mrow B i)) (fun r => length r = n) (seq 0 (length fps)))|].
      * apply Forall_forall. intros i Hi. apply in_seq in Hi. apply S1.
        -- destruct SV as (W & R1 & R2). unfold mrow. rewrite <- R2. apply (proj1 (Forall_forall _ _) (proj2 W)). apply nth_In. rewrite (proj1 W), R1. rn; lia.
        -- destruct SB as (W & R1 & R2). unfold mrow. rewrite <- R2. apply (proj1 (Forall_forall _ _) (proj2 W)). apply nth_In. rewrite (proj1 W), R1. rn; lia.
        -- apply (Hf i). rn; lia.
      * intros rows (Fr & Lr). cbn [yields]. eexists. split; [reflexivity|]. destruct SV as (W & R1 & R2). split; [|split; [exact R1|exact R2]].
        split; cbn [me mr mc]; [rewrite Lr, seq_length, R1; exact Lf|]. rewrite R2. exact Fr.
    + intros y Iy. eapply y_bind; [apply (S2 y (ug_dual g) Iy SD)|]. intros D SD'. cbn [yields]. split; cbn [ug_dual ug_aux ug_cls]; [now apply shaped_sub|]. auto.
Qed.
Lemma A_fail c regs l2 scale q k tol : fitting c -> 0 < l2 \/ al NonFinite -> 0 <= l2 -> 0 <= scale -> Forall (relA q) regs ->
  Y (fun v => exists A, fst (fst v) = Cmf None A (cBs c) (cC c) /\ shaped A I0 n /\ Forall (relA q) (snd (fst v))) (uupdate_A E Xs c regs l2 k tol scale q).
Proof.
  intros Fc Hl2 Hl0 Hsc FR. destruct (fitting_shapes Xs n c Fc) as (SA & SB & SC & L0 & Hn & EK). destruct Fc as (HF & HN & MC). unfold uupdate_A. cbv zeta.
  pose proof (LX Xs c HF) as LB. pose proof (RX Xs c HF) as LA.
  set (cross := A_cross (N:=RNum) (cBs c) (cC c) Xs). set (rhses := A_rhses (N:=RNum) (cBs c) (cC c) Xs).
  assert (Lc : length cross = I0) by (unfold cross, A_cross; rewrite length_map2; rn; lia).
  destruct (feas_total scale q cross) as (fps & Hf); [intros Z; rewrite Z in Lc; cbn in Lc; lia|]. rewrite Hf. cbn [bind].
  destruct (feas_penalties_spec _ _ _ _ Hf) as (Lf & Hrho'). rewrite Lc in Lf, Hrho'.
  assert (Hrho2 : rhos_used q I0 (rho_A scale c) (fun i => vg fps i)).
  { revert Hrho'. apply rhos_used_ext. intros i Hi. now apply A_fps_eq. }
  assert (FN : forall i, (i < I0)%nat -> 0 <= vg fps i).
  { intros i Hi. apply (rhos_used_nonneg _ _ _ (fun i => vg fps i) i Hrho2 Hi). intros; now apply rho_A_nonneg. }
  assert (PSD : forall i, (i < I0)%nat -> let G := cross_product (N:=RNum) (cC c) (nthB c i) in
     mwf G /\ mr G = n /\ mc G = n /\ forall Y, shaped Y 1 n -> 0 <= mip (mmul Y G) Y).
  { intros i Hi G. destruct HF as ((V1 & V2 & V3 & V4 & V5 & V6) & L & HX0). destruct (V5 i ltac:(rn; lia)) as (WB & CB).
    unfold G, cross_product. split; [auto with mwf|]. mshape. split; [congruence|]. split; [congruence|].
    intros Z HZ. destruct (shaped_rowm _ _ HZ) as (v & Lv & ->). apply cross_psd; auto; congruence. }
  assert (EC : forall i, (i < I0)%nat -> nth i (lhs_svds E cross fps (length regs) l2) (Mat 0 0 [], [], Mat 0 0 []) =
                 lhs_svd E (ridge (N:=RNum) (cross_product (N:=RNum) (cC c) (nthB c i)) (vg fps i) (length regs) l2)).
  { intros i Hi. unfold lhs_svds. rewrite (nth_map2 _ _ _ _ no_mat 0) by (rn; lia). f_equal. f_equal.
    unfold cross, A_cross. rewrite (nth_map2 _ _ _ _ no_mat no_mat) by (rn; lia). reflexivity. }
  assert (Hd : forall i, (i < I0)%nat -> let M := ridge (N:=RNum) (cross_product (N:=RNum) (cC c) (nthB c i)) (vg fps i) (length regs) l2 in
     mc M = n /\ has_svd M n (lhs_svd E M) /\ (finite_svd (lhs_svd E M) = true \/ al NonFinite)).
  { intros i Hi M. destruct (PSD i Hi) as (W & G1 & G2 & GP).
    destruct (ridge_shape (cross_product (N:=RNum) (cC c) (nthB c i)) (vg fps i) (length regs) l2) as (M1 & M2 & M3). fold M in M1, M2, M3.
    assert (HS : has_svd M n (lhs_svd E M)).
    { unfold lhs_svd. rewrite M1, G1. apply HE; auto; try congruence. rewrite M1, G1. apply le_n. }
    split; [congruence|]. split; [assumption|]. destruct Hl2 as [Hl2|Hl2]; [left|now right]. apply (ridge_finite _ n _ _ _ _ W G1 G2 GP) with (2 := HS).
    apply well_posed_mu; [lra|now apply FN|now left]. }
  eapply y_bind; [apply (y_inner al (uA_step q (lhs_svds E cross fps (length regs) l2) fps rhses) (uconv tol) (fun s => shaped (fst s) I0 n /\ Forall (relA q) (snd s)) k (cA c, regs))|].
  - auto.
  - intros (A1, r1) (I1 & I2). cbn [fst snd] in *. unfold uA_step, ushifted.
    eapply y_bind; [exact (y_map_true al _ _ _ (relA_sub q) I2)|]. intros sh _. destruct I1 as (WA1 & A11 & A12).
    eapply y_bind.
    { apply (y_mapM al _ (fun r => length r = n)). apply Forall_forall. intros i Hi. apply in_seq in Hi. rewrite EC by (rn; lia). destruct (Hd i) as (Z1 & Z2 & Z3); [rn; lia|].
      exact (y_solve_row al _ n _ _ Z3 Z1 Z2). }
    intros rows (Fr & Lr). rewrite seq_length in Lr.
    assert (HZs : shaped (Mat (N:=RNum) (mr A1) (mc A1) rows) I0 n).
    { split; [|split; cbn; assumption]. split; [exact Lr|]. cbn [me mc]. rewrite A12. exact Fr. }
    eapply y_bind; [apply (y_mapM al (uA_reg_step q fps (Mat (N:=RNum) (mr A1) (mc A1) rows)) (relA q) r1)|].
    { eapply Forall_impl; [|exact I2]. intros g Hg. apply A_rel; auto. }
    intros r2 (F2 & _). cbn [yields]. cbn [fst snd]. split; [auto|]. apply y_conv. cbn [fst snd]. apply (y_map_true al _ (relA q)); [|exact F2]. intros g. now apply relA_gap.
  - intros (A', r') (Q1 & Q2). cbn [yields fst snd]. exists A'. auto.
Qed.

(** *** B *)
Lemma B_rel fps Bs h : list_shaped I0 J n Bs -> length fps = I0 -> (forall i, (i < I0)%nat -> 0 <= vg fps i) -> relL h -> Y relL (uB_reg_step fps Bs h).
Proof.
  intros SB Lf Hf (SD & I & Ig & S). pose proof S as (S1 & S2 & _). unfold uB_reg_step. cbv zeta.
  eapply y_bind; [apply (S1 (map2 madd Bs (ub_dual h)) fps (ub_aux h)); auto|].
  { apply list_shaped_map2; [intros; now apply shaped_add|exact SB|apply SD]. }
  { apply Forall_forall. apply (in_nth _ _ 0). intros i Hi. apply Hf. rn; lia. }
  intros y Iy. eapply y_bind; [apply (S2 y (ub_dual h) Iy SD)|]. intros D SD'. cbn [yields]. split; cbn [ub_dual ub_aux ub_cls].
  - apply list_shaped_map2; [intros; now apply shaped_sub|exact SB|apply SD'].
  - exists I. auto.
Qed.
Lemma B_fail c regs l2 scale q k tol : fitting c -> 0 < l2 \/ al NonFinite -> 0 <= l2 -> 0 <= scale -> Forall relL regs ->
  Y (fun v => exists Bs, fst v = Cmf None (cA c) Bs (cC c) /\ list_shaped I0 J n Bs /\ Forall relL (snd v)) (uupdate_B E Xs c regs l2 k tol scale q).
Proof.
  intros Fc Hl2 Hl0 Hsc FR. destruct (fitting_shapes Xs n c Fc) as (SA & SB & SC & L0 & Hn & EK). destruct Fc as (HF & HN & MC). unfold uupdate_B. cbv zeta.
  pose proof (LX Xs c HF) as LB. pose proof (RX Xs c HF) as LA. destruct (HF_len Xs c HF) as (_ & LM).
  set (lhses := map2 (fun _ a => B_lhs (N:=RNum) (cC c) a) Xs (me (cA c))).
  set (rhses := map2 (fun X a => B_rhs (N:=RNum) X (cC c) a) Xs (me (cA c))).
  assert (Lc : length lhses = I0) by (unfold lhses; rewrite length_map2; rn; lia).
  destruct (feas_total scale q lhses) as (fps & Hf); [intros Z; rewrite Z in Lc; cbn in Lc; lia|]. rewrite Hf. cbn [bind].
  destruct (feas_penalties_spec _ _ _ _ Hf) as (Lf & Hrho'). rewrite Lc in Lf, Hrho'.
  assert (Hrho2 : rhos_used q I0 (rho_B scale c) (fun i => vg fps i)).
  { revert Hrho'. apply rhos_used_ext. intros i Hi. now apply B_fps_eq. }
  assert (FN : forall i, (i < I0)%nat -> 0 <= vg fps i).
  { intros i Hi. apply (rhos_used_nonneg _ _ _ (fun i => vg fps i) i Hrho2 Hi). intros; now apply rho_B_nonneg. }
  assert (EC : forall i, (i < I0)%nat -> nth i (lhs_svds E lhses fps (length regs) l2) (Mat 0 0 [], [], Mat 0 0 []) =
                 lhs_svd E (ridge (N:=RNum) (mmul (mtrans (GC c i)) (GC c i)) (vg fps i) (length regs) l2)).
  { intros i Hi. unfold lhs_svds. rewrite (nth_map2 _ _ _ _ no_mat 0) by (rn; lia). f_equal. f_equal.
    unfold lhses. rewrite (nth_map2 _ _ _ _ no_mat []) by (rn; lia). apply B_lhs_gram. }
  assert (Hd : forall i, (i < I0)%nat -> let M := ridge (N:=RNum) (mmul (mtrans (GC c i)) (GC c i)) (vg fps i) (length regs) l2 in
     mc M = n /\ has_svd M n (lhs_svd E M) /\ (finite_svd (lhs_svd E M) = true \/ al NonFinite)).
  { intros i Hi M. destruct (GC_shape Xs c HF i Hi) as (G1 & G2 & G3). rewrite MC in G3.
    destruct (ridge_shape (mmul (mtrans (GC c i)) (GC c i)) (vg fps i) (length regs) l2) as (M1 & M2 & M3). fold M in M1, M2, M3.
    revert M1 M2. mshape. intros M1 M2.
    assert (HS : has_svd M n (lhs_svd E M)).
    { unfold lhs_svd. rewrite M1, G3. apply HE; auto; try congruence. rewrite M1, G3. apply le_n. }
    split; [congruence|]. split; [assumption|]. destruct Hl2 as [Hl2|Hl2]; [left|now right].
    apply (ridge_finite (mmul (mtrans (GC c i)) (GC c i)) n _ (vg fps i) (length regs) l2); auto with mwf.
    - intros Z (WY & Y1 & Y2). rewrite gram_psd by (auto; congruence). apply nsq_nonneg.
    - apply well_posed_mu; [lra|now apply FN|now left]. }
  eapply y_bind; [apply (y_inner al (uB_step (lhs_svds E lhses fps (length regs) l2) fps rhses) (uconvs tol) (fun s => list_shaped I0 J n (fst s) /\ Forall relL (snd s)) k (cBs c, regs))|].
  - auto.
  - intros (B1, r1) (I1 & I2). cbn [fst snd] in *. unfold uB_step, ushifteds. pose proof I1 as (L1 & S1).
    eapply y_bind; [exact (y_map_true al _ _ _ relL_sub I2)|]. intros sh _.
    match goal with |- context[mapM ?f (seq 0 (length B1))] => destruct (mapM f (seq 0 (length B1))) as [rows|e] eqn:HZ end.
    2:{ cbn. assert (KY : Y (fun _ => True) (Err (A:=list rmat) e)); [|exact KY]. rewrite <- HZ. eapply y_true, y_mapM with (Q := fun _ => True). apply Forall_forall. intros i Hi. apply in_seq in Hi. rewrite EC by (rn; lia).
      destruct (Hd i) as (Z1 & Z2 & Z3); [rn; lia|]. eapply y_true. exact (y_solve al _ n _ _ Z3 Z1 Z2). }
    cbn [bind]. apply (mapM_inv _ _ _ 0%nat no_mat) in HZ. rewrite seq_length in HZ. destruct HZ as (Lr & HZ).
    assert (HZs : list_shaped I0 J n rows).
    { split; [rn; lia|]. intros i Hi. specialize (HZ i ltac:(rn; lia)). rewrite seq_nth in HZ by (rn; lia). cbn [Nat.add] in HZ.
      rewrite EC in HZ by (rn; lia). destruct (Hd i Hi) as (X1 & X2 & _).
      pose proof (solve_shape _ n _ _ _ X1 X2 HZ) as HS. revert HS. mshape. rewrite sum_mats_rows.
      unfold rhses. rewrite (nth_map2 _ _ _ _ no_mat []) by (rn; lia). unfold B_rhs. mshape. auto. }
    eapply y_bind; [apply (y_mapM al (uB_reg_step fps rows) relL r1)|].
    { eapply Forall_impl; [|exact I2]. intros h Hh. apply B_rel; auto. }
    intros r2 (F2 & _). cbn [yields]. cbn [fst snd]. split; [auto|]. apply y_conv. cbn [fst snd]. apply (y_map_true al _ relL); [|exact F2]. intros h. now apply relL_gap.
  - intros (B', r') (Q1 & Q2). cbn [yields fst snd]. exists B'. auto.
Qed.

(** *** a whole run *)
Definition rvalid (s : ustate (N:=RNum) X) : Prop :=
  fitting (us_cmf s) /\ Forall (relA (p_constA P)) (us_rA s) /\ Forall relL (us_rB s) /\ Forall (relM K) (us_rC s).
Hypothesis RA : p_updA P = true -> 0 < p_l2A P \/ al NonFinite.
Hypothesis RB : p_updB P = true -> 0 < p_l2B P \/ al NonFinite.
Hypothesis RC : p_updC P = true -> 0 < p_l2C P \/ al NonFinite.
Hypothesis HT : tols_ok P.

Lemma outer_fail s : rvalid s -> Y rvalid (uouter_step E P Xs s).
Proof.
  intros V. destruct HP as (PA & PB & PC & PS). unfold uouter_step.
  eapply y_bind with (Q := rvalid).
  { destruct V as (V1 & V3 & V4 & V5). unfold uupd_B. destruct (p_updB P); [|cbn; split; [exact V1|auto]].
    eapply y_bind; [apply (B_fail (us_cmf s) (us_rB s) (p_l2B P) (p_scale P) (p_constB P) (p_inner P) (p_inner_tol P) V1 (RB eq_refl) PB PS V4)|].
    intros (c', r') (Bs & Ec & SB' & FR). cbn [fst snd] in *. subst c'. cbn [yields]. destruct (fitting_shapes Xs n _ V1) as (SA & SB & SC & L0 & Hn & _).
    split; cbn [us_cmf us_rA us_rB us_rC]; [now apply shapes_fitting|auto]. }
  clear s V. intros s V. eapply y_bind with (Q := rvalid).
  { destruct V as (V1 & V3 & V4 & V5). unfold uupd_C. destruct (p_updC P); [|cbn; split; [exact V1|auto]].
    eapply y_bind; [apply (C_fail (us_cmf s) (us_rC s) (p_l2C P) (p_scale P) (p_inner P) (p_inner_tol P) V1 (RC eq_refl) PC PS V5)|].
    intros (c', r') (C & Ec & SB' & FR). cbn [fst snd] in *. subst c'. cbn [yields]. destruct (fitting_shapes Xs n _ V1) as (SA & SB & SC & L0 & Hn & _).
    split; cbn [us_cmf us_rA us_rB us_rC]; [now apply shapes_fitting|auto]. }
  clear s V. intros s V. pose proof V as (V1 & V3 & V4 & V5). unfold uupd_A. destruct (p_updA P); [|exact V].
  eapply y_bind; [apply (A_fail (us_cmf s) (us_rA s) (p_l2A P) (p_scale P) (p_constA P) (p_inner P) (p_inner_tol P) V1 (RA eq_refl) PA PS V3)|].
  intros ((c', r'), i) (A & Ec & SB' & FR). cbn [fst snd] in *. subst c'. cbn [yields]. destruct (fitting_shapes Xs n _ V1) as (SA & SB & SC & L0 & Hn & _).
  split; cbn [us_cmf us_rA us_rB us_rC]; [now apply shapes_fitting|auto].
Qed.
Lemma gaps_fail s : rvalid s -> Y (fun _ => True) (ustate_gaps s).
Proof.
  intros (V1 & V3 & V4 & V5). destruct (fitting_shapes Xs n _ V1) as (SA & SB & SC & _). unfold ustate_gaps, ucompute_gaps.
  eapply y_bind; [exact (y_map_true al (ugap (cA (us_cmf s))) _ _ (fun g => relA_gap _ _ g SA) V3)|]. intros x _.
  eapply y_bind; [exact (y_map_true al (ugaps (cBs (us_cmf s))) _ _ (fun h => relL_gap _ h SB) V4)|]. intros y _.
  eapply y_bind; [exact (y_map_true al (ugap (cC (us_cmf s))) _ _ (fun g => relM_gap _ _ g SC) V5)|]. intros z _. exact Logic.I.
Qed.
Lemma loss_fail s : rvalid s -> Y (fun _ => True) (ustate_loss P Xs s).
Proof.
  intros (V1 & V3 & V4 & V5). destruct (fitting_shapes Xs n _ V1) as (SA & SB & SC & _). unfold ustate_loss, ureg_penalty.
  eapply y_bind with (Q := fun _ => True); [|intros p _; destruct (ustate_error Xs s); exact Logic.I].
  eapply y_bind; [apply (y_map_true al (fun g => pen_method (ug_cls g) (inl (cA (us_cmf s)))) (relA (p_constA P)) (us_rA s))|].
  { intros g. unfold relA. destruct (p_constA P); [intros (_ & I & _ & _ & _ & S)|intros (_ & _ & _ & _ & S)]; now apply S. } { exact V3. }
  intros x _. eapply y_bind; [apply (y_map_true al (fun h => pen_method (ub_cls h) (inr (cBs (us_cmf s)))) relL (us_rB s))|].
  { intros h (_ & I & _ & _ & _ & S). now apply S. } { exact V4. }
  intros y _. eapply y_bind; [apply (y_map_true al (fun g => pen_method (ug_cls g) (inl (cC (us_cmf s)))) (relM K) (us_rC s))|].
  { intros g (_ & I & _ & _ & _ & S). now apply S. } { exact V5. }
  intros z _. exact Logic.I.
Qed.
Lemma loop_fail k : forall it s (h : hist), rvalid s -> Y (fun v => rvalid (fst (fst (fst v)))) (uloop E P Xs k it s h).
Proof.
  induction k as [|k IH]; intros it s h V; cbn [uloop]; [exact V|].
  eapply y_bind; [exact (outer_fail s V)|]. intros s1 V1.
  destruct (otruthy (p_tol P) || otruthy (p_abs_tol P)); destruct (p_return_errors P); cbn [orb];
    try (apply IH; assumption);
    (eapply y_bind; [exact (gaps_fail s1 V1)|]); intros g _;
    set (feas := match p_feas_tol P with Some t => ntruthy t && check_feasibility g t | None => false end);
    destruct feas; cbn [negb andb]; try (apply IH; assumption);
    (eapply y_bind; [exact (loss_fail s1 V1)|]); intros l _;
    (destruct (p_tol P) as [t|] eqn:ET; [|apply IH; assumption]);
    (destruct (ntruthy t) eqn:TT; [|apply IH; assumption]);
    (destruct (p_abs_tol P) as [ab|] eqn:EA;
      [|exfalso; apply HT; [|assumption]; exists t; split; [assumption|]; now apply ntruthy_R]);
    cbn [andb]; try (apply IH; assumption);
    (destruct (rel_crit t (last_x (h_losses h)) l); [exact V1|]);
    (destruct (xlt l ab); [exact V1|apply IH; assumption]).
Qed.
Lemma hist_fail s : rvalid s -> Y (fun _ => True) (uinit_hist P Xs s).
Proof.
  intros V. unfold uinit_hist. eapply y_bind; [exact (loss_fail s V)|]. intros l _. eapply y_bind; [exact (gaps_fail s V)|]. intros g _. exact Logic.I.
Qed.
Lemma urun_fail N s : rvalid s -> Y (fun v => rvalid (fst v)) (urun E P Xs N s).
Proof.
  intros V. unfold urun. eapply y_bind; [exact (hist_fail s V)|]. intros h0 _.
  eapply y_bind; [exact (loop_fail (Z.to_nat N) 0%nat s h0 V)|]. intros (((s', h'), it), msg) V'. cbn [fst] in V'.
  eapply y_bind with (Q := fun _ => True).
  { destruct (p_feas_tol P) as [t|]; [|exact Logic.I]. destruct (ntruthy t && p_return_errors P); [|exact Logic.I].
    eapply y_bind; [exact (gaps_fail s' V')|]. intros g _. exact Logic.I. }
  intros f _. rewrite revalidate_ok by apply V'. cbn [bind]. destruct (p_return_errors P); exact V'.
Qed.
End Run.
