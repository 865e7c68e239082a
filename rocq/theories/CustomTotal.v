(** Fits with penalties written by the user that always return. *)
From Coq Require Import Reals Lra Lia List Arith Bool ZArith.
From Verif Require Import Num Numpy Unimodal RFacts Spec SpecFacts MatFacts SvdFacts ModelSpec Penalties PenaltySpec
  ProxProofs TVProofs GenL2Proofs SimplexProofs Parafac2Proofs Parafac2Main PenaltyMain CoupledMatrices CmfSpec CmfProofs
  Decomp DecompSpec DecompFacts AdmmProofs AdmmB AdmmA AdmmRegs AdmmLoop AdmmOne AoState AoLoop AoRun AdmmOpt Total TotalRun
  InitVars InitSpec InitProofs Parse ParseSpec ParseProofs Fit FitSpec FitProofs P05_Runs P06_Init P11_Total
  Custom CustomBase CustomSpec CustomFit CustomCalls CustomTotalSpec.
Import ListNotations.
Local Open Scope R_scope.

Lemma inner_keeps {S} (step : S -> res S) (conv : S -> S -> res bool) (I : S -> Prop) n : forall s, I s ->
  (forall s, I s -> exists s', step s = Ok s' /\ I s' /\ exists b, conv s s' = Ok b) -> exists s', inner_loop step conv n s = Ok s' /\ I s'.
Proof.
  induction n as [|n IH]; intros s Hs H; cbn [inner_loop]; [eauto|].
  destruct (H s Hs) as (s' & -> & Hs' & b & Hb). cbn [bind]. rewrite Hb. cbn [bind]. destruct b; [eauto|]. now apply IH.
Qed.
Lemma mapM_keeps {A B} (f : A -> res B) (Q : B -> Prop) (l : list A) : Forall (fun x => exists y, f x = Ok y /\ Q y) l -> exists r, mapM f l = Ok r /\ Forall Q r /\ length r = length l.
Proof.
  induction 1 as [|x l (y & E & Qy) _ (r & Er & F & L)]; cbn [mapM]; [exists []; auto|]. rewrite E. cbn [bind]. rewrite Er. cbn [bind]. exists (y :: r). split; [reflexivity|]. cbn. auto.
Qed.
Lemma shaped_add (A B : rmat) r c : shaped A r c -> shaped (madd A B) r c.
Proof. intros (W & H1 & H2). split; [apply mwf_madd|]. mshape. auto. Qed.
Lemma shaped_sub (A B : rmat) r c : shaped A r c -> shaped (msub A B) r c.
Proof. intros (W & H1 & H2). split; [apply mwf_msub|]. mshape. auto. Qed.
Lemma list_shaped_map2 (f : rmat -> rmat -> rmat) n J c As Bs : (forall A B r, shaped A r c -> shaped (f A B) r c) ->
  list_shaped n J c As -> length Bs = n -> list_shaped n J c (map2 f As Bs).
Proof.
  intros Hf (L1 & H1) L2. split; [rewrite length_map2; rn; lia|]. intros i Hi. rewrite (nth_map2 f As Bs i no_mat no_mat) by (rn; lia). apply Hf. auto.
Qed.
Lemma conv_total tol x y gs : (exists g, gs = Ok g) -> exists b, inner_conv (N:=RNum) tol x y gs = Ok b.
Proof.
  intros (g & ->). unfold inner_conv. destruct tol as [t|]; [|eauto]. destruct (negb _ || _)%bool; [eauto|]. destruct (nltb _ _); [eauto|]. cbn [bind]. destruct (xmax_list g); eauto.
Qed.

Section User.
Context {X : Type}.
Variables (E : ext (N:=RNum)) (P : params (N:=RNum)) (Xs : list rmat) (n : nat).
Notation I0 := (length Xs).
Notation J := (rowsX Xs).
Notation K := (colsX Xs).
Hypothesis HX : Forall (fun X => mwf X /\ (0 < mr X)%nat /\ (0 < mc X)%nat) Xs.
Hypothesis HC : same_columns Xs.
Hypothesis HE : svd_correct E n.
Hypothesis HP : params_ok P.
Implicit Types (g : ureg (N:=RNum) X) (h : uregs (N:=RNum) X).

Definition regM (r : nat) g : Prop := shaped (ug_dual g) r n /\ exists I, I (ug_aux g) /\ sound_matrix r n I (ug_cls g).
Definition regR (r : nat) g : Prop := shaped (ug_dual g) r n /\ array r n (ug_aux g) /\ sound_rows r n (ug_cls g).
Definition regA (constant : bool) g : Prop := if constant then regM I0 g else regR I0 g.
Definition regL h : Prop := list_shaped I0 J n (ub_dual h) /\ exists I, I (ub_aux h) /\ sound_matrices I0 J n I (ub_cls h).
Definition fitting (c : rcmf) : Prop := data_fits Xs c /\ nonempty c /\ mc (cA c) = n.

Lemma fitting_shapes c : fitting c -> shaped (cA c) I0 n /\ list_shaped I0 J n (cBs c) /\ shaped (cC c) K n /\ (0 < I0)%nat /\ (0 < n)%nat /\ mr (cC c) = K.
Proof.
  intros (DF & (N1 & N2 & N3 & N4) & MC). pose proof DF as ((VA & VC & V3 & V4 & V5 & _) & L & H).
  assert (L0 : (0 < I0)%nat) by (rn; lia).
  assert (EK : mr (cC c) = K) by (unfold colsX; destruct (H 0%nat L0) as (_ & _ & K2); exact (eq_sym K2)).
  split; [split; [exact VA|split; [congruence|exact MC]]|]. split.
  - split; [exact (eq_sym L)|]. intros i Hi. destruct (V5 i ltac:(rn; lia)) as (W & Cc). split; [exact W|]. split; [|unfold nthB in Cc; congruence].
    destruct (H i Hi) as (_ & K1 & _). unfold rowsX. exact (eq_sym K1).
  - split; [split; [exact VC|split; [exact EK|congruence]]|]. split; [exact L0|]. split; [|exact EK]. rewrite <- MC. exact N3.
Qed.
Lemma shapes_fitting A Bs C : shaped A I0 n -> list_shaped I0 J n Bs -> shaped C K n -> (0 < I0)%nat -> (0 < n)%nat -> fitting (Cmf None A Bs C).
Proof.
  intros SA SB SC L0 Hn. pose proof (shaped_fits Xs n A Bs C HX HC SA SB SC) as DF. split; [exact DF|]. split; [|apply SA]. pose proof HX as HX'. rewrite Forall_forall in HX'.
  split; [cbn [cBs]; destruct SB as (-> & _); exact L0|]. split; [|split].
  - cbn [cC]. destruct SC as (_ & -> & _). unfold colsX. apply (HX' (nthX Xs 0)). apply nth_In. exact L0.
  - cbn [cA]. destruct SA as (_ & _ & ->). exact Hn.
  - cbn [cBs]. intros i Hi. destruct SB as (LB & SB). rewrite LB in Hi. unfold nthB. cbn [cBs]. destruct (SB i Hi) as (_ & -> & _). unfold rowsX. apply (HX' (nthX Xs i)). apply nth_In. exact Hi.
Qed.

(** *** gaps *)
Lemma regM_gap r M g : shaped M r n -> regM r g -> exists x, ugap M g = Ok x.
Proof. intros SM (_ & I & Ig & _ & S & _). unfold ugap. destruct (S _ _ Ig SM) as (D & -> & _). cbn [bind]. eauto. Qed.
Lemma regR_gap r M g : shaped M r n -> regR r g -> exists x, ugap M g = Ok x.
Proof. intros SM (_ & Ig & _ & S & _). unfold ugap. destruct (S _ _ Ig SM) as (D & -> & _). cbn [bind]. eauto. Qed.
Lemma regA_gap q M g : shaped M I0 n -> regA q g -> exists x, ugap M g = Ok x.
Proof. destruct q; [apply regM_gap|apply regR_gap]. Qed.
Lemma regL_gap Bs h : list_shaped I0 J n Bs -> regL h -> exists x, ugaps Bs h = Ok x.
Proof. intros SM (_ & I & Ig & _ & S & _). unfold ugaps. destruct (S _ _ Ig SM) as (D & -> & _). cbn [bind]. eauto. Qed.
Lemma all_some {A B} (f : A -> res B) (Q : A -> Prop) l : (forall x, Q x -> exists y, f x = Ok y) -> Forall Q l -> exists r, mapM f l = Ok r.
Proof. intros H F. apply mapM_total. rewrite Forall_forall in F. auto. Qed.

(** *** C *)
Lemma C_reg fp C g : shaped C K n -> 0 <= fp -> regM K g -> exists g', uC_reg_step fp C g = Ok g' /\ regM K g'.
Proof.
  intros SC Hf (SD & I & Ig & S). pose proof S as (S1 & S2 & _). unfold uC_reg_step. destruct (S1 (madd C (ug_dual g)) fp (ug_aux g)) as (y & -> & Iy); auto using shaped_add. cbn [bind].
  destruct (S2 y (ug_dual g) Iy SD) as (D & -> & SD'). cbn [bind]. eexists. split; [reflexivity|]. split; cbn [ug_dual ug_aux ug_cls]; [now apply shaped_sub|]. exists I. auto.
Qed.
Lemma C_ok c regs l2 scale k tol : fitting c -> 0 < l2 -> 0 <= scale -> Forall (regM K) regs ->
  exists C regs', uupdate_C E Xs c regs l2 k tol scale = Ok (Cmf None (cA c) (cBs c) C, regs') /\ shaped C K n /\ Forall (regM K) regs'.
Proof.
  intros Fc Hl2 Hsc FR. destruct (fitting_shapes c Fc) as (SA & SB & SC & L0 & Hn & EK). destruct Fc as (HF & HN & MC). unfold uupdate_C.
  destruct (nth_terms (fun _ D => mmul (mtrans D) D) Xs c no_mat HF) as (L1 & _).
  destruct (nth_terms (fun X D => mmul (mtrans X) D) Xs c no_mat HF) as (L2 & _).
  destruct (msum_some (C_lhs_terms Xs (cBs c) (cA c))) as (lhs & El).
  { unfold C_lhs_terms. intros Z. rewrite Z in L1. cbn in L1. lia. }
  destruct (msum_some (C_rhs_terms Xs (cBs c) (cA c))) as (rhs & Er).
  { unfold C_rhs_terms. intros Z. rewrite Z in L2. cbn in L2. lia. }
  rewrite El, Er. cbv zeta. set (fp := feas_penalty (N:=RNum) scale lhs).
  destruct (C_lhs_spec _ _ _ HF El) as ((W1 & S1 & S2) & HT & Hl & Ht). rewrite MC in S1, S2.
  assert (Hfp : fp = rho_C scale c).
  { unfold fp. rewrite feas_penalty_scale, Ht. unfold rho_C. rewrite Rmult_1_r. apply Rmult_comm. }
  assert (Hf0 : 0 <= fp) by (rewrite Hfp; now apply rho_C_nonneg).
  set (M := ridge (N:=RNum) lhs fp (length regs) l2).
  destruct (ridge_shape lhs fp (length regs) l2) as (M1 & M2 & M3). fold M in M1, M2, M3.
  assert (Hd : has_svd M n (lhs_svd E M)) by (unfold lhs_svd; rewrite M1, S1; apply HE; auto; try congruence; rewrite M1, S1; apply le_n).
  assert (Fin : finite_svd (lhs_svd E M) = true).
  { apply (ridge_finite lhs n _ fp (length regs) l2); auto.
    - intros Y (WY & Y1 & Y2). rewrite Hl by (auto; congruence). apply rsum_nonneg. intros i Hi.
      destruct (DA_shape Xs c i HF Hi) as (D1 & D2 & D3 & _). rewrite gram_psd by (auto; congruence). apply nsq_nonneg.
    - apply well_posed_mu; [lra|exact Hf0|now left]. }
  destruct (C_rhs_spec _ _ _ HF Er) as ((Wr & R1 & R2) & _).
  destruct (inner_keeps (uC_step (lhs_svd E M) fp rhs) (uconv tol) (fun s => shaped (fst s) K n /\ Forall (regM K) (snd s)) k (cC c, regs)) as ((C', r') & EL & (Q1 & Q2)).
  - auto.
  - intros (C1, r1) (I1 & I2). cbn [fst snd] in *. unfold uC_step.
    destruct (all_some (fun g => sub_method (ug_cls g) (ug_aux g) (ug_dual g)) (regM K) r1) as (sh & Hsh); [|exact I2|].
    { intros g (SD & I & Ig & _ & S & _). destruct (S _ _ Ig SD) as (D & -> & _). eauto. }
    unfold ushifted. rewrite Hsh. cbn [bind].
    destruct (solve_mat _ _) as [Z|] eqn:HZ.
    2:{ exfalso. unfold solve_mat in HZ. destruct (lhs_svd _ _) as [[U s] Vh]. rewrite Fin in HZ. discriminate. }
    cbn [bind].
    assert (HZs : shaped Z K n).
    { pose proof (solve_shape _ n _ _ _ ltac:(rewrite M2; exact S2) Hd HZ) as HS. revert HS. mshape. rewrite sum_mats_rows, R1, EK. auto. }
    destruct (mapM_keeps (uC_reg_step fp Z) (regM K) r1) as (r2 & E2 & F2 & _).
    { eapply Forall_impl; [|exact I2]. intros g Hg. now apply C_reg. }
    rewrite E2. cbn [bind]. exists (Z, r2). split; [reflexivity|]. cbn [fst snd]. split; [auto|]. apply conv_total. cbn [fst snd]. apply (all_some _ (regM K)); [|exact F2]. intros g. now apply regM_gap.
  - fold M. rewrite EL. cbn [bind]. exists C', r'. auto.
Qed.

(** *** A *)
Lemma A_reg q fps A g : shaped A I0 n -> length fps = I0 -> (forall i, (i < I0)%nat -> 0 <= vg fps i) -> (0 < I0)%nat -> regA q g -> exists g', uA_reg_step q fps A g = Ok g' /\ regA q g'.
Proof.
  intros SA Lf Hf L0. unfold uA_reg_step, regA. cbv zeta. destruct q.
  - intros (SD & I & Ig & S). pose proof S as (S1 & S2 & _). destruct (S1 (madd A (ug_dual g)) (nth 0 fps 0) (ug_aux g)) as (y & Ey & Iy); [now apply shaped_add|now apply (Hf 0%nat)|exact Ig|].
    change (nth 0 fps n0) with (nth 0 fps 0). rewrite Ey. cbn [bind].
    destruct (S2 y (ug_dual g) Iy SD) as (D & -> & SD'). cbn [bind]. eexists. split; [reflexivity|]. split; cbn [ug_dual ug_aux ug_cls]; [now apply shaped_sub|]. exists I. auto.
  - intros (SD & (B & EB & SB) & S). pose proof S as (S1 & S2 & _). unfold urows_update. rewrite EB.
    assert (SV : shaped (madd A (ug_dual g)) I0 n) by now apply shaped_add. set (V := madd A (ug_dual g)) in *.
    destruct (mapM_keeps (fun i => row_method (ug_cls g) (mrow V i) (nth i fps n0) (mrow B i)) (fun r => length r = n) (seq 0 (length fps))) as (rows & Er & Fr & Lr).
    { apply Forall_forall. intros i Hi. apply in_seq in Hi. apply S1.
      - destruct SV as (W & R1 & R2). unfold mrow. rewrite <- R2. apply (proj1 (Forall_forall _ _) (proj2 W)). apply nth_In. rewrite (proj1 W), R1. rn; lia.
      - destruct SB as (W & R1 & R2). unfold mrow. rewrite <- R2. apply (proj1 (Forall_forall _ _) (proj2 W)). apply nth_In. rewrite (proj1 W), R1. rn; lia.
      - apply (Hf i). rn; lia. }
    rewrite Er. cbn [bind].
    assert (SM : shaped (Mat (N:=RNum) (mr V) (mc V) rows) I0 n).
    { destruct SV as (W & R1 & R2). split; [|split; [exact R1|exact R2]]. split; cbn [me mr mc]; [rewrite Lr, seq_length, R1; exact Lf|]. rewrite R2. exact Fr. }
    destruct (S2 (UMat (Mat (mr V) (mc V) rows)) (ug_dual g)) as (D & -> & SD'); [eexists; eauto|exact SD|]. cbn [bind]. eexists. split; [reflexivity|].
    split; cbn [ug_dual ug_aux ug_cls]; [now apply shaped_sub|]. split; [eexists; eauto|exact S].
Qed.
Lemma A_ok c regs l2 scale q k tol : fitting c -> 0 < l2 -> 0 <= scale -> Forall (regA q) regs ->
  exists A regs' i, uupdate_A E Xs c regs l2 k tol scale q = Ok (Cmf None A (cBs c) (cC c), regs', i) /\ shaped A I0 n /\ Forall (regA q) regs'.
Proof.
  intros Fc Hl2 Hsc FR. destruct (fitting_shapes c Fc) as (SA & SB & SC & L0 & Hn & EK). destruct Fc as (HF & HN & MC). unfold uupdate_A. cbv zeta.
  pose proof (LX Xs c HF) as LB. pose proof (RX Xs c HF) as LA.
  set (cross := A_cross (N:=RNum) (cBs c) (cC c) Xs). set (rhses := A_rhses (N:=RNum) (cBs c) (cC c) Xs).
  assert (Lc : length cross = I0) by (unfold cross, A_cross; rewrite length_map2; rn; lia).
  destruct (feas_total scale q cross) as (fps & Hf); [intros Z; rewrite Z in Lc; cbn in Lc; lia|]. rewrite Hf. cbn [bind].
  destruct (feas_penalties_spec _ _ _ _ Hf) as (Lf & Hrho'). rewrite Lc in Lf, Hrho'.
  assert (Hrho2 : rhos_used q I0 (rho_A scale c) (fun i => vg fps i)).
  { revert Hrho'. apply rhos_used_ext. intros i Hi. now apply A_fps_eq. }
  assert (FN : forall i, (i < I0)%nat -> 0 <= vg fps i).
  { intros i Hi. apply (rhos_used_nonneg _ _ _ (fun i => vg fps i) i Hrho2 Hi). intros; now apply rho_A_nonneg. }
  assert (PSD : forall i, (i < I0)%nat -> let G := cross_product (N:=RNum) (cC c) (nthB c i) in
     mwf G /\ mr G = n /\ mc G = n /\ forall Y, shaped Y 1 n -> 0 <= mip (mmul Y G) Y).
  { intros i Hi G. destruct HF as ((V1 & V2 & V3 & V4 & V5 & V6) & L & HX0). destruct (V5 i ltac:(rn; lia)) as (WB & CB).
    unfold G, cross_product. split; [auto with mwf|]. mshape. split; [congruence|]. split; [congruence|].
    intros Y HY. destruct (shaped_rowm _ _ HY) as (v & Lv & ->). apply cross_psd; auto; congruence. }
  assert (EC : forall i, (i < I0)%nat -> nth i (lhs_svds E cross fps (length regs) l2) (Mat 0 0 [], [], Mat 0 0 []) =
                 lhs_svd E (ridge (N:=RNum) (cross_product (N:=RNum) (cC c) (nthB c i)) (vg fps i) (length regs) l2)).
  { intros i Hi. unfold lhs_svds. rewrite (nth_map2 _ _ _ _ no_mat 0) by (rn; lia). f_equal. f_equal.
    unfold cross, A_cross. rewrite (nth_map2 _ _ _ _ no_mat no_mat) by (rn; lia). reflexivity. }
  assert (Hd : forall i, (i < I0)%nat -> let M := ridge (N:=RNum) (cross_product (N:=RNum) (cC c) (nthB c i)) (vg fps i) (length regs) l2 in
     mc M = n /\ has_svd M n (lhs_svd E M) /\ finite_svd (lhs_svd E M) = true).
  { intros i Hi M. destruct (PSD i Hi) as (W & G1 & G2 & GP).
    destruct (ridge_shape (cross_product (N:=RNum) (cC c) (nthB c i)) (vg fps i) (length regs) l2) as (M1 & M2 & M3). fold M in M1, M2, M3.
    assert (HS : has_svd M n (lhs_svd E M)).
    { unfold lhs_svd. rewrite M1, G1. apply HE; auto; try congruence. rewrite M1, G1. apply le_n. }
    split; [congruence|]. split; [assumption|]. apply (ridge_finite _ n _ _ _ _ W G1 G2 GP) with (2 := HS).
    apply well_posed_mu; [lra|now apply FN|now left]. }
  destruct (inner_keeps (uA_step q (lhs_svds E cross fps (length regs) l2) fps rhses) (uconv tol) (fun s => shaped (fst s) I0 n /\ Forall (regA q) (snd s)) k (cA c, regs)) as ((A', r') & EL & (Q1 & Q2)).
  - auto.
  - intros (A1, r1) (I1 & I2). cbn [fst snd] in *. unfold uA_step.
    destruct (all_some (fun g => sub_method (ug_cls g) (ug_aux g) (ug_dual g)) (regA q) r1) as (sh & Hsh); [|exact I2|].
    { intros g. unfold regA. destruct q; [intros (SD & I & Ig & _ & S & _)|intros (SD & Ig & _ & S & _)]; destruct (S _ _ Ig SD) as (D & -> & _); eauto. }
    unfold ushifted. rewrite Hsh. cbn [bind]. destruct I1 as (WA1 & A11 & A12).
    match goal with |- context[mapM ?f (seq 0 (mr A1))] => destruct (mapM_total f (seq 0 (mr A1))) as (rows & HZ) end.
    { intros i Hi. apply in_seq in Hi. rewrite EC by (rn; lia). destruct (Hd i) as (_ & _ & Z); [rn; lia|].
      unfold solve_row. destruct (lhs_svd _ _) as [[U s] Vh]. rewrite Z. eexists; reflexivity. }
    rewrite HZ. cbn [bind].
    apply (mapM_inv _ _ _ 0%nat (@nil R)) in HZ. rewrite seq_length in HZ. destruct HZ as (Lr & HZ).
    assert (HZs : shaped (Mat (N:=RNum) (mr A1) (mc A1) rows) I0 n).
    { split; [|split; cbn; assumption]. split; [exact Lr|]. apply Forall_forall. apply (in_nth _ _ (@nil R)). cbn [me mc]. intros i Hi.
      rn. rewrite Lr in Hi. specialize (HZ i Hi). rewrite seq_nth in HZ by assumption. cbn [Nat.add] in HZ. rewrite EC in HZ by (rn; lia).
      destruct (Hd i) as (X1 & X2 & _); [rn; lia|]. rewrite (solve_row_len _ n _ _ _ X1 X2 HZ). now symmetry. }
    match goal with |- context[mapM (uA_reg_step q fps ?Z) r1] => destruct (mapM_keeps (uA_reg_step q fps Z) (regA q) r1) as (r2 & E2 & F2 & _) end.
    { eapply Forall_impl; [|exact I2]. intros g Hg. apply A_reg; auto. }
    rewrite E2. cbn [bind]. eexists. split; [reflexivity|]. cbn [fst snd]. split; [auto|]. apply conv_total. cbn [fst snd]. apply (all_some _ (regA q)); [|exact F2]. intros g. now apply regA_gap.
  - rewrite EL. cbn [bind]. exists A', r', (rhses, cross). auto.
Qed.

(** *** B *)
Lemma B_reg fps Bs h : list_shaped I0 J n Bs -> length fps = I0 -> (forall i, (i < I0)%nat -> 0 <= vg fps i) -> regL h -> exists h', uB_reg_step fps Bs h = Ok h' /\ regL h'.
Proof.
  intros SB Lf Hf (SD & I & Ig & S). pose proof S as (S1 & S2 & _). unfold uB_reg_step. cbv zeta.
  destruct (S1 (map2 madd Bs (ub_dual h)) fps (ub_aux h)) as (y & -> & Iy); auto.
  { apply list_shaped_map2; [intros; now apply shaped_add|exact SB|apply SD]. }
  { apply Forall_forall. apply (in_nth _ _ 0). intros i Hi. apply Hf. rn; lia. }
  cbn [bind]. destruct (S2 y (ub_dual h) Iy SD) as (D & -> & SD'). cbn [bind]. eexists. split; [reflexivity|]. split; cbn [ub_dual ub_aux ub_cls].
  - apply list_shaped_map2; [intros; now apply shaped_sub|exact SB|apply SD'].
  - exists I. auto.
Qed.
Lemma B_ok c regs l2 scale q k tol : fitting c -> 0 < l2 -> 0 <= scale -> Forall regL regs ->
  exists Bs regs', uupdate_B E Xs c regs l2 k tol scale q = Ok (Cmf None (cA c) Bs (cC c), regs') /\ list_shaped I0 J n Bs /\ Forall regL regs'.
Proof.
  intros Fc Hl2 Hsc FR. destruct (fitting_shapes c Fc) as (SA & SB & SC & L0 & Hn & EK). destruct Fc as (HF & HN & MC). unfold uupdate_B. cbv zeta.
  pose proof (LX Xs c HF) as LB. pose proof (RX Xs c HF) as LA. destruct (HF_len Xs c HF) as (_ & LM).
  set (lhses := map2 (fun _ a => B_lhs (N:=RNum) (cC c) a) Xs (me (cA c))).
  set (rhses := map2 (fun X a => B_rhs (N:=RNum) X (cC c) a) Xs (me (cA c))).
  assert (Lc : length lhses = I0) by (unfold lhses; rewrite length_map2; rn; lia).
  destruct (feas_total scale q lhses) as (fps & Hf); [intros Z; rewrite Z in Lc; cbn in Lc; lia|]. rewrite Hf. cbn [bind].
  destruct (feas_penalties_spec _ _ _ _ Hf) as (Lf & Hrho'). rewrite Lc in Lf, Hrho'.
  assert (Hrho2 : rhos_used q I0 (rho_B scale c) (fun i => vg fps i)).
  { revert Hrho'. apply rhos_used_ext. intros i Hi. now apply B_fps_eq. }
  assert (FN : forall i, (i < I0)%nat -> 0 <= vg fps i).
  { intros i Hi. apply (rhos_used_nonneg _ _ _ (fun i => vg fps i) i Hrho2 Hi). intros; now apply rho_B_nonneg. }
  assert (EC : forall i, (i < I0)%nat -> nth i (lhs_svds E lhses fps (length regs) l2) (Mat 0 0 [], [], Mat 0 0 []) =
                 lhs_svd E (ridge (N:=RNum) (mmul (mtrans (GC c i)) (GC c i)) (vg fps i) (length regs) l2)).
  { intros i Hi. unfold lhs_svds. rewrite (nth_map2 _ _ _ _ no_mat 0) by (rn; lia). f_equal. f_equal.
    unfold lhses. rewrite (nth_map2 _ _ _ _ no_mat []) by (rn; lia). apply B_lhs_gram. }
  assert (Hd : forall i, (i < I0)%nat -> let M := ridge (N:=RNum) (mmul (mtrans (GC c i)) (GC c i)) (vg fps i) (length regs) l2 in
     mc M = n /\ has_svd M n (lhs_svd E M) /\ finite_svd (lhs_svd E M) = true).
  { intros i Hi M. destruct (GC_shape Xs c HF i Hi) as (G1 & G2 & G3). rewrite MC in G3.
    destruct (ridge_shape (mmul (mtrans (GC c i)) (GC c i)) (vg fps i) (length regs) l2) as (M1 & M2 & M3). fold M in M1, M2, M3.
    revert M1 M2. mshape. intros M1 M2.
    assert (HS : has_svd M n (lhs_svd E M)).
    { unfold lhs_svd. rewrite M1, G3. apply HE; auto; try congruence. rewrite M1, G3. apply le_n. }
    split; [congruence|]. split; [assumption|].
    apply (ridge_finite (mmul (mtrans (GC c i)) (GC c i)) n _ (vg fps i) (length regs) l2); auto with mwf.
    - intros Y (WY & Y1 & Y2). rewrite gram_psd by (auto; congruence). apply nsq_nonneg.
    - apply well_posed_mu; [lra|now apply FN|now left]. }
  destruct (inner_keeps (uB_step (lhs_svds E lhses fps (length regs) l2) fps rhses) (uconvs tol) (fun s => list_shaped I0 J n (fst s) /\ Forall regL (snd s)) k (cBs c, regs)) as ((B', r') & EL & (Q1 & Q2)).
  - auto.
  - intros (B1, r1) (I1 & I2). cbn [fst snd] in *. unfold uB_step. pose proof I1 as (L1 & S1).
    destruct (all_some (fun h => subs_method (ub_cls h) (ub_aux h) (ub_dual h)) regL r1) as (sh & Hsh); [|exact I2|].
    { intros h (SD & I & Ig & _ & S & _). destruct (S _ _ Ig SD) as (D & -> & _). eauto. }
    unfold ushifteds. rewrite Hsh. cbn [bind].
    match goal with |- context[mapM ?f (seq 0 (length B1))] => destruct (mapM_total f (seq 0 (length B1))) as (rows & HZ) end.
    { intros i Hi. apply in_seq in Hi. rewrite EC by (rn; lia). destruct (Hd i) as (_ & _ & Z); [rn; lia|].
      unfold solve_mat. destruct (lhs_svd _ _) as [[U s] Vh]. rewrite Z. eexists; reflexivity. }
    rewrite HZ. cbn [bind].
    apply (mapM_inv _ _ _ 0%nat no_mat) in HZ. rewrite seq_length in HZ. destruct HZ as (Lr & HZ).
    assert (HZs : list_shaped I0 J n rows).
    { split; [rn; lia|]. intros i Hi. specialize (HZ i ltac:(rn; lia)). rewrite seq_nth in HZ by (rn; lia). cbn [Nat.add] in HZ.
      rewrite EC in HZ by (rn; lia). destruct (Hd i Hi) as (X1 & X2 & _).
      pose proof (solve_shape _ n _ _ _ X1 X2 HZ) as HS. revert HS. mshape. rewrite sum_mats_rows.
      unfold rhses. rewrite (nth_map2 _ _ _ _ no_mat []) by (rn; lia). unfold B_rhs. mshape. auto. }
    match goal with |- context[mapM (uB_reg_step fps ?Z) r1] => destruct (mapM_keeps (uB_reg_step fps Z) regL r1) as (r2 & E2 & F2 & _) end.
    { eapply Forall_impl; [|exact I2]. intros h Hh. apply B_reg; auto. }
    rewrite E2. cbn [bind]. eexists. split; [reflexivity|]. cbn [fst snd]. split; [auto|]. apply conv_total. cbn [fst snd]. apply (all_some _ regL); [|exact F2]. intros h. now apply regL_gap.
  - rewrite EL. cbn [bind]. exists B', r'. auto.
Qed.

(** *** a whole run *)
Definition uvalid (s : ustate (N:=RNum) X) : Prop :=
  fitting (us_cmf s) /\ Forall (regA (p_constA P)) (us_rA s) /\ Forall regL (us_rB s) /\ Forall (regM K) (us_rC s).
Hypothesis RA : p_updA P = true -> 0 < p_l2A P.
Hypothesis RB : p_updB P = true -> 0 < p_l2B P.
Hypothesis RC : p_updC P = true -> 0 < p_l2C P.
Hypothesis HT : tols_ok P.

Lemma outer_ok s : uvalid s -> exists s', uouter_step E P Xs s = Ok s' /\ uvalid s'.
Proof.
  destruct s as [c rA rB rC inter]. intros (V1 & V3 & V4 & V5). cbn [us_cmf us_rA us_rB us_rC] in *. destruct HP as (PA & PB & PC & PS). unfold uouter_step, uupd_B, uupd_C, uupd_A. cbn [us_cmf us_rA us_rB us_rC us_inter].
  assert (KB : exists c' r', (if p_updB P then let* (c0, r) := uupdate_B E Xs c rB (p_l2B P) (p_inner P) (p_inner_tol P) (p_scale P) (p_constB P) in Ok (USt c0 rA r rC None) else Ok (USt c rA rB rC None)) = Ok (USt c' rA r' rC None) /\ fitting c' /\ Forall regL r').
  { destruct (p_updB P); [|eauto]. destruct (B_ok c rB (p_l2B P) (p_scale P) (p_constB P) (p_inner P) (p_inner_tol P) V1 (RB eq_refl) PS V4) as (Bs & r' & -> & SB' & FR). cbn [bind].
    destruct (fitting_shapes c V1) as (SA & SB & SC & L0 & Hn & _). eexists _, _. split; [reflexivity|]. split; [now apply shapes_fitting|exact FR]. }
  destruct KB as (c1 & r1 & -> & V1' & V4'). cbn [bind us_cmf us_rA us_rB us_rC us_inter].
  assert (KC : exists c' r', (if p_updC P then let* (c0, r) := uupdate_C E Xs c1 rC (p_l2C P) (p_inner P) (p_inner_tol P) (p_scale P) in Ok (USt c0 rA r1 r None) else Ok (USt c1 rA r1 rC None)) = Ok (USt c' rA r1 r' None) /\ fitting c' /\ Forall (regM K) r').
  { destruct (p_updC P); [|eauto]. destruct (C_ok c1 rC (p_l2C P) (p_scale P) (p_inner P) (p_inner_tol P) V1' (RC eq_refl) PS V5) as (C & r' & -> & SC' & FR). cbn [bind].
    destruct (fitting_shapes c1 V1') as (SA & SB & SC & L0 & Hn & _). eexists _, _. split; [reflexivity|]. split; [now apply shapes_fitting|exact FR]. }
  destruct KC as (c2 & r2 & -> & V1'' & V5'). cbn [bind us_cmf us_rA us_rB us_rC us_inter].
  destruct (p_updA P); [|eexists; split; [reflexivity|split; auto]].
  destruct (A_ok c2 rA (p_l2A P) (p_scale P) (p_constA P) (p_inner P) (p_inner_tol P) V1'' (RA eq_refl) PS V3) as (A & r' & i & -> & SA' & FR). cbn [bind].
  destruct (fitting_shapes c2 V1'') as (SA & SB & SC & L0 & Hn & _). eexists. split; [reflexivity|]. split; cbn [us_cmf us_rA us_rB us_rC]; [now apply shapes_fitting|auto].
Qed.
Lemma gaps_total s : uvalid s -> exists x : gaps, ustate_gaps s = Ok x.
Proof.
  intros (V1 & V3 & V4 & V5). destruct (fitting_shapes _ V1) as (SA & SB & SC & _). unfold ustate_gaps, ucompute_gaps.
  destruct (all_some (ugap (cA (us_cmf s))) _ _ (fun g => regA_gap _ _ g SA) V3) as (x & ->). cbn [bind].
  destruct (all_some (ugaps (cBs (us_cmf s))) _ _ (fun h => regL_gap _ h SB) V4) as (y & ->). cbn [bind].
  destruct (all_some (ugap (cC (us_cmf s))) _ _ (fun g => regM_gap _ _ g SC) V5) as (z & ->). cbn [bind]. eauto.
Qed.
Lemma loss_total s : uvalid s -> exists l, ustate_loss P Xs s = Ok l.
Proof.
  intros (V1 & V3 & V4 & V5). destruct (fitting_shapes _ V1) as (SA & SB & SC & _). unfold ustate_loss, ureg_penalty.
  destruct (all_some (fun g => pen_method (ug_cls g) (inl (cA (us_cmf s)))) (regA (p_constA P)) (us_rA s)) as (x & ->).
  { intros g. unfold regA. destruct (p_constA P); [intros (_ & I & _ & _ & _ & S)|intros (_ & _ & _ & _ & S)]; now apply S. } { exact V3. }
  cbn [bind]. destruct (all_some (fun h => pen_method (ub_cls h) (inr (cBs (us_cmf s)))) regL (us_rB s)) as (y & ->).
  { intros h (_ & I & _ & _ & _ & S). now apply S. } { exact V4. }
  cbn [bind]. destruct (all_some (fun g => pen_method (ug_cls g) (inl (cC (us_cmf s)))) (regM K) (us_rC s)) as (z & ->).
  { intros g (_ & I & _ & _ & _ & S). now apply S. } { exact V5. }
  cbn [bind]. destruct (ustate_error Xs s); eauto.
Qed.
Lemma loop_ok k : forall it s (h : hist), uvalid s -> exists s' (h' : hist) it' msg, uloop E P Xs k it s h = Ok (s', h', it', msg) /\ uvalid s'.
Proof.
  induction k as [|k IH]; intros it s h V; cbn [uloop]; [now exists s, h, it, MaxIter|].
  destruct (outer_ok s V) as (s1 & -> & V1). cbn [bind].
  destruct (otruthy (p_tol P) || otruthy (p_abs_tol P)); destruct (p_return_errors P); cbn [orb];
    try (apply IH; assumption);
    destruct (gaps_total s1 V1) as (g & ->); cbn [bind];
    set (feas := match p_feas_tol P with Some t => ntruthy t && check_feasibility g t | None => false end);
    destruct feas; cbn [negb andb]; try (apply IH; assumption);
    destruct (loss_total s1 V1) as (l & ->); cbn [bind];
    (destruct (p_tol P) as [t|] eqn:ET; [|apply IH; assumption]);
    (destruct (ntruthy t) eqn:TT; [|apply IH; assumption]);
    (destruct (p_abs_tol P) as [ab|] eqn:EA;
      [|exfalso; apply HT; [|assumption]; exists t; split; [assumption|]; now apply ntruthy_R]);
    cbn [andb]; try (apply IH; assumption);
    (destruct (rel_crit t (last_x (h_losses h)) l); [do 4 eexists; split; [reflexivity|assumption]|]);
    (destruct (xlt l ab); [do 4 eexists; split; [reflexivity|assumption]|apply IH; assumption]).
Qed.
Lemma urun_total N s : uvalid s -> exists (z : hist) s' d, uinit_hist P Xs s = Ok z /\ urun E P Xs N s = Ok (s', d) /\ uvalid s'.
Proof.
  intros V. unfold urun, uinit_hist. destruct (loss_total s V) as (l & ->). cbn [bind].
  destruct (gaps_total s V) as (g & ->). cbn [bind].
  destruct (loop_ok (Z.to_nat N) 0%nat s (Hist [ustate_error Xs s] [g] [l]) V) as (s' & h' & it' & msg & -> & V'). cbn [bind].
  match goal with |- exists z s' d, _ /\ (let* feas := ?x in _) = _ /\ _ => assert (KF : exists f, x = Ok f) end.
  { destruct (p_feas_tol P) as [t|]; [|eexists; reflexivity]. destruct (ntruthy t && p_return_errors P); [|eexists; reflexivity].
    destruct (gaps_total s' V') as (g' & ->). cbn [bind]. eexists; reflexivity. }
  destruct KF as (f & ->). cbn [bind]. rewrite revalidate_ok by apply V'. cbn [bind]. eexists.
  destruct (p_return_errors P); eexists _, _; (split; [reflexivity|split; [reflexivity|exact V']]).
Qed.
End User.

(** ** The templates: what is sound for a row is sound for a matrix, and for all matrices *)
Section Templates.
Context {X : Type}.
Implicit Types (c : cls (N:=RNum) X).
Lemma by_rows_ok (f : list R -> R -> list R -> res (list R)) rho k : (forall row old, length row = k -> length old = k -> exists new, f row rho old = Ok new /\ length new = k) ->
  forall rows aux, length aux = length rows -> Forall (fun r => length r = k) rows -> Forall (fun r => length r = k) aux ->
  exists r, by_rows (N:=RNum) f rho rows aux = Ok r /\ length r = length rows /\ Forall (fun r => length r = k) r.
Proof.
  intros H. induction rows as [|x rows IH]; intros [|y aux] L F1 F2; try discriminate; cbn [by_rows]; [exists []; auto|].
  inversion F1; inversion F2; subst. destruct (H x y) as (z & Ez & Lz); auto. rewrite Ez. cbn [bind].
  destruct (IH aux) as (r & Er & Lr & Fr); auto. rewrite Er. cbn [bind]. exists (z :: r). split; [reflexivity|]. cbn [length]. split; [now rewrite Lr|constructor; auto].
Qed.
Lemma rows_matrix r k c : u_base c = BRow -> u_mat c = None -> sound_rows r k c -> sound_matrix r k (array r k) c.
Proof.
  intros HB HM (S1 & S2 & S3). split; [|split; assumption]. intros V rho x (WV & V1 & V2) Hr (A & -> & (WA & A1 & A2)). unfold mat_method. rewrite HM, HB.
  pose proof WV as (W1 & W2). pose proof WA as (W3 & W4).
  destruct (by_rows_ok (row_method c) rho k (fun row old L1 L2 => S1 row rho old L1 L2 Hr) (me V) (me A)) as (rows & -> & L & F).
  - rewrite W1, W3. congruence.
  - rewrite <- V2. exact W2.
  - rewrite <- A2. exact W4.
  - cbn [bind]. eexists. split; [reflexivity|]. eexists. split; [reflexivity|]. split; [|split; cbn [mr mc]; assumption]. split; cbn [me mr mc]; [rn; congruence|]. rewrite V2. exact F.
Qed.
Lemma by_matrices_ok (f : matR -> R -> uaux (N:=RNum) X -> res (uaux X)) k : forall n J (I : nat -> uaux (N:=RNum) X -> Prop) Vs rhos l d,
  (forall i V rho x, (i < n)%nat -> shaped V (J i) k -> 0 <= rho -> I i x -> exists y, f V rho x = Ok y /\ I i y) ->
  list_shaped n J k Vs -> length rhos = n -> Forall (fun rho => 0 <= rho) rhos -> length l = n -> (forall i, (i < n)%nat -> I i (nth i l d)) ->
  exists r, by_matrices (N:=RNum) f Vs rhos l = Ok r /\ length r = n /\ forall i, (i < n)%nat -> I i (nth i r d).
Proof.
  induction n as [|n IH]; intros J I Vs rhos l d H (LV & SV) Lr Fr Ll Hl.
  - destruct Vs; [|discriminate]. cbn [by_matrices]. exists []. split; [reflexivity|]. split; [reflexivity|]. intros i Hi. lia.
  - destruct Vs as [|V Vs]; [discriminate|]. destruct rhos as [|rho rhos]; [discriminate|]. destruct l as [|x l]; [discriminate|]. cbn [by_matrices].
    inversion Fr as [|? ? F1 F2]; subst. destruct (H 0%nat V rho x) as (y & Ey & Iy); [lia|apply (SV 0%nat); lia|exact F1|apply (Hl 0%nat); lia|]. rewrite Ey. cbn [bind].
    destruct (IH (fun i => J (S i)) (fun i => I (S i)) Vs rhos l d) as (r & Er & Lr' & Hr); [intros i; intros; apply (H (S i)); auto; lia| |now injection Lr|exact F2|now injection Ll|intros i Hi; apply (Hl (S i)); lia|].
    { split; [now injection LV|]. intros i Hi. apply (SV (S i)). lia. }
    rewrite Er. cbn [bind]. exists (y :: r). split; [reflexivity|]. split; [cbn; now rewrite Lr'|]. intros [|i] Hi; [exact Iy|]. cbn [nth]. apply Hr. lia.
Qed.
Lemma by_pairs_ok (f : uaux (N:=RNum) X -> matR -> res matR) k : forall n J (I : nat -> uaux (N:=RNum) X -> Prop) l Ms d,
  (forall i x M, (i < n)%nat -> I i x -> shaped M (J i) k -> exists D, f x M = Ok D /\ shaped D (J i) k) ->
  list_shaped n J k Ms -> length l = n -> (forall i, (i < n)%nat -> I i (nth i l d)) ->
  exists r, by_pairs (N:=RNum) f l Ms = Ok r /\ list_shaped n J k r.
Proof.
  induction n as [|n IH]; intros J I l Ms d H (LM & SM) Ll Hl.
  - destruct l; [|discriminate]. cbn [by_pairs]. exists []. split; [reflexivity|]. split; [reflexivity|]. intros i Hi. lia.
  - destruct l as [|x l]; [discriminate|]. destruct Ms as [|M Ms]; [discriminate|]. cbn [by_pairs].
    destruct (H 0%nat x M) as (y & Ey & Sy); [lia|apply (Hl 0%nat); lia|apply (SM 0%nat); lia|]. rewrite Ey. cbn [bind].
    destruct (IH (fun i => J (S i)) (fun i => I (S i)) l Ms d) as (r & Er & Lr & Sr); [intros i; intros; apply (H (S i)); auto; lia| |now injection Ll|intros i Hi; apply (Hl (S i)); lia|].
    { split; [now injection LM|]. intros i Hi. apply (SM (S i)). lia. }
    rewrite Er. cbn [bind]. exists (y :: r). split; [reflexivity|]. split; [cbn; now rewrite Lr|]. intros [|i] Hi; [exact Sy|]. cbn [nth]. apply Sr. lia.
Qed.
Definition each (n : nat) (I : nat -> uaux (N:=RNum) X -> Prop) (x : uauxes (N:=RNum) X) : Prop :=
  exists l, x = UList l /\ length l = n /\ forall i, (i < n)%nat -> I i (nth i l (UMat (no_mat))).
Lemma matrix_matrices n J k (I : nat -> uaux (N:=RNum) X -> Prop) c : u_base c <> BMatrices -> u_mats c = None -> u_subs c = None ->
  (forall i, (i < n)%nat -> sound_matrix (J i) k (I i) c) -> (forall Ms, list_shaped n J k Ms -> exists v, pen_method c (inr Ms) = Ok v) ->
  sound_matrices n J k (each n I) c.
Proof.
  intros HB HM HS H HP. split; [|split; [|exact HP]].
  - intros Vs rhos x SV Lr Fr (l & -> & Ll & Hl). unfold mats_method. rewrite HM.
    destruct (by_matrices_ok (mat_method c) k n J I Vs rhos l (UMat no_mat)) as (r & Er & Lr' & Hr); auto.
    { intros i V rho x Hi. apply (H i Hi). }
    destruct (u_base c); [congruence| |]; rewrite Er; cbn [bind]; (eexists; split; [reflexivity|exists r; auto]).
  - intros x Ms (l & -> & Ll & Hl) SM. unfold subs_method. rewrite HS. apply (by_pairs_ok (sub_method c) k n J I l Ms (UMat no_mat)); auto.
    intros i x M Hi. apply (H i Hi).
Qed.
Lemma plain_subtraction r k c : u_sub c = None -> sound_subtraction r k (array r k) c.
Proof. intros H x M (A & -> & SA) SM. unfold sub_method. rewrite H. eexists. split; [reflexivity|]. now apply shaped_sub. Qed.
Lemma hard_value r k c : u_pen c = None -> u_hard c = true -> sound_value r k c.
Proof. intros H1 H2 M _. unfold pen_method. rewrite H1, H2. eauto. Qed.
Lemma hard_values (Ms : list matR) c : u_pen c = None -> u_hard c = true -> exists v, pen_method c (inr Ms) = Ok v.
Proof. intros H1 H2. unfold pen_method. rewrite H1, H2. eauto. Qed.
End Templates.

(** *** starts given by name, for classes that do not override the initialisation *)
Section Starts.
Context {X : Type} (rnd : rand (N:=RNum)) (Xs : list rmat) (rank : nat) (HN : Xs <> []).
Implicit Types (o : uobj (N:=RNum) X).
Definition plain_start o : Prop := u_init (w_cls o) = None /\ u_initd (w_cls o) = None /\ named_init (w_aux o) /\ named_init (w_dual o).
Definition arrays (x : uauxes (N:=RNum) X) : Prop := each (length Xs) (fun i => array (rowsX Xs i) rank) x.
Lemma lift_arrays l : list_shaped (length Xs) (rowsX Xs) rank l -> arrays (UList (map UMat l)).
Proof.
  intros (L & H). exists (map UMat l). split; [reflexivity|]. split; [now rewrite map_length|]. intros i Hi. eexists. split; [|exact (H i Hi)].
  change (UMat (X:=X) (no_mat)) with ((fun M => UMat (X:=X) (N:=RNum) M) no_mat). rewrite map_nth. reflexivity.
Qed.
Lemma start_fits v m pos : named_init v -> (0 <= m <= 2)%Z -> exists y p, init_common (N:=RNum) rnd v Xs (PyInt (Z.of_nat rank)) (PyInt m) pos = Ok (y, p) /\ fits_mode Xs rank m y /\ ~ is_pair y.
Proof.
  intros NI Hm. destruct (common_total rnd v Xs rank m pos HN NI Hm) as (y & p & E & _). exists y, p. split; [exact E|].
  destruct (init_common_fits _ _ _ _ _ _ _ _ E) as (F & Np). rewrite Nat2Z.id in F. auto.
Qed.
Lemma fits_one m y : (m = 0 \/ m = 2)%Z -> fits_mode Xs rank m y -> exists M, y = VMat M /\ shaped M (if (m =? 0)%Z then length Xs else colsX Xs) rank.
Proof.
  intros Hm F. destruct y as [M|[l|Q D]]; cbn [fits_mode] in F.
  - exists M. split; [reflexivity|]. destruct F as [(-> & F)|(-> & F)]; exact F.
  - destruct F as (F & _). lia.
  - destruct F as (F & _). lia.
Qed.
Lemma fits_many y : ~ is_pair y -> fits_mode Xs rank 1 y -> exists l, y = VMats (AList l) /\ list_shaped (length Xs) (rowsX Xs) rank l.
Proof.
  intros Np F. destruct y as [M|[l|Q D]]; cbn [fits_mode is_pair] in *.
  - destruct F as [(F & _)|(F & _)]; discriminate.
  - exists l. split; [reflexivity|apply F].
  - now destruct Np.
Qed.
Lemma start_one o m : (m = 0 \/ m = 2)%Z -> plain_start o ->
  let r := if (m =? 0)%Z then length Xs else colsX Xs in sound_start rnd Xs rank m (one (array r rank)) (one_dual r rank) o.
Proof.
  intros Hm (U1 & U2 & NA & ND) r pos. unfold uinit_aux, uinit_dual. rewrite U1, U2. split.
  - destruct (start_fits (w_aux o) m pos NA ltac:(lia)) as (y & p & -> & F & Np). cbn [bind]. destruct (fits_one m y Hm F) as (M & -> & SM). eexists _, _. split; [reflexivity|]. eexists. split; [reflexivity|]. eexists. split; [reflexivity|exact SM].
  - destruct (start_fits (w_dual o) m pos ND ltac:(lia)) as (y & p & E & F & Np). destruct (fits_one m y Hm F) as (M & -> & SM). eexists _, _. split; [exact E|]. eexists. split; [reflexivity|exact SM].
Qed.
Lemma start_many o : plain_start o -> sound_start rnd Xs rank 1 (many arrays) (many_duals (length Xs) (rowsX Xs) rank) o.
Proof.
  intros (U1 & U2 & NA & ND) pos. unfold uinit_aux, uinit_dual. rewrite U1, U2. split.
  - destruct (start_fits (w_aux o) 1 pos NA ltac:(lia)) as (y & p & -> & F & Np). cbn [bind]. destruct (fits_many y Np F) as (l & -> & SM). eexists _, _. split; [reflexivity|]. eexists. split; [reflexivity|]. now apply lift_arrays.
  - destruct (start_fits (w_dual o) 1 pos ND ltac:(lia)) as (y & p & E & F & Np). destruct (fits_many y Np F) as (l & -> & SM). eexists _, _. split; [exact E|]. eexists. split; [reflexivity|exact SM].
Qed.
End Starts.

(** *** built-in penalties that do not divide by the feasibility penalty *)
Section Builtin.
Context {X : Type} (E : ext (N:=RNum)) (rnd : rand (N:=RNum)).
Lemma builtin_matrix (p : penalty (N:=RNum)) r k : (0 < r)%nat -> (0 < k)%nat -> rho_free p -> valid_penalty p r -> sound_matrix r k (array r k) (builtin (X:=X) E rnd p).
Proof.
  intros Hr Hk RF HV. pose proof (rho_free_not_pf2 p RF) as NP. split; [|split].
  - intros V rho x (WV & V1 & V2) Hrho _. rewrite mat_builtin.
    destruct (fmu_total E p V rho) as (Z & EZ); auto; [rn; lia|rn; lia|rewrite V1; exact HV|now apply free_usable|]. rewrite EZ. cbn [rmap]. eexists. split; [reflexivity|]. eexists. split; [reflexivity|].
    rewrite <- V1, <- V2. apply (fmu_ok E p V Z rho WV); [rn; lia|rn; lia|rewrite V1; exact HV|exact EZ].
  - intros x M (A & -> & SA) SM. rewrite sub_builtin, not_pf2_sub by exact NP. eexists. split; [reflexivity|]. now apply shaped_sub.
  - intros M SM. rewrite pen_builtin. destruct p; cbn in RF; try contradiction; eexists; reflexivity.
Qed.
Lemma builtin_rows (p : penalty (N:=RNum)) r k : (0 < r)%nat -> (0 < k)%nat -> rho_free p -> rowwise p -> valid_penalty p r -> sound_rows r k (builtin (X:=X) E rnd p).
Proof.
  intros Hr Hk RF RW HV. destruct (builtin_matrix p r k Hr Hk RF HV) as (_ & S2 & S3). split; [|split; assumption].
  intros row rho old L1 L2 Hrho. destruct p as [|lo hi|reg nn|M U s|reg l1|b nn| |nn|n ub uc]; cbn in RF, RW; try contradiction; cbn [builtin row_method u_row on_row row_update].
  - eexists. split; [reflexivity|]. now rewrite map_length.
  - destruct HV as (_ & Hn). destruct lo, hi; cbn [clip_ok]; try (eexists; split; [reflexivity|now rewrite map_length]). destruct Hn; congruence.
Qed.
Lemma builtin_matrices (p : penalty (N:=RNum)) n J k : (0 < k)%nat -> (forall i, (i < n)%nat -> (0 < J i)%nat) -> rho_free p -> (forall i, (i < n)%nat -> valid_penalty p (J i)) ->
  sound_matrices n J k (each n (fun i => array (J i) k)) (builtin (X:=X) E rnd p).
Proof.
  intros Hk HJ RF HV. apply matrix_matrices.
  - destruct p; cbn in RF; try contradiction; discriminate.
  - destruct p; cbn in RF; try contradiction; reflexivity.
  - destruct p; cbn in RF; try contradiction; reflexivity.
  - intros i Hi. apply builtin_matrix; auto.
  - intros Ms _. rewrite pens_builtin. destruct p; cbn in RF; try contradiction; eexists; reflexivity.
Qed.
Lemma builtin_start (o : pobj (N:=RNum)) : rho_free (o_pen o) -> named_init (o_aux o) -> named_init (o_dual o) -> plain_start (uobj_of (X:=X) E rnd o).
Proof. intros RF NA ND. unfold plain_start, uobj_of. cbn [w_cls w_aux w_dual]. destruct (o_pen o); cbn in RF; try contradiction; cbn; auto. Qed.
Lemma builtin_object Xs rank q m (o : pobj (N:=RNum)) : Xs <> [] -> Forall (fun X => mwf X /\ (0 < mr X)%nat /\ (0 < mc X)%nat) Xs -> (0 < rank)%nat -> (m < 3)%nat ->
  rho_free (o_pen o) -> named_init (o_aux o) -> named_init (o_dual o) -> (forall r, mode_rows Xs m r -> valid_penalty (o_pen o) r) -> (m = 0%nat -> q = false -> rowwise (o_pen o)) ->
  sound_object (X:=X) rnd Xs rank q m (uobj_of E rnd o).
Proof.
  intros HN HX Hk Hm RF NA ND HV HW. pose proof (builtin_start o RF NA ND) as PS. rewrite Forall_forall in HX.
  assert (L0 : (0 < length Xs)%nat) by (destruct Xs; [congruence|cbn; lia]).
  assert (HK : (0 < colsX Xs)%nat) by (apply (HX (nthX Xs 0)); apply nth_In; exact L0).
  destruct m as [|[|[|m]]]; [| | |lia]; cbn [sound_object uobj_of w_cls].
  - exists (array (length Xs) rank). split; [exact (start_one rnd Xs rank HN _ 0%Z (or_introl eq_refl) PS)|]. destruct q.
    + apply builtin_matrix; auto. now apply HV.
    + split; [|auto]. apply builtin_rows; auto. now apply HV.
  - exists (arrays Xs rank). split; [exact (start_many rnd Xs rank HN _ PS)|]. apply builtin_matrices; auto.
    + intros i Hi. apply (HX (nthX Xs i)). now apply nth_In.
    + intros i Hi. apply HV. exists i. auto.
  - exists (array (colsX Xs) rank). split; [exact (start_one rnd Xs rank HN _ 2%Z (or_intror eq_refl) PS)|]. apply builtin_matrix; auto. now apply HV.
Qed.
End Builtin.
