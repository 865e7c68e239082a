(** Two problems in different orthonormal coordinates: one iteration. *)
From Coq Require Import Reals Lra Lia List Arith Bool ZArith.
From Verif Require Import Num Numpy RFacts Spec SpecFacts MatFacts ModelSpec SvdFacts Penalties PenaltySpec ProxProofs CoupledMatrices CmfSpec CmfProofs Decomp DecompSpec
  DecompFacts AdmmA Parafac2Proofs OrderSpec OrderProofs OrderSizes ReorderFacts ReorderPen SymSpec SymFacts SymPen SymStep SymRun TurnSpec TurnFacts PadSpec PadFacts.
Import ListNotations.
Local Open Scope R_scope.

Lemma sized_shaped (M : rmat) r c : sized M r c -> PenaltySpec.shaped M r c.
Proof. intros (H1 & H2 & H3 & H4). split; [split; [congruence|]|split; assumption]. now rewrite H2. Qed.
Local Notation shaped := PenaltySpec.shaped.
Lemma update_shape E p (M : rmat) rho X r c : valid_penalty p r -> shaped M r c -> factor_matrix_update E p M rho = Ok X -> shaped X r c.
Proof.
  intros VP (W & R0 & C0) H.
  destruct (match p with GeneralizedL2 _ _ _ | Parafac2 _ _ _ => false | _ => true end) eqn:KS.
  - apply sized_shaped. rewrite <- (mbuild_id M W), R0, C0 in H. apply (update_sized E p r c (fun i j => rget M i j) rho X); [|exact H]. destruct p; try discriminate; exact Logic.I.
  - destruct p as [|lo hi|reg nn|G U s|reg l1|b nn| |nn|it ub uc]; try discriminate. cbn [factor_matrix_update] in H. destruct (negb (ntruthy rho)); [discriminate|]. injection H as <-.
    destruct VP as (WG & RG & CG & _ & _ & Vh & (WU & RU & CU & _)). split; [auto with mwf|]. mshape. split; congruence.
Qed.

(** ** One factor matrix *)
Section Mode.
Variables (E : ext (N:=RNum)) (r c : nat) (Q : rmat).
Hypothesis HQ : frame Q r.
Local Notation T := (tm r c Q).
(** the penalty does not see the coordinates, or the rows are only moved and zeros added *)
Definition free_here (p : penalty (N:=RNum)) : Prop := Q = meye (N:=RNum) r \/ (exists b, p = L2Ball b false) \/ (exists f, placed Q r f) /\ keeps_zero p.
Definition treg (g g' : mregR) : Prop :=
  g_pen g' = g_pen g /\ free_here (g_pen g) /\ valid_penalty (g_pen g) r /\ T (g_aux g) (g_aux g') /\ T (g_dual g) (g_dual g').
Lemma tm_eye M M' : Q = meye (N:=RNum) r -> T M M' -> M' = M.
Proof. intros EQ ((W & R0 & C0) & ->). rewrite EQ. apply mmul_eye_l; auto. Qed.
Lemma tm_same M : Q = meye (N:=RNum) r -> shaped M r c -> T M M.
Proof. intros EQ HS. split; [exact HS|]. destruct HS as (W & R0 & C0). rewrite EQ. symmetry. apply mmul_eye_l; auto. Qed.
Lemma turned_update p M M' rho : 0 <= rho -> free_here p -> valid_penalty p r -> T M M' -> res_rel T (factor_matrix_update E p M rho) (factor_matrix_update E p M' rho).
Proof.
  intros HR [EQ|[(b & ->)|((f & PL) & KZ)]] VP HM.
  - rewrite (tm_eye M M' EQ HM). destruct (factor_matrix_update E p M rho) as [X|] eqn:EU; [|reflexivity]. cbn [res_rel]. apply tm_same; [exact EQ|]. destruct HM as (HM & _). eapply update_shape; eauto.
  - cbn [factor_matrix_update res_rel]. cbv zeta. rewrite (tm_col_norms r Q HQ c M M' HM). apply tm_mcoldiv; [exact HQ|]. now apply tm_mscale.
  - exact (placed_update r c Q HQ f PL E p M M' rho HR KZ VP HM).
Qed.
Lemma tsub p A A' D D' : T A A' -> T D D' -> res_rel T (subtract_from_aux (N:=RNum) p A D) (subtract_from_aux (N:=RNum) p A' D').
Proof. intros HA HD. destruct p; cbn [subtract_from_aux res_rel]; try reflexivity; now apply tm_msub. Qed.
Lemma tshifted l l' : Forall2 treg l l' -> res_rel (Forall2 T) (shifted_mats (N:=RNum) l) (shifted_mats (N:=RNum) l').
Proof. apply mapM_rel. intros g g' (M1 & _ & _ & M2 & M3). rewrite M1. now apply tsub. Qed.
Lemma tgap M M' g g' : T M M' -> treg g g' -> gap_mat (N:=RNum) M' g' = gap_mat (N:=RNum) M g.
Proof.
  intros MM (M1 & _ & _ & M2 & M3). apply rel_eq. unfold gap_mat. rewrite M1. eapply res_rel_bind; [apply (tsub _ _ _ _ _ M2 MM)|]. intros d d' MD. cbn [res_rel].
  now rewrite (tm_mnorm r Q HQ c d d' MD), (tm_mnorm r Q HQ c M M' MM).
Qed.
Lemma tgaps M M' l l' : T M M' -> Forall2 treg l l' -> mapM (gap_mat M') l' = mapM (gap_mat M) l.
Proof. intros MM F. induction F as [|g g' l l' H F IH]; [reflexivity|]. cbn [mapM]. now rewrite (tgap M M' g g' MM H), IH. Qed.
Definition tstate (s s' : rmat * list mregR) : Prop := T (fst s) (fst s') /\ Forall2 treg (snd s) (snd s').
Lemma tconv tol s s' u u' : tstate s s' -> tstate u u' -> conv_mat tol s' u' = conv_mat tol s u.
Proof.
  intros (M1 & F1) (M2 & F2). unfold conv_mat. rewrite (tm_mnorm r Q HQ c _ _ M2), (tm_mnorm r Q HQ c _ _ (tm_msub r Q HQ c _ _ _ _ M2 M1)). now rewrite (tgaps _ _ _ _ M2 F2).
Qed.
Lemma tpenalty p M M' : free_here p -> T M M' -> penalty_mat (N:=RNum) p M' = penalty_mat (N:=RNum) p M.
Proof. intros [EQ|[(b & ->)|((f & PL) & KZ)]] HM; [now rewrite (tm_eye M M' EQ HM)|reflexivity|exact (placed_penalty r c Q HQ f PL p M M' KZ HM)]. Qed.
Lemma treg_step rho M M' g g' : 0 <= rho -> T M M' -> treg g g' -> res_rel treg (C_reg_step E rho M g) (C_reg_step E rho M' g').
Proof.
  intros HR MM (M1 & FH & VP & M2 & M3). unfold C_reg_step. rewrite M1.
  eapply res_rel_bind; [apply turned_update; [exact HR|exact FH|exact VP|now apply tm_madd]|]. intros x x' MX.
  eapply res_rel_bind; [apply (tsub _ _ _ _ _ MX M3)|]. intros d d' MD. cbn [res_rel]. split; [reflexivity|]. split; [exact FH|]. split; [exact VP|]. split; [exact MX|]. now apply tm_msub.
Qed.
End Mode.

(** ** The problem *)
(** what PARAFAC2 computes from the svd of a matrix *)
Definition polar (E : ext (N:=RNum)) (M : rmat) (k : nat) : res rmat := let '(U, _, Vh) := x_svd E M k in matmul U Vh.
Section Turn.
Variables (E : ext (N:=RNum)) (z : sizes) (t : coords).
Local Notation n := (z_n z). Local Notation J := (z_rows z). Local Notation K := (z_cols z). Local Notation rk := (z_rank z).
Local Notation P := (t_rows t). Local Notation Q := (t_cols t).
Hypothesis HH : frames z t.
Hypothesis Hn : (0 < n)%nat.
(** usable results of the svd routine have the right width *)
Hypothesis HW : forall G : rmat, shaped G rk rk -> finite_svd (x_svd E G rk) = true -> mc (snd (x_svd E G rk)) = rk.
Variables Xs Xs' : list rmat.
Hypothesis HX : turned_data z t Xs Xs'.
Lemma HQ : frame Q K. Proof. apply HH. Qed.
Lemma HP i : (i < n)%nat -> frame (P i) (J i). Proof. apply HH. Qed.
Local Notation TC := (tm K rk Q).
Definition tl (l l' : list rmat) : Prop := lrel n (fun i => tm (J i) rk (P i)) no_mat no_mat l l'.
Lemma tl_turned l l' : turned_list n J rk P l l' <-> tl l l'.
Proof.
  split; intros (L1 & L2 & H); (split; [exact L1|]); (split; [exact L2|]); intros i Hi; [apply tm_turned|apply tm_turned]; auto; apply HP; exact Hi.
Qed.
Lemma data_rel : lrel n (fun i X X' => shaped X (J i) K /\ X' = mmul (mmul (P i) X) (mtrans Q)) no_mat no_mat Xs Xs'.
Proof.
  destruct HX as (L1 & L2 & H). split; [exact L1|]. split; [exact L2|]. intros i Hi. destruct (H i Hi) as (S1 & (W & R0 & C0) & EX). split; [exact S1|]. destruct S1 as (W1 & R1 & C1).
  destruct (HP i Hi) as (WP & CP & _). destruct HQ as (WQ & CQ & _). apply mat_ext; [assumption|auto with mwf|mlia|mlia|]. rewrite R0, C0. intros a b Ha Hb. etransitivity; [apply EX; assumption|].
  symmetry. etransitivity; [apply mget_mmul; mlia|]. mshape. rewrite C1.
  transitivity (rsum K (fun l => rsum (J i) (fun k => rget (P i) a k * rget (nth i Xs no_mat) k l * rget Q b l))).
  - apply rsum_ext. intros l Hl. rewrite mget_mmul by mlia. rewrite mget_mtrans by mlia. rewrite <- rsum_scal_r, CP. reflexivity.
  - rewrite rsum_swap, <- Sum_rsum. apply Sum_ext. intros k Hk. rewrite <- Sum_rsum. reflexivity.
Qed.
(** cross products with the data *)
Lemma XQ (X X' C C' : rmat) i : (i < n)%nat -> shaped X (J i) K -> X' = mmul (mmul (P i) X) (mtrans Q) -> TC C C' -> tm (J i) rk (P i) (mmul X C) (mmul X' C').
Proof.
  intros Hi (W & R0 & C0) -> ((WC & RC & CC) & ->). destruct (HP i Hi) as (WP & CP & _). destruct HQ as (WQ & CQ & _). split; [split; [auto with mwf|mshape; split; congruence]|].
  rewrite mmul_assoc by mlia. rewrite <- (mmul_assoc (mtrans Q) Q) by mlia. rewrite (oQ K Q HQ), mmul_eye_l by (auto; mlia). apply mmul_assoc. mlia.
Qed.
Lemma XP (X X' B B' : rmat) i : (i < n)%nat -> shaped X (J i) K -> X' = mmul (mmul (P i) X) (mtrans Q) -> tm (J i) rk (P i) B B' -> TC (mmul (mtrans X) B) (mmul (mtrans X') B').
Proof.
  intros Hi (W & R0 & C0) -> ((WB & RB & CB) & ->). destruct (HP i Hi) as (WP & CP & _). destruct HQ as (WQ & CQ & _). split; [split; [auto with mwf|mshape; split; congruence]|].
  rewrite mtrans_mmul by mlia. rewrite mtrans_involutive by assumption. rewrite mtrans_mmul by mlia. rewrite mmul_assoc by mlia. f_equal. rewrite mmul_assoc by mlia. f_equal. rewrite <- (mmul_assoc (mtrans (P i))) by mlia. rewrite (oQ (J i) (P i) (HP i Hi)), mmul_eye_l by (auto; mlia). reflexivity.
Qed.
Lemma lrel_eq {A} (d : A) l l' : lrel n (fun _ a b => b = a) d d l l' -> l' = l.
Proof. intros (L1 & L2 & H). apply (nth_ext _ _ d d); [congruence|]. intros i Hi. apply H. congruence. Qed.
Definition tcmf (c c' : rcmf) : Prop :=
  cw c' = cw c /\ cA c' = cA c /\ shaped (cA c) n rk /\ tl (cBs c) (cBs c') /\ TC (cC c) (cC c').

(** ** A: nothing changes *)
Section A.
Variables c c' : rcmf.
Hypothesis HC : tcmf c c'.
Lemma turn_cross : A_cross (cBs c') (cC c') Xs' = A_cross (cBs c) (cC c) Xs.
Proof.
  destruct HC as (_ & _ & _ & HB & HCC). apply (lrel_eq no_mat). eapply lrel_map2; [exact data_rel|exact HB|]. cbv beta. intros i X X' B B' Hi _ HBi. unfold cross_product.
  now rewrite (tm_gram _ _ (HP i Hi) _ _ _ _ _ _ HBi HBi), (tm_gram _ _ HQ _ _ _ _ _ _ HCC HCC).
Qed.
Lemma turn_rhses : A_rhses (cBs c') (cC c') Xs' = A_rhses (cBs c) (cC c) Xs.
Proof.
  destruct HC as (_ & _ & _ & HB & HCC). apply (lrel_eq []). eapply lrel_map2; [exact data_rel|exact HB|]. cbv beta. intros i X X' B B' Hi (SX & EX) HBi.
  pose proof (XQ X X' _ _ i Hi SX EX HCC) as HXC. f_equal.
  pose proof (tm_shape _ _ _ _ _ HBi) as SB'. pose proof (tm_shape _ _ _ _ _ HCC) as SC'.
  assert (SX' : shaped X' (mr (P i)) (mr Q)) by (rewrite EX; split; [auto with mwf|split; reflexivity]).
  pose proof (tm_gram _ _ (HP i Hi) _ _ _ _ _ _ HBi HXC) as EG. destruct HBi as (SB & _). destruct HCC as (SC & _). destruct SX as (? & ? & ?), SX' as (? & ? & ?), SB as (? & ? & ?), SB' as (? & ? & ?), SC as (? & ? & ?), SC' as (? & ? & ?).
  rewrite !btxc_eq by congruence. exact EG.
Qed.
Lemma cross_shape i : (i < n)%nat -> shaped (nth i (A_cross (cBs c) (cC c) Xs) no_mat) rk rk.
Proof.
  intros Hi. destruct HC as (_ & _ & _ & (L1 & _ & HB) & (SC & _)). destruct HX as (LX & _). unfold A_cross. rewrite (nth_map2' _ no_mat no_mat) by lia. destruct (HB i Hi) as ((_ & _ & CB) & _). destruct SC as (_ & _ & CC).
  unfold cross_product. split; [auto with mwf|]. mshape. split; exact CB.
Qed.
End A.
Lemma ridge_shape G fp m l2 : shaped G rk rk -> shaped (ridge (N:=RNum) G fp m l2) rk rk.
Proof. intros (W & R0 & C0). unfold ridge. split; [auto with mwf|]. mshape. split; assumption. Qed.
Lemma lhs_width G fp m l2 : shaped G rk rk -> finite_svd (lhs_svd E (ridge (N:=RNum) G fp m l2)) = true -> mc (snd (lhs_svd E (ridge (N:=RNum) G fp m l2))) = rk.
Proof. intros SG. pose proof (ridge_shape G fp m l2 SG) as SR. unfold lhs_svd. rewrite (proj1 (proj2 SR)). now apply HW. Qed.
Lemma fps_length scale constant (ls : list rmat) fps : length ls = n -> feas_penalties (N:=RNum) scale constant ls = Ok fps -> length fps = n.
Proof. intros L. unfold feas_penalties. destruct constant; [destruct (map (feas_penalty (N:=RNum) scale) ls) eqn:EM; [discriminate|]; rewrite <- EM|]; intros H; injection H as <-; rewrite ?map_length; exact L. Qed.
Lemma svds_width ls fps m l2 i : length ls = n -> length fps = n -> (forall j, (j < n)%nat -> shaped (nth j ls no_mat) rk rk) -> (i < n)%nat ->
  let d := nth i (lhs_svds E ls fps m l2) (Mat (N:=RNum) 0 0 [], [], Mat (N:=RNum) 0 0 []) in finite_svd d = true -> mc (snd d) = rk.
Proof.
  intros L1 L2 HS Hi. unfold lhs_svds. cbv zeta. rewrite (nth_map2' _ no_mat 0) by (rn; lia). apply lhs_width. auto.
Qed.
Lemma solve_row_length (d : svd3 (N:=RNum)) b x : (finite_svd d = true -> mc (snd d) = rk) -> solve_row d b = Ok x -> length x = rk.
Proof.
  intros HD H. destruct d as [[U sv] Vh]. unfold solve_row in H. destruct (finite_svd (U, sv, Vh)); [|discriminate H]. injection H as <-. unfold vmat, vbuild. rewrite map_length, seq_length. now apply HD.
Qed.
Lemma A_step_shape constant svds fps rhses s s1 : (forall i, (i < n)%nat -> let d := nth i svds (Mat (N:=RNum) 0 0 [], [], Mat (N:=RNum) 0 0 []) in finite_svd d = true -> mc (snd d) = rk) ->
  shaped (fst s) n rk -> A_step E constant svds fps rhses s = Ok s1 -> shaped (fst s1) n rk.
Proof.
  intros HD SA H. destruct s as [A regs]. destruct SA as (WA & RA & CA). unfold A_step in H. cbn [fst] in *. destruct (shifted_mats regs) as [sh|]; [|discriminate H]. cbn [bind] in H.
  match type of H with bind ?x _ = _ => destruct x as [rows|] eqn:ER; [|discriminate H] end. cbn [bind] in H. match type of H with bind ?x _ = _ => destruct x as [rg|]; [|discriminate H] end. cbn [bind] in H. injection H as <-. cbn [fst]. rewrite RA, CA in *.
  split; [|split; reflexivity]. split; cbn [mr mc me].
  - apply OrderProofs.mapM_length in ER. now rewrite seq_length in ER.
  - apply Forall_forall. intros x Hx. apply (In_nth _ _ []) in Hx. destruct Hx as (i & Hi & <-). pose proof (OrderProofs.mapM_length _ _ _ ER) as LR. rewrite seq_length in LR.
    pose proof (OrderProofs.mapM_nth _ _ _ ER i 0%nat [] ltac:(rewrite seq_length; lia)) as Q0. cbv beta in Q0. rewrite seq_nth in Q0 by lia. cbn [Nat.add] in Q0. specialize (HD i ltac:(lia)). cbv zeta in HD.
    exact (solve_row_length _ _ _ HD Q0).
Qed.
Lemma inner_keeps {S} (I0 : S -> Prop) step conv : (forall a b, I0 a -> step a = Ok b -> I0 b) -> forall m a b, I0 a -> inner_loop (S:=S) step conv m a = Ok b -> I0 b.
Proof.
  intros H. induction m as [|m IH]; cbn [inner_loop]; intros a b HA EQ; [injection EQ as <-; exact HA|]. destruct (step a) as [a1|] eqn:ES; [|discriminate]. cbn [bind] in EQ. destruct (conv a a1) as [[|]|]; try discriminate; cbn [bind] in EQ.
  - injection EQ as <-. eauto.
  - eauto.
Qed.
Lemma turned_A c c' regs l2 m tol scale constant : tcmf c c' ->
  res_rel (fun x y => tcmf (fst (fst x)) (fst (fst y)) /\ snd (fst y) = snd (fst x) /\ snd y = snd x)
    (admm_update_A E Xs c regs l2 m tol scale constant) (admm_update_A E Xs' c' regs l2 m tol scale constant).
Proof.
  intros HC. unfold admm_update_A. cbv zeta. rewrite (turn_cross c c' HC), (turn_rhses c c' HC). pose proof (cross_shape c c' HC) as XS. destruct HC as (C1 & C2 & C3 & C4 & C5). rewrite C2.
  assert (LX : length (A_cross (cBs c) (cC c) Xs) = n) by (apply length_map2; [apply HX|apply C4]).
  destruct (feas_penalties scale constant (A_cross (cBs c) (cC c) Xs)) as [fps|] eqn:EF; [|reflexivity]. cbn [bind]. pose proof (fps_length _ _ _ _ LX EF) as LF.
  match goal with |- res_rel _ (bind ?x _) _ => destruct x as [[A r]|] eqn:EI; [|reflexivity] end. cbn [bind res_rel fst snd].
  split; [|split; reflexivity]. split; [reflexivity|]. split; [reflexivity|]. split; [|split; assumption].
  refine (inner_keeps (fun s => shaped (fst s) n rk) _ _ _ m _ _ _ EI); [|exact C3]. intros s s1 SS ES. eapply A_step_shape; [|exact SS|exact ES]. intros i Hi. now apply svds_width.
Qed.

(** ** C *)
Lemma rows_lrel (A : rmat) : shaped A n rk -> lrel n (fun _ (x y : list R) => y = x) [] [] (me A) (me A).
Proof. intros ((L & _) & R0 & _). cbn [num RNum] in *; split; [congruence|]. split; [congruence|]. reflexivity. Qed.
Lemma turn_BA c c' (A : rmat) : tcmf c c' -> shaped A n rk -> tl (BA (cBs c) A) (BA (cBs c') A).
Proof.
  intros (_ & _ & _ & HB & _) SA. unfold BA. eapply lrel_map2; [exact HB|exact (rows_lrel A SA)|]. cbv beta. intros i B B' a a' Hi HBi ->. apply tm_mcolscale; [now apply HP|exact HBi].
Qed.
Lemma turn_C_lhs c c' : tcmf c c' -> C_lhs_terms Xs' (cBs c') (cA c') = C_lhs_terms Xs (cBs c) (cA c).
Proof.
  intros HC. pose proof HC as (_ & C2 & C3 & _). rewrite C2. apply (lrel_eq no_mat). eapply lrel_map2; [exact data_rel|exact (turn_BA c c' _ HC C3)|]. cbv beta. intros i X X' D D' Hi _ HD. exact (tm_gram _ _ (HP i Hi) _ _ _ _ _ _ HD HD).
Qed.
Lemma tm_msum_list r c0 R0 (HR : frame R0 r) (l l' : list rmat) : lrel n (fun _ => tm r c0 R0) no_mat no_mat l l' -> exists G G', msum_list l = Some G /\ msum_list l' = Some G' /\ tm r c0 R0 G G'.
Proof.
  intros (L1 & L2 & H). destruct l as [|x l]; [cbn in L1; lia|]. destruct l' as [|y l']; [cbn in L2; lia|]. cbn [msum_list]. eexists _, _. split; [reflexivity|]. split; [reflexivity|].
  apply tm_sum_mats; [exact HR| |apply (H 0%nat Hn)].
  cbn in L1, L2. assert (K0 : forall i, (i < length l)%nat -> tm r c0 R0 (nth i l no_mat) (nth i l' no_mat)) by (intros i Hi; apply (H (S i)); lia). assert (LL : length l = length l') by lia. clear - K0 LL.
  revert l' LL K0. induction l as [|a l IH]; intros [|b l'] LL K0; try discriminate; constructor; [apply (K0 0%nat); cbn; lia|]. apply IH; [now injection LL|]. intros i Hi. apply (K0 (S i)). cbn. lia.
Qed.
Lemma msum_shape (l : list rmat) G r c0 : (forall x, In x l -> shaped x r c0) -> msum_list l = Some G -> shaped G r c0.
Proof.
  destruct l as [|x l]; [discriminate|]. cbn [msum_list]. intros H EQ. injection EQ as <-. assert (Hx : shaped x r c0) by (apply H; now left). assert (Hl : forall y, In y l -> shaped y r c0) by (intros y Hy; apply H; now right). clear H. revert x Hx.
  induction l as [|y l IH]; intros x Hx; cbn [fold_left]; [exact Hx|]. apply IH; [intros w Hw; apply Hl; now right|]. destruct Hx as (W & R0 & C0). split; [auto with mwf|]. mshape. split; assumption.
Qed.
Lemma turn_C_rhs c c' : tcmf c c' -> exists G G', msum_list (C_rhs_terms Xs (cBs c) (cA c)) = Some G /\ msum_list (C_rhs_terms Xs' (cBs c') (cA c')) = Some G' /\ TC G G'.
Proof.
  intros HC. pose proof HC as (_ & C2 & C3 & _). rewrite C2. apply tm_msum_list; [exact HQ|]. eapply lrel_map2; [exact data_rel|exact (turn_BA c c' _ HC C3)|]. cbv beta. intros i X X' D D' Hi (SX & EX) HD. now apply (XP X X' D D' i).
Qed.
Local Notation cst := (tstate K rk Q).
Lemma turned_C_step d fp (rhs rhs' : rmat) s s' : 0 <= fp -> (finite_svd d = true -> mc (snd d) = rk) -> TC rhs rhs' -> cst s s' -> res_rel cst (C_step E d fp rhs s) (C_step E d fp rhs' s').
Proof.
  intros H0 HD HR (MM & F). destruct s as [C0 regs], s' as [C0' regs']. cbn [fst snd] in *. unfold C_step.
  eapply res_rel_bind; [apply (tshifted K rk Q HQ _ _ F)|]. intros sh sh' MS.
  eapply res_rel_bind; [apply (tm_solve K Q HQ rk d); [exact HD|]|].
  - apply tm_madd; [exact HQ| |exact HR]. apply tm_mscale; [exact HQ|]. pose proof (tm_shape _ _ _ _ _ HR) as (_ & R1 & C1). pose proof HR as ((_ & R2 & C2) & _). rewrite R1, C1, R2, C2. unfold sum_mats. apply tm_sum_mats; [exact HQ|exact MS|]. apply tm_mzeros. exact HQ.
  - intros C1 C1' MC1. eapply res_rel_bind; [apply (mapM_rel _ _ (treg K rk Q) (treg K rk Q)); [|exact F]|].
    + intros g g' G. apply treg_step; [exact HQ|exact H0|assumption|assumption].
    + intros r r' FR. cbn [res_rel]. split; assumption.
Qed.
Lemma turned_C c c' regs regs' l2 m tol scale : 0 <= scale -> tcmf c c' -> Forall2 (treg K rk Q) regs regs' ->
  res_rel (fun x y => tcmf (fst x) (fst y) /\ Forall2 (treg K rk Q) (snd x) (snd y)) (admm_update_C E Xs c regs l2 m tol scale) (admm_update_C E Xs' c' regs' l2 m tol scale).
Proof.
  intros Hs HC F. unfold admm_update_C. rewrite (turn_C_lhs c c' HC). destruct (turn_C_rhs c c' HC) as (B & B' & E5 & E6 & MBB). rewrite E5, E6.
  destruct (msum_list (C_lhs_terms Xs (cBs c) (cA c))) as [G|] eqn:EG; [|reflexivity]. cbv zeta.
  assert (SG : shaped G rk rk).
  { refine (msum_shape _ _ _ _ _ EG). pose proof HC as (_ & _ & C3 & _). destruct (turn_BA c c' _ HC C3) as (LB & _ & HBA). intros x Hx. apply (In_nth _ _ no_mat) in Hx. destruct Hx as (i & Hi & <-). unfold C_lhs_terms in Hi |- *.
    assert (LT : length (map2 (fun (_ : rmat) D => mmul (mtrans D) D) Xs (BA (cBs c) (cA c))) = n) by (apply length_map2; [apply HX|exact LB]). rewrite LT in Hi. destruct HX as (LX & _). rewrite (nth_map2' _ no_mat no_mat) by lia.
    destruct (HBA i Hi) as ((_ & _ & CB) & _). split; [auto with mwf|]. mshape. split; exact CB. }
  assert (FP0 : 0 <= feas_penalty (N:=RNum) scale G).
  { apply feas_nonneg; [exact Hs|]. refine (trace_sum rk _ _ _ EG). intros x Hx. unfold C_lhs_terms in Hx. apply map2_In in Hx as (X & D & _ & HD & ->). pose proof HC as (_ & _ & C3 & _). destruct (turn_BA c c' _ HC C3) as (LB & _ & HBA).
    apply (In_nth _ _ no_mat) in HD. destruct HD as (i & Hi & <-). rewrite LB in Hi. destruct (HBA i Hi) as ((_ & _ & CB) & _). split; [|apply gram_trace]. split; [auto with mwf|]. mshape. split; exact CB. }
  rewrite (Forall2_len' _ _ _ F).
  eapply res_rel_bind; [apply (inner_loop_rel cst)|].
  - intros s s' SS. apply turned_C_step; [exact FP0| |exact MBB|exact SS]. now apply lhs_width.
  - intros s s' u u' S1 S2. apply (tconv K rk Q HQ tol s s' u u' S1 S2).
  - split; [apply HC|exact F].
  - intros [C0 r] [C0' r'] (M1 & F1). cbn [fst snd res_rel] in *. split; [|exact F1]. destruct HC as (_ & C2 & C3 & C4 & _). repeat (split; [assumption || reflexivity|]). exact M1.
Qed.

(** ** B *)
Definition pol_ok : Prop := forall i (M : rmat), (i < n)%nat -> shaped M (J i) rk -> res_rel (tm (J i) rk (P i)) (polar E M rk) (polar E (mmul (P i) M) rk).
Definition taux (a a' : auxes (N:=RNum)) : Prop :=
  match a, a' with
  | AList l, AList l' => tl l l'
  | APf2 B D, APf2 B' D' => tl B B' /\ D' = D /\ shaped D rk rk
  | _, _ => False
  end.
Definition tbreg (g g' : bregR) : Prop :=
  b_pen g' = b_pen g /\ (is_parafac2 (b_pen g) -> pol_ok) /\
  (~ is_parafac2 (b_pen g) -> forall i, (i < n)%nat -> free_here (J i) (P i) (b_pen g) /\ valid_penalty (b_pen g) (J i)) /\
  taux (b_aux g) (b_aux g') /\ tl (b_dual g) (b_dual g').
Lemma tl_map2 (f : rmat -> rmat -> rmat) l l' k k' : (forall i a a' b b', (i < n)%nat -> tm (J i) rk (P i) a a' -> tm (J i) rk (P i) b b' -> tm (J i) rk (P i) (f a b) (f a' b')) -> tl l l' -> tl k k' -> tl (map2 f l k) (map2 f l' k').
Proof. intros H H1 H2. eapply lrel_map2; [exact H1|exact H2|]. cbv beta. auto. Qed.
Lemma tl_sub l l' k k' : tl l l' -> tl k k' -> tl (map2 (@msub RNum) l k) (map2 (@msub RNum) l' k').
Proof. apply tl_map2. intros. apply tm_msub; auto. now apply HP. Qed.
Lemma tl_add l l' k k' : tl l l' -> tl k k' -> tl (map2 (@madd RNum) l k) (map2 (@madd RNum) l' k').
Proof. apply tl_map2. intros. apply tm_madd; auto. now apply HP. Qed.
Lemma tsubs p a a' d d' : taux a a' -> tl d d' -> res_rel tl (subtract_from_auxes (N:=RNum) p a d) (subtract_from_auxes (N:=RNum) p a' d').
Proof.
  intros HA HD. destruct a as [l|B D], a' as [l'|B' D']; cbn [taux] in HA; try contradiction.
  - destruct p; cbn [subtract_from_auxes res_rel]; try reflexivity; now apply tl_sub.
  - destruct HA as (HB & -> & (_ & _ & SD)). destruct p; cbn [subtract_from_auxes res_rel]; try reflexivity. refine (tl_map2 (fun P0 d0 => msub (mmul P0 D) d0) _ _ _ _ _ HB HD). intros i x x' y y' Hi HX0 HY. pose proof (HP i Hi). apply tm_msub; [assumption| |assumption]. apply (tm_mmul _ _ H rk); assumption.
Qed.
Lemma tshifteds l l' : Forall2 tbreg l l' -> res_rel (Forall2 tl) (shifted_lists (N:=RNum) l) (shifted_lists (N:=RNum) l').
Proof. apply mapM_rel. intros g g' (M1 & _ & _ & M2 & M3). rewrite M1. now apply tsubs. Qed.
Lemma troot l l' : tl l l' -> root_sum_squared (N:=RNum) l' = root_sum_squared (N:=RNum) l.
Proof.
  intros H. unfold root_sum_squared. f_equal. f_equal. apply (lrel_eq 0). eapply lrel_map; [exact H|]. cbv beta. intros i a a' Hi Ha. exact (tm_msumsq _ _ (HP i Hi) _ _ _ Ha).
Qed.
Lemma tgap_list Bs Bs' g g' : tl Bs Bs' -> tbreg g g' -> gap_list Bs' g' = gap_list Bs g.
Proof.
  intros MM (M1 & _ & _ & M2 & M3). apply rel_eq. unfold gap_list. rewrite M1. eapply res_rel_bind; [apply (tsubs _ _ _ _ _ M2 MM)|]. intros d d' MD. cbn [res_rel]. now rewrite (troot d d' MD), (troot Bs Bs' MM).
Qed.
Lemma tgaps_list Bs Bs' l l' : tl Bs Bs' -> Forall2 tbreg l l' -> mapM (gap_list Bs') l' = mapM (gap_list Bs) l.
Proof. intros MM F. induction F as [|g g' l l' H F IH]; [reflexivity|]. cbn [mapM]. now rewrite (tgap_list Bs Bs' g g' MM H), IH. Qed.
Definition bst (s s' : list rmat * list bregR) : Prop := tl (fst s) (fst s') /\ Forall2 tbreg (snd s) (snd s').
Lemma tconvs tol s s' u u' : bst s s' -> bst u u' -> conv_list tol s' u' = conv_list tol s u.
Proof.
  intros (M1 & F1) (M2 & F2). unfold conv_list. rewrite (troot _ _ M2), (troot _ _ (tl_sub _ _ _ _ M2 M1)). now rewrite (tgaps_list _ _ _ _ M2 F2).
Qed.
(** PARAFAC2 *)
Section Pf2.
Hypothesis HPol : pol_ok.
Variables (fms fms' : list rmat) (rhos : list R).
Hypothesis HF : tl fms fms'.
Lemma t_basis (D : rmat) : shaped D rk rk -> res_rel tl (pf2_basis E fms D) (pf2_basis E fms' D).
Proof.
  intros (WD & RD & CD). unfold pf2_basis. rewrite RD. destruct HF as (L1 & L2 & HFi).
  assert (SQ : forall (l : list rmat), length l = n -> l = map (fun i => nth i l no_mat) (seq 0 n)) by (intros l L; apply (nth_ext _ _ no_mat no_mat); [now rewrite map_length, seq_length|]; intros i Hi; rewrite (nth_map_lt _ _ _ _ 0%nat) by (rewrite seq_length; lia); now rewrite seq_nth by lia).
  rewrite (SQ fms L1), (SQ fms' L2), !mapM_map. apply mapM_seq_rel. intros i Hi. change (res_rel (tm (J i) rk (P i)) (polar E (mmul (nth i fms no_mat) (mtrans D)) rk) (polar E (mmul (nth i fms' no_mat) (mtrans D)) rk)).
  destruct (tm_mmul _ _ (HP i Hi) rk rk _ _ (mtrans D) ltac:(mlia) (HFi i Hi)) as (S1 & E1). rewrite E1. now apply HPol.
Qed.
Lemma t_coord B B' : tl B B' -> res_rel (fun x y => y = x /\ shaped x rk rk) (pf2_coord fms B rhos) (pf2_coord fms' B' rhos).
Proof.
  intros HB. unfold pf2_coord.
  assert (ET : pf2_terms fms' B' rhos = pf2_terms fms B rhos).
  { unfold pf2_terms. destruct HF as (L1 & L2 & HFi), HB as (L3 & L4 & HBi).
    enough (G : forall k (B B' f f' : list rmat) rh (P0 : nat -> rmat) J0, length B = k -> length B' = k -> length f = k -> length f' = k -> (forall i, (i < k)%nat -> frame (P0 i) (J0 i) /\ tm (J0 i) rk (P0 i) (nth i B no_mat) (nth i B' no_mat) /\ tm (J0 i) rk (P0 i) (nth i f no_mat) (nth i f' no_mat)) ->
      map2 (fun (P_fm : rmat * rmat) rho => mmul (mscale (N:=RNum) rho (mtrans (fst P_fm))) (snd P_fm)) (combine B' f') rh = map2 (fun (P_fm : rmat * rmat) rho => mmul (mscale (N:=RNum) rho (mtrans (fst P_fm))) (snd P_fm)) (combine B f) rh)
      by (apply (G n B B' fms fms' rhos P J); auto; intros i Hi; split; [now apply HP|]; auto).
    clear. induction k as [|k IH]; intros [|b B] [|b' B'] [|f F] [|f' F'] rh P0 J0 L1 L2 L3 L4 H; cbn in L1, L2, L3, L4; try discriminate; cbn [combine]; [reflexivity|]. destruct rh as [|x rh]; [reflexivity|]. cbn [map2 fst snd]. f_equal.
    - destruct (H 0%nat ltac:(lia)) as (H0 & H1 & H2). cbn [nth] in H1, H2.
      assert (SC : forall U W : rmat, mc U = mr W -> mmul (mscale (N:=RNum) x U) W = mscale (N:=RNum) x (mmul U W)).
      { intros U W HUW. apply mat_ext; [auto with mwf|auto with mwf|mlia|mlia|]. mshape. intros i j Hi Hj. rewrite mget_mscale by mlia. rewrite !mget_mmul by mlia. rewrite <- rsum_scal. mshape. apply rsum_ext. intros l Hl. rewrite mget_mscale by lia. rn. ring. }
      pose proof (tm_shape _ _ _ _ _ H1) as (_ & Q1 & _). pose proof (tm_shape _ _ _ _ _ H2) as (_ & Q2 & _). pose proof H1 as ((_ & Q3 & _) & _). pose proof H2 as ((_ & Q4 & _) & _).
      rewrite !SC by mlia. f_equal. exact (tm_gram _ _ H0 _ _ _ _ _ _ H1 H2).
    - apply (IH B B' F F' rh (fun i => P0 (S i)) (fun i => J0 (S i))); try lia. intros i Hi. apply (H (S i)). lia. }
  rewrite ET. destruct (msum_list (pf2_terms fms B rhos)) as [m|] eqn:EM; [|reflexivity]. destruct (ntruthy (lsum (N:=RNum) rhos)); [|reflexivity]. cbn [res_rel]. split; [reflexivity|].
  assert (SM : shaped m rk rk).
  { refine (msum_shape _ _ _ _ _ EM). clear EM ET. unfold pf2_terms. destruct HF as (L1 & L2 & HFi), HB as (L3 & L4 & HBi).
    assert (HA : forall x, In x (combine B fms) -> mc (fst x) = rk /\ mc (snd x) = rk).
    { intros x Hx. apply (In_nth _ _ (no_mat, no_mat)) in Hx. destruct Hx as (i & Hi & <-). rewrite combine_length in Hi. rewrite combine_nth by congruence. cbn [fst snd]. destruct (HBi i ltac:(lia)) as ((_ & _ & Q1) & _), (HFi i ltac:(lia)) as ((_ & _ & Q2) & _). auto. }
    revert HA. generalize (combine B fms). clear. intros l. revert rhos. induction l as [|x l IH]; intros [|r rh] HA y Hy; cbn [map2] in Hy; try contradiction. destruct Hy as [<-|Hy]; [|apply (IH rh); [intros w Hw; apply HA; now right|exact Hy]].
    destruct (HA x ltac:(now left)) as (Q1 & Q2). split; [auto with mwf|]. mshape. auto. }
  destruct SM as (W & R0 & C0). split; [auto with mwf|]. mshape. auto.
Qed.
Lemma t_loop ub uc : forall m B B' D, tl B B' -> shaped D rk rk ->
  res_rel (fun x y => tl (fst x) (fst y) /\ snd y = snd x /\ shaped (snd x) rk rk) (pf2_loop E ub uc fms rhos m B D) (pf2_loop E ub uc fms' rhos m B' D).
Proof.
  induction m as [|m IH]; intros B B' D HB SD; cbn [pf2_loop]; [cbn; auto|].
  apply (res_rel_bind tl).
  - destruct ub; [now apply t_basis|exact HB].
  - intros B1 B1' HB1. apply (res_rel_bind (fun x y => y = x /\ shaped x rk rk)).
    + destruct uc; [now apply t_coord|cbn; auto].
    + intros D1 D1' (-> & SD1). destruct (negb uc || negb ub); [cbn; auto|now apply IH].
Qed.
End Pf2.
Lemma tupdates p V V' fps a a' : (is_parafac2 p -> pol_ok) -> (~ is_parafac2 p -> forall i, (i < n)%nat -> free_here (J i) (P i) p /\ valid_penalty p (J i)) ->
  tl V V' -> length fps = n -> Forall (Rle 0) fps -> taux a a' -> res_rel taux (factor_matrices_update E p V fps a) (factor_matrices_update E p V' fps a').
Proof.
  intros HPo HFr MV LF LP HA.
  assert (PL : ~ is_parafac2 p -> res_rel taux (let* r := matrices_update_list E p V fps n in Ok (AList r)) (let* r := matrices_update_list E p V' fps n in Ok (AList r))).
  { intros NP. destruct MV as (L1 & L2 & MV). rewrite !list_update_seq by assumption.
    eapply res_rel_bind; [apply (mapM_seq_rel _ _ (fun i => tm (J i) rk (P i)) no_mat no_mat)|].
    - intros i Hi. destruct (HFr NP i Hi) as (F1 & F2). apply turned_update; auto; [now apply HP|]. rewrite Forall_forall in LP. apply LP, nth_In. rn. lia.
    - intros l l' H. exact H. }
  destruct a as [l|B D], a' as [l'|B' D']; cbn [taux] in HA; try contradiction.
  - destruct HA as (L1 & L2 & _). destruct p; cbn [factor_matrices_update]; try reflexivity; rewrite L1, L2; apply PL; intros [].
  - destruct HA as (SP & -> & MD). destruct p; cbn [factor_matrices_update]; try reflexivity.
    eapply res_rel_bind; [apply (t_loop (HPo Logic.I) V V' fps MV); assumption|].
    intros [P1 D1] [P1' D1'] (Q1 & Q2 & Q3). cbn [fst snd res_rel] in *. subst D1'. cbn [taux]. auto.
Qed.
Lemma tB_reg fps Bs Bs' g g' : length fps = n -> Forall (Rle 0) fps -> tl Bs Bs' -> tbreg g g' -> res_rel tbreg (B_reg_step E fps Bs g) (B_reg_step E fps Bs' g').
Proof.
  intros HF HF0 MM (M1 & H1 & H2 & M2 & M3). unfold B_reg_step. cbv zeta. rewrite M1.
  eapply res_rel_bind; [apply (tupdates _ _ _ fps _ _ H1 H2 (tl_add _ _ _ _ MM M3) HF HF0 M2)|].
  intros x x' MX. eapply res_rel_bind; [apply (tsubs _ _ _ _ _ MX M3)|]. intros d d' MD. cbn [res_rel]. split; [reflexivity|]. split; [exact H1|]. split; [exact H2|]. split; [exact MX|]. now apply tl_sub.
Qed.
Lemma tB_step svds fps rhses rhses' s s' : (forall i, (i < n)%nat -> let d := nth i svds (Mat (N:=RNum) 0 0 [], [], Mat (N:=RNum) 0 0 []) in finite_svd d = true -> mc (snd d) = rk) ->
  length fps = n -> Forall (Rle 0) fps -> tl rhses rhses' -> bst s s' -> res_rel bst (B_step E svds fps rhses s) (B_step E svds fps rhses' s').
Proof.
  intros HS HF HF0 HRH (MM & F). destruct s as [Bs regs], s' as [Bs' regs']. cbn [fst snd] in *. unfold B_step.
  eapply res_rel_bind; [apply (tshifteds _ _ F)|]. intros sh sh' MS. pose proof MM as (L1 & L2 & _). rewrite L1, L2.
  eapply res_rel_bind; [apply (mapM_seq_rel _ _ (fun i => tm (J i) rk (P i)) no_mat no_mat)|].
  - intros i Hi. cbv zeta. pose proof (HP i Hi) as FP. destruct HRH as (_ & _ & HRH). pose proof (HRH i Hi) as MH. change (Mat (N:=RNum) 0 0 []) with no_mat in *.
    apply tm_solve; [exact FP|now apply HS|]. apply tm_madd; [exact FP| |exact MH]. apply tm_mscale; [exact FP|].
    pose proof (tm_shape _ _ _ _ _ MH) as (_ & R1 & C1). pose proof MH as ((_ & R2 & C2) & _). rewrite R1, C1, R2, C2. unfold sum_mats. apply tm_sum_mats; [exact FP| |now apply tm_mzeros].
    clear - MS Hi. induction MS as [|x y l l' H F IH]; cbn [map]; constructor; [|exact IH]. apply H. exact Hi.
  - intros Bs1 Bs1' HB1. eapply res_rel_bind; [apply (mapM_rel _ _ tbreg tbreg); [|exact F]|].
    + intros g g' G. apply tB_reg; assumption.
    + intros r r' FR. cbn [res_rel]. split; assumption.
Qed.
Lemma turned_B c c' regs regs' l2 m tol scale constant : 0 <= scale -> tcmf c c' -> Forall2 tbreg regs regs' ->
  res_rel (fun x y => tcmf (fst x) (fst y) /\ Forall2 tbreg (snd x) (snd y)) (admm_update_B E Xs c regs l2 m tol scale constant) (admm_update_B E Xs' c' regs' l2 m tol scale constant).
Proof.
  intros Hs HC F. unfold admm_update_B. cbv zeta. pose proof HC as (C1 & C2 & C3 & C4 & C5). rewrite C2. pose proof (rows_lrel _ C3) as RA.
  assert (RR : tl (map2 (fun X a => B_rhs X (cC c) a) Xs (me (cA c))) (map2 (fun X a => B_rhs X (cC c') a) Xs' (me (cA c)))).
  { eapply lrel_map2; [exact data_rel|exact RA|]. cbv beta. intros i X X' a a' Hi (SX & EX) ->. unfold B_rhs. apply XQ; auto. apply tm_mcolscale; [exact HQ|exact C5]. }
  assert (LL : map2 (fun (_ : rmat) a => B_lhs (N:=RNum) (cC c') a) Xs' (me (cA c)) = map2 (fun (_ : rmat) a => B_lhs (N:=RNum) (cC c) a) Xs (me (cA c))).
  { apply (lrel_eq no_mat). eapply lrel_map2; [exact data_rel|exact RA|]. cbv beta. intros i X X' a a' Hi _ ->. unfold B_lhs. now rewrite (tm_gram _ _ HQ _ _ _ _ _ _ C5 C5). }
  rewrite LL. clear LL. set (ls := map2 (fun (_ : rmat) a => B_lhs (N:=RNum) (cC c) a) Xs (me (cA c))).
  assert (L0 : length ls = n) by (apply length_map2; [apply HX|apply RA]).
  assert (SL : forall j, (j < n)%nat -> shaped (nth j ls no_mat) rk rk).
  { intros j Hj. unfold ls. destruct HX as (LX & _), RA as (LA & _). rewrite (nth_map2' _ no_mat []) by (rn; lia). destruct C5 as ((_ & _ & CC) & _). unfold B_lhs. split; [auto with mwf|]. mshape. auto. }
  assert (TR : Forall (fun G : rmat => 0 <= mtrace G) ls).
  { apply Forall_forall. intros x Hx. unfold ls in Hx. apply map2_In in Hx as (X & a & _ & _ & ->). apply B_lhs_trace. }
  clearbody ls. destruct (feas_penalties (N:=RNum) scale constant ls) as [fps|] eqn:EF; [|reflexivity]. cbn [bind]. pose proof (feas_list_nonneg scale constant ls fps Hs TR EF) as FP0. pose proof (fps_length _ _ _ _ L0 EF) as LF. rewrite (Forall2_len' _ _ _ F).
  eapply res_rel_bind; [apply (inner_loop_rel bst)|].
  - intros s s' SS. apply tB_step; [|exact LF|exact FP0|exact RR|exact SS]. intros i Hi. now apply svds_width.
  - intros s s' u u' S1 S2. now apply tconvs.
  - split; [exact C4|exact F].
  - intros [Bs r] [Bs' r'] (M1 & F1). cbn [fst snd res_rel] in *. split; [|exact F1]. repeat (split; [assumption || reflexivity|]). exact C5.
Qed.
End Turn.
