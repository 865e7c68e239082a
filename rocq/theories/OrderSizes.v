(** Sizes of factor matrices and auxiliary variables, under any arithmetic. *)
From Coq Require Import Lia List Arith Bool ZArith.
From Verif Require Import Num Numpy RFacts Unimodal Penalties CoupledMatrices Decomp OrderSpec OrderUni OrderProofs.
Import ListNotations.

Section OrderSizes.
Context {N : Num}.

Notation M0 := (Mat 0 0 []).
Lemma sized_mbuild r c (f : nat -> nat -> num) : sized (mbuild r c f) r c.
Proof.
  split; [reflexivity|]. split; [reflexivity|]. rewrite me_mbuild. split; [now rewrite map_length, seq_length|].
  apply Forall_forall. intros row Hr. apply in_map_iff in Hr as (i & <- & _). now rewrite map_length, seq_length.
Qed.
Lemma update_sized E p r c f rho X : keeps_size p -> factor_matrix_update E p (mbuild r c f) rho = Ok X -> sized X r c.
Proof.
  intros SP H. set (fm := mbuild r c f) in *.
  destruct p as [|lo hi|reg nn|M U s|reg l1|bound nn| |nn|n ub uc]; cbn [factor_matrix_update] in *; try discriminate; try contradiction.
  - injection H as <-. apply sized_mbuild.
  - destruct (clip_ok lo hi); [|discriminate]. injection H as <-. apply sized_mbuild.
  - destruct (negb (ntruthy rho)); [discriminate|]. destruct nn; injection H as <-; apply sized_mbuild.
  - destruct (negb (ntruthy rho)); [discriminate|]. cbv zeta in H.
    match type of H with context[of_cols (mr fm) ?l] => set (Y := of_cols (mr fm) l) in H end.
    assert (K : sized Y r c).
    { unfold Y, of_cols. rewrite map_length, seq_length. apply sized_mbuild. }
    clearbody Y. destruct (ntruthy l1); injection H as <-; [|exact K]. destruct K as (<- & <- & _). apply sized_mbuild.
  - cbv zeta in H. injection H as <-. destruct nn; apply sized_mbuild.
  - destruct (mapM _ _) as [cols|] eqn:EM; [|discriminate]. cbn [bind] in H. injection H as <-. apply mapM_length in EM. rewrite seq_length in EM.
    unfold of_cols. rewrite EM. apply sized_mbuild.
  - destruct (unimodal_regression_cols store_float fm nn) as [cols|] eqn:EM; [|discriminate]. cbn [bind] in H.
    unfold unimodal_regression_cols in EM. destruct (mc fm =? 0); [discriminate|]. apply mapM_length in EM. rewrite seq_length in EM.
    destruct (all_some (concat cols)); [|discriminate]. injection H as <-. unfold of_cols. rewrite map_length, EM. apply sized_mbuild.
Qed.
Lemma row_update_length p row rho u : row_update p row rho = Ok u -> length u = length row.
Proof.
  destruct p; cbn [row_update]; intros H; try discriminate; try (injection H as <-; apply map_length).
  - destruct (clip_ok _ _); [|discriminate]. injection H as <-. apply map_length.
  - destruct (negb _); [discriminate|]. destruct non_negativity; injection H as <-; apply map_length.
Qed.
Lemma rows_sized p r c f fps X : length fps = r -> rows_update p (mbuild r c f) fps = Ok X -> sized X r c.
Proof.
  intros L H. unfold rows_update in H. destruct (mapM _ _) as [rows|] eqn:EM; [|discriminate]. cbn [bind] in H. injection H as <-.
  pose proof (mapM_length _ _ _ EM) as LM. rewrite seq_length, L in LM. split; [reflexivity|]. split; [reflexivity|]. split; [exact LM|]. cbn [me].
  apply (mapM_Forall _ (fun row => length row = c)) in EM; [exact EM|]. intros i row Hi HR. apply in_seq in Hi. apply row_update_length in HR.
  rewrite HR. unfold mrow. rewrite me_mbuild, nth_map_seq by lia. now rewrite map_length, seq_length.
Qed.

(** ** Dimensions of the intermediate matrices *)
Lemma dims_fold_madd l : forall M, mr (fold_left madd l M) = mr M /\ mc (fold_left madd l M) = mc M.
Proof. induction l as [|X l IH]; intros M; [now split|]. cbn [fold_left]. destruct (IH (madd M X)) as (-> & ->). now split. Qed.
Lemma dims_sum_mats r c l : mr (sum_mats r c l) = r /\ mc (sum_mats r c l) = c.
Proof. unfold sum_mats. destruct (dims_fold_madd l (mzeros r c)) as (-> & ->). now split. Qed.
Lemma solve_mat_sized d b B : solve_mat d b = Ok B -> sized B (mr b) (mc (snd d)).
Proof. destruct d as [[U s] Vh]. unfold solve_mat. destruct (finite_svd _); [|discriminate]. intros H. injection H as <-. apply sized_mbuild. Qed.
Lemma solve_row_length d b u : solve_row d b = Ok u -> length u = mc (snd d).
Proof. destruct d as [[U s] Vh]. unfold solve_row. destruct (finite_svd _); [|discriminate]. intros H. injection H as <-. unfold vmat, vbuild. now rewrite map_length, seq_length. Qed.
Variable E : ext.
Hypothesis HE : svd_widths E.
Lemma lhs_svd_width lhs fp n l2 : mr lhs = mc lhs -> mc (snd (lhs_svd E (ridge lhs fp n l2))) = mc lhs.
Proof.
  intros SQ. unfold lhs_svd. assert (K := HE (ridge lhs fp n l2) SQ). destruct (x_svd E (ridge lhs fp n l2) (mr (ridge lhs fp n l2))) as [[U s] Vh]. exact K.
Qed.
Lemma lhs_svds_width lhses fps n l2 R : (forall M, In M lhses -> mr M = R /\ mc M = R) ->
  forall i, i < length lhses -> i < length fps -> mc (snd (nth i (lhs_svds E lhses fps n l2) (M0, [], M0))) = R.
Proof.
  intros HL i H1 H2. unfold lhs_svds. rewrite (nth_map2 _ _ _ i M0 n0) by assumption. destruct (HL (nth i lhses M0)) as (D1 & D2); [now apply nth_In|].
  rewrite lhs_svd_width; congruence.
Qed.
Lemma feas_penalties_length scale b lhses fps : feas_penalties scale b lhses = Ok fps -> length fps = length lhses.
Proof.
  unfold feas_penalties. cbv zeta. destruct b; [|intros H; injection H as <-; apply map_length].
  destruct (map (feas_penalty scale) lhses) as [|x l] eqn:EF; [discriminate|]. intros H. injection H as <-. cbn [length]. rewrite ?map_length, ?repeat_length.
  apply (f_equal (@length num)) in EF. rewrite map_length in EF. cbn in EF. congruence.
Qed.

(** ** Factors with the sizes of the data *)
Variables (Xs : list mat) (R K : nat).
Notation n := (length Xs).
Notation rows i := (mr (nth i Xs M0)).
Definition factors_sized (c : cmf) : Prop :=
  sized (cA c) n R /\ length (cBs c) = n /\ (forall i, i < n -> sized (nth i (cBs c) M0) (rows i) R) /\ sized (cC c) K R.
(** numbers of matrices in the variables of mode 1 *)
Definition counted (g : breg) : Prop :=
  length (b_dual g) = n /\ match b_aux g with AList l => length l = n | APf2 b _ => length b = n end.
Definition a_sized (g : mreg) : Prop := keeps_size (g_pen g) -> sized (g_aux g) n R.
Definition c_sized (g : mreg) : Prop := keeps_size (g_pen g) -> sized (g_aux g) K R.
Definition b_sized (g : breg) : Prop :=
  counted g /\ (keeps_size (b_pen g) -> exists l, b_aux g = AList l /\ forall i, i < n -> sized (nth i l M0) (rows i) R).
Hypothesis HK : forall X, In X Xs -> mc X = K.

Lemma mapM_keeps {G} (step : G -> res G) (P Q : G -> Prop) l l' : (forall g g', P g -> step g = Ok g' -> Q g') -> Forall P l -> mapM step l = Ok l' -> Forall Q l'.
Proof.
  intros HS F HM. apply (mapM_Forall _ Q) in HM; [exact HM|]. intros x y Hx Hy. rewrite Forall_forall in F. eapply HS; eauto.
Qed.
(** *** A *)
Lemma A_sizes c regs l2 m tol scale b c' regs' i : factors_sized c -> admm_update_A E Xs c regs l2 m tol scale b = Ok (c', regs', i) ->
  factors_sized c' /\ (0 < m -> Forall a_sized regs').
Proof.
  intros (SA & LB & SB & SC) HU. unfold admm_update_A in HU. cbv zeta in HU.
  destruct (feas_penalties _ _ _) as [fps|] eqn:EF; [|discriminate]. cbn [bind] in HU. apply feas_penalties_length in EF.
  assert (LC : length (A_cross (cBs c) (cC c) Xs) = n) by (unfold A_cross; rewrite length_map2; lia).
  destruct (inner_loop _ _ _ _) as [[A r]|] eqn:EI; [|discriminate]. cbn [bind] in HU. injection HU as <- <- <-.
  assert (W : forall j, j < n -> mc (snd (nth j (lhs_svds E (A_cross (cBs c) (cC c) Xs) fps (length regs) l2) (M0, [], M0))) = R).
  { intros j Hj. apply lhs_svds_width; try lia. intros M HM. apply (In_nth _ _ M0) in HM as (q & Hq & <-). rewrite LC in Hq.
    unfold A_cross. rewrite (nth_map2 _ _ _ q M0 M0) by lia. destruct (SB q Hq) as (_ & CB & _). split; exact CB. }
  destruct (inner_keeps (A_step E b (lhs_svds E (A_cross (cBs c) (cC c) Xs) fps (length regs) l2) fps (A_rhses (cBs c) (cC c) Xs)) (conv_mat tol)
    (fun s => sized (fst s) n R) (fun s => Forall a_sized (snd s))) with (n := m) (s := (cA c, regs)) (s' := (A, r)) as (K1 & K2); [|exact SA|exact EI|].
  - intros [A0 r0] [A1 r1] S0 HS. cbn [fst snd] in *. destruct S0 as (D1 & D2 & _). unfold A_step in HS. destruct (shifted_mats r0) as [sh|]; [|discriminate]. cbn [bind] in HS.
    destruct (mapM _ (seq 0 (mr A0))) as [rws|] eqn:ER; [|discriminate]. cbn [bind] in HS.
    destruct (mapM (A_reg_step _ _ _ _) r0) as [r2|] eqn:EG; [|discriminate]. cbn [bind] in HS. injection HS as <- <-.
    assert (S1 : sized (Mat (mr A0) (mc A0) rws) n R).
    { split; [exact D1|]. split; [exact D2|]. cbn [me]. pose proof (mapM_length _ _ _ ER) as L. rewrite seq_length, D1 in L. split; [exact L|].
      apply (mapM_Forall _ (fun row => length row = R)) in ER; [exact ER|]. intros j row Hj HR. apply in_seq in Hj. apply solve_row_length in HR. rewrite HR. apply W. lia. }
    split; [exact S1|]. refine (mapM_keeps _ (fun _ => True) a_sized r0 r2 _ _ EG); [|now apply Forall_forall].
    intros g g' _ Hg. unfold A_reg_step in Hg. cbv zeta in Hg. match type of Hg with (let* aux := ?e in _) = _ => destruct e as [aux|] eqn:EA; [|discriminate] end. cbn [bind] in Hg.
    destruct (subtract_from_aux _ _ _) as [su|]; [|discriminate]. cbn [bind] in Hg. injection Hg as <-. intros SP. cbn [g_pen g_aux] in *.
    unfold madd, mmap2 in EA. cbn [mr mc] in EA. rewrite D1, D2 in EA. destruct b; [now apply update_sized in EA|]. apply rows_sized in EA; [exact EA|lia].
  - cbn [fst snd] in *. split; [|exact K2]. split; [exact K1|]. split; [exact LB|]. split; [exact SB|exact SC].
Qed.
(** *** B *)
Lemma list_update_length E0 p : forall fms rhos k r, matrices_update_list E0 p fms rhos k = Ok r -> length r = Nat.min (length fms) (Nat.min (length rhos) k).
Proof.
  induction fms as [|fm fms IH]; intros rhos k r H; cbn [matrices_update_list] in H; [injection H as <-; reflexivity|].
  destruct rhos as [|rho rhos]; [injection H as <-; reflexivity|]. destruct k as [|k]; [injection H as <-; reflexivity|].
  destruct (factor_matrix_update E0 p fm rho) as [x|]; [|discriminate]. cbn [bind] in H.
  destruct (matrices_update_list E0 p fms rhos k) as [xs|] eqn:EL; [|discriminate]. cbn [bind] in H. injection H as <-. cbn [length]. rewrite (IH _ _ _ EL). lia.
Qed.
Lemma list_update_nth E0 p : forall fms rhos k r, matrices_update_list E0 p fms rhos k = Ok r -> forall i, i < length r ->
  factor_matrix_update E0 p (nth i fms M0) (nth i rhos n0) = Ok (nth i r M0).
Proof.
  induction fms as [|fm fms IH]; intros rhos k r H i Hi; cbn [matrices_update_list] in H; [injection H as <-; cbn in Hi; lia|].
  destruct rhos as [|rho rhos]; [injection H as <-; cbn in Hi; lia|]. destruct k as [|k]; [injection H as <-; cbn in Hi; lia|].
  destruct (factor_matrix_update E0 p fm rho) as [x|] eqn:EX; [|discriminate]. cbn [bind] in H.
  destruct (matrices_update_list E0 p fms rhos k) as [xs|] eqn:EL; [|discriminate]. cbn [bind] in H. injection H as <-.
  destruct i as [|i]; [exact EX|]. cbn in *. eapply IH; [eassumption|lia].
Qed.
Lemma pf2_loop_length ub uc fms rhos : forall it basis coord b c, length basis = length fms -> pf2_loop E ub uc fms rhos it basis coord = Ok (b, c) -> length b = length fms.
Proof.
  induction it as [|it IH]; intros basis coord b c L H; cbn [pf2_loop] in H; [injection H as <- _; exact L|].
  match type of H with (let* basis' := ?e in _) = _ => destruct e as [basis'|] eqn:EB; [|discriminate] end. cbn [bind] in H.
  assert (L' : length basis' = length fms). { destruct ub; [|congruence]. unfold pf2_basis in EB. now apply mapM_length in EB. }
  match type of H with (let* coord' := ?e in _) = _ => destruct e as [coord'|]; [|discriminate] end. cbn [bind] in H.
  destruct (negb uc || negb ub); [injection H as <- _; exact L'|]. eapply IH; eassumption.
Qed.
Lemma B_reg_sizes fps Bs g g' : length fps = n -> length Bs = n -> (forall i, i < n -> sized (nth i Bs M0) (rows i) R) -> counted g ->
  B_reg_step E fps Bs g = Ok g' -> b_sized g'.
Proof.
  intros LF LB SB (C1 & C2) H. unfold B_reg_step in H. cbv zeta in H. destruct (factor_matrices_update _ _ _ _ _) as [aux|] eqn:EA; [|discriminate]. cbn [bind] in H.
  destruct (subtract_from_auxes _ _ _) as [sh|] eqn:ES; [|discriminate]. cbn [bind] in H. injection H as <-.
  assert (LV : length (map2 madd Bs (b_dual g)) = n) by (rewrite length_map2; lia).
  assert (AUX : match aux with AList l => length l = n | APf2 b _ => length b = n end).
  { unfold factor_matrices_update in EA. destruct (b_pen g), (b_aux g) as [l0|ba co]; try discriminate;
      try (destruct (matrices_update_list _ _ _ _ _) as [r|] eqn:EL; [|discriminate]; cbn [bind] in EA; injection EA as <-; apply list_update_length in EL; lia).
    destruct (pf2_loop _ _ _ _ _ _ _ _) as [[bb cc]|] eqn:EP; [|discriminate]. cbn [bind] in EA. injection EA as <-. apply pf2_loop_length in EP; lia. }
  assert (LS : length sh = n).
  { unfold subtract_from_auxes in ES. destruct (b_pen g), aux; try discriminate; injection ES as <-; rewrite length_map2; lia. }
  split; [split; [cbn [b_dual]; rewrite length_map2; lia|exact AUX]|]. cbn [b_pen b_aux]. intros SP.
  unfold factor_matrices_update in EA. destruct (b_pen g) eqn:EP; try contradiction; destruct (b_aux g) as [l0|ba co]; try discriminate;
    (destruct (matrices_update_list _ _ _ _ _) as [r|] eqn:EL; [|discriminate]; cbn [bind] in EA; injection EA as <-; exists r; split; [reflexivity|];
     intros i Hi; pose proof (list_update_nth _ _ _ _ _ _ EL i ltac:(lia)) as EI; rewrite (nth_map2 _ _ _ i M0 M0) in EI by lia;
     unfold madd, mmap2 in EI; apply update_sized in EI; [|exact Logic.I]; destruct (SB i Hi) as (D1 & D2 & _); rewrite <- D1, <- D2; exact EI).
Qed.
Lemma B_sizes c regs l2 m tol scale b c' regs' : factors_sized c -> Forall counted regs -> admm_update_B E Xs c regs l2 m tol scale b = Ok (c', regs') ->
  factors_sized c' /\ Forall counted regs' /\ (0 < m -> Forall b_sized regs').
Proof.
  intros (SA & LB & SB & SC) FC HU. unfold admm_update_B in HU. cbv zeta in HU.
  assert (LA : length (me (cA c)) = n) by apply SA.
  set (rhses := map2 (fun X a => B_rhs X (cC c) a) Xs (me (cA c))) in HU. set (lhses := map2 (fun _ a => B_lhs (cC c) a) Xs (me (cA c))) in HU.
  destruct (feas_penalties _ _ _) as [fps|] eqn:EF; [|discriminate]. cbn [bind] in HU. apply feas_penalties_length in EF.
  assert (LL : length lhses = n) by (unfold lhses; rewrite length_map2; lia).
  assert (LF : length fps = n) by congruence.
  assert (CC : mc (cC c) = R) by apply SC.
  destruct (inner_loop _ _ _ _) as [[Bs r]|] eqn:EI; [|discriminate]. cbn [bind] in HU. injection HU as <- <-.
  assert (W : forall j, j < n -> mc (snd (nth j (lhs_svds E lhses fps (length regs) l2) (M0, [], M0))) = R).
  { intros j Hj. apply lhs_svds_width; try lia. intros M HM. apply (In_nth _ _ M0) in HM as (q & Hq & <-). rewrite LL in Hq.
    unfold lhses. rewrite (nth_map2 _ _ _ q M0 []) by lia. split; exact CC. }
  destruct (inner_keeps (B_step E (lhs_svds E lhses fps (length regs) l2) fps rhses) (conv_list tol)
    (fun s => length (fst s) = n /\ (forall i, i < n -> sized (nth i (fst s) M0) (rows i) R) /\ Forall counted (snd s)) (fun s => Forall b_sized (snd s)))
    with (n := m) (s := (cBs c, regs)) (s' := (Bs, r)) as ((K1 & K2 & K3) & K4); [|split; [exact LB|split; [exact SB|exact FC]]|exact EI|].
  - intros [B0 r0] [B1 r1] (L0 & S0 & C0) HS. cbn [fst snd] in *. unfold B_step in HS. destruct (shifted_lists r0) as [sh|]; [|discriminate]. cbn [bind] in HS.
    destruct (mapM _ (seq 0 (length B0))) as [B2|] eqn:ER; [|discriminate]. cbn [bind] in HS.
    destruct (mapM (B_reg_step _ _ _) r0) as [r2|] eqn:EG; [|discriminate]. cbn [bind] in HS. injection HS as <- <-.
    pose proof (mapM_length _ _ _ ER) as L2. rewrite seq_length, L0 in L2.
    assert (S2 : forall i, i < n -> sized (nth i B2 M0) (rows i) R).
    { intros i Hi. pose proof (mapM_nth _ _ _ ER i 0 M0) as EN. rewrite seq_length in EN. specialize (EN ltac:(lia)). rewrite seq_nth in EN by lia. cbn [Nat.add] in EN.
      apply solve_mat_sized in EN. rewrite W in EN by exact Hi. unfold madd, mmap2, mscale, mmap in EN. cbn [mr mc mbuild] in EN.
      destruct (dims_sum_mats (mr (nth i rhses M0)) (mc (nth i rhses M0)) (map (fun l => nth i l M0) sh)) as (D1 & _). rewrite D1 in EN.
      unfold rhses in EN. rewrite (nth_map2 _ _ _ i M0 []) in EN by lia. exact EN. }
    assert (G2 : Forall b_sized r2). { refine (mapM_keeps _ counted b_sized r0 r2 _ C0 EG). intros g g' Cg Hg. eapply B_reg_sizes; eassumption. }
    split; [|exact G2]. split; [exact L2|]. split; [exact S2|]. eapply Forall_impl; [|exact G2]. intros g Hg. apply Hg.
  - cbn [fst snd] in *. split; [|split; [exact K3|exact K4]]. split; [exact SA|]. split; [exact K1|]. split; [exact K2|exact SC].
Qed.
(** *** C *)
Lemma msum_list_dims l M r c : msum_list l = Some M -> (forall X, In X l -> mr X = r /\ mc X = c) -> mr M = r /\ mc M = c.
Proof.
  destruct l as [|X l]; [discriminate|]. cbn [msum_list]. intros H HX. injection H as <-. destruct (dims_fold_madd l X) as (-> & ->). apply HX. now left.
Qed.
Lemma in_map2 {A B C} (f : A -> B -> C) l m z : In z (map2 f l m) -> exists x y, In x l /\ In y m /\ z = f x y.
Proof.
  revert m. induction l as [|x l IH]; intros [|y m] H; cbn in H; try contradiction. destruct H as [<-|H]; [exists x, y; cbn; auto|].
  destruct (IH m H) as (x' & y' & H1 & H2 & ->). exists x', y'. cbn. auto.
Qed.
Lemma C_sizes c regs l2 m tol scale c' regs' : factors_sized c -> admm_update_C E Xs c regs l2 m tol scale = Ok (c', regs') ->
  factors_sized c' /\ (0 < m -> Forall c_sized regs').
Proof.
  intros (SA & LB & SB & SC) HU. unfold admm_update_C in HU.
  assert (DB : forall D, In D (BA (cBs c) (cA c)) -> mc D = R).
  { intros D HD. apply in_map2 in HD as (B & a & HB & _ & ->). apply (In_nth _ _ M0) in HB as (q & Hq & <-). cbn [mcolscale mc mbuild]. apply SB. lia. }
  destruct (msum_list (C_lhs_terms _ _ _)) as [lhs|] eqn:EL; [|discriminate]. destruct (msum_list (C_rhs_terms _ _ _)) as [rhs|] eqn:EH; [|discriminate]. cbv zeta in HU.
  assert (DL : mr lhs = R /\ mc lhs = R).
  { apply (msum_list_dims _ _ _ _ EL). intros X HX. apply in_map2 in HX as (X0 & D & _ & HD & ->). cbn [mmul mtrans mr mc mbuild]. split; now apply DB. }
  assert (DR : mr rhs = K /\ mc rhs = R).
  { apply (msum_list_dims _ _ _ _ EH). intros X HX. apply in_map2 in HX as (X0 & D & HX0 & HD & ->). cbn [mmul mtrans mr mc mbuild]. split; [now apply HK|now apply DB]. }
  set (d := lhs_svd _ _) in HU. destruct (inner_loop _ _ _ _) as [[C r]|] eqn:EI; [|discriminate]. cbn [bind] in HU. injection HU as <- <-.
  assert (W : mc (snd d) = R) by (unfold d; rewrite lhs_svd_width; [apply DL|destruct DL; congruence]).
  destruct (inner_keeps (C_step E d (feas_penalty scale lhs) rhs) (conv_mat tol) (fun s => sized (fst s) K R) (fun s => Forall c_sized (snd s)))
    with (n := m) (s := (cC c, regs)) (s' := (C, r)) as (K1 & K2); [|exact SC|exact EI|].
  - intros [C0 r0] [C1 r1] S0 HS. cbn [fst snd] in *. unfold C_step in HS. destruct (shifted_mats r0) as [sh|]; [|discriminate]. cbn [bind] in HS.
    destruct (solve_mat _ _) as [C2|] eqn:EC; [|discriminate]. cbn [bind] in HS.
    destruct (mapM (C_reg_step _ _ _) r0) as [r2|] eqn:EG; [|discriminate]. cbn [bind] in HS. injection HS as <- <-.
    apply solve_mat_sized in EC. rewrite W in EC. unfold madd, mmap2, mscale, mmap in EC. cbn [mr mc mbuild] in EC.
    destruct (dims_sum_mats (mr rhs) (mc rhs) sh) as (D1 & _). rewrite D1, (proj1 DR) in EC.
    split; [exact EC|]. refine (mapM_keeps _ (fun _ => True) c_sized r0 r2 _ _ EG); [|now apply Forall_forall].
    intros g g' _ Hg. unfold C_reg_step in Hg. destruct (factor_matrix_update _ _ _ _) as [aux|] eqn:EA; [|discriminate]. cbn [bind] in Hg.
    destruct (subtract_from_aux _ _ _) as [su|]; [|discriminate]. cbn [bind] in Hg. injection Hg as <-. intros SP. cbn [g_pen g_aux] in *.
    unfold madd, mmap2 in EA. destruct EC as (D2 & D3 & _). rewrite D2, D3 in EA. now apply update_sized in EA.
  - cbn [fst snd] in *. split; [|exact K2]. split; [exact SA|]. split; [exact LB|]. split; [exact SB|exact K1].
Qed.

(** ** Whole runs *)
Definition state_sized (s : state) : Prop := factors_sized (st_cmf s) /\ Forall counted (st_rB s).
Definition vars_sized (P : params) (s : state) : Prop :=
  (p_updA P = true -> Forall a_sized (st_rA s)) /\ (p_updB P = true -> Forall b_sized (st_rB s)) /\ (p_updC P = true -> Forall c_sized (st_rC s)).
Lemma outer_sizes P s s' : state_sized s -> outer_step E P Xs s = Ok s' -> state_sized s' /\ (0 < p_inner P -> vars_sized P s').
Proof.
  intros (F & CN) H. unfold outer_step in H.
  destruct (upd_B E P Xs s) as [s1|] eqn:E1; [|discriminate]. cbn [bind] in H. destruct (upd_C E P Xs s1) as [s2|] eqn:E2; [|discriminate]. cbn [bind] in H.
  assert (K1 : factors_sized (st_cmf s1) /\ Forall counted (st_rB s1) /\ (0 < p_inner P -> p_updB P = true -> Forall b_sized (st_rB s1))).
  { unfold upd_B in E1. destruct (p_updB P).
    - destruct (admm_update_B _ _ _ _ _ _ _ _ _) as [[c r]|] eqn:EU; [|discriminate]. cbn [bind] in E1. injection E1 as <-.
      destruct (B_sizes _ _ _ _ _ _ _ _ _ F CN EU) as (A1 & A2 & A3). cbn. auto.
    - injection E1 as <-. cbn. split; [exact F|]. split; [exact CN|]. discriminate. }
  destruct K1 as (F1 & CN1 & B1).
  assert (K2 : factors_sized (st_cmf s2) /\ st_rB s2 = st_rB s1 /\ (0 < p_inner P -> p_updC P = true -> Forall c_sized (st_rC s2))).
  { unfold upd_C in E2. destruct (p_updC P).
    - destruct (admm_update_C _ _ _ _ _ _ _ _) as [[c r]|] eqn:EU; [|discriminate]. cbn [bind] in E2. injection E2 as <-.
      destruct (C_sizes _ _ _ _ _ _ _ _ F1 EU) as (A1 & A2). cbn. auto.
    - injection E2 as <-. split; [exact F1|]. split; [reflexivity|]. discriminate. }
  destruct K2 as (F2 & R2 & C2).
  assert (K3 : factors_sized (st_cmf s') /\ st_rB s' = st_rB s2 /\ st_rC s' = st_rC s2 /\ (0 < p_inner P -> p_updA P = true -> Forall a_sized (st_rA s'))).
  { unfold upd_A in H. destruct (p_updA P).
    - destruct (admm_update_A _ _ _ _ _ _ _ _ _) as [[[c r] i]|] eqn:EU; [|discriminate]. cbn [bind] in H. injection H as <-.
      destruct (A_sizes _ _ _ _ _ _ _ _ _ _ F2 EU) as (A1 & A2). cbn. auto.
    - injection H as <-. do 3 (split; [auto|]). discriminate. }
  destruct K3 as (F3 & R3 & C3 & A3). split; [split; [exact F3|now rewrite R3, R2]|]. intros Hi.
  split; [auto|]. split; [rewrite R3, R2; auto|rewrite C3; auto].
Qed.
Lemma loop_sizes P : forall k it s h s' h' it' msg, state_sized s -> ao_loop E P Xs k it s h = Ok (s', h', it', msg) ->
  state_sized s' /\ (0 < k -> 0 < p_inner P -> vars_sized P s').
Proof.
  induction k as [|k IH]; intros it s h s' h' it' msg S0 H; cbn [ao_loop] in H.
  - injection H as <- <- <- <-. split; [exact S0|lia].
  - destruct (outer_step E P Xs s) as [s1|] eqn:E1; [|discriminate]. cbn [bind] in H. cbv zeta in H.
    destruct (outer_sizes P s s1 S0 E1) as (S1 & M1).
    assert (REC : forall h1, ao_loop E P Xs k (S it) s1 h1 = Ok (s', h', it', msg) -> state_sized s' /\ (0 < S k -> 0 < p_inner P -> vars_sized P s')).
    { intros h1 H1. destruct (IH _ _ _ _ _ _ _ S1 H1) as (S2 & M2). split; [exact S2|].
      intros _ Hi. destruct k; [|apply M2; lia]. cbn [ao_loop] in H1. injection H1 as <- <- <- <-. auto. }
    assert (STOP : s' = s1 -> state_sized s' /\ (0 < S k -> 0 < p_inner P -> vars_sized P s')) by (intros ->; auto).
    destruct (otruthy (p_tol P) || otruthy (p_abs_tol P) || p_return_errors P); [|now apply REC in H].
    destruct (state_gaps s1) as [g|]; [|discriminate]. cbn [bind h_errors h_gaps h_losses] in H.
    match type of H with context[if ?b then ao_loop _ _ _ _ _ _ _ else _] => destruct b end; [now apply REC in H|].
    destruct (state_loss P Xs s1) as [l|]; [|discriminate]. cbn [bind] in H.
    destruct (p_tol P) as [t|]; [|now apply REC in H]. destruct (ntruthy t); [|now apply REC in H].
    destruct (p_abs_tol P) as [a|]; [|discriminate].
    match type of H with context[if ?b then _ else _] => destruct b end; [injection H as <- <- <- <-; now apply STOP|].
    match type of H with context[if ?b then _ else _] => destruct b end; [injection H as <- <- <- <-; now apply STOP|]. now apply REC in H.
Qed.
End OrderSizes.
