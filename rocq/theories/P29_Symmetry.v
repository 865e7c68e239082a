(** C69-C72: order of the components, order of rows and columns, units, choice of the svd routine. *)
From Coq Require Import Reals Lra Lia List Arith Bool ZArith Permutation.
From Verif Require Import Num Numpy RFacts Spec SpecFacts MatFacts ModelSpec Penalties PenaltySpec
  CoupledMatrices CmfSpec CmfProofs Decomp DecompSpec DecompFacts AdmmProofs InitVars InitSpec InitProofs Parse ParseSpec ParseProofs Fit FitSpec FitProofs P10_Start P11_Total FitExamples ResumeSpec StartSpec ReorderSpec ReorderFit
  SymSpec SymFacts SymPen SymRun SymFit SymCall DecompExamples Ideal P25_Starts P27_Order.
Import ListNotations.
Local Open Scope R_scope.

(** ** Starts *)
Lemma id_rearranges n : rearranges n (fun i => i).
Proof. unfold rearranges. rewrite map_id. reflexivity. Qed.
Definition folded (c : rcmf) : rcmf := Cmf (N:=RNum) None (scaled_A c) (cBs c) (cC c).
Lemma folded_moved z h c c' : rearranges (z_rank z) (h_comp h) -> moved_cmf z h c c' -> moved_cmf z h (folded c) (folded c').
Proof.
  intros HC (W & A & B & C). split; [exact Logic.I|]. split; [|split; assumption]. cbn [folded cA]. unfold scaled_A. destruct (cw c) as [w|], (cw c') as [w'|]; try contradiction; [|exact A].
  eapply moved_ext; [| | |eapply moved_mcolscale; [apply id_rearranges|exact HC|exact A|exact W]]; [lra|reflexivity|reflexivity].
Qed.
Lemma seq_any_ext V IE rnd (a : fitR) l : f_init a = InitSeq l -> cmf_aoadmm V IE rnd a = cmf_aoadmm V no_ext rnd a.
Proof. intros E. unfold cmf_aoadmm, setup. rewrite E. reflexivity. Qed.
Definition zero_mat (M : matR) : Prop := exists r c, M = mzeros (N:=RNum) r c.
Definition zero_val (v : auxval (N:=RNum)) : Prop :=
  match v with VMat M => zero_mat M | VMats (AList l) => Forall zero_mat l | VMats (APf2 _ D) => zero_mat D end.
Lemma zeros_zero r c M : zeros (N:=RNum) r c = Ok M -> zero_mat M.
Proof. unfold zeros. destruct (c <? 0)%Z; [discriminate|]. intros H. injection H as <-. eexists _, _. reflexivity. Qed.
Lemma mapM_zeros r (Xs : list matR) : forall l, mapM (fun X : matR => zeros (N:=RNum) (mr X) r) Xs = Ok l -> Forall zero_mat l.
Proof.
  induction Xs as [|X Xs IH]; intros l H; cbn in H; [injection H as <-; constructor|]. destruct (zeros (mr X) r) as [M|] eqn:E; [|discriminate]. cbn in H.
  destruct (mapM _ Xs) as [l0|] eqn:E0; [|discriminate]. cbn in H. injection H as <-. constructor; [now apply zeros_zero in E|now apply IH].
Qed.
Lemma common_zero rnd Xs r m pos v p : init_common (N:=RNum) rnd (IStr Zeros) Xs r m pos = Ok (v, p) -> zero_val v.
Proof.
  unfold init_common. destruct r as [r|]; [|discriminate]. destruct m as [m|]; [|discriminate]. destruct (negb _); [discriminate|]. destruct (m =? 0)%Z; [|destruct (m =? 1)%Z].
  - destruct (zeros (length Xs) r) eqn:E; [|discriminate]. intros H. injection H as <- _. now apply zeros_zero in E.
  - destruct (mapM _ Xs) as [l|] eqn:E; [|discriminate]. intros H. injection H as <- _. now apply mapM_zeros in E.
  - destruct (first_cols Xs) as [K|]; [|discriminate]. cbn [bind]. destruct (zeros K r) eqn:E; [|discriminate]. intros H. injection H as <- _. now apply zeros_zero in E.
Qed.
Lemma aux_zero rnd g o Xs r m pos v p : o_aux o = IStr Zeros -> init_aux (N:=RNum) rnd g o Xs r m pos = Ok (v, p) -> zero_val v.
Proof.
  unfold init_aux. intros ->. assert (PF : pf2_init_aux (N:=RNum) rnd g (IStr Zeros) Xs r m pos = Ok (v, p) -> zero_val v).
  { unfold pf2_init_aux. destruct r as [r|]; [|discriminate]. destruct m as [m|]; [|discriminate]. destruct (negb _); [discriminate|]. destruct (zeros (Z.to_nat r) r) eqn:E; [|discriminate]. cbn [bind].
    destruct (mapM _ Xs); [|discriminate]. intros H. injection H as <- _. now apply zeros_zero in E. }
  destruct (o_pen o); try exact PF; apply common_zero.
Qed.
Lemma mapS_zero (Q : pobjR -> Prop) (f : pobjR -> nat -> res (auxval (N:=RNum) * nat)) : (forall o pos v p, Q o -> f o pos = Ok (v, p) -> zero_val v) ->
  forall l pos vs p, Forall Q l -> mapS f l pos = Ok (vs, p) -> Forall zero_val vs.
Proof.
  intros H. induction l as [|o l IH]; intros pos vs p F E; cbn in E; [injection E as <- _; constructor|]. inversion F; subst. destruct (f o pos) as [[v p1]|] eqn:E1; [|discriminate]. cbn in E.
  destruct (mapS f l p1) as [[ws p2]|] eqn:E2; [|discriminate]. cbn in E. injection E as <- _. constructor; [eapply H; eassumption|eapply IH; eassumption].
Qed.
Lemma initialize_zero (Q : pobjR -> Prop) (f : pobjR -> list matR -> pyint -> pyint -> nat -> res (auxval (N:=RNum) * nat)) Xs r rA rB rC pos x y w p :
  (forall o m pos v p, Q o -> f o Xs r m pos = Ok (v, p) -> zero_val v) -> Forall Q rA -> Forall Q rB -> Forall Q rC -> initialize f Xs r (rA, rB, rC) pos = Ok (x, y, w, p) ->
  Forall zero_val x /\ Forall zero_val y /\ Forall zero_val w.
Proof.
  intros H FA FB FC E. unfold initialize in E. destruct (mapS _ rA pos) as [[x' p1]|] eqn:E1; [|discriminate]. cbn [bind] in E. destruct (mapS _ rB p1) as [[y' p2]|] eqn:E2; [|discriminate]. cbn [bind] in E.
  destruct (mapS _ rC p2) as [[w' p3]|] eqn:E3; [|discriminate]. cbn [bind] in E. injection E as <- <- <- _.
  split; [|split]; [eapply (fun G => mapS_zero Q _ G _ _ _ _ FA E1)|eapply (fun G => mapS_zero Q _ G _ _ _ _ FB E2)|eapply (fun G => mapS_zero Q _ G _ _ _ _ FC E3)];
    intros o q v p' HQ E0; exact (H _ _ _ _ _ HQ E0).
Qed.
Lemma mregs_zero l : forall x d g, Forall zero_val x -> Forall zero_val d -> make_mregs (N:=RNum) l x d = Ok g -> Forall (fun r => zero_mat (g_aux r) /\ zero_mat (g_dual r)) g.
Proof.
  induction l as [|o l IH]; intros x d g FX FD H; cbn in H; destruct x as [|[M|] x]; try discriminate; destruct d as [|[D|] d]; try discriminate; [injection H as <-; constructor|].
  destruct (make_mregs l x d) as [g'|] eqn:E; [|discriminate]. cbn in H. injection H as <-. inversion FX; inversion FD; subst. constructor; [split; assumption|apply (IH x d); assumption].
Qed.
Lemma bregs_zero l : forall x d g, Forall zero_val x -> Forall zero_val d -> make_bregs (N:=RNum) l x d = Ok g -> Forall (fun r => zero_val (VMats (b_aux r)) /\ Forall zero_mat (b_dual r)) g.
Proof.
  induction l as [|o l IH]; intros x d g FX FD H; cbn in H; destruct x as [|[M|M] x]; try discriminate; destruct d as [|[D|[D|]] d]; try discriminate; [injection H as <-; constructor|].
  destruct (make_bregs l x d) as [g'|] eqn:E; [|discriminate]. cbn in H. injection H as <-. inversion FX; inversion FD; subst. constructor; [split; assumption|apply (IH x d); assumption].
Qed.
Lemma parsed_zero V (a : fitR) t : zero_vars a -> parse_all V (f_kw a) (f_regs a) (f_aux a) (f_dual a) = Ok t ->
  forall m, (m < 3)%nat -> Forall (fun o => o_aux o = IStr Zeros /\ o_dual o = IStr Zeros) (pick t m).
Proof.
  intros (Z1 & Z2 & Z3) EP m Hm. destruct (parse_all_ok _ _ _ _ _ _ EP m Hm) as (kw & pa & u & MV & PM & US & ->). rewrite Forall_app. split; [|now apply (Z3 m)].
  apply parse_mode_iff in PM as (_ & gl & GL & ->). eapply Forall_impl; [|exact (inits_parsed V kw (f_aux a) (f_dual a) gl GL)]. intros o (Q1 & Q2). cbv beta. split; congruence.
Qed.
Lemma setup_zero V IE rnd (a : fitR) s l2 : zero_vars a -> setup V IE rnd a = Ok (s, l2) ->
  Forall (fun r => zero_mat (g_aux r) /\ zero_mat (g_dual r)) (st_rA s) /\ Forall (fun r => zero_val (VMats (b_aux r)) /\ Forall zero_mat (b_dual r)) (st_rB s) /\
  Forall (fun r => zero_mat (g_aux r) /\ zero_mat (g_dual r)) (st_rC s).
Proof.
  intros HZ H. unfold setup in H. destruct (negb (f_svd a)); [discriminate|]. destruct (initialize_cmf _ _ _ _ _ _ _) as [[c pos]|]; [|discriminate]. cbn [bind] in H.
  destruct (listify (f_l2 a)) as [l|]; [|discriminate]. cbn [bind] in H. destruct (parse_all _ _ _ _ _) as [[[rA rB] rC]|] eqn:EP; [|discriminate]. cbn [bind] in H.
  pose proof (parsed_zero V a _ HZ EP 0%nat ltac:(lia)) as P0. pose proof (parsed_zero V a _ HZ EP 1%nat ltac:(lia)) as P1. pose proof (parsed_zero V a _ HZ EP 2%nat ltac:(lia)) as P2. cbn [pick] in P0, P1, P2.
  assert (Q0 : Forall (fun o : pobjR => o_aux o = IStr Zeros /\ o_dual o = IStr Zeros) (if f_updA a then rA else [])) by (destruct (f_updA a); [auto|constructor]).
  assert (Q1 : Forall (fun o : pobjR => o_aux o = IStr Zeros /\ o_dual o = IStr Zeros) (if f_updB a then rB else [])) by (destruct (f_updB a); [auto|constructor]).
  assert (Q2 : Forall (fun o : pobjR => o_aux o = IStr Zeros /\ o_dual o = IStr Zeros) (if f_updC a then rC else [])) by (destruct (f_updC a); [auto|constructor]).
  cbv zeta in H. destruct (initialize_aux _ _ _ _ _) as [[[[aA aB] aC] p]|] eqn:EA; [|discriminate]. cbn [bind] in H.
  destruct (initialize_dual _ _ _ _ _) as [[[[dA dB] dC] q]|] eqn:ED; [|discriminate]. cbn [bind] in H. destruct (negb (shapes_match _ _ _ _)); [discriminate|].
  destruct (make_mregs _ aA dA) as [gA|] eqn:G1; [|discriminate]. cbn [bind] in H. destruct (make_bregs _ aB dB) as [gB|] eqn:G2; [|discriminate]. cbn [bind] in H.
  destruct (make_mregs _ aC dC) as [gC|] eqn:G3; [|discriminate]. cbn [bind] in H. injection H as <- _. cbn [st_rA st_rB st_rC].
  destruct (initialize_zero _ _ _ _ _ _ _ _ _ _ _ _ (fun o m p' v p'' (Q : o_aux o = IStr Zeros /\ o_dual o = IStr Zeros) => aux_zero rnd true o _ _ m p' v p'' (proj1 Q)) Q0 Q1 Q2 EA) as (A1 & A2 & A3).
  assert (DZ : forall o m p' v p'', o_aux o = IStr Zeros /\ o_dual o = IStr Zeros -> init_dual rnd o (f_data a) (f_rank a) m p' = Ok (v, p'') -> zero_val v) by (intros o m p' v p'' (_ & E0); unfold init_dual; rewrite E0; apply common_zero).
  destruct (initialize_zero _ _ _ _ _ _ _ _ _ _ _ _ DZ Q0 Q1 Q2 ED) as (D1 & D2 & D3).
  split; [exact (mregs_zero _ _ _ _ A1 D1 G1)|]. split; [exact (bregs_zero _ _ _ _ A2 D2 G2)|exact (mregs_zero _ _ _ _ A3 D3 G3)].
Qed.
Lemma zero_moved r c k p q (M : matR) : rearranges r p -> rearranges c q -> shaped M r c -> zero_mat M -> moved r c k p q M M.
Proof. intros Hp Hq S (r' & c' & ->). destruct S as (W & E1 & E2). cbn in E1, E2. subst r' c'. now apply moved_mzeros. Qed.
Lemma same_moved r c (M : matR) : shaped M r c -> moved r c 1 (fun i => i) (fun i => i) M M.
Proof. intros S. split; [exact S|]. split; [exact S|]. intros i j _ _. rn. lra. Qed.
(** Variables with shapes, all moved to themselves if the matrices are. *)
Lemma vars_self z h (Q : matR -> Prop) Xs s :
  (forall r c k p q M, Q M -> (k = h_A h /\ p = (fun i => i) /\ q = h_comp h) \/ (k = h_B h /\ (p = (fun i => i) \/ (exists i, (i < z_n z)%nat /\ r = z_rows z i /\ p = h_rows h i)) /\ q = h_comp h) \/ (k = h_C h /\ r = z_cols z /\ p = h_cols h /\ q = h_comp h) -> c = z_rank z ->
     shaped M r c -> moved r c k p q M M) ->
  valid_state Xs s -> mr (cA (st_cmf s)) = z_n z -> mc (cA (st_cmf s)) = z_rank z -> length (cBs (st_cmf s)) = z_n z -> (forall i, (i < z_n z)%nat -> rowsB (st_cmf s) i = z_rows z i) -> mr (cC (st_cmf s)) = z_cols z ->
  Forall (fun r => Q (g_aux r) /\ Q (g_dual r)) (st_rA s) -> Forall (fun r => match b_aux r with AList l => Forall Q l | APf2 _ D => Q D end /\ Forall Q (b_dual r)) (st_rB s) -> Forall (fun r => Q (g_aux r) /\ Q (g_dual r)) (st_rC s) ->
  moved_vars z h (vars_of s) (vars_of s).
Proof.
  intros HQ (_ & _ & VA & VB & VC) EA ER EN EJ EC QA QB QC. rewrite EA, ER in VA. rewrite EN, ER in VB. rewrite EC, ER in VC.
  assert (SELF : forall {T} (P : T -> T -> Prop) l, Forall (fun x => P x x) l -> Forall2 P l l) by (intros T P l F; induction F; constructor; assumption).
  assert (LS : forall l, list_shaped (z_n z) (rowsB (st_cmf s)) (z_rank z) l -> Forall Q l -> moved_list (z_n z) (z_rows z) (z_rank z) (h_B h) (h_rows h) (h_comp h) l l).
  { intros l (L & S) F. split; [exact L|]. split; [exact L|]. intros i Hi. rewrite Forall_forall in F. apply HQ; [apply F, nth_In; rewrite L; exact Hi|right; left; split; [reflexivity|split; [right; exists i; auto|reflexivity]]|reflexivity|rewrite <- (EJ i Hi); auto]. }
  rewrite Forall_forall in *. unfold moved_vars, vars_of. cbn [v_auxA v_auxB v_auxC v_dualA v_dualB v_dualC].
  repeat split; apply SELF; rewrite Forall_map; apply Forall_forall; intros g Hg.
  - destruct (VA g Hg) as (_ & _ & S1 & S2). apply HQ; [apply (QA g Hg)|left; auto|reflexivity|exact S1].
  - destruct (VA g Hg) as (_ & _ & S1 & S2). apply HQ; [apply (QA g Hg)|left; auto|reflexivity|exact S2].
  - destruct (VB g Hg) as (_ & S1). destruct (QB g Hg) as (Q1 & _). destruct (b_aux g) as [l|P D].
    + apply LS; [|exact Q1]. destruct (b_pen g); try contradiction; apply S1.
    + destruct (b_pen g); try contradiction. destruct S1 as (S1 & S2 & _). split; [reflexivity|]. split; [|apply HQ; [exact Q1|right; left; auto|reflexivity|exact S2]].
      destruct S1 as (L & S1). split; [exact L|]. intros i Hi. rewrite <- (EJ i Hi). auto.
  - destruct (VB g Hg) as (S1 & _). apply LS; [exact S1|]. apply (QB g Hg).
  - destruct (VC g Hg) as (_ & _ & S1 & S2). apply HQ; [apply (QC g Hg)|right; right; auto|reflexivity|exact S1].
  - destruct (VC g Hg) as (_ & _ & S1 & S2). apply HQ; [apply (QC g Hg)|right; right; auto|reflexivity|exact S2].
Qed.

(** ** Any two corresponding calls, from corresponding starts *)
(** The second call is the first in other units (positive factors for A, the B_i and C; bounds, strengths
    and data to match) and other orders of components, rows and columns.  If the two start at
    corresponding points, then both return corresponding factors and variables and the same diagnostics, or
    both raise the same exception. *)
Theorem C71_any_start V V' IE IE' rnd rnd' (a b : fitR) rank h c c' v v' :
  let z := data_sizes a rank in
  sensible V a rank -> sensible V' b rank -> ranks_kept IE -> ranks_kept IE' -> svd_correct (e_ext V) rank -> svd_correct (e_ext V') rank ->
  (f_updB a = true -> wants_parafac2 a -> same_nearest (e_ext V) (e_ext V') rank (h_B h)) ->
  proper z h -> moved_data z h (f_data a) (f_data b) -> same_settings a b -> ridge_moved h a b -> requests_moved h V V' a b ->
  starts_at V IE rnd a c v -> starts_at V' IE' rnd' b c' v' -> moved_cmf z h c c' -> moved_vars z h v v' ->
  losses_kept h a \/ ~ tol_set (f_tol a) ->
  same_outcome (moved_output z h (losses_kept h a)) (cmf_aoadmm V IE rnd a) (cmf_aoadmm V' IE' rnd' b).
Proof.
  intros z HS HS' RK RK' HE HE' HN HP HX SS RM RQ ST ST' MC MV HL.
  eapply outcome_weaken; [intros o o'; apply (output_weaken z h (losses_equal h V a)); apply kept_equal|].
  apply (fit_moved V V' IE IE' rnd rnd' a b rank z h HS HS' RK RK' HE HE' HN eq_refl HP HX SS RM (requests_penalties z h V V' a b HP RQ) c c' v v' ST ST' MC MV).
  destruct HL as [L|L]; [left; now apply kept_equal|now right].
Qed.

(** ** Given factors, variables that start at zero *)
Lemma data_same_sizes z h Xs Xs' : (0 < z_n z)%nat -> moved_data z h Xs Xs' -> same_sizes Xs Xs'.
Proof.
  intros N0 (L & L' & H). split.
  - apply (nth_ext _ _ 0%nat 0%nat); rewrite !map_length; [congruence|]. intros i Hi. assert (Hi' : (i < z_n z)%nat) by (rewrite <- L'; exact Hi).
    rewrite (nth_map_lt _ _ i 0%nat no_mat) by exact Hi. rewrite (nth_map_lt _ _ i 0%nat no_mat) by (rewrite L; exact Hi'). destruct (H i Hi') as ((_ & E1 & _) & (_ & E2 & _) & _). congruence.
  - unfold colsX, nthX. destruct (H 0%nat N0) as ((_ & _ & E1) & (_ & _ & E2) & _). congruence.
Qed.
Lemma moved_pen_pf2 E E' t k S p p' : moved_pen E E' t k S p p' -> is_parafac2 p <-> is_parafac2 p'.
Proof. destruct p, p'; cbn; tauto. Qed.
Lemma fits_sizes z h (Xs Xs' : list matR) (c c' : rcmf) : moved_data z h Xs Xs' -> moved_cmf z h c c' ->
  valid_cmf c -> valid_cmf c' -> data_fits Xs (folded c) /\ data_fits Xs' (folded c') /\ mc (cA (folded c)) = z_rank z /\ mc (cA (folded c')) = z_rank z.
Proof.
  intros (L & L' & HX) MC V V'. pose proof MC as (_ & ((_ & _ & CA) & (_ & _ & CA') & _) & (LB & LB' & HB) & ((_ & RC & _) & (_ & RC' & _) & _)).
  assert (F : forall c : rcmf, valid_cmf c -> valid_cmf (folded c)).
  { intros d (WA & WC & E1 & E2 & HBs & _). destruct (scaled_A_wf d WA) as (S1 & S2 & S3). split; [exact S1|]. split; [exact WC|]. cbn [folded cA cBs cC cw]. split; [congruence|]. split; [congruence|]. split; [|discriminate].
    intros i Hi. destruct (HBs i Hi) as (Y1 & Y2). split; [exact Y1|]. rewrite S3. exact Y2. }
  assert (S : forall d : rcmf, valid_cmf d -> mc (cA (folded d)) = mc (cA d)) by (intros d (WA & _); cbn [folded cA]; apply (scaled_A_wf d WA)).
  split; [|split; [|rewrite !S by assumption; auto]].
  - split; [now apply F|]. cbn [folded cBs]. split; [congruence|]. intros i Hi. assert (Hz : (i < z_n z)%nat) by (rewrite <- L; exact Hi). destruct (HX i Hz) as ((W & R1 & R2) & _). destruct (HB i Hz) as ((_ & R3 & _) & _).
    unfold nthX, nthB. cbn [folded cBs cC]. split; [exact W|]. split; congruence.
  - split; [now apply F|]. cbn [folded cBs]. split; [congruence|]. intros i Hi. assert (Hz : (i < z_n z)%nat) by (rewrite <- L'; exact Hi). destruct (HX i Hz) as (_ & (W & R1 & R2) & _). destruct (HB i Hz) as (_ & (_ & R3 & _) & _).
    unfold nthX, nthB. cbn [folded cBs cC]. split; [exact W|]. split; congruence.
Qed.
Lemma change_core V V' X X' rnd (a b : fitR) rank h c c' :
  let z := data_sizes a rank in
  sensible V a rank -> sensible V' b rank -> accepted V a -> accepted V' b -> x_tv X = x_tv (e_ext V) -> x_tv X' = x_tv (e_ext V') -> svds_agree X X' rank (h_comp h) -> nearest_shaped X rank ->
  (f_updB a = true -> wants_parafac2 a -> same_nearest X X' rank (h_B h)) ->
  proper z h -> moved_data z h (f_data a) (f_data b) -> same_settings a b -> ridge_moved h a b -> requests_moved h V V' a b ->
  starts_from a c -> starts_from b c' -> moved_cmf z h c c' -> zero_vars a -> zero_vars b ->
  losses_kept h a \/ ~ tol_set (f_tol a) ->
  same_outcome (moved_output z h (losses_kept h a)) (let* sl := setup V no_ext rnd a in fit_with X a sl) (let* sl := setup V' no_ext rnd b in fit_with X' b sl).
Proof.
  intros z HS HS' AC AC' HXT HXT' HE HE' HN HP HX SS RM RQ (VC & l & IL & PL) (VC' & l' & IL' & PL') MC ZV ZV' HL.
  destruct AC as (SV & WL & WK & GR & AC), AC' as (SV' & WL' & WK' & GR' & AC'').
  destruct (listify_total _ WL) as (x & y & w & EL). destruct (listify_total _ WL') as (x' & y' & w' & EL').
  destruct (parse_all_total V (f_kw a) (f_regs a) (f_aux a) (f_dual a) GR WK AC) as (t & EP). destruct (parse_all_total V' (f_kw b) (f_regs b) (f_aux b) (f_dual b) GR' WK' AC'') as (t' & EP').
  destruct (given_start (e_ext V) no_ext rnd (f_data a) (f_rank a) c l 0 VC PL) as (EI & VF). destruct (given_start (e_ext V') no_ext rnd (f_data b) (f_rank b) c' l' 0 VC' PL') as (EI' & VF').
  fold (folded c) in *. fold (folded c') in *. rewrite <- IL in EI. rewrite <- IL' in EI'.
  destruct (fits_sizes z h _ _ _ _ HX MC VC VC') as (DF & DF' & RA & RA').
  assert (N0 : (0 < z_n z)%nat) by (destruct HS as (NE & _); unfold z, data_sizes; cbn; destruct (f_data a); [congruence|cbn; lia]).
  pose proof (data_same_sizes z h _ _ N0 HX) as SZ.
  pose proof SS as (S1 & S2 & S3 & S4 & S5 & S6 & S7 & S8 & S9 & S10 & S11 & S12 & S13 & S14).
  assert (AL : forall m, (m < 3)%nat -> updates a m = true -> Forall2 alike (pick t m) (pick t' m)).
  { intros m Hm U. pose proof (requests_penalties z h V V' a b HP RQ m _ _ Hm U (ex_intro _ t (conj EP eq_refl)) (ex_intro _ t' (conj EP' eq_refl))) as F.
    pose proof (parsed_zero V a t ZV EP m Hm) as Z. pose proof (parsed_zero V' b t' ZV' EP' m Hm) as Z'. clear - F Z Z'. revert F Z Z'. generalize (pick t m), (pick t' m). intros l1. induction l1 as [|o l1 IH]; intros [|o' l2] F Z Z'; inversion F; subst; constructor.
    - inversion Z; inversion Z'; subst. split; [|split]; [intuition congruence|intuition congruence|now apply moved_pen_pf2 in H2].
    - inversion Z; inversion Z'; subst. now apply IH. }
  assert (HR : f_rank a = PyInt (Z.of_nat rank)) by apply HS.
  pose proof (setup_alike V V' no_ext no_ext rnd a b rank (folded c) (folded c') 0 _ _ t t' (eq_trans SV' (eq_sym SV)) HR S1 SZ S10 S11 S12 EI EI' DF DF' RA RA' EL EL' EP EP' AL) as SA.
  destruct (setup V no_ext rnd a) as [[s l2]|e] eqn:E1, (setup V' no_ext rnd b) as [[s' l2']|e'] eqn:E2; cbn [res_rel fst] in SA; try contradiction.
  2:{ cbn. exact SA. }
  destruct SA as (C1 & C2 & C3).
  destruct (setup_ok _ _ _ _ _ _ _ HS no_ext_ranks E1) as (VS & _). destruct (setup_zero _ _ _ _ _ _ ZV E1) as (Z1 & Z2 & Z3).
  pose proof HP as (_ & _ & _ & PC & PK & PR). assert (MF : moved_cmf z h (folded c) (folded c')) by (now apply folded_moved).
  assert (MV : moved_vars z h (vars_of s) (vars_of s')).
  { rewrite C3. pose proof MF as (_ & ((_ & Q1 & Q2) & _) & (Q3 & _ & Q4) & ((_ & Q5 & _) & _)). apply (vars_self z h zero_mat (f_data a)); try assumption; try (rewrite C1; assumption).
    - intros r k0 k p q M HM HC -> HS0. destruct HC as [(-> & -> & ->)|[(-> & [->|(i & Hi & -> & ->)] & ->)|(-> & -> & -> & ->)]]; (apply zero_moved; [|exact PC|exact HS0|exact HM]); auto using id_rearranges.
    - intros i Hi. rewrite C1. destruct (Q4 i Hi) as ((_ & Q6 & _) & _). exact Q6. }
  destruct (const_flags (f_const a)) as [fl|e] eqn:EF.
  2:{ (* an unknown [constant_feasibility_penalty] *)
      destruct (setup_ok _ _ _ _ _ _ _ HS' no_ext_ranks E2) as (VS' & _).
      assert (IH : forall (X0 : list matR) s0 P', valid_state X0 s0 -> exists h0, init_hist P' X0 s0 = Ok h0).
      { intros X0 s0 P' W0. unfold init_hist. cbv zeta. destruct (TotalRun.state_loss_total P' X0 s0 W0) as (lo & ->). destruct (AoRun.state_gaps_ok X0 s0 W0) as (g & -> & _). cbn. eauto. }
      cbn [bind]. unfold fit_with. destruct (IH _ _ (fit_params a l2 (false, false)) VS) as (h0 & ->). destruct (IH _ _ (fit_params b l2' (false, false)) VS') as (h1 & ->). cbn [bind]. rewrite S4, EF. reflexivity. }
  assert (NC : f_const a <> COther) by (intros K; rewrite K in EF; discriminate).
  assert (S0 : starts_at V no_ext rnd a (folded c) (vars_of s)) by (pose proof (setup_start V no_ext rnd a rank s l2 HS no_ext_ranks NC E1) as Q; now rewrite C1 in Q).
  assert (S0' : starts_at V' no_ext rnd b (folded c') (vars_of s')) by (assert (NC' : f_const b <> COther) by (rewrite S4; exact NC); pose proof (setup_start V' no_ext rnd b rank s' l2' HS' no_ext_ranks NC' E2) as Q; now rewrite C2 in Q).
  assert (HL' : losses_equal h V a \/ ~ tol_set (f_tol a)) by (destruct HL as [L|L]; [left; now apply kept_equal|now right]).
  destruct (fit_moved_with V V' no_ext no_ext rnd rnd a b rank z h HS HS' no_ext_ranks no_ext_ranks X X' HXT HXT' HE HE' HN eq_refl HP HX SS RM (requests_penalties z h V V' a b HP RQ) _ _ _ _ S0 S0' MF MV HL') as (sl & sl' & F1 & F2 & SO).
  rewrite E1 in F1. rewrite E2 in F2. injection F1 as <-. injection F2 as <-. cbn [bind].
  eapply outcome_weaken; [intros o o'; apply (output_weaken z h (losses_equal h V a)); apply kept_equal|exact SO].
Qed.
Theorem C71_change V V' IE rnd (a b : fitR) rank h c c' :
  let z := data_sizes a rank in
  sensible V a rank -> sensible V' b rank -> accepted V a -> accepted V' b -> svd_correct (e_ext V) rank -> svd_correct (e_ext V') rank ->
  (f_updB a = true -> wants_parafac2 a -> same_nearest (e_ext V) (e_ext V') rank (h_B h)) ->
  proper z h -> moved_data z h (f_data a) (f_data b) -> same_settings a b -> ridge_moved h a b -> requests_moved h V V' a b ->
  starts_from a c -> starts_from b c' -> moved_cmf z h c c' -> zero_vars a -> zero_vars b ->
  losses_kept h a \/ ~ tol_set (f_tol a) ->
  same_outcome (moved_output z h (losses_kept h a)) (cmf_aoadmm V IE rnd a) (cmf_aoadmm V' IE rnd b).
Proof.
  intros z HS HS' AC AC' HE HE' HN HP HX SS RM RQ SF SF' MC ZV ZV' HL. pose proof SF as (_ & l & IL & _). pose proof SF' as (_ & l' & IL' & _).
  rewrite (seq_any_ext V IE rnd a l IL), (seq_any_ext V' IE rnd b l' IL'). rewrite !fit_is_with.
  apply (change_core V V' (e_ext V) (e_ext V') rnd a b rank h c c'); try assumption; try reflexivity; [now apply correct_agree|now apply correct_shaped].
Qed.

(** ** Requests that stay the same *)
Lemma values_fun (k : kwargs (N:=RNum)) m kw kw' : mode_values k m kw -> mode_values k m kw' -> kw = kw'.
Proof.
  intros (M1 & M2 & M3 & M4 & M5 & M6 & M7 & M8 & M9) (N1 & N2 & N3 & N4 & N5 & N6 & N7 & N8 & N9). destruct kw, kw'. cbn in *.
  pose proof (means_fun _ _ _ _ M1 N1). pose proof (means_fun _ _ _ _ M2 N2). pose proof (means_fun _ _ _ _ M3 N3). pose proof (means_fun _ _ _ _ M4 N4).
  pose proof (means_fun _ _ _ _ M5 N5). pose proof (means_fun _ _ _ _ M6 N6). pose proof (means_fun _ _ _ _ M7 N7). pose proof (means_fun _ _ _ _ M8 N8). congruence.
Qed.
Lemma user_fun (r : regsarg (N:=RNum)) m u u' : user_penalties r m u -> user_penalties r m u' -> u = u'.
Proof.
  destruct r as [| |es]; cbn; [congruence|tauto|]. intros H H'. rewrite H in H'. injection H' as H'. revert u' H'. clear H. induction u as [|o u IH]; intros [|o' u'] H'; try discriminate; [reflexivity|]. cbn in H'. injection H' as -> H'. now rewrite (IH u' H').
Qed.
Lemma mscale_1 (M : matR) : mwf M -> M = mscale (N:=RNum) 1 M.
Proof. intros W. apply mat_ext; [exact W|auto with mwf|reflexivity|reflexivity|]. intros i j Hi Hj. rewrite mget_mscale by assumption. rn. lra. Qed.
Lemma same_nearest_1 E k : same_nearest E E k 1.
Proof. intros M W _ _. rewrite Rmult_1_l. now rewrite <- (mscale_1 M W). Qed.
Lemma map_1 (x : option R) : x = option_map (Rmult 1) x.
Proof. destruct x; cbn; [now rewrite Rmult_1_l|reflexivity]. Qed.
Lemma pen_same E E' (S : Prop) (p : penalty (N:=RNum)) r : (order_free p \/ (S /\ x_tv E' = x_tv E)) -> valid_penalty p r -> moved_pen E E' 1 1 S p p.
Proof.
  intros H VP. destruct p; cbn [moved_pen order_free is_parafac2] in *; try exact Logic.I; try reflexivity; try (split; [apply map_1|apply map_1]);
    try (split; [lra|reflexivity]); destruct H as [[]|(H1 & H2)].
  - split; [exact H1|]. apply mscale_1. apply VP.
  - split; [reflexivity|]. split; [exact H1|]. split; [lra|]. split; [lra|]. intros v x. now rewrite H2.
  - split; [reflexivity|]. auto.
  - split; [exact H1|]. auto.
Qed.
Lemma kw_same E E' (S : Prop) (kw : modekw (N:=RNum)) : (forall M, k_gl2 kw = Some (GMat M) -> mwf M) -> k_gl2 kw <> Some GNoMat ->
  (S /\ x_tv E' = x_tv E) \/ (~ wants (k_uni kw) /\ strength (k_tv kw) = 0 /\ (k_gl2 kw = None \/ k_gl2 kw = Some GFalse) /\ k_pf2 kw = false) ->
  moved_kw E E' 1 1 S kw kw.
Proof.
  intros GW GN H. split; [reflexivity|]. split; [apply map_1|]. split; [apply map_1|]. split; [apply map_1|]. split; [rewrite Rmult_1_l; apply map_1|]. split; [reflexivity|].
  destruct H as [(H1 & H2)|(H1 & H2 & H3 & H4)].
  - split; [auto|]. split; [apply map_1|]. split; [intros _; split; [reflexivity|split; [exact H1|intros v x; now rewrite H2]]|]. split.
    + destruct (k_gl2 kw) as [g|]; [|exact Logic.I]. destruct g; try exact Logic.I; try congruence. split; [exact H1|]. apply mscale_1. now apply GW.
    + split; [reflexivity|]. intros _. exact H1.
  - split; [tauto|]. split; [apply map_1|]. split; [tauto|]. split; [destruct H3 as [-> | ->]; exact Logic.I|]. split; [reflexivity|]. rewrite H4. discriminate.
Qed.
Lemma mode_rows_some (Xs : list matR) m : Xs <> [] -> (m < 3)%nat -> exists r, mode_rows Xs m r.
Proof.
  intros NE Hm. destruct m as [|[|m]]; cbn; [eauto| |eauto]. exists (rowsX Xs 0), 0%nat. split; [destruct Xs; [congruence|cbn; lia]|reflexivity].
Qed.
Lemma requests_same h V V' (a b : fitR) rank : h_A h = 1 -> h_B h = 1 -> h_C h = 1 -> sensible V a rank -> (forall m kw, (m < 3)%nat -> mode_values (f_kw a) m kw -> acceptable V kw) -> f_kw b = f_kw a -> f_regs b = f_regs a ->
  (forall m, (m < 3)%nat -> updates a m = true -> order_indifferent a m \/ (rows_kept h m /\ x_tv (e_ext V') = x_tv (e_ext V))) ->
  requests_moved h V V' a b.
Proof.
  intros E1 E2 E3 HS AC EK ER H m Hm U. rewrite EK, ER. assert (NE : f_data a <> []) by apply HS. destruct (mode_rows_some _ m NE Hm) as (r & MR). destruct HS as (_ & _ & _ & _ & _ & _ & _ & HKW & HUS & _).
  assert (F1 : problem_factor h m = 1) by (destruct m as [|[|m]]; cbn; rewrite ?E1, ?E2, ?E3; lra). assert (F2 : unit_of h m = 1) by (destruct m as [|[|m]]; cbn; assumption).
  rewrite F1, F2. destruct (H m Hm U) as [(K1 & K2)|(K1 & K2)]; (split; [intros kw kw' MV MV'; rewrite <- (values_fun _ _ _ _ MV MV'); apply kw_same; [|intros E0; specialize (AC m kw Hm MV); unfold acceptable in AC; rewrite E0 in AC; tauto|]|intros u u' HU HU'; rewrite <- (user_fun _ _ _ _ HU HU')]).
  1,4: intros M E0; destruct (HKW m r kw Hm MR MV) as (_ & G); now apply (G M E0).
  - right. now apply K1.
  - specialize (HUS m r u Hm MR HU). specialize (K2 u HU). clear - HUS K2. induction u as [|o u IH]; constructor; inversion HUS; inversion K2; subst; [|now apply IH]. eapply pen_same; [left; assumption|eassumption].
  - left. split; [exact K1|exact K2].
  - specialize (HUS m r u Hm MR HU). clear - HUS K1 K2. induction u as [|o u IH]; constructor; inversion HUS; subst; [|now apply IH]. eapply pen_same; [|eassumption]. right. split; [exact K1|exact K2].
Qed.
Lemma sensible_like V (a b : fitR) rank z h c : sensible V a rank -> z_n z = length (f_data a) -> moved_data z h (f_data a) (f_data b) ->
  starts_from b c -> mc (cA c) = rank -> same_but_data_and_init a b -> sensible V b rank.
Proof.
  intros (H1 & H2 & H3 & H4 & H5 & H6 & H7 & H8 & H9 & H10) EZ HX (VC & l & IL & PL) MC (S1 & S2 & S3 & S4 & S5 & S6 & _).
  assert (N0 : (0 < z_n z)%nat) by (rewrite EZ; destruct (f_data a); [congruence|cbn; lia]). destruct (data_same_sizes z h _ _ N0 HX) as (D1 & D2). destruct HX as (L & L' & HX).
  assert (MRW : forall m r, mode_rows (f_data b) m r -> mode_rows (f_data a) m r).
  { intros [|[|m]] r; cbn; [congruence| |congruence]. intros (i & Hi & ->). assert (Hz : (i < z_n z)%nat) by (rewrite <- L'; exact Hi). exists i. split; [rewrite L; exact Hz|].
    destruct (HX i Hz) as ((_ & R1 & _) & (_ & R2 & _) & _). unfold rowsX, nthX. congruence. }
  rewrite Forall_forall in H2. assert (EV : forall i, (i < z_n z)%nat -> mwf (nth i (f_data b) no_mat) /\ (0 < mr (nth i (f_data b) no_mat))%nat /\ (0 < mc (nth i (f_data b) no_mat))%nat /\ mr (nth i (f_data b) no_mat) = mr (nth i (f_data a) no_mat)).
  { intros i Hi. destruct (HX i Hi) as ((_ & R1 & R2) & (W & R3 & R4) & _). destruct (H2 (nth i (f_data a) no_mat)) as (_ & Q1 & Q2); [apply nth_In; rewrite L; exact Hi|]. split; [exact W|]. rewrite R3, R4, <- R1 at 1. rewrite <- R2. split; [exact Q1|]. split; [exact Q2|]. congruence. }
  split; [intros E0; rewrite E0 in L'; cbn in L'; lia|]. split.
  { apply Forall_forall. intros X HXi. destruct (In_nth _ _ no_mat HXi) as (i & Hi & <-). destruct (EV i) as (Q1 & Q2 & Q3 & _); [rewrite <- L'; exact Hi|]. auto. }
  split; [congruence|]. split; [exact H4|]. split.
  { rewrite IL. cbn. unfold py_of_cmf in PL. injection PL as ->. unfold py_of_mat at 1. rewrite MC. do 5 eexists. reflexivity. }
  split; [congruence|]. split; [rewrite S3; exact H7|]. split; [intros m r kw Hm MR; rewrite S4; apply (H8 m r kw Hm (MRW m r MR))|]. split; [intros m r u Hm MR; rewrite S5; apply (H9 m r u Hm (MRW m r MR))|].
  intros WP X HXi. assert (WP' : wants_parafac2 a) by (unfold wants_parafac2 in *; rewrite S4, S5 in WP; exact WP). destruct (In_nth _ _ no_mat HXi) as (i & Hi & <-). assert (Hz : (i < z_n z)%nat) by (rewrite <- L'; exact Hi).
  destruct (EV i Hz) as (_ & _ & _ & ->). apply (H10 WP'), nth_In. rewrite L. exact Hz.
Qed.
Lemma ridge_same h (a b : fitR) : h_A h = 1 -> h_B h = 1 -> h_C h = 1 -> f_l2 b = f_l2 a -> ridge_moved h a b.
Proof.
  intros E1 E2 E3 E m v v' Hm M M'. rewrite E in M'. rewrite (means_fun _ _ _ _ M' M). assert (F1 : problem_factor h m = 1) by (destruct m as [|[|m]]; cbn; rewrite ?E1, ?E2, ?E3; lra). rewrite F1. lra.
Qed.
Lemma settings_of (a b : fitR) : same_but_data_and_init a b -> same_settings a b.
Proof. unfold same_but_data_and_init, same_settings. tauto. Qed.
Lemma zero_same (a b : fitR) : same_but_data_and_init a b -> zero_vars a -> zero_vars b.
Proof. intros (S1 & S2 & S3 & S4 & S5 & S6 & S7 & S8 & S9 & _) (Z1 & Z2 & Z3). split; [congruence|]. split; [congruence|]. rewrite S5. exact Z3. Qed.
Lemma accepted_same V (a b : fitR) : same_but_data_and_init a b -> accepted V a -> accepted V b.
Proof. intros (S1 & S2 & S3 & S4 & S5 & S6 & S7 & S8 & S9 & S10 & _) (Z1 & Z2 & Z3 & Z4 & Z5). unfold accepted. rewrite S10, S3, S4, S5. auto. Qed.

(** ** Order of the components *)
(** Two calls that differ in the order of the components of the given factorization return the same
    components in that order; everything else they return is the same. *)
Lemma same_data_moved h (Xs : list matR) n : h_A h = 1 -> h_B h = 1 -> h_C h = 1 -> h_rows h = (fun _ i => i) -> h_cols h = (fun i => i) -> Forall mwf Xs -> same_columns Xs ->
  moved_data (Sizes (length Xs) (rowsX Xs) (colsX Xs) n) h Xs Xs.
Proof.
  intros E1 E2 E3 E4 E5 W SC. split; [reflexivity|]. split; [reflexivity|]. cbn [z_n z_rows z_cols]. intros i Hi. rewrite E4, E5. unfold h_X. rewrite E1, E2, E3.
  apply (moved_ext _ _ 1 _ (fun i => i) (fun i => i)); [lra|reflexivity|reflexivity|]. apply same_moved. rewrite Forall_forall in W. assert (IN := nth_In Xs no_mat Hi). split; [now apply W|]. split; [reflexivity|now apply SC].
Qed.
Theorem C69_components V IE rnd (a b : fitR) rank s c c' :
  let z := data_sizes a rank in
  sensible V a rank -> accepted V a -> same_columns (f_data a) -> svd_correct (e_ext V) rank -> rearranges rank s ->
  same_but_init a b -> starts_from a c -> starts_from b c' -> moved_cmf z (other_components s) c c' -> zero_vars a ->
  same_outcome (moved_output z (other_components s) True) (cmf_aoadmm V IE rnd a) (cmf_aoadmm V IE rnd b).
Proof.
  intros z HS AC SC HE Hs SB SF SF' MC ZV. assert (SD : same_but_data_and_init a b) by (unfold same_but_init in SB; unfold same_but_data_and_init; tauto). assert (ED : f_data b = f_data a) by apply SB.
  assert (HX : moved_data z (other_components s) (f_data a) (f_data b)).
  { rewrite ED. apply same_data_moved; try reflexivity; [|exact SC]. destruct HS as (_ & F & _). eapply Forall_impl; [|exact F]. intros X (W & _). exact W. }
  assert (PR : proper z (other_components s)).
  { split; [cbn; lra|]. split; [cbn; lra|]. split; [cbn; lra|]. split; [exact Hs|]. split; [apply id_rearranges|]. intros i _. apply id_rearranges. }
  assert (CR : mc (cA c') = rank) by (destruct MC as (_ & (_ & (_ & _ & Q) & _) & _); exact Q).
  assert (LK : losses_kept (other_components s) a) by (left; unfold h_X; cbn; lra).
  eapply outcome_weaken; [intros o o'; apply (output_weaken z _ (losses_kept (other_components s) a)); intros _; exact LK|].
  apply (C71_change V V IE rnd a b rank (other_components s) c c'); try assumption; try (now left).
  - apply (sensible_like V a b rank z (other_components s) c'); auto.
  - now apply (accepted_same V a b).
  - intros _ _. apply same_nearest_1.
  - now apply settings_of.
  - apply ridge_same; try reflexivity. apply SB.
  - apply (requests_same _ V V a b rank); try reflexivity; try apply SB; try assumption; [apply AC|]. intros m Hm U. right. split; [destruct m as [|[|m]]; cbn; auto; [intros i j; reflexivity|intros j; reflexivity]|]. reflexivity.
  - now apply (zero_same a b).
Qed.

(** ** Order of the rows and columns of the data *)
(** The rows of a data matrix belong together with the rows of its B_i, its columns with the rows of C.  In
    another order they give the same result in that order, unless a constraint or penalty looks at the order. *)
Theorem C70_rows_and_columns V IE rnd (a b : fitR) rank p q c c' :
  let z := data_sizes a rank in let h := other_rows_columns p q in
  sensible V a rank -> accepted V a -> svd_correct (e_ext V) rank -> rearranges (colsX (f_data a)) q -> (forall i, (i < length (f_data a))%nat -> rearranges (rowsX (f_data a) i) (p i)) ->
  moved_data z h (f_data a) (f_data b) -> same_but_data_and_init a b -> starts_from a c -> starts_from b c' -> moved_cmf z h c c' -> zero_vars a ->
  (f_updB a = true -> order_indifferent a 1 \/ forall i, same_order (p i)) -> (f_updC a = true -> order_indifferent a 2 \/ same_order q) ->
  same_outcome (moved_output z h True) (cmf_aoadmm V IE rnd a) (cmf_aoadmm V IE rnd b).
Proof.
  intros z h HS AC HE Hq Hp HX SB SF SF' MC ZV OB OC.
  assert (PR : proper z h).
  { split; [cbn; lra|]. split; [cbn; lra|]. split; [cbn; lra|]. split; [apply id_rearranges|]. split; [exact Hq|]. exact Hp. }
  assert (CR : mc (cA c') = rank) by (destruct MC as (_ & (_ & (_ & _ & Q) & _) & _); exact Q).
  assert (LK : losses_kept h a) by (left; unfold h_X; cbn; lra).
  eapply outcome_weaken; [intros o o'; apply (output_weaken z _ (losses_kept h a)); intros _; exact LK|].
  apply (C71_change V V IE rnd a b rank h c c'); try assumption; try (now left).
  - apply (sensible_like V a b rank z h c'); auto.
  - now apply (accepted_same V a b).
  - intros _ _. apply same_nearest_1.
  - now apply settings_of.
  - apply ridge_same; try reflexivity. apply SB.
  - apply (requests_same _ V V a b rank); try reflexivity; try apply SB; try assumption; [apply AC|]. intros m Hm U.
    destruct m as [|[|[|m]]]; [|cbn in U; destruct (OB U) as [K|K]|cbn in U; destruct (OC U) as [K|K]|lia]; try (now left); right; (split; [cbn; auto|]); reflexivity.
  - now apply (zero_same a b).
Qed.

(** ** Choice of the svd routine *)
Lemma unmoved r c (M M' : matR) : moved r c 1 (fun i => i) (fun i => i) M M' -> M' = M.
Proof.
  intros ((W & E1 & E2) & (W' & E1' & E2') & H). apply mat_ext; try congruence. intros i j Hi Hj. rewrite H by congruence. rn. lra.
Qed.
Lemma unmoved_vec n (v v' : list R) : moved_vec n 1 (fun i => i) v v' -> v' = v.
Proof. intros (L & L' & H). apply (nth_ext _ _ 0 0); [congruence|]. intros i Hi. assert (Hn : (i < n)%nat) by (rewrite <- L'; exact Hi). specialize (H i Hn). unfold at_ in H. cbn in H |- *. rewrite H. lra. Qed.
Lemma unmoved_list n rows c (l l' : list matR) : moved_list n rows c 1 (fun _ i => i) (fun i => i) l l' -> l' = l.
Proof.
  intros (L & L' & H). apply (nth_ext _ _ no_mat no_mat); [congruence|]. intros i Hi. apply (unmoved (rows i) c). apply H. rewrite <- L'. exact Hi.
Qed.
Lemma unmoved_all {T} (P : T -> T -> Prop) : (forall x y, P x y -> y = x) -> forall l l', Forall2 P l l' -> l' = l.
Proof. intros H l l' F. induction F as [|x y l l' HP F IH]; [reflexivity|]. now rewrite IH, (H _ _ HP). Qed.
Lemma unmoved_vars z v v' : moved_vars z no_change v v' -> v' = v.
Proof.
  intros (V1 & V2 & V3 & V4 & V5 & V6). cbn [no_change h_A h_B h_C h_comp h_rows h_cols] in *. destruct v, v'. cbn [Fit.v_auxA Fit.v_auxB Fit.v_auxC Fit.v_dualA Fit.v_dualB Fit.v_dualC] in *.
  rewrite (unmoved_all _ (unmoved _ _) _ _ V1), (unmoved_all _ (unmoved _ _) _ _ V2), (unmoved_all _ (unmoved_list _ _ _) _ _ V4), (unmoved_all _ (unmoved _ _) _ _ V5), (unmoved_all _ (unmoved _ _) _ _ V6).
  f_equal. revert V3. apply unmoved_all. intros [l|P D] [l'|P' D']; cbn; try tauto; [intros K; now rewrite (unmoved_list _ _ _ _ _ K)|]. intros (-> & _ & K). now rewrite (unmoved _ _ _ _ K).
Qed.
Lemma unmoved_cmf z c c' : moved_cmf z no_change c c' -> c' = c.
Proof.
  intros (W & A & B & C). destruct c as [w cA cBs cC], c' as [w' cA' cBs' cC']. cbn in *. rewrite (unmoved _ _ _ _ A), (unmoved_list _ _ _ _ _ B), (unmoved _ _ _ _ C).
  destruct w as [w|], w' as [w'|]; try contradiction; [|reflexivity]. now rewrite (unmoved_vec _ _ _ W).
Qed.
Lemma unmoved_diag u v : same_diagnostics True u v -> v = u.
Proof.
  destruct u as [d|], v as [d'|]; cbn; try tauto. intros (E1 & E2 & E3 & E4 & E5 & E6 & E7). specialize (E3 Logic.I). destruct d, d'. cbn in *. congruence.
Qed.
Lemma unmoved_init V V' IE IE' rnd (a : fitR) rank pos : start_ok a rank -> initialize_cmf (e_ext V') IE' rnd (f_data a) (f_rank a) (f_init a) pos = initialize_cmf (e_ext V) IE rnd (f_data a) (f_rank a) (f_init a) pos.
Proof. unfold start_ok. destruct (f_init a) as [l|m]; [reflexivity|]. destruct m; try contradiction. reflexivity. Qed.
Lemma start_any_ext V IE rnd (a : fitR) rank : start_ok a rank -> cmf_aoadmm V IE rnd a = cmf_aoadmm V no_ext rnd a.
Proof. intros ST. unfold cmf_aoadmm, setup. rewrite (unmoved_init V V no_ext IE rnd a rank 0 ST). reflexivity. Qed.
Lemma started V IE rnd (a : fitR) rank : sensible V a rank -> start_ok a rank -> same_columns (f_data a) -> exists c pos, initialize_cmf (e_ext V) IE rnd (f_data a) (f_rank a) (f_init a) 0 = Ok (c, pos) /\ data_fits (f_data a) c /\ mc (cA c) = rank /\ cw c = None.
Proof.
  intros HS ST SC. pose proof HS as (HX & _ & HR & _). rewrite HR. unfold start_ok in ST. destruct (f_init a) as [l|m].
  - destruct ST as (c0 & EQ & DF & MC). destruct (C41_given_start_partial (e_ext V) IE rnd (f_data a) (PyInt (Z.of_nat rank)) c0 l 0 (proj1 DF) EQ) as (c & E1 & VC & W & M1 & M2 & M3 & _).
    exists c, 0%nat. split; [exact E1|]. split; [|split; [congruence|exact W]]. destruct DF as (_ & L & DF). split; [exact VC|]. rewrite M2, M3. split; [exact L|]. unfold nthB in *. rewrite M2. exact DF.
  - destruct m; try contradiction. destruct (C53_random_start (e_ext V) IE rnd (f_data a) rank 0 HX) as (c & p1 & p2 & p3 & E1 & VC & W & D1 & D2 & D3).
    exists c, p3. split; [exact E1|]. apply drawn_list_shaped in D3. split; [|split; [exact (proj2 (proj2 (proj1 D1)))|exact W]]. destruct HS as (_ & HXs & _).
    destruct c as [w A Bs C]. cbn in W. subst w. eapply shaped_fits; eauto; [apply D1|apply D2].
Qed.
Lemma F2_length {S T} (P : S -> T -> Prop) l l' : Forall2 P l l' -> length l = length l'.
Proof. intros F. induction F; cbn; congruence. Qed.
Lemma acceptable_same V V' kw : same_but_svd V V' -> acceptable V kw -> acceptable V' kw.
Proof. intros (E1 & E2 & _). unfold acceptable. rewrite ?E1, ?E2. tauto. Qed.
Lemma unmoved_out z (Q : Prop) (x y : res outR) : Q -> same_outcome (moved_output z no_change Q) x y -> y = x.
Proof.
  intros HQ OUT. destruct x as [o|e], y as [o'|e']; cbn [same_outcome] in OUT; try contradiction; [|congruence].
  destruct OUT as (M1 & M2 & M3). f_equal.
  assert (K1 : out_cmf o' = out_cmf o).
  { now apply (unmoved_cmf z). }
  assert (K2 : out_vars o' = out_vars o).
  { destruct (out_vars o) as [v|], (out_vars o') as [v'|]; try contradiction; [|reflexivity]. now rewrite (unmoved_vars z v v' M2). }
  assert (K3 : out_diag o' = out_diag o).
  { apply unmoved_diag. destruct (out_diag o), (out_diag o'); cbn in *; try contradiction; tauto. }
  destruct o, o'. cbn in *. congruence.
Qed.
Lemma routines_core V V' X X' rnd (a : fitR) rank :
  same_but_svd V V' -> sensible V a rank -> sensible V' a rank -> accepted V a -> same_columns (f_data a) -> start_ok a rank ->
  x_tv X = x_tv (e_ext V) -> x_tv X' = x_tv (e_ext V') -> svds_agree X X' rank (fun i => i) -> nearest_shaped X rank ->
  (f_updB a = true -> wants_parafac2 a -> same_nearest X X' rank 1) ->
  (let* sl := setup V' no_ext rnd a in fit_with X' a sl) = (let* sl := setup V no_ext rnd a in fit_with X a sl).
Proof.
  intros SV HS HS' AC SC ST HXT HXT' HE HE' HN. set (z := data_sizes a rank).
  assert (AC' : accepted V' a) by (destruct AC as (A1 & A2 & A3 & A4 & A5); repeat (split; [assumption|]); intros m kw Hm MV; apply (acceptable_same V V' kw SV); eauto).
  assert (RQ : requests_moved no_change V V' a a).
  { apply (requests_same _ V V' a a rank); try reflexivity; try assumption; [apply AC|]. intros m Hm U. right. split; [destruct m as [|[|m]]; cbn; auto; [intros i j; reflexivity|intros j; reflexivity]|]. apply SV. }
  assert (HP : proper z no_change) by (split; [cbn; lra|]; split; [cbn; lra|]; split; [cbn; lra|]; split; [apply id_rearranges|]; split; [apply id_rearranges|]; intros i _; apply id_rearranges).
  assert (HX : moved_data z no_change (f_data a) (f_data a)).
  { apply same_data_moved; try reflexivity; [|exact SC]. destruct HS as (_ & F & _). eapply Forall_impl; [|exact F]. intros X0 (W & _). exact W. }
  destruct (started V no_ext rnd a rank HS ST SC) as (c & pos & EI & DF & MC & CW). pose proof EI as EI'. rewrite <- (unmoved_init V V' no_ext no_ext rnd a rank 0 ST) in EI'.
  pose proof AC as (_ & WL & WK & GR & AC0). pose proof AC' as (_ & _ & _ & _ & AC0'). destruct (listify_total _ WL) as (x & y & w & EL).
  destruct (parse_all_total V (f_kw a) (f_regs a) (f_aux a) (f_dual a) GR WK AC0) as (t & EP). destruct (parse_all_total V' (f_kw a) (f_regs a) (f_aux a) (f_dual a) GR WK AC0') as (t' & EP').
  assert (AL : forall m, (m < 3)%nat -> updates a m = true -> Forall2 alike (pick t m) (pick t' m)).
  { intros m Hm U. pose proof (requests_penalties z no_change V V' a a HP RQ m _ _ Hm U (ex_intro _ t (conj EP eq_refl)) (ex_intro _ t' (conj EP' eq_refl))) as F.
    destruct (parse_all_ok _ _ _ _ _ _ EP m Hm) as (kw & pa & u & _ & PM & US & E1). destruct (parse_all_ok _ _ _ _ _ _ EP' m Hm) as (kw' & pa' & u' & _ & PM' & US' & E2).
    rewrite <- (user_fun _ _ _ _ US US') in E2. rewrite E1, E2 in *. clear E1 E2.
    assert (Q : Forall (fun o : pobjR => o_aux o = f_aux a /\ o_dual o = f_dual a) pa) by (apply parse_mode_iff in PM as (_ & gl & GL & ->); exact (inits_parsed V kw (f_aux a) (f_dual a) gl GL)).
    assert (Q' : Forall (fun o : pobjR => o_aux o = f_aux a /\ o_dual o = f_dual a) pa') by (apply parse_mode_iff in PM' as (_ & gl & GL & ->); exact (inits_parsed V' kw' (f_aux a) (f_dual a) gl GL)).
    clear PM PM' US US'. assert (LN : length pa = length pa') by (assert (FL : length (pa ++ u) = length (pa' ++ u)) by (pose proof (F2_length _ _ _ F) as K; rewrite !map_length in K; exact K); clear F; rename FL into F; rewrite !app_length in F; lia).
    revert pa' F Q' LN. induction Q as [|o pa (O1 & O2) Q IH]; intros [|o' pa'] F Q' LN; try discriminate; cbn [app map] in *.
    - clear. induction u; constructor; [split; [reflexivity|split; reflexivity]|assumption].
    - inversion F as [|x1 x2 x3 x4 F1 F2 F3 F4]; subst. inversion Q' as [|x1 x2 (O3 & O4) Q1]; subst. constructor; [|apply IH; try assumption; now injection LN]. split; [congruence|]. split; [congruence|]. eapply moved_pen_pf2; exact F1. }
  assert (HR : f_rank a = PyInt (Z.of_nat rank)) by apply HS.
  pose proof (setup_alike V V' no_ext no_ext rnd a a rank c c pos _ _ t t' eq_refl HR eq_refl (conj eq_refl eq_refl) eq_refl eq_refl eq_refl EI EI' DF DF MC MC EL EL EP EP' AL) as SA.
  destruct (setup V no_ext rnd a) as [[s l2]|e] eqn:E1, (setup V' no_ext rnd a) as [[s' l2']|e'] eqn:E2; cbn [res_rel fst] in SA; try contradiction.
  2:{ cbn. now rewrite SA. }
  destruct SA as (C1 & C2 & C3).
  destruct (setup_ok _ _ _ _ _ _ _ HS no_ext_ranks E1) as (VS & _).
  assert (SCZ : forall i, (i < length (f_data a))%nat -> rowsB c i = rowsX (f_data a) i /\ mc (nthX (f_data a) i) = mr (cC c)).
  { destruct DF as (_ & L & DF). intros i Hi. destruct (DF i Hi) as (_ & R1 & R2). split; [symmetry; exact R1|exact R2]. }
  assert (N0 : (0 < length (f_data a))%nat) by (destruct HS as (NE & _); destruct (f_data a); [congruence|cbn; lia]).
  assert (LB : length (cBs c) = length (f_data a)) by (destruct DF as (_ & L & _); congruence).
  pose proof DF as ((WA & WC & CC & CR & CB & _) & _).
  assert (CCols : mr (cC c) = colsX (f_data a)) by (destruct (SCZ 0%nat N0) as (_ & K); symmetry; exact K).
  assert (MF : moved_cmf z no_change c c).
  { split; [rewrite CW; exact Logic.I|]. split; [|split].
    - apply same_moved. split; [exact WA|]. split; [cbn; congruence|exact MC].
    - split; [exact LB|]. split; [exact LB|]. intros i Hi. apply same_moved. destruct (CB i) as (K1 & K2); [unfold z, data_sizes in Hi; cbn in Hi; congruence|]. split; [exact K1|]. split; [apply SCZ; exact Hi|]. cbn. rewrite <- MC. exact K2.
    - apply same_moved. split; [exact WC|]. split; [exact CCols|]. cbn. congruence. }
  assert (MV : moved_vars z no_change (vars_of s) (vars_of s')).
  { rewrite C3. apply (vars_self z no_change (fun _ => True) (f_data a)); try assumption; try (rewrite C1; cbn; congruence).
    - intros r k0 k p q M _ HC -> HS0. cbn [no_change h_A h_B h_C h_comp h_rows h_cols] in HC. destruct HC as [(-> & -> & ->)|[(-> & [->|(i & _ & _ & ->)] & ->)|(-> & _ & -> & ->)]]; now apply same_moved.
    - intros i Hi. rewrite C1. apply SCZ. exact Hi.
    - apply Forall_forall. auto.
    - apply Forall_forall. intros g _. split; [destruct (b_aux g); [apply Forall_forall; auto|auto]|apply Forall_forall; auto].
    - apply Forall_forall. auto. }
  destruct (const_flags (f_const a)) as [fl|e] eqn:EF.
  2:{ destruct (setup_ok _ _ _ _ _ _ _ HS' no_ext_ranks E2) as (VS' & _).
      assert (IH : forall (X0 : list matR) s0 P', valid_state X0 s0 -> exists h0, init_hist P' X0 s0 = Ok h0).
      { intros X0 s0 P' W0. unfold init_hist. cbv zeta. destruct (TotalRun.state_loss_total P' X0 s0 W0) as (lo & ->). destruct (AoRun.state_gaps_ok X0 s0 W0) as (g & -> & _). cbn. eauto. }
      cbn [bind]. unfold fit_with. destruct (IH _ _ (fit_params a l2 (false, false)) VS) as (h0 & ->). destruct (IH _ _ (fit_params a l2' (false, false)) VS') as (h1 & ->). cbn [bind]. rewrite EF. reflexivity. }
  assert (NC : f_const a <> COther) by (intros K; rewrite K in EF; discriminate).
  assert (LK : losses_kept no_change a) by (left; unfold h_X; cbn; lra).
  assert (S0 : starts_at V no_ext rnd a c (vars_of s)) by (pose proof (setup_start V no_ext rnd a rank s l2 HS no_ext_ranks NC E1) as Q; now rewrite C1 in Q).
  assert (S0' : starts_at V' no_ext rnd a c (vars_of s')) by (pose proof (setup_start V' no_ext rnd a rank s' l2' HS' no_ext_ranks NC E2) as Q; now rewrite C2 in Q).
  assert (SS : same_settings a a) by (unfold same_settings; auto 20).
  destruct (fit_moved_with V V' no_ext no_ext rnd rnd a a rank z no_change HS HS' no_ext_ranks no_ext_ranks X X' HXT HXT' HE HE' HN eq_refl HP HX SS (ridge_same no_change a a eq_refl eq_refl eq_refl eq_refl) (requests_penalties z no_change V V' a a HP RQ) _ _ _ _ S0 S0' MF MV (or_introl (kept_equal no_change V a LK))) as (sl & sl' & F1 & F2 & OUT).
  rewrite E1 in F1. rewrite E2 in F2. injection F1 as <-. injection F2 as <-. cbn [bind]. apply (unmoved_out z (losses_equal no_change V a)); [now apply kept_equal|exact OUT].
Qed.
(** The routine named by [svd] solves all least-squares problems; the generalized L2 penalty, PARAFAC2 and
    two of the starts use it too.  Without PARAFAC2 and with a given or random start, any two correct routines
    give the same result, to the last entry. *)
Theorem C72_svd_choice V V' IE IE' rnd (a : fitR) rank :
  same_but_svd V V' -> sensible V a rank -> sensible V' a rank -> accepted V a -> same_columns (f_data a) -> start_ok a rank -> without_parafac2 a ->
  svd_correct (e_ext V) rank -> svd_correct (e_ext V') rank ->
  cmf_aoadmm V' IE' rnd a = cmf_aoadmm V IE rnd a.
Proof.
  intros SV HS HS' AC SC ST NP HE HE'. rewrite (start_any_ext V IE rnd a rank ST), (start_any_ext V' IE' rnd a rank ST). rewrite !fit_is_with.
  apply (routines_core V V' (e_ext V) (e_ext V') rnd a rank); try assumption; try reflexivity; [now apply correct_agree|now apply correct_shaped|].
  intros UB WP. exfalso. destruct (NP 1%nat ltac:(lia) UB) as (N1 & N2). destruct WP as [WP|(u & HU & EU)].
  - pose proof AC as (_ & _ & WK & GR & AC0). destruct (parse_all_total V (f_kw a) (f_regs a) (f_aux a) (f_dual a) GR WK AC0) as (t & EP). destruct (parse_all_ok _ _ _ _ _ _ EP 1%nat ltac:(lia)) as (kw & _ & _ & MV & _).
    specialize (N1 kw MV). destruct MV as (_ & _ & _ & _ & _ & _ & _ & _ & E1). cbn [Nat.eqb] in E1. rewrite andb_true_r in E1. congruence.
  - specialize (N2 u HU). rewrite Forall_forall in N2. apply Exists_exists in EU as (o & IN & PF). exact (N2 o IN PF).
Qed.
Print Assumptions C72_svd_choice.
Print Assumptions C69_components.
Print Assumptions C70_rows_and_columns.
Print Assumptions C71_change.
Print Assumptions C71_any_start.

(** ** Calls that meet the hypotheses: two matrices with 2 and 1 rows, rank 2, ridge terms, non-negativity
    on all modes and a norm bound on the B_i *)
Definition m22 (x y u v : R) : matR := Mat (N:=RNum) 2 2 [[x; y]; [u; v]].
Definition m12 (x y : R) : matR := Mat (N:=RNum) 1 2 [[x; y]].
Definition args69 (lA lB lC nb : R) (tol : option R) (Xs : list matR) (c : rcmf) : fitR :=
  FitArgs (N:=RNum) Xs (PyInt 2) (InitSeq (seq66 c)) 3 (AIter [Some lA; Some lB; Some lC])
    (KwArgs (AOne (Some true)) (AOne None) (AOne None) (AIter [None; Some nb; None]) (AOne None) false (AOne None) (AOne None) (AOne None)) RNone
    1 (CBool false) (IStr Zeros) (IStr Zeros) true tol (Some (1 / 1000)) (Some (1 / 10000)) None 5 true true true true true.
Definition data69 (k x1 x2 x3 x4 y1 y2 : R) : list matR := [m22 (k * x1) (k * x2) (k * x3) (k * x4); m12 (k * y1) (k * y2)].
Definition start69 (A B C : matR) (y1 y2 : R) : rcmf := Cmf (N:=RNum) None A [B; m12 y1 y2] C.
Lemma start69_valid a1 a2 a3 a4 b1 b2 b3 b4 c1 c2 c3 c4 y1 y2 : valid_cmf (start69 (m22 a1 a2 a3 a4) (m22 b1 b2 b3 b4) (m22 c1 c2 c3 c4) y1 y2).
Proof.
  split; [repeat constructor|]. split; [repeat constructor|]. split; [reflexivity|]. split; [reflexivity|]. split; [|discriminate].
  intros [|[|i]] Hi; [repeat constructor|repeat constructor|cbn in Hi; lia].
Qed.
Lemma kw69 lA lB lC nb tol Xs c m kw : (m < 3)%nat -> mode_values (f_kw (args69 lA lB lC nb tol Xs c)) m kw -> k_nn kw = Some true /\ k_lower kw = None /\ k_upper kw = None /\ k_norm kw = (if (m =? 1)%nat then Some nb else None) /\
  k_uni kw = None /\ k_l1 kw = None /\ k_tv kw = None /\ k_gl2 kw = None /\ k_pf2 kw = false.
Proof. intros Hm (M1 & M2 & M3 & (_ & M4) & M5 & M6 & M7 & M8 & M9). cbn in M1, M2, M3, M5, M6, M7, M8, M9. destruct m as [|[|[|m]]]; [| | |lia]; cbn in M4; injection M4 as M4; auto 12. Qed.
Lemma l269 lA lB lC nb tol Xs c m v : (m < 3)%nat -> means (f_l2 (args69 lA lB lC nb tol Xs c)) m v -> v = Some (match m with 0%nat => lA | 1%nat => lB | _ => lC end).
Proof. intros Hm (_ & K). destruct m as [|[|[|m]]]; [| | |lia]; cbn in K; now injection K. Qed.
Lemma dependable69 E lA lB lC nb tol k x1 x2 x3 x4 y1 y2 a1 a2 a3 a4 b1 b2 b3 b4 c1 c2 c3 c4 z1 z2 : 0 < lA -> 0 < lB -> 0 < lC -> 0 < nb ->
  dependable (Env (N:=RNum) E (fun _ => []) true) (args69 lA lB lC nb tol (data69 k x1 x2 x3 x4 y1 y2) (start69 (m22 a1 a2 a3 a4) (m22 b1 b2 b3 b4) (m22 c1 c2 c3 c4) z1 z2)) 2.
Proof.
  intros PA PB PC PN. set (a := args69 _ _ _ _ _ _ _).
  assert (UPX : forall m u, user_penalties (f_regs a) m u -> u = []) by (intros m u H; exact H).
  assert (KWX : forall m kw, (m < 3)%nat -> mode_values (f_kw a) m kw -> _) by (intros m kw; apply kw69). assert (L2X : forall m v, (m < 3)%nat -> means (f_l2 a) m v -> 0 < strength v) by (intros m v Hm MV; rewrite (l269 _ _ _ _ _ _ _ m v Hm MV); destruct m as [|[|m]]; cbn; assumption).
  split.
  { unfold sensible. split; [discriminate|]. split; [repeat constructor|].
    split; [reflexivity|]. split; [lia|]. split; [do 5 eexists; reflexivity|]. split; [cbn; lra|]. split; [intros m v Hm MV; apply Rlt_le, (L2X m v Hm MV)|]. split.
    - intros m r kw Hm _ MV. destruct (KWX m kw Hm MV) as (K1 & K2 & K3 & K4 & K5 & K6 & K7 & K8 & K9). split; [intros hi E0; congruence|intros M E0; congruence].
    - split.
      + intros m r u Hm _ HU. rewrite (UPX m u HU). constructor.
      + intros [K|(u & HU & K)]; [discriminate K|]. rewrite (UPX 1%nat u HU) in K. inversion K. }
  split; [intros X [<-|[<-|[]]]; reflexivity|]. split.
  { eexists. split; [reflexivity|]. split; [|reflexivity]. split; [apply start69_valid|]. split; [reflexivity|].
    intros [|[|i]] Hi; [repeat constructor|repeat constructor|cbn in Hi; lia]. }
  split; [reflexivity|]. split; [discriminate|].
  split; [eexists; split; [reflexivity|discriminate]|]. split; [eexists; split; [reflexivity|discriminate]|].
  split; [reflexivity|]. split; [repeat split; exact Logic.I|]. split; [exact Logic.I|]. split.
  { intros m kw Hm MV. destruct (KWX m kw Hm MV) as (K1 & K2 & K3 & K4 & K5 & K6 & K7 & K8 & K9). unfold acceptable. rewrite K4, K6, K7, K8. cbn [strength].
    split; [lra|]. split; [lra|]. split; [intros K; now destruct K|]. split; [destruct (m =? 1)%nat; cbn [strength]; lra|exact Logic.I]. }
  split.
  { intros m Hm _. split; [intros v MV; now apply (L2X m v)|]. split.
    - intros kw MV. destruct (KWX m kw Hm MV) as (K1 & K2 & K3 & K4 & K5 & K6 & K7 & K8 & K9). unfold asks_plain. rewrite K6, K7, K8, K9. cbn. auto.
    - intros u HU. rewrite (UPX m u HU). constructor. }
  split.
  { intros _ _ [(kw & MV & K)|(u & HU & K)].
    - destruct (KWX 0%nat kw ltac:(lia) MV) as (K1 & K2 & K3 & K4 & K5 & K6 & K7 & K8 & K9). unfold asks_matrixwise, wants in K. rewrite K4, K5, K7, K8 in K. cbn in K.
      destruct K as [K|[K|[K|(M & K)]]]; try discriminate K; lra.
    - rewrite (UPX 0%nat u HU) in K. inversion K. }
  intros _. discriminate.
Qed.
Lemma accepted_dependable V (a : fitR) rank : dependable V a rank -> accepted V a.
Proof. intros (_ & _ & _ & H1 & _ & _ & _ & H2 & H3 & H4 & H5 & _). split; [exact H1|]. auto. Qed.
Lemma starts69 lA lB lC nb tol Xs a1 a2 a3 a4 b1 b2 b3 b4 c1 c2 c3 c4 z1 z2 : let c := start69 (m22 a1 a2 a3 a4) (m22 b1 b2 b3 b4) (m22 c1 c2 c3 c4) z1 z2 in starts_from (args69 lA lB lC nb tol Xs c) c.
Proof. split; [apply start69_valid|]. exists (seq66 (start69 (m22 a1 a2 a3 a4) (m22 b1 b2 b3 b4) (m22 c1 c2 c3 c4) z1 z2)). split; reflexivity. Qed.
Lemma zero69 lA lB lC nb tol Xs c : zero_vars (args69 lA lB lC nb tol Xs c).
Proof. split; [reflexivity|]. split; [reflexivity|]. intros m u _ H. cbn in H. rewrite H. constructor. Qed.
(** The two components (or rows, or columns) change places. *)
Definition exch (i : nat) : nat := (1 - i)%nat.
Lemma exch_rearranges : rearranges 2 exch.
Proof. unfold rearranges. cbn. apply perm_swap. Qed.
Lemma moved22 k p q x y u v x' y' u' v' : (forall i j, (i < 2)%nat -> (j < 2)%nat -> mget (m22 x' y' u' v') i j = k * mget (m22 x y u v) (p i) (q j)) -> moved 2 2 k p q (m22 x y u v) (m22 x' y' u' v').
Proof. intros H. split; [repeat constructor|]. split; [repeat constructor|]. exact H. Qed.
Lemma moved12 k p q x y x' y' : (forall i j, (i < 1)%nat -> (j < 2)%nat -> mget (m12 x' y') i j = k * mget (m12 x y) (p i) (q j)) -> moved 1 2 k p q (m12 x y) (m12 x' y').
Proof. intros H. split; [repeat constructor|]. split; [repeat constructor|]. exact H. Qed.
Ltac entries := intros [|[|?i]] [|[|?j]] ? ?; try lia; unfold mget, h_X; cbn; lra.

Definition a69 : fitR := args69 (1 / 10) (1 / 5) (3 / 10) 2 (Some (1 / 100)) (data69 1 1 2 3 4 5 6) (start69 (m22 1 2 3 1) (m22 1 0 2 1) (m22 1 2 0 1) 1 3).
Definition b69 : fitR := args69 (1 / 10) (1 / 5) (3 / 10) 2 (Some (1 / 100)) (data69 1 1 2 3 4 5 6) (start69 (m22 2 1 1 3) (m22 0 1 1 2) (m22 2 1 1 0) 3 1).
Example C69_nonvacuous rnd : exists V out c c', sensible V a69 2 /\ accepted V a69 /\ same_columns (f_data a69) /\ svd_correct (e_ext V) 2 /\ rearranges 2 exch /\
  same_but_init a69 b69 /\ starts_from a69 c /\ starts_from b69 c' /\ moved_cmf (data_sizes a69 2) (other_components exch) c c' /\ zero_vars a69 /\
  f_init b69 <> f_init a69 /\ cmf_aoadmm V no_ext rnd a69 = Ok out.
Proof.
  destruct ideal_exists as (E & HE & _). set (V := Env (N:=RNum) E (fun _ => []) true).
  assert (D : dependable V a69 2) by (apply dependable69; lra). destruct (C51_fit_total V no_ext rnd _ 2 D no_ext_ranks (HE 2%nat)) as (out & H).
  exists V, out, (start69 (m22 1 2 3 1) (m22 1 0 2 1) (m22 1 2 0 1) 1 3), (start69 (m22 2 1 1 3) (m22 0 1 1 2) (m22 2 1 1 0) 3 1).
  split; [apply D|]. split; [now apply (accepted_dependable V _ 2)|]. split; [apply D|]. split; [apply HE|]. split; [exact exch_rearranges|]. split; [repeat split|]. split; [apply starts69|]. split; [apply starts69|]. split.
  { split; [exact Logic.I|]. split; [apply moved22; entries|]. split; [|apply moved22; entries]. split; [reflexivity|]. split; [reflexivity|]. intros [|[|i]] Hi; [apply moved22; entries|apply moved12; entries|cbn in Hi; lia]. }
  split; [apply zero69|]. split; [|exact H]. intros K. injection K. intros. lra.
Qed.
(** Rows of the first matrix and columns of both exchanged. *)
Definition b70 : fitR := args69 (1 / 10) (1 / 5) (3 / 10) 2 (Some (1 / 100)) (data69 1 4 3 2 1 6 5) (start69 (m22 1 2 3 1) (m22 2 1 1 0) (m22 0 1 1 2) 1 3).
Definition rows70 (i j : nat) : nat := if (i =? 0)%nat then exch j else j.
Example C70_nonvacuous rnd : exists V out c c', sensible V a69 2 /\ accepted V a69 /\ svd_correct (e_ext V) 2 /\ rearranges (colsX (f_data a69)) exch /\
  (forall i, (i < length (f_data a69))%nat -> rearranges (rowsX (f_data a69) i) (rows70 i)) /\ moved_data (data_sizes a69 2) (other_rows_columns rows70 exch) (f_data a69) (f_data b70) /\
  same_but_data_and_init a69 b70 /\ starts_from a69 c /\ starts_from b70 c' /\ moved_cmf (data_sizes a69 2) (other_rows_columns rows70 exch) c c' /\ zero_vars a69 /\
  order_indifferent a69 1 /\ order_indifferent a69 2 /\ f_data b70 <> f_data a69 /\ cmf_aoadmm V no_ext rnd a69 = Ok out.
Proof.
  destruct ideal_exists as (E & HE & _). set (V := Env (N:=RNum) E (fun _ => []) true).
  assert (D : dependable V a69 2) by (apply dependable69; lra). destruct (C51_fit_total V no_ext rnd _ 2 D no_ext_ranks (HE 2%nat)) as (out & H).
  exists V, out, (start69 (m22 1 2 3 1) (m22 1 0 2 1) (m22 1 2 0 1) 1 3), (start69 (m22 1 2 3 1) (m22 2 1 1 0) (m22 0 1 1 2) 1 3).
  assert (OI : forall m, (m < 3)%nat -> order_indifferent a69 m).
  { intros m Hm. split; [|intros u K; cbn in K; rewrite K; constructor]. intros kw MV. destruct (kw69 _ _ _ _ _ _ _ m kw Hm MV) as (K1 & K2 & K3 & K4 & K5 & K6 & K7 & K8 & K9). rewrite K5, K7, K8, K9. split; [discriminate|]. split; [reflexivity|]. split; [now left|reflexivity]. }
  split; [apply D|]. split; [now apply (accepted_dependable V _ 2)|]. split; [apply HE|]. split; [exact exch_rearranges|].
  split; [intros [|[|i]] Hi; [exact exch_rearranges|apply id_rearranges|cbn in Hi; lia]|]. split.
  { split; [reflexivity|]. split; [reflexivity|]. intros [|[|i]] Hi; [apply moved22; entries|apply moved12; entries|cbn in Hi; lia]. }
  split; [repeat split|]. split; [apply starts69|]. split; [apply starts69|]. split.
  { split; [exact Logic.I|]. split; [apply moved22; entries|]. split; [|apply moved22; entries]. split; [reflexivity|]. split; [reflexivity|]. intros [|[|i]] Hi; [apply moved22; entries|apply moved12; entries|cbn in Hi; lia]. }
  split; [apply zero69|]. split; [apply OI; lia|]. split; [apply OI; lia|]. split; [|exact H]. intros K. injection K. intros. lra.
Qed.
(** A in half its unit, B in twice, data and C as they were: the ridge terms change by 4, 1/4 and 1, the norm bound
    doubles, the losses stay. *)
Definition units71 : change := Change (1 / 2) 2 1 (fun i => i) (fun _ i => i) (fun i => i).
Definition b71 : fitR := args69 (4 / 10) (1 / 20) (3 / 10) 4 (Some (1 / 100)) (data69 1 1 2 3 4 5 6) (start69 (m22 (1 / 2) 1 (3 / 2) (1 / 2)) (m22 2 0 4 2) (m22 1 2 0 1) 2 6).
Example C71_nonvacuous rnd : exists V out c c', sensible V a69 2 /\ sensible V b71 2 /\ accepted V a69 /\ accepted V b71 /\ svd_correct (e_ext V) 2 /\ proper (data_sizes a69 2) units71 /\
  moved_data (data_sizes a69 2) units71 (f_data a69) (f_data b71) /\ same_settings a69 b71 /\ ridge_moved units71 a69 b71 /\ requests_moved units71 V V a69 b71 /\
  starts_from a69 c /\ starts_from b71 c' /\ moved_cmf (data_sizes a69 2) units71 c c' /\ zero_vars a69 /\ zero_vars b71 /\ ~ wants_parafac2 a69 /\ losses_kept units71 a69 /\ cmf_aoadmm V no_ext rnd a69 = Ok out.
Proof.
  destruct ideal_exists as (E & HE & _). set (V := Env (N:=RNum) E (fun _ => []) true).
  assert (D : dependable V a69 2) by (apply dependable69; lra). assert (D' : dependable V b71 2) by (apply dependable69; lra). destruct (C51_fit_total V no_ext rnd _ 2 D no_ext_ranks (HE 2%nat)) as (out & H).
  exists V, out, (start69 (m22 1 2 3 1) (m22 1 0 2 1) (m22 1 2 0 1) 1 3), (start69 (m22 (1 / 2) 1 (3 / 2) (1 / 2)) (m22 2 0 4 2) (m22 1 2 0 1) 2 6).
  split; [apply D|]. split; [apply D'|]. split; [now apply (accepted_dependable V _ 2)|]. split; [now apply (accepted_dependable V _ 2)|]. split; [apply HE|].
  split. { split; [cbn; lra|]. split; [cbn; lra|]. split; [cbn; lra|]. split; [apply id_rearranges|]. split; [apply id_rearranges|]. intros i _. apply id_rearranges. }
  split. { split; [reflexivity|]. split; [reflexivity|]. unfold h_X. intros [|[|i]] Hi; [apply moved22; entries|apply moved12; entries|cbn in Hi; lia]. }
  split; [repeat split|]. split.
  { intros m v v' Hm M M'. rewrite (l269 _ _ _ _ _ _ _ m v Hm M), (l269 _ _ _ _ _ _ _ m v' Hm M'). destruct m as [|[|m]]; cbn; lra. }
  split.
  { intros m Hm _. split; [|intros u u' HU HU'; cbn in HU, HU'; rewrite HU, HU'; constructor]. intros kw kw' MV MV'.
    destruct (kw69 _ _ _ _ _ _ _ m kw Hm MV) as (K1 & K2 & K3 & K4 & K5 & K6 & K7 & K8 & K9). destruct (kw69 _ _ _ _ _ _ _ m kw' Hm MV') as (J1 & J2 & J3 & J4 & J5 & J6 & J7 & J8 & J9).
    unfold moved_kw. rewrite K1, K2, K3, K4, K5, K6, K7, K8, K9, J1, J2, J3, J4, J5, J6, J7, J8, J9. cbn [option_map strength]. split; [reflexivity|]. split; [reflexivity|]. split; [reflexivity|].
    split; [destruct m as [|[|m]]; cbn; try reflexivity; f_equal; lra|]. split; [reflexivity|]. split; [reflexivity|]. split; [discriminate|]. split; [reflexivity|]. split; [intros K; now destruct K|]. split; [exact Logic.I|]. split; [reflexivity|discriminate]. }
  split; [apply starts69|]. split; [apply starts69|]. split.
  { split; [exact Logic.I|]. split; [apply moved22; entries|]. split; [|apply moved22; entries]. split; [reflexivity|]. split; [reflexivity|]. intros [|[|i]] Hi; [apply moved22; entries|apply moved12; entries|cbn in Hi; lia]. }
  split; [apply zero69|]. split; [apply zero69|]. split; [intros [K|(u & HU & K)]; [discriminate K|cbn in HU; rewrite HU in K; inversion K]|]. split; [left; unfold h_X; cbn; lra|exact H].
Qed.
(** A second correct svd routine: all singular vectors with the opposite sign. *)
Definition opposite (E : ext (N:=RNum)) : ext (N:=RNum) := Ext (N:=RNum) (fun M k => let '(U, s, Vh) := x_svd E M k in (mscale (N:=RNum) (-1) U, s, mscale (N:=RNum) (-1) Vh)) (x_tv E).
Lemma opposite_correct E k : svd_correct E k -> svd_correct (opposite E) k.
Proof.
  intros HE M W MC Mk. specialize (HE M W MC Mk). unfold opposite. cbn [x_svd]. destruct (x_svd E M k) as [[U s] Vh]. destruct HE as (W1 & R1 & C1 & L & W2 & R2 & C2 & O1 & O2 & NN & RE).
  split; [auto with mwf|]. split; [exact R1|]. split; [exact C1|]. split; [exact L|]. split; [auto with mwf|]. split; [exact R2|]. split; [exact C2|]. split; [|split; [|split; [exact NN|]]].
  - intros a b Ha Hb. rewrite <- (O1 a b Ha Hb). apply Sum_ext. intros i Hi. rewrite !mget_mscale by congruence. rn. ring.
  - intros a b Ha Hb. rewrite <- (O2 a b Ha Hb). apply Sum_ext. intros i Hi. rewrite !mget_mscale by congruence. rn. ring.
  - intros i j Hi Hj. rewrite (RE i j Hi Hj). apply Sum_ext. intros a Ha. rewrite !mget_mscale by congruence. rn. ring.
Qed.
Lemma opposite_other E : svd_correct E 1 -> x_svd (opposite E) (m11 1) 1%nat <> x_svd E (m11 1) 1%nat.
Proof.
  intros HE. specialize (HE (m11 1) (m11_wf 1) eq_refl ltac:(cbn; lia)). unfold opposite. cbn [x_svd]. destruct (x_svd E (m11 1) 1%nat) as [[U s] Vh]. destruct HE as (W1 & R1 & C1 & _ & _ & _ & _ & O1 & _). intros K.
  assert (EU : mscale (N:=RNum) (-1) U = U) by congruence. cbn in R1. assert (E0 : mget U 0 0 = -1 * mget U 0 0) by (rewrite <- EU at 1; rewrite mget_mscale by lia; reflexivity).
  specialize (O1 0%nat 0%nat ltac:(lia) ltac:(lia)). cbn in O1. unfold kron in O1. cbn in O1. change (rget U 0 0) with (mget U 0 0) in *. cbn [num RNum] in *. assert (E1 : mget U 0 0 = 0) by lra. rewrite E1 in O1. lra.
Qed.
Example C72_nonvacuous rnd : exists V V' out, same_but_svd V V' /\ sensible V a69 2 /\ sensible V' a69 2 /\ accepted V a69 /\ same_columns (f_data a69) /\ start_ok a69 2 /\ without_parafac2 a69 /\
  svd_correct (e_ext V) 2 /\ svd_correct (e_ext V') 2 /\ x_svd (e_ext V') (m11 1) 1%nat <> x_svd (e_ext V) (m11 1) 1%nat /\ cmf_aoadmm V no_ext rnd a69 = Ok out /\ cmf_aoadmm V' no_ext rnd a69 = Ok out.
Proof.
  destruct ideal_exists as (E & HE & _). set (V := Env (N:=RNum) E (fun _ => []) true). set (V' := Env (N:=RNum) (opposite E) (fun _ => []) true).
  assert (D : dependable V a69 2) by (apply dependable69; lra). assert (D' : dependable V' a69 2) by (apply dependable69; lra). destruct (C51_fit_total V no_ext rnd _ 2 D no_ext_ranks (HE 2%nat)) as (out & H).
  assert (SV : same_but_svd V V') by (repeat split). assert (HE' := opposite_correct E 2 (HE 2%nat)).
  assert (NP : without_parafac2 a69).
  { intros m Hm _. split; [|intros u K; cbn in K; rewrite K; constructor]. intros kw MV. destruct (kw69 _ _ _ _ _ _ _ m kw Hm MV) as (_ & _ & _ & _ & _ & _ & _ & _ & K9). exact K9. }
  exists V, V', out. split; [exact SV|]. split; [apply D|]. split; [apply D'|]. split; [now apply (accepted_dependable V _ 2)|]. split; [apply D|]. split; [apply D|]. split; [exact NP|]. split; [apply HE|]. split; [exact HE'|]. split; [apply opposite_other, HE|].
  split; [exact H|]. rewrite (C72_svd_choice V V' no_ext no_ext rnd a69 2 SV (proj1 D) (proj1 D') (accepted_dependable V _ 2 D) (proj1 (proj2 D)) (proj1 (proj2 (proj2 D))) NP (HE 2%nat) HE'). exact H.
Qed.
