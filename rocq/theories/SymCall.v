(** Two calls that differ in units and orders only: their arguments and their starts. *)
From Coq Require Import Reals Lra Lia List Arith Bool ZArith Permutation.
From Verif Require Import Num Numpy RFacts Spec SpecFacts MatFacts ModelSpec Penalties PenaltySpec
  CoupledMatrices CmfSpec CmfProofs Decomp DecompSpec DecompFacts InitVars InitSpec InitProofs Parse ParseSpec ParseProofs Fit FitSpec FitProofs P11_Total P10_Start ResumeSpec StartSpec ReorderFit
  SymSpec SymFacts SymPen SymFit.
Import ListNotations.
Local Open Scope R_scope.

(** ** Requests *)
Lemma ntruthy_scale (k x : R) : 0 < k -> ntruthy (N:=RNum) (k * x) = ntruthy (N:=RNum) x.
Proof.
  intros K. destruct (ntruthy (N:=RNum) x) eqn:E.
  - apply ntruthy_true in E. apply ntruthy_true. nra.
  - apply ntruthy_false in E. apply ntruthy_false. nra.
Qed.
Lemma F2_nil {A} (Q : A -> A -> Prop) : Forall2 Q [] [].
Proof. constructor. Qed.
Lemma F2_one {A} (Q : A -> A -> Prop) x y : Q x y -> Forall2 Q [x] [y].
Proof. intros H. constructor; [exact H|constructor]. Qed.
Lemma parse_mode_moved V V' E E' t k S kw kw' ai di ai' di' l l' : 0 < t -> 0 < k -> moved_kw E E' t k S kw kw' ->
  parse_mode V kw ai di = Ok l -> parse_mode V' kw' ai' di' = Ok l' -> Forall2 (moved_pen E E' t k S) (map o_pen l) (map o_pen l').
Proof.
  intros Ht Hk (K1 & K2 & K3 & K4 & K5 & K6 & K7 & K8 & K9 & K10 & K11 & K12) H H'.
  apply parse_mode_iff in H as (_ & gl & GL & ->). apply parse_mode_iff in H' as (_ & gl' & GL' & ->).
  assert (TV : otruthy (N:=RNum) (k_tv kw') = otruthy (N:=RNum) (k_tv kw)).
  { rewrite K8. destruct (k_tv kw) as [x|]; [|reflexivity]. cbn [option_map otruthy]. now apply ntruthy_scale. }
  assert (L1 : strength (k_l1 kw') = t * k * strength (k_l1 kw)) by (rewrite K5; destruct (k_l1 kw); cbn; lra).
  assert (L1T : ntruthy (N:=RNum) (if otruthy (N:=RNum) (k_tv kw') then n0 else strength (k_l1 kw')) = ntruthy (N:=RNum) (if otruthy (N:=RNum) (k_tv kw) then n0 else strength (k_l1 kw))).
  { rewrite TV, L1. destruct (otruthy (N:=RNum) (k_tv kw)); [reflexivity|]. apply ntruthy_scale. now apply Rmult_lt_0_compat. }
  assert (NB : match k_norm kw' with Some b => ntruthy (N:=RNum) b | None => false end = match k_norm kw with Some b => ntruthy (N:=RNum) b | None => false end).
  { rewrite K4. destruct (k_norm kw); [|reflexivity]. cbn [option_map]. now apply ntruthy_scale. }
  assert (BX : Forall2 (moved_pen E E' t k S) (map o_pen (s_box kw ai di)) (map o_pen (s_box kw' ai' di'))).
  { assert (B1 : forall lo hi, moved_pen E E' t k S (Box (if btruthy (k_nn kw) then Some (match lo with None => n0 | Some x => nmax (N:=RNum) x n0 end) else lo) hi)
        (Box (if btruthy (k_nn kw) then Some (match option_map (Rmult k) lo with None => n0 | Some x => nmax (N:=RNum) x n0 end) else option_map (Rmult k) lo) (option_map (Rmult k) hi))).
    { intros lo hi. split; [|reflexivity]. destruct (btruthy (k_nn kw)); [|reflexivity]. destruct lo as [x|]; cbn [option_map]; f_equal.
      - rn. rewrite !nmax_R. rewrite <- RmaxRmult by lra. now rewrite Rmult_0_r.
      - rn. lra. }
    unfold s_box. rewrite K1, K2, K3. destruct (k_lower kw) as [lo|], (k_upper kw) as [hi|]; cbn [option_map map o_pen]; [apply F2_one, (B1 (Some lo) (Some hi))|apply F2_one, (B1 (Some lo) None)|apply F2_one, (B1 None (Some hi))|constructor]. }
  assert (SK : s_skip kw' ai' di' = s_skip kw ai di).
  { unfold s_skip. rewrite K6, NB, L1T. f_equal. unfold s_box. rewrite K2, K3. destruct (k_lower kw), (k_upper kw); reflexivity. }
  rewrite !map_app. repeat apply Forall2_app.
  - unfold s_pf2. rewrite K11. destruct (k_pf2 kw); [|constructor]. apply F2_one. cbn. auto 10.
  - unfold s_uni. rewrite K6, K1. destruct (btruthy (k_uni kw)) eqn:U; [|constructor]. apply btruthy_wants in U. destruct (K7 U). apply F2_one. cbn. auto.
  - unfold gl_ok in GL, GL'. destruct (k_gl2 kw) as [[|M|]|], (k_gl2 kw') as [[|M'|]|]; try contradiction; try (subst; constructor).
    destruct GL as (U & s & -> & _), GL' as (U' & s' & -> & _). apply F2_one. cbn. exact K10.
  - unfold s_ball. rewrite K1, K4. destruct (k_norm kw) as [x|]; [|constructor]. cbn [option_map]. rewrite ntruthy_scale by exact Hk. destruct (ntruthy x); [|constructor]. apply F2_one. cbn. auto.
  - unfold s_tv. rewrite L1, K8. destruct (k_tv kw) as [x|] eqn:ET; [|constructor]. cbn [option_map]. rewrite ntruthy_scale by exact Ht. destruct (ntruthy x) eqn:T; [|constructor]. apply ntruthy_true in T.
    destruct (K9 T) as (Q1 & Q2 & Q3). apply F2_one. cbn. split; [exact Q1|]. split; [exact Q2|]. split; [reflexivity|]. split; [|exact Q3]. rewrite Q1. lra.
  - unfold s_l1. rewrite L1T, K1. match goal with |- context[if ntruthy ?x then _ else _] => destruct (ntruthy x) end; [|constructor]. apply F2_one. cbn. split; [|reflexivity]. rewrite TV, L1. destruct (otruthy (N:=RNum) (k_tv kw)); rn; lra.
  - exact BX.
  - unfold s_non. rewrite K1, SK. destruct (_ && _)%bool; [|constructor]. apply F2_one. exact Logic.I.
Qed.
Lemma parse_mode_constraints V kw ai di l : strength (k_l1 kw) = 0 -> strength (k_tv kw) = 0 -> (k_gl2 kw = None \/ k_gl2 kw = Some GFalse) ->
  parse_mode V kw ai di = Ok l -> Forall constraint_only (map o_pen l).
Proof.
  intros A1 A2 A3 H. apply parse_mode_iff in H as (_ & gl & GL & ->).
  assert (G : gl = []) by (unfold gl_ok in GL; now destruct A3 as [A3|A3]; rewrite A3 in GL). subst gl.
  assert (S5 : s_tv kw ai di = []).
  { unfold s_tv. destruct (k_tv kw) as [b|]; [|reflexivity]. cbn in A2. subst b. now rewrite zero_not_truthy. }
  assert (S6 : s_l1 kw ai di = []).
  { unfold s_l1. replace (ntruthy (N:=RNum) _) with false; [reflexivity|]. symmetry.
    destruct (k_tv kw) as [b|]; cbn in A2; [subst b|]; cbn [otruthy]; rewrite ?zero_not_truthy; destruct (k_l1 kw) as [b|]; cbn in A1; try subst b; exact zero_not_truthy. }
  rewrite S5, S6. cbn [app]. rewrite !map_app, !Forall_app. unfold s_pf2, s_uni, s_ball, s_box, s_non.
  split; [destruct (k_pf2 kw); repeat constructor|]. split; [destruct (btruthy (k_uni kw)); repeat constructor|]. split; [destruct (k_norm kw) as [b|]; [destruct (ntruthy b)|]; repeat constructor|].
  split; [destruct (k_lower kw), (k_upper kw); repeat constructor|]. destruct (_ && _)%bool; repeat constructor.
Qed.
Lemma factor_pos z h m : proper z h -> 0 < problem_factor h m /\ 0 < unit_of h m.
Proof. intros (H1 & H2 & H3 & _). destruct m as [|[|m]]; cbn; (split; [repeat apply Rmult_lt_0_compat; assumption|assumption]). Qed.
Lemma requests_penalties z h V V' a b : proper z h -> requests_moved h V V' a b -> penalties_moved h V V' a b.
Proof.
  intros HP H m l l' Hm U (t & EP & ->) (t' & EP' & ->). destruct (H m Hm U) as (H1 & H2). destruct (factor_pos z h m HP) as (F1 & F2).
  destruct (parse_all_ok _ _ _ _ _ _ EP m Hm) as (kw & pa & u & MV & PM & US & ->). destruct (parse_all_ok _ _ _ _ _ _ EP' m Hm) as (kw' & pa' & u' & MV' & PM' & US' & ->).
  rewrite !map_app. apply Forall2_app; [exact (parse_mode_moved _ _ _ _ _ _ _ _ _ _ _ _ _ _ _ F1 F2 (H1 _ _ MV MV') PM PM')|]. specialize (H2 _ _ US US').
  clear - H2. induction H2; constructor; assumption.
Qed.
Lemma kept_equal h V a : losses_kept h a -> losses_equal h V a.
Proof.
  intros [H|(H1 & H2)]; [now left|right]. split; [exact H1|]. intros m l Hm U (t & EP & ->). destruct (H2 m Hm U) as (C1 & C2).
  destruct (parse_all_ok _ _ _ _ _ _ EP m Hm) as (kw & pa & u & MV & PM & US & ->). destruct (C1 kw MV) as (A1 & A2 & A3).
  rewrite map_app, Forall_app. split; [exact (parse_mode_constraints _ _ _ _ _ A1 A2 A3 PM)|]. rewrite Forall_map. now apply C2.
Qed.
Lemma output_weaken z h (P Q : Prop) o o' : (Q -> P) -> moved_output z h P o o' -> moved_output z h Q o o'.
Proof.
  intros HQ (H1 & H2 & H3). split; [exact H1|]. split; [exact H2|]. destruct (out_diag o), (out_diag o'); cbn in *; try exact H3. tauto.
Qed.
Lemma outcome_weaken (P Q : outR -> outR -> Prop) x y : (forall o o', P o o' -> Q o o') -> same_outcome P x y -> same_outcome Q x y.
Proof. intros H. destruct x, y; cbn; auto. Qed.

(** ** Variables are made from sizes *)
Definition same_sizes (Xs Xs' : list matR) : Prop := map (@mr RNum) Xs' = map (@mr RNum) Xs /\ colsX Xs' = colsX Xs.
Lemma sizes_length Xs Xs' : same_sizes Xs Xs' -> length Xs' = length Xs.
Proof. intros (H & _). apply (f_equal (@length _)) in H. now rewrite !map_length in H. Qed.
Lemma sizes_cols Xs Xs' : same_sizes Xs Xs' -> first_cols (N:=RNum) Xs' = first_cols Xs.
Proof.
  intros H. pose proof (sizes_length _ _ H) as L. destruct H as (_ & H). destruct Xs, Xs'; try discriminate; [reflexivity|]. unfold colsX, nthX in H. cbn in H. cbn. now rewrite H.
Qed.
Lemma mapM_rows {B} (f : nat -> res B) (Xs : list matR) : mapM (fun X : matR => f (mr X)) Xs = mapM f (map (@mr RNum) Xs).
Proof. induction Xs as [|X Xs IH]; [reflexivity|]. cbn. destruct (f (mr X)); [|reflexivity]. cbn. now rewrite IH. Qed.
Lemma mapS_rows {B} (f : nat -> nat -> res (B * nat)) (Xs : list matR) : forall pos, mapS (fun X : matR => f (mr X)) Xs pos = mapS f (map (@mr RNum) Xs) pos.
Proof. induction Xs as [|X Xs IH]; intros pos; [reflexivity|]. cbn. destruct (f (mr X) pos) as [[y p]|]; [|reflexivity]. cbn. now rewrite IH. Qed.
Lemma common_sizes rnd v Xs Xs' r m pos : same_sizes Xs Xs' -> init_common (N:=RNum) rnd v Xs' r m pos = init_common rnd v Xs r m pos.
Proof.
  intros HS. pose proof (sizes_length _ _ HS) as L. pose proof (sizes_cols _ _ HS) as F. destruct HS as (HM & _). unfold init_common. rewrite HM, L, F.
  destruct r as [r|]; [|reflexivity]. destruct m as [m|]; [|reflexivity]. destruct (negb _); [reflexivity|]. destruct v as [[]| | | |]; try reflexivity.
  - rewrite (mapS_rows (fun j => draw_mat rnd Uniform j r) Xs'), (mapS_rows (fun j => draw_mat rnd Uniform j r) Xs), HM. reflexivity.
  - rewrite (mapS_rows (fun j => draw_mat rnd StdNormal j r) Xs'), (mapS_rows (fun j => draw_mat rnd StdNormal j r) Xs), HM. reflexivity.
  - rewrite (mapM_rows (fun j => zeros (N:=RNum) j r) Xs'), (mapM_rows (fun j => zeros (N:=RNum) j r) Xs), HM. reflexivity.
Qed.
Lemma check_bases_sizes r l : forall Xs Xs', map (@mr RNum) Xs' = map (@mr RNum) Xs -> check_bases (N:=RNum) r Xs' l = check_bases r Xs l.
Proof.
  induction l as [|o l IH]; intros [|X Xs] [|X' Xs'] H; try discriminate; try reflexivity. cbn in H. injection H as H1 H2. cbn [check_bases]. rewrite (IH _ _ H2). unfold check_basis. now rewrite H1.
Qed.
Lemma pf2_sizes rnd g v Xs Xs' r m pos : same_sizes Xs Xs' -> pf2_init_aux (N:=RNum) rnd g v Xs' r m pos = pf2_init_aux rnd g v Xs r m pos.
Proof.
  intros HS. pose proof (sizes_length _ _ HS) as L. destruct HS as (HM & _). unfold pf2_init_aux. rewrite L.
  assert (EY : forall r, mapM (fun X : matR => eye (N:=RNum) (mr X) r) Xs' = mapM (fun X : matR => eye (mr X) r) Xs) by (intros q; now rewrite !(mapM_rows (fun j => eye (N:=RNum) j q)), HM).
  destruct v as [s| | |l|]; try reflexivity; destruct r as [r|]; try reflexivity; destruct m as [m|]; try reflexivity; destruct (negb (m =? 1)%Z); try reflexivity.
  - rewrite EY. reflexivity.
  - destruct l as [|x [|y [|w l]]]; try reflexivity. destruct x; try reflexivity. destruct y; try reflexivity. destruct shape as [|p [|q [|w sh]]]; try reflexivity.
    now rewrite (check_bases_sizes p l _ _ HM).
Qed.
(** Penalty objects that make the same variables. *)
Definition alike (o o' : pobjR) : Prop := o_aux o' = o_aux o /\ o_dual o' = o_dual o /\ (is_parafac2 (o_pen o) <-> is_parafac2 (o_pen o')).
Lemma aux_alike rnd g o o' Xs Xs' r m pos : same_sizes Xs Xs' -> alike o o' -> init_aux (N:=RNum) rnd g o' Xs' r m pos = init_aux rnd g o Xs r m pos.
Proof.
  intros HS (H1 & _ & H2). unfold init_aux. rewrite H1. destruct (o_pen o), (o_pen o'); cbn in H2; try tauto; try (now apply common_sizes); now apply pf2_sizes.
Qed.
Lemma dual_alike rnd o o' Xs Xs' r m pos : same_sizes Xs Xs' -> alike o o' -> init_dual (N:=RNum) rnd o' Xs' r m pos = init_dual rnd o Xs r m pos.
Proof. intros HS (_ & H & _). unfold init_dual. rewrite H. now apply common_sizes. Qed.
Lemma mapS_alike (f f' : pobjR -> nat -> res (auxval (N:=RNum) * nat)) : (forall o o' pos, alike o o' -> f' o' pos = f o pos) ->
  forall l l', Forall2 alike l l' -> forall pos, mapS f' l' pos = mapS f l pos.
Proof.
  intros H l l' F. induction F as [|o o' l l' Q F IH]; intros pos; [reflexivity|]. cbn. rewrite (H _ _ pos Q). destruct (f o pos) as [[y p]|]; [|reflexivity]. cbn. now rewrite IH.
Qed.
Lemma initialize_alike (f f' : pobjR -> list matR -> pyint -> pyint -> nat -> res (auxval (N:=RNum) * nat)) Xs Xs' r rA rB rC rA' rB' rC' pos :
  (forall o o' m pos, alike o o' -> f' o' Xs' r m pos = f o Xs r m pos) -> Forall2 alike rA rA' -> Forall2 alike rB rB' -> Forall2 alike rC rC' ->
  initialize f' Xs' r (rA', rB', rC') pos = initialize f Xs r (rA, rB, rC) pos.
Proof.
  intros H FA FB FC. unfold initialize.
  rewrite (mapS_alike (fun o => f o Xs r (PyInt 0)) (fun o => f' o Xs' r (PyInt 0)) (fun o o' p Q => H o o' _ p Q) _ _ FA). destruct (mapS _ rA pos) as [[x p]|]; [|reflexivity]. cbn [bind].
  rewrite (mapS_alike (fun o => f o Xs r (PyInt 1)) (fun o => f' o Xs' r (PyInt 1)) (fun o o' p Q => H o o' _ p Q) _ _ FB). destruct (mapS _ rB p) as [[y p1]|]; [|reflexivity]. cbn [bind].
  rewrite (mapS_alike (fun o => f o Xs r (PyInt 2)) (fun o => f' o Xs' r (PyInt 2)) (fun o o' p Q => H o o' _ p Q) _ _ FC). reflexivity.
Qed.
Lemma mregs_alike l l' : Forall2 alike l l' -> forall a d, res_rel (fun g g' => map g_aux g' = map (g_aux (N:=RNum)) g /\ map g_dual g' = map g_dual g) (make_mregs l a d) (make_mregs l' a d).
Proof.
  intros F. induction F as [|o o' l l' Q F IH]; intros a d; cbn [make_mregs].
  - destruct a; [|reflexivity]. destruct d; [|reflexivity]. split; reflexivity.
  - destruct a as [|[M|] a]; try reflexivity. destruct d as [|[D|] d]; try reflexivity. specialize (IH a d). destruct (make_mregs l a d), (make_mregs l' a d); cbn in *; try contradiction; [|exact IH].
    destruct IH as (-> & ->). split; reflexivity.
Qed.
Lemma bregs_alike l l' : Forall2 alike l l' -> forall a d, res_rel (fun g g' => map b_aux g' = map (b_aux (N:=RNum)) g /\ map b_dual g' = map b_dual g) (make_bregs l a d) (make_bregs l' a d).
Proof.
  intros F. induction F as [|o o' l l' Q F IH]; intros a d; cbn [make_bregs].
  - destruct a; [|reflexivity]. destruct d; [|reflexivity]. split; reflexivity.
  - destruct a as [|[M|M] a]; try reflexivity. destruct d as [|[D|[D|]] d]; try reflexivity. specialize (IH a d). destruct (make_bregs l a d), (make_bregs l' a d); cbn in *; try contradiction; [|exact IH].
    destruct IH as (-> & ->). split; reflexivity.
Qed.
Lemma setup_alike V V' IE IE' rnd (a b : fitR) rank c c' pos l2 l2' t t' :
  f_svd b = f_svd a -> f_rank a = PyInt (Z.of_nat rank) -> f_rank b = f_rank a -> same_sizes (f_data a) (f_data b) ->
  f_updA b = f_updA a -> f_updB b = f_updB a -> f_updC b = f_updC a ->
  initialize_cmf (e_ext V) IE rnd (f_data a) (f_rank a) (f_init a) 0 = Ok (c, pos) -> initialize_cmf (e_ext V') IE' rnd (f_data b) (f_rank b) (f_init b) 0 = Ok (c', pos) ->
  data_fits (f_data a) c -> data_fits (f_data b) c' -> mc (cA c) = rank -> mc (cA c') = rank ->
  listify (f_l2 a) = Ok l2 -> listify (f_l2 b) = Ok l2' ->
  parse_all V (f_kw a) (f_regs a) (f_aux a) (f_dual a) = Ok t -> parse_all V' (f_kw b) (f_regs b) (f_aux b) (f_dual b) = Ok t' ->
  (forall m, (m < 3)%nat -> updates a m = true -> Forall2 alike (pick t m) (pick t' m)) ->
  res_rel (fun u v => st_cmf (fst u) = c /\ st_cmf (fst v) = c' /\ vars_of (fst v) = vars_of (fst u)) (setup V IE rnd a) (setup V' IE' rnd b).
Proof.
  intros S1 HR S2 SZ S3 S4 S5 EI EI' DF DF' MC MC' EL EL' EP EP' AL. unfold setup. rewrite S1, S3, S4, S5, EI, EI', EL, EL', EP, EP'. destruct (f_svd a); [|reflexivity]. cbn [negb bind].
  destruct t as [[rA rB] rC], t' as [[rA' rB'] rC']. pose proof (AL 0%nat ltac:(lia)) as A0. pose proof (AL 1%nat ltac:(lia)) as A1. pose proof (AL 2%nat ltac:(lia)) as A2. cbn [updates pick] in A0, A1, A2.
  assert (FA : Forall2 alike (if f_updA a then rA else []) (if f_updA a then rA' else [])) by (destruct (f_updA a); [auto|constructor]).
  assert (FB : Forall2 alike (if f_updB a then rB else []) (if f_updB a then rB' else [])) by (destruct (f_updB a); [auto|constructor]).
  assert (FC : Forall2 alike (if f_updC a then rC else []) (if f_updC a then rC' else [])) by (destruct (f_updC a); [auto|constructor]). clear A0 A1 A2 AL.
  cbv zeta. set (uA := if f_updA a then rA else []) in *. set (uB := if f_updB a then rB else []) in *. set (uC := if f_updC a then rC else []) in *.
  set (uA' := if f_updA a then rA' else []) in *. set (uB' := if f_updB a then rB' else []) in *. set (uC' := if f_updC a then rC' else []) in *.
  rewrite S2. unfold initialize_aux, initialize_dual.
  rewrite (initialize_alike (init_aux rnd true) (init_aux rnd true) (f_data a) (f_data b) (f_rank a) uA uB uC uA' uB' uC' pos (fun o o' m p Q => aux_alike rnd true o o' _ _ _ m p SZ Q) FA FB FC).
  destruct (initialize (init_aux rnd true) _ _ _ _) as [[[[aA aB] aC] p]|]; [|reflexivity]. cbn [bind].
  rewrite (initialize_alike (init_dual rnd) (init_dual rnd) (f_data a) (f_data b) (f_rank a) uA uB uC uA' uB' uC' p (fun o o' m p Q => dual_alike rnd o o' _ _ _ m p SZ Q) FA FB FC).
  destruct (initialize (init_dual rnd) _ _ _ _) as [[[[dA dB] dC] q]|]; [|reflexivity]. cbn [bind]. rewrite HR, !shapes_match_ok by assumption. cbn [negb].
  pose proof (mregs_alike _ _ FA aA dA) as G1. destruct (make_mregs uA aA dA) as [gA|], (make_mregs uA' aA dA) as [gA'|]; cbn [res_rel] in G1; try contradiction; [|exact G1].
  pose proof (bregs_alike _ _ FB aB dB) as G2. cbn [bind]. destruct (make_bregs uB aB dB) as [gB|], (make_bregs uB' aB dB) as [gB'|]; cbn [res_rel] in G2; try contradiction; [|exact G2].
  pose proof (mregs_alike _ _ FC aC dC) as G3. cbn [bind]. destruct (make_mregs uC aC dC) as [gC|], (make_mregs uC' aC dC) as [gC'|]; cbn [res_rel] in G3; try contradiction; [|exact G3].
  cbn [bind res_rel fst st_cmf]. split; [reflexivity|]. split; [reflexivity|]. unfold vars_of. cbn [st_rA st_rB st_rC]. destruct G1 as (-> & ->), G2 as (-> & ->), G3 as (-> & ->). reflexivity.
Qed.
