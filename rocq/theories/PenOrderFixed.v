(** The same penalty objects in another order, when no start value of their variables is drawn: the starts correspond. *)
From Coq Require Import Reals Lra Lia List Arith Bool ZArith Permutation.
From Verif Require Import Num Numpy RFacts Spec SpecFacts MatFacts ModelSpec Penalties PenaltySpec CoupledMatrices CmfSpec CmfProofs Decomp DecompSpec
  DecompFacts AoRun AoLoop OrderProofs InitVars InitSpec Parse ParseSpec ParseProofs Fit FitSpec FitProofs StartSpec ResumeSpec ResumeProofs SymSpec SymFit P29_Symmetry TurnFit ReorderFacts
  PenOrderSpec PenOrderRun PenOrderFit.
Import ListNotations.
Local Open Scope R_scope.
Notation pobjR := (pobj (N:=RNum)).

Lemma reorder_F2 {A B} (Q : A -> B -> Prop) p l m : Forall2 Q l m -> Forall2 Q (reorder p l) (reorder p m).
Proof.
  intros H. unfold reorder. induction p as [|i p IH]; [constructor|]. cbn [flat_map]. apply Forall2_app; [|exact IH]. clear IH. revert i. induction H as [|x y l m H HH IH]; intros [|i]; cbn; auto.
Qed.
Lemma reorder_in {A} p (l : list A) x : In x (reorder p l) -> In x l.
Proof. unfold reorder. intros H. apply in_flat_map in H as (i & _ & K). destruct (nth_error l i) eqn:E; [|destruct K]. destruct K as [<-|[]]. eapply nth_error_In; eassumption. Qed.
(** ** Starts that are not drawn take nothing from the random stream *)
Lemma common_quiet rnd i Xs rank mode pos v q : not_drawn i -> init_common (N:=RNum) rnd i Xs rank mode pos = Ok (v, q) -> forall p, init_common (N:=RNum) rnd i Xs rank mode p = Ok (v, p).
Proof.
  intros (N1 & N2) H p. unfold init_common in *. destruct rank as [rank|]; [|discriminate]. destruct mode as [mode|]; [|discriminate]. destruct (negb _); [discriminate|].
  destruct i as [[| | |]|sh data|l|l|]; try congruence.
  - destruct (mode =? 0)%Z; [destruct (zeros _ _); [cbn [bind] in *; congruence|discriminate]|]. destruct (mode =? 1)%Z; [destruct (mapM _ Xs); [cbn [bind] in *; congruence|discriminate]|].
    destruct (first_cols Xs); [|discriminate]. cbn [bind] in *. destruct (zeros _ _); [cbn [bind] in *; congruence|discriminate].
  - destruct (mode =? 1)%Z; [discriminate|]. destruct sh as [|x [|y [|z sh]]]; try discriminate. destruct (first_cols Xs); [|discriminate]. cbn [bind] in *. destruct (_ || _); [discriminate|]. destruct (_ || _); [discriminate|]. congruence.
  - destruct (negb _); [discriminate|]. destruct (any_mismatch _ _ _) as [[]|]; try discriminate. cbn [bind] in *. destruct (negb _); [discriminate|]. congruence.
Qed.
Lemma aux_quiet rnd (o : pobjR) Xs rank mode pos v q : not_drawn (o_aux o) -> init_aux rnd true o Xs rank mode pos = Ok (v, q) -> forall p, init_aux rnd true o Xs rank mode p = Ok (v, p).
Proof.
  intros ND H p. unfold init_aux in *. destruct (o_pen o); try exact (common_quiet rnd _ Xs rank mode pos v q ND H p).
  destruct ND as (N1 & N2). unfold pf2_init_aux in *. destruct (o_aux o) as [[| | |]|sh data|l|l|]; try congruence; destruct rank as [rank|]; try discriminate; destruct mode as [mode|]; try discriminate; destruct (negb (mode =? 1)%Z); try discriminate.
  - destruct (zeros _ _); [|discriminate]. cbn [bind] in *. destruct (mapM _ Xs); [cbn [bind] in *; congruence|discriminate].
  - destruct l as [|x [|y [|z l]]]; try discriminate. destruct x as [| |sh d|bs], y as [| |sh' d'|bs']; try discriminate. destruct sh' as [|r [|s' [|u sh']]]; try discriminate. destruct (_ || _); [discriminate|].
    destruct (check_bases _ _ _); [|discriminate]. cbn [bind] in *. destruct (negb _); [discriminate|]. congruence.
Qed.

(** ** The variables of a penalty *)
Section Made.
Variables (rnd : rand (N:=RNum)) (Xs : list rmat) (rank : pyint).
Definition quiet (o : pobjR) : Prop := not_drawn (o_aux o) /\ not_drawn (o_dual o).
Definition fixed_aux (m : Z) (o : pobjR) (v : auxval (N:=RNum)) : Prop := forall pos, init_aux rnd true o Xs rank (PyInt m) pos = Ok (v, pos).
Definition fixed_dual (m : Z) (o : pobjR) (v : auxval (N:=RNum)) : Prop := forall pos, init_dual rnd o Xs rank (PyInt m) pos = Ok (v, pos).
Lemma mapS_quiet (f : pobjR -> nat -> res (auxval (N:=RNum) * nat)) (l : list pobjR) : (forall o, In o l -> forall pos v q, f o pos = Ok (v, q) -> forall p, f o p = Ok (v, p)) ->
  forall pos vs q, mapS f l pos = Ok (vs, q) -> Forall2 (fun o v => forall p, f o p = Ok (v, p)) l vs.
Proof.
  induction l as [|o l IH]; intros HQ pos vs q H; cbn [mapS] in H; [injection H as <- _; constructor|].
  destruct (f o pos) as [(v, p1)|] eqn:E; [|discriminate]. cbn [bind] in H. destruct (mapS f l p1) as [(ws, p2)|] eqn:E2; [|discriminate]. cbn [bind] in H. injection H as <- _.
  constructor; [exact (HQ o (or_introl eq_refl) _ _ _ E)|]. apply (IH (fun x Hx => HQ x (or_intror Hx)) _ _ _ E2).
Qed.
Definition made (m : Z) (o : pobjR) (g : mregR) : Prop := fixed_aux m o (VMat (g_aux g)) /\ fixed_dual m o (VMat (g_dual g)) /\ o_pen o = g_pen g.
Definition mades (o : pobjR) (g : bregR) : Prop := fixed_aux 1 o (VMats (b_aux g)) /\ fixed_dual 1 o (VMats (AList (b_dual g))) /\ o_pen o = b_pen g.
Lemma make_mregs_made m l : forall a d g, Forall2 (fixed_aux m) l a -> Forall2 (fixed_dual m) l d -> make_mregs l a d = Ok g -> Forall2 (made m) l g.
Proof.
  induction l as [|o l IH]; intros a d g HA HD H; inversion HA; inversion HD; subst; cbn [make_mregs] in H; [injection H as <-; constructor|].
  destruct y as [A|]; [|discriminate]. destruct y0 as [D|]; [|discriminate]. destruct (make_mregs l l' l'0) as [r|] eqn:E; [|discriminate]. cbn [bind] in H. injection H as <-. constructor; [|eapply IH; eassumption]. split; [assumption|]. split; [assumption|reflexivity].
Qed.
Lemma make_bregs_made l : forall a d g, Forall2 (fixed_aux 1) l a -> Forall2 (fixed_dual 1) l d -> make_bregs l a d = Ok g -> Forall2 mades l g.
Proof.
  induction l as [|o l IH]; intros a d g HA HD H; inversion HA; inversion HD; subst; cbn [make_bregs] in H; [injection H as <-; constructor|].
  destruct y as [A|A]; [discriminate|]. destruct y0 as [D|[D|D D2]]; try discriminate. destruct (make_bregs l l' l'0) as [r|] eqn:E; [|discriminate]. cbn [bind] in H. injection H as <-. constructor; [|eapply IH; eassumption]. split; [assumption|]. split; [assumption|reflexivity].
Qed.
Lemma made_make m l g : Forall2 (made m) l g -> Forall2 (fixed_aux m) l (map (fun r => VMat (g_aux r)) g) /\ Forall2 (fixed_dual m) l (map (fun r => VMat (g_dual r)) g) /\
  make_mregs l (map (fun r => VMat (g_aux r)) g) (map (fun r => VMat (g_dual r)) g) = Ok g.
Proof.
  induction 1 as [|o r l g (H1 & H2 & H3) _ (I1 & I2 & I3)]; [repeat constructor|]. cbn [map make_mregs]. rewrite I3, H3. cbn [bind]. destruct r; repeat split; try (constructor; assumption).
Qed.
Lemma mades_make l g : Forall2 mades l g -> Forall2 (fixed_aux 1) l (map (fun r => VMats (b_aux r)) g) /\ Forall2 (fixed_dual 1) l (map (fun r => VMats (AList (b_dual r))) g) /\
  make_bregs l (map (fun r => VMats (b_aux r)) g) (map (fun r => VMats (AList (b_dual r))) g) = Ok g.
Proof.
  induction 1 as [|o r l g (H1 & H2 & H3) _ (I1 & I2 & I3)]; [repeat constructor|]. cbn [map make_bregs]. rewrite I3, H3. cbn [bind]. destruct r; repeat split; try (constructor; assumption).
Qed.
Lemma initialize_quiet (f : pobjR -> list rmat -> pyint -> pyint -> nat -> res (auxval (N:=RNum) * nat)) rA rB rC pos aA aB aC q :
  (forall m o, In o (rA ++ rB ++ rC) -> forall pos v q, f o Xs rank (PyInt m) pos = Ok (v, q) -> forall p, f o Xs rank (PyInt m) p = Ok (v, p)) ->
  initialize f Xs rank (rA, rB, rC) pos = Ok (aA, aB, aC, q) ->
  Forall2 (fun o v => forall p, f o Xs rank (PyInt 0) p = Ok (v, p)) rA aA /\ Forall2 (fun o v => forall p, f o Xs rank (PyInt 1) p = Ok (v, p)) rB aB /\ Forall2 (fun o v => forall p, f o Xs rank (PyInt 2) p = Ok (v, p)) rC aC.
Proof.
  intros HQ H. unfold initialize in H. destruct (mapS _ rA pos) as [(x, p1)|] eqn:E1; [|discriminate]. cbn [bind] in H. destruct (mapS _ rB p1) as [(y, p2)|] eqn:E2; [|discriminate]. cbn [bind] in H. destruct (mapS _ rC p2) as [(z, p3)|] eqn:E3; [|discriminate]. cbn [bind] in H.
  injection H as <- <- <- _. split; [|split]; (eapply mapS_quiet; [|eassumption]); intros o Ho; apply HQ; rewrite !in_app_iff; auto.
Qed.
Lemma initialize_given (f : pobjR -> list rmat -> pyint -> pyint -> nat -> res (auxval (N:=RNum) * nat)) rA rB rC pos aA aB aC :
  Forall2 (fun o v => forall p, f o Xs rank (PyInt 0) p = Ok (v, p)) rA aA -> Forall2 (fun o v => forall p, f o Xs rank (PyInt 1) p = Ok (v, p)) rB aB -> Forall2 (fun o v => forall p, f o Xs rank (PyInt 2) p = Ok (v, p)) rC aC ->
  initialize f Xs rank (rA, rB, rC) pos = Ok (aA, aB, aC, pos).
Proof. intros H1 H2 H3. unfold initialize. rewrite (mapS_given _ _ _ H1). cbn [bind]. rewrite (mapS_given _ _ _ H2). cbn [bind]. now rewrite (mapS_given _ _ _ H3). Qed.
End Made.

Lemma nil_reorder {T} q (l : list T) : Permutation q (seq 0 (length l)) -> is_nil (reorder q l) = is_nil l.
Proof. intros H. pose proof (reorder_length q (length l) H l eq_refl). destruct l, (reorder q _); cbn in *; try reflexivity; discriminate. Qed.
Lemma objs_order V a b p t t' m : objects_in_order p a b -> (m < 3)%nat -> parse_all V (f_kw a) (f_regs a) (f_aux a) (f_dual a) = Ok t -> parse_all V (f_kw b) (f_regs b) (f_aux b) (f_dual b) = Ok t' ->
  tail_in_order (p m) (pick t m) (pick t' m).
Proof.
  intros (_ & _ & _ & EK & _ & EA & ED & EU) Hm EP EP'. rewrite EK, EA, ED in EP'.
  destruct (parse_all_ok _ _ _ _ _ _ EP m Hm) as (kw & pa & u & MV & PM & US & ->). destruct (parse_all_ok _ _ _ _ _ _ EP' m Hm) as (kw' & pa' & u' & MV' & PM' & US' & ->).
  rewrite <- (values_fun _ _ _ _ MV MV') in PM'. rewrite PM in PM'. injection PM' as <-. exists pa, u, u'. split; [reflexivity|]. split; [reflexivity|]. now apply (EU m).
Qed.
Lemma parsed_quiet V a t m : fixed_starts a -> (m < 3)%nat -> parse_all V (f_kw a) (f_regs a) (f_aux a) (f_dual a) = Ok t -> Forall quiet (pick t m).
Proof.
  intros (QA & QD & QU) Hm EP. destruct (parse_all_ok _ _ _ _ _ _ EP m Hm) as (kw & pa & u & MV & PM & US & ->). apply Forall_app. split; [|exact (QU m u Hm US)].
  apply parse_mode_iff in PM as (_ & gl & GL & ->). eapply Forall_impl; [|exact (inits_parsed V kw (f_aux a) (f_dual a) gl GL)]. intros o (Q1 & Q2). unfold quiet. now rewrite Q1, Q2.
Qed.
Lemma F2_len {A B} (Q : A -> B -> Prop) l m : Forall2 Q l m -> length l = length m. Proof. induction 1; cbn; congruence. Qed.
Lemma F2_impl_in {A B} (Q Q' : A -> B -> Prop) l m : (forall x y, Q x y -> Q' x y) -> Forall2 Q l m -> Forall2 Q' l m. Proof. intros H. induction 1; constructor; auto. Qed.
Lemma setup_fixed V IE rnd (a b : fitR) p s l2 : objects_in_order p a b -> fixed_starts a -> accepted V b -> setup V IE rnd a = Ok (s, l2) ->
  exists s', setup V IE rnd b = Ok (s', l2) /\ sst (wA (used a p) s) (wB (used a p) s) (wC (used a p) s) s s' /\ fits_modes (used a p) s.
Proof.
  intros HO FS (SV & WL & WK & GR & AC) H. pose proof HO as (EX & SS & EL & EK & EI & EA & ED & EU). pose proof SS as (S1 & S2 & S3 & S4 & S5 & S6 & S7 & S8 & S9 & S10 & S11 & S12 & S13 & S14).
  destruct (parse_all_total V (f_kw b) (f_regs b) (f_aux b) (f_dual b) GR WK AC) as (t' & EP').
  unfold setup in *. destruct (negb (f_svd a)); [discriminate|]. rewrite SV, EX, S1, EI, EL. cbn [negb].
  destruct (initialize_cmf _ _ _ _ _ _ _) as [(c, pos)|]; [|discriminate]. cbn [bind] in *. destruct (listify (f_l2 a)) as [l|]; [|discriminate]. cbn [bind] in *.
  destruct (parse_all V (f_kw a) (f_regs a) (f_aux a) (f_dual a)) as [t|] eqn:EP; [|discriminate]. rewrite EP'. cbn [bind] in *.
  pose proof (fun m Hm => objs_order V a b p t t' m HO Hm EP EP') as OO. pose proof (fun m Hm => parsed_quiet V a t m FS Hm EP) as QQ.
  destruct t as [[rA rB] rC], t' as [[rA' rB'] rC']. cbv zeta in *. rewrite S10, S11, S12. set (q := used a p).
  pose proof (OO 0%nat ltac:(lia)) as OA. pose proof (OO 1%nat ltac:(lia)) as OB. pose proof (OO 2%nat ltac:(lia)) as OC. pose proof (QQ 0%nat ltac:(lia)) as QA. pose proof (QQ 1%nat ltac:(lia)) as QB. pose proof (QQ 2%nat ltac:(lia)) as QC. cbn [pick] in *.
  assert (TA : tail_in_order (q 0%nat) (if f_updA a then rA else []) (if f_updA a then rA' else [])) by (unfold q, used; cbn [updates]; destruct (f_updA a); [exact OA|exact tail_nil]).
  assert (TB : tail_in_order (q 1%nat) (if f_updB a then rB else []) (if f_updB a then rB' else [])) by (unfold q, used; cbn [updates]; destruct (f_updB a); [exact OB|exact tail_nil]).
  assert (TC : tail_in_order (q 2%nat) (if f_updC a then rC else []) (if f_updC a then rC' else [])) by (unfold q, used; cbn [updates]; destruct (f_updC a); [exact OC|exact tail_nil]).
  assert (UA : Forall quiet (if f_updA a then rA else [])) by (destruct (f_updA a); [exact QA|constructor]). assert (UB : Forall quiet (if f_updB a then rB else [])) by (destruct (f_updB a); [exact QB|constructor]). assert (UC : Forall quiet (if f_updC a then rC else [])) by (destruct (f_updC a); [exact QC|constructor]).
  revert H TA TB TC UA UB UC. clear OO QQ OA OB OC QA QB QC. generalize (if f_updA a then rA else []) (if f_updA a then rA' else []) (if f_updB a then rB else []) (if f_updB a then rB' else []) (if f_updC a then rC else []) (if f_updC a then rC' else []).
  clear EP EP' rA rA' rB rB' rC rC'. intros rA rA' rB rB' rC rC' H TA TB TC UA UB UC.
  apply tail_perm in TA as (LA & PA & (KA & ->)). apply tail_perm in TB as (LB & PB & (KB & ->)). apply tail_perm in TC as (LC & PC & (KC & ->)).
  destruct (initialize_aux rnd (f_data a) (f_rank a) (rA, rB, rC) pos) as [[[[aA aB] aC] p1]|] eqn:E1; [|discriminate]. cbn [bind] in H.
  destruct (initialize_dual rnd (f_data a) (f_rank a) (rA, rB, rC) p1) as [[[[dA dB] dC] p2]|] eqn:E2; [|discriminate]. cbn [bind] in H.
  assert (QI : forall o, In o (rA ++ rB ++ rC) -> quiet o) by (intros o; rewrite !in_app_iff; intros [K|[K|K]]; [exact (proj1 (Forall_forall _ _) UA o K)|exact (proj1 (Forall_forall _ _) UB o K)|exact (proj1 (Forall_forall _ _) UC o K)]).
  destruct (initialize_quiet (f_data a) (f_rank a) (init_aux rnd true) rA rB rC pos aA aB aC p1) as (A0 & A1 & A2); [intros m o Ho ps v w E0; apply (aux_quiet rnd o _ _ _ ps v w (proj1 (QI o Ho)) E0)|exact E1|].
  destruct (initialize_quiet (f_data a) (f_rank a) (init_dual rnd) rA rB rC p1 dA dB dC p2) as (D0 & D1 & D2); [intros m o Ho ps v w E0; apply (common_quiet rnd _ _ _ _ ps v w (proj2 (QI o Ho)) E0)|exact E2|].
  destruct (negb (shapes_match (f_data a) c (f_rank a) (negb (is_nil rA && is_nil rB && is_nil rC)))) eqn:SM; [discriminate|].
  destruct (make_mregs rA aA dA) as [gA|] eqn:MA; [|discriminate]. cbn [bind] in H. destruct (make_bregs rB aB dB) as [gB|] eqn:MB; [|discriminate]. cbn [bind] in H. destruct (make_mregs rC aC dC) as [gC|] eqn:MC; [|discriminate]. cbn [bind] in H. injection H as <- <-.
  pose proof (make_mregs_made rnd (f_data a) (f_rank a) 0 rA aA dA gA A0 D0 MA) as FA. pose proof (make_bregs_made rnd (f_data a) (f_rank a) rB aB dB gB A1 D1 MB) as FB. pose proof (make_mregs_made rnd (f_data a) (f_rank a) 2 rC aC dC gC A2 D2 MC) as FC.
  pose proof (F2_len _ _ _ FA) as NA. pose proof (F2_len _ _ _ FB) as NB. pose proof (F2_len _ _ _ FC) as NC.
  pose proof (reorder_F2 _ (whole (q 0%nat) (length rA)) _ _ FA) as FA'. pose proof (reorder_F2 _ (whole (q 1%nat) (length rB)) _ _ FB) as FB'. pose proof (reorder_F2 _ (whole (q 2%nat) (length rC)) _ _ FC) as FC'.
  destruct (made_make _ _ _ _ _ _ FA') as (X1 & X2 & X3). destruct (mades_make _ _ _ _ _ FB') as (Y1 & Y2 & Y3). destruct (made_make _ _ _ _ _ _ FC') as (W1 & W2 & W3).
  unfold initialize_aux, initialize_dual. rewrite (initialize_given (f_data a) (f_rank a) (init_aux rnd true) _ _ _ pos _ _ _ X1 Y1 W1). cbn [bind]. rewrite (initialize_given (f_data a) (f_rank a) (init_dual rnd) _ _ _ pos _ _ _ X2 Y2 W2). cbn [bind].
  rewrite (nil_reorder _ rA KA), (nil_reorder _ rB KB), (nil_reorder _ rC KC), SM, X3. cbn [bind]. rewrite Y3. cbn [bind]. rewrite W3. cbn [bind].
  eexists. split; [reflexivity|]. unfold sst, fits_modes, wA, wB, wC. cbn [st_cmf st_rA st_rB st_rC st_inter]. rewrite <- NA, <- NB, <- NC. unfold perm_of. rewrite <- NA, <- NB, <- NC. auto 20.
Qed.
