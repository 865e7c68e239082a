(** Properties of the starting points of fits and of calls that cannot fail: C53, C51. *)
From Coq Require Import Reals Lra Lia List Arith Bool ZArith.
From Verif Require Import Num Numpy RFacts Spec SpecFacts MatFacts ModelSpec Penalties PenaltySpec CoupledMatrices CmfSpec CmfProofs Decomp DecompSpec
  DecompFacts ProxProofs AdmmProofs AdmmOne AoLoop AoRun AoMain AoMono TotalRun InitVars InitSpec InitProofs Parse ParseSpec ParseProofs P03_CoupledMatrices P05_Runs P06_Init P07_Parse Fit FitSpec
  FitProofs P08_Fit P09_Calls P10_Start DecompExamples Ideal.
Import ListNotations.
Local Open Scope R_scope.

(** ** C53: starting points *)
Lemma drawn_list_shaped rnd s c : forall (Xs : list matR) pos l p, drawn_list rnd s (map mr Xs) c pos l p -> list_shaped (length Xs) (rowsX Xs) c l.
Proof.
  induction Xs as [|X Xs IH]; intros pos [|M l] p H; cbn in H; try contradiction.
  - split; [reflexivity|]. intros i Hi. cbn in Hi. lia.
  - destruct H as (q & (D & _) & H). destruct (IH _ _ _ H) as (L & K). split; [cbn; now rewrite L|].
    intros [|i] Hi; [exact D|]. apply (K i). cbn in Hi. lia.
Qed.
Lemma shaped_valid (Xs : list matR) rank A Bs C : shaped A (length Xs) rank -> list_shaped (length Xs) (rowsX Xs) rank Bs -> shaped C (colsX Xs) rank ->
  valid_cmf (Cmf (N:=RNum) None A Bs C).
Proof.
  intros (WA & RA & CA) (LB & HB) (WC & RC & CC). split; [exact WA|]. split; [exact WC|]. split; [cbn; congruence|]. split; [cbn; congruence|]. split; [|discriminate].
  cbn. intros i Hi. rewrite LB in Hi. destruct (HB i Hi) as (W & Rr & Cc). split; [exact W|]. unfold nthB. cbn [cBs]. now rewrite Cc.
Qed.
Lemma shaped_fits (Xs : list matR) rank A Bs C : Forall (fun X => mwf X /\ (0 < mr X)%nat /\ (0 < mc X)%nat) Xs -> same_columns Xs ->
  shaped A (length Xs) rank -> list_shaped (length Xs) (rowsX Xs) rank Bs -> shaped C (colsX Xs) rank -> data_fits Xs (Cmf (N:=RNum) None A Bs C).
Proof.
  intros HX SC SA SB SH. split; [eapply shaped_valid; eauto|]. destruct SB as (LB & HB), SH as (WC & RC & CC). split; [cbn; congruence|].
  intros i Hi.
  assert (IN : In (nthX Xs i) Xs) by (apply nth_In; exact Hi). rewrite Forall_forall in HX. destruct (HX _ IN) as (W & _).
  destruct (HB i Hi) as (_ & Rr & _). split; [exact W|]. split; [exact (eq_sym Rr)|]. cbn [cC]. rewrite RC. now apply SC.
Qed.
Theorem C53_random_start E IE rnd (Xs : list matR) (rank pos : nat) : Xs <> [] ->
  exists c p1 p2 p3, initialize_cmf E IE rnd Xs (PyInt (Z.of_nat rank)) (InitName MRandom) pos = Ok (c, p3) /\
    valid_cmf c /\ cw c = None /\
    drawn rnd RandomUniform (length Xs) rank pos (cA c) p1 /\ drawn rnd RandomUniform (colsX Xs) rank p1 (cC c) p2 /\
    drawn_list rnd RandomUniform (map mr Xs) rank p2 (cBs c) p3.
Proof.
  intros HX. unfold initialize_cmf. rewrite first_cols_some by assumption. cbn [bind].
  assert (AR : as_rank (PyInt (Z.of_nat rank)) = Ok rank).
  { unfold as_rank. destruct (Z.ltb_spec (Z.of_nat rank) 0); [lia|]. now rewrite Nat2Z.id. }
  rewrite AR. cbn [bind].
  destruct (draw_drawn rnd RandomUniform (length Xs) (Z.of_nat rank) pos ltac:(discriminate) ltac:(lia)) as (A & p1 & E1 & D1). cbn [name_dist] in E1. rewrite E1. cbn [bind].
  destruct (draw_drawn rnd RandomUniform (colsX Xs) (Z.of_nat rank) p1 ltac:(discriminate) ltac:(lia)) as (C & p2 & E2 & D2). cbn [name_dist] in E2. rewrite E2. cbn [bind].
  destruct (draw_list_drawn rnd RandomUniform (Z.of_nat rank) ltac:(discriminate) ltac:(lia) Xs p2) as (Bs & p3 & E3 & D3). cbn [name_dist] in E3. rewrite E3. cbn [bind].
  rewrite Nat2Z.id in D1, D2, D3.
  assert (VC : valid_cmf (Cmf (N:=RNum) None A Bs C)) by (eapply shaped_valid; [apply D1|eapply drawn_list_shaped; exact D3|apply D2]).
  rewrite revalidate_ok by exact VC. cbn [bind]. exists (Cmf (N:=RNum) None A Bs C), p1, p2, p3. auto 10.
Qed.
Print Assumptions C53_random_start.

Lemma stacked_at (Xs : list matR) : forall j k, (j < list_sum (map (fun X : matR => mr X) Xs))%nat -> (forall X, In X Xs -> mwf X) ->
  nth k (nth j (flat_map me Xs) []) 0 = stacked_entry Xs j k.
Proof.
  induction Xs as [|X Xs IH]; intros j k Hj HW; [cbn in Hj; lia|]. cbn [flat_map stacked_entry]. cbn [map list_sum fold_right] in Hj.
  destruct (HW X (or_introl eq_refl)) as (L & _).
  destruct (Nat.ltb_spec j (mr X)) as [H|H].
  - rewrite app_nth1 by (rn; lia). reflexivity.
  - rewrite app_nth2 by (rn; lia). replace (j - length (me X))%nat with (j - mr X)%nat by (rn; lia). apply IH; [|intros Y HY; apply HW; now right].
    unfold list_sum. lia.
Qed.
Lemma mconcat_stacks (Xs : list matR) : Xs <> [] -> (forall X, In X Xs -> mwf X) -> same_columns Xs -> stacks (mconcat Xs) Xs.
Proof.
  intros HX HW SC.
  assert (RS : mr (mconcat Xs) = list_sum (map (fun X : matR => mr X) Xs)).
  { destruct Xs as [|X Xs]; [congruence|]. cbn [mconcat mr]. generalize (X :: Xs). intros l. induction l as [|Y l IH]; [reflexivity|]. cbn. rn. now rewrite IH. }
  split.
  - split; [apply (mconcat_wf Xs (colsX Xs)); intros M HM; split; [now apply HW|now apply SC]|]. split; [exact RS|]. destruct Xs; [congruence|reflexivity].
  - intros j k Hj Hk. rewrite RS in Hj. rewrite <- stacked_at by assumption. destruct Xs; [congruence|reflexivity].
Qed.
Theorem C53_svd_start E IE rnd (Xs : list matR) (rank pos : nat) (clip : bool) :
  Xs <> [] -> same_columns Xs -> (forall X, In X Xs -> mwf X /\ (rank <= mr X)%nat /\ (rank <= mc X)%nat) -> svd_shapes E rank ->
  exists c M, initialize_cmf E IE rnd Xs (PyInt (Z.of_nat rank)) (InitName (if clip then MThresholdSvd else MSvd)) pos = Ok (c, pos) /\
    valid_cmf c /\ cw c = None /\ stacks M Xs /\
    let f x := if clip then Rmax x 0 else x in
    shaped (cA c) (length Xs) rank /\ list_shaped (length Xs) (rowsX Xs) rank (cBs c) /\ shaped (cC c) (colsX Xs) rank /\
    (forall i r, (i < length Xs)%nat -> (r < rank)%nat -> mget (cA c) i r = 1) /\
    (forall i j r, (i < length Xs)%nat -> (j < rowsX Xs i)%nat -> (r < rank)%nat -> mget (nthB c i) j r = f (mget (left_vectors E (nthX Xs i) rank) j r)) /\
    (forall k r, (k < colsX Xs)%nat -> (r < rank)%nat -> mget (cC c) k r = f (mget (right_vectors E M rank) r k)).
Proof.
  intros HX SC HW HS.
  assert (ST : stacks (mconcat Xs) Xs) by (apply mconcat_stacks; auto; intros X K; now apply HW).
  assert (AR : as_rank (PyInt (Z.of_nat rank)) = Ok rank).
  { unfold as_rank. destruct (Z.ltb_spec (Z.of_nat rank) 0); [lia|]. now rewrite Nat2Z.id. }
  assert (FC : match Xs with [] => Err ValueError | X :: _ => Ok (mc X) end = Ok (colsX Xs)) by (destruct Xs; [congruence|reflexivity]).
  assert (FB : forallb (fun X : matR => (mc X =? colsX Xs)%nat) Xs = true) by (apply forallb_forall; intros X K; apply Nat.eqb_eq; now apply SC).
  assert (RM : (rank <= mr (mconcat Xs))%nat).
  { destruct ST as ((_ & -> & _) & _). destruct Xs as [|X Xs]; [congruence|]. destruct (HW X (or_introl eq_refl)) as (_ & K & _). cbn. unfold list_sum. lia. }
  assert (RC : (rank <= mc (mconcat Xs))%nat).
  { destruct ST as ((_ & _ & ->) & _). destruct Xs as [|X Xs]; [congruence|]. destruct (HW X (or_introl eq_refl)) as (_ & _ & K). exact K. }
  pose proof (HS (mconcat Xs) (proj1 (proj1 ST)) RM RC) as HC.
  set (Bs := map (fun X : matR => let '(U, _, _) := x_svd E X rank in U) Xs).
  assert (NB : forall i, (i < length Xs)%nat -> nthX Bs i = left_vectors E (nthX Xs i) rank).
  { intros i Hi. unfold Bs, nthX. rewrite (nth_indep _ no_mat (left_vectors E no_mat rank)) by (rewrite map_length; exact Hi). now rewrite map_nth with (f := fun X => left_vectors E X rank). }
  assert (LBs : list_shaped (length Xs) (rowsX Xs) rank Bs).
  { split; [unfold Bs; now rewrite map_length|]. intros i Hi. change (nth i Bs no_mat) with (nthX Bs i). rewrite NB by assumption.
    destruct (HW (nthX Xs i) (nth_In _ _ Hi)) as (W1 & W2 & W3). pose proof (HS _ W1 W2 W3) as K. unfold left_vectors. destruct (x_svd E (nthX Xs i) rank) as [[U s] Vh]. apply K. }
  set (Cm := let '(_, _, Vh) := x_svd E (mconcat Xs) rank in mtrans Vh).
  assert (SCm : shaped Cm (colsX Xs) rank).
  { unfold Cm. destruct ST as ((_ & _ & C0) & _). destruct (x_svd E (mconcat Xs) rank) as [[U s] Vh]. destruct HC as (_ & (W & R1 & R2)). split; [auto with mwf|]. split; cbn; congruence. }
  assert (GCm : forall k r, (k < colsX Xs)%nat -> (r < rank)%nat -> mget Cm k r = mget (right_vectors E (mconcat Xs) rank) r k).
  { intros k r Hk Hr. unfold Cm, right_vectors. destruct ST as ((_ & _ & C0) & _). destruct (x_svd E (mconcat Xs) rank) as [[U s] Vh]. destruct HC as (_ & (W & R1 & R2)). apply mget_mtrans; [rewrite R2, C0|rewrite R1]; assumption. }
  set (A := mones (N:=RNum) (length Xs) rank).
  assert (SA : shaped A (length Xs) rank) by (split; [apply mwf_mbuild|split; reflexivity]).
  assert (GA : forall i r, (i < length Xs)%nat -> (r < rank)%nat -> mget A i r = 1) by (intros i r Hi Hr; unfold A, mones; now rewrite mget_mbuild).
  set (c := if clip then Cmf (N:=RNum) None A (map (mmap relu) Bs) (mmap relu Cm) else Cmf (N:=RNum) None A Bs Cm).
  assert (SBc : list_shaped (length Xs) (rowsX Xs) rank (cBs c)).
  { unfold c. destruct clip; [|exact LBs]. cbn [cBs]. destruct LBs as (L & K). split; [now rewrite map_length|]. intros i Hi.
    rewrite (nth_indep _ no_mat (mmap relu no_mat)) by (rewrite map_length, L; exact Hi). rewrite map_nth.
    destruct (K i Hi) as (K1 & K2 & K3). split; [auto with mwf|]. split; [exact K2|exact K3]. }
  assert (SCc : shaped (cC c) (colsX Xs) rank).
  { unfold c. destruct clip; [|exact SCm]. destruct SCm as (K1 & K2 & K3). split; [cbn; auto with mwf|]. split; [exact K2|exact K3]. }
  assert (Ac : cA c = A) by (unfold c; destruct clip; reflexivity).
  assert (Wc : cw c = None) by (unfold c; destruct clip; reflexivity).
  assert (VC : valid_cmf c).
  { assert (K : c = Cmf (N:=RNum) None (cA c) (cBs c) (cC c)) by (unfold c; destruct clip; reflexivity). rewrite K. eapply shaped_valid; [rewrite Ac; exact SA|exact SBc|exact SCc]. }
  exists c, (mconcat Xs). split.
  { unfold initialize_cmf. destruct clip; rewrite AR; cbn [bind]; rewrite FC; cbn [bind]; rewrite FB; cbn [negb]; fold Bs Cm A; fold c; rewrite revalidate_ok by exact VC; reflexivity. }
  split; [exact VC|]. split; [exact Wc|]. split; [exact ST|]. cbv zeta. rewrite Ac. split; [exact SA|]. split; [exact SBc|]. split; [exact SCc|]. split; [exact GA|]. split.
  - intros i j r Hi Hj Hr. rewrite <- NB by assumption. unfold c. destruct LBs as (L & K). destruct (K i Hi) as (K1 & K2 & K3). destruct clip; [|reflexivity].
    unfold nthB. cbn [cBs]. rewrite (nth_indep _ no_mat (mmap relu no_mat)) by (rewrite map_length, L; exact Hi). rewrite map_nth.
    rewrite mget_mmap; [apply relu_R|rewrite K2; exact Hj|rewrite K3; exact Hr].
  - intros k r Hk Hr. rewrite <- GCm by assumption. unfold c. destruct SCm as (K1 & K2 & K3). destruct clip; [|reflexivity]. cbn [cC].
    rewrite mget_mmap; [apply relu_R|rewrite K2; exact Hk|rewrite K3; exact Hr].
Qed.
Print Assumptions C53_svd_start.

(** 'parafac' and 'parafac_hals': the slices of the decomposition of the padded data tensor. *)
Theorem C53_parafac_start E IE rnd (Xs : list matR) (rank pos pos' : nat) (hals : bool) T w A B C :
  same_columns Xs -> (forall X, In X Xs -> (0 < mr X)%nat) -> create_padded_tensor Xs = Ok T ->
  (if hals then i_hals else i_parafac) IE T (PyInt (Z.of_nat rank)) pos = Ok (Cpt (N:=RNum) w [A; B; C], pos') ->
  valid_cp3 w A B C -> mr A = length Xs -> (forall X, In X Xs -> (mr X <= mr B)%nat) -> mr C = colsX Xs ->
  exists c, initialize_cmf E IE rnd Xs (PyInt (Z.of_nat rank)) (InitName (if hals then MHals else MParafac)) pos = Ok (c, pos') /\ valid_cmf c /\
    length (cBs c) = length Xs /\ mr (cC c) = colsX Xs /\
    forall i, (i < length Xs)%nat -> mr (nthB c i) = rowsX Xs i /\
      forall j k, (j < rowsX Xs i)%nat -> (k < colsX Xs)%nat -> cmf_entry c i j k = cp_entry (mc A) (at_ w) (mget A) (mget B) (mget C) i j k.
Proof.
  intros SC HP ET EI VC RA RB RC.
  assert (SF : shapes_fit A B C (get_shapes Xs)).
  { unfold get_shapes. split; [rewrite map_length; congruence|]. intros J K IN. apply in_map_iff in IN as (X & EX & IN). injection EX as <- <-.
    split; [now apply RB|]. rewrite RC. now apply SC. }
  destruct (C22_from_cp w A B C (Some (get_shapes Xs)) VC SF) as (c & EC & V & LB & MC & HB). exists c. rewrite RA in LB, HB. rewrite RC in MC, HB.
  split; [|split; [exact V|split; [exact LB|split; [exact MC|]]]].
  - unfold initialize_cmf. destruct hals; rewrite ET; cbn [bind]; rewrite EI; cbn [bind]; rewrite EC; reflexivity.
  - intros i Hi. destruct (HB i Hi) as (K1 & K2). assert (K3 : fst (nth i (get_shapes Xs) (0, 0)%nat) = rowsX Xs i).
    { unfold get_shapes, rowsX, nthX. rewrite (nth_indep _ (0, 0)%nat (mr no_mat, mc no_mat)) by (rewrite map_length; exact Hi). now rewrite map_nth with (f := fun X : matR => (mr X, mc X)). }
    rewrite K3 in K1. split; [exact K1|]. intros j k Hj Hk. apply K2; [now rewrite K1|exact Hk].
Qed.
Print Assumptions C53_parafac_start.

(** 'parafac2': the matrices of the PARAFAC2 decomposition of the data. *)
Theorem C53_parafac2_start E IE rnd (Xs : list matR) (rank pos pos' : nat) t :
  i_parafac2 IE Xs (PyInt (Z.of_nat rank)) pos = Ok (t, pos') -> valid_pf2 t ->
  exists c, initialize_cmf E IE rnd Xs (PyInt (Z.of_nat rank)) (InitName MParafac2) pos = Ok (c, pos') /\ valid_cmf c /\
    length (cBs c) = mr (pfA t) /\ mr (cC c) = mr (pfC t) /\
    forall i, (i < mr (pfA t))%nat -> mr (nthB c i) = mr (nth i (pfP t) no_mat) /\
      forall j k, (j < mr (nthB c i))%nat -> (k < mr (pfC t))%nat ->
        cmf_entry c i j k = pf2_entry (mc (pfA t)) (at_ (pfw t)) (mget (pfA t)) (mget (pfB t)) (mget (pfC t)) (mget (nth i (pfP t) no_mat)) i j k.
Proof.
  intros EI VT. destruct (C22_from_parafac2 t VT) as (c & EC & V & K). exists c. split; [|split; assumption].
  unfold initialize_cmf. rewrite EI. cbn [bind]. rewrite EC. reflexivity.
Qed.
Print Assumptions C53_parafac2_start.

(** An unknown name is never accepted. *)
Theorem C53_unknown_start E IE rnd (Xs : list matR) rank pos :
  initialize_cmf E IE rnd Xs rank (InitName MUnknown) pos = Err (match Xs with [] => IndexError | _ => ValueError end).
Proof.
  unfold initialize_cmf. destruct Xs as [|X Xs]; [reflexivity|]. destruct (create_padded_tensor (X :: Xs)) as [T|e] eqn:E0; [reflexivity|]. cbn [bind].
  unfold create_padded_tensor, get_padded_tensor_shape in E0. cbn [first_cols bind] in E0. destruct (forallb _ _); [discriminate|]. injection E0 as <-. reflexivity.
Qed.
Print Assumptions C53_unknown_start.

(** ** C51: calls that cannot fail *)
Lemma mapS_total {A B} (f : A -> nat -> res (B * nat)) (Q : A -> B -> Prop) l : (forall x pos, In x l -> exists y p, f x pos = Ok (y, p) /\ Q x y) ->
  forall pos, exists ys p, mapS f l pos = Ok (ys, p) /\ Forall2 Q l ys.
Proof.
  induction l as [|x l IH]; intros H pos; cbn [mapS]; [exists [], pos; auto|].
  destruct (H x pos (or_introl eq_refl)) as (y & p & E1 & Qy). rewrite E1. cbn [bind].
  destruct (IH (fun z q Hz => H z q (or_intror Hz)) p) as (ys & q & E2 & F). rewrite E2. cbn [bind]. exists (y :: ys), q. auto.
Qed.
Definition kind_ok (m : Z) (v : auxvalR) : Prop := match v with VMat _ => m <> 1%Z | VMats (AList _) => m = 1%Z | VMats (APf2 _ _) => False end.
Lemma common_total rnd v Xs rank m pos : Xs <> [] -> named_init v -> (0 <= m <= 2)%Z ->
  exists y p, init_common (N:=RNum) rnd v Xs (PyInt (Z.of_nat rank)) (PyInt m) pos = Ok (y, p) /\ kind_ok m y.
Proof.
  intros HX (s & -> & NS) Hm. pose proof (init_named rnd s Xs (Z.of_nat rank) m pos HX ltac:(lia) NS) as K.
  assert (C : m = 0%Z \/ m = 1%Z \/ m = 2%Z) by lia. destruct C as [->|[->| ->]]; destruct K as (M & p & E0 & _); rewrite E0; eexists _, _; (split; [reflexivity|cbn; lia]).
Qed.
Lemma not_pf2_init_aux rnd b (o : pobjR) : ~ is_parafac2 (o_pen o) -> init_aux rnd b o = init_common rnd (o_aux o).
Proof. unfold init_aux. destruct (o_pen o); intros K; try reflexivity. now destruct K. Qed.
Definition simple_obj (o : pobjR) : Prop := ~ is_parafac2 (o_pen o) /\ named_init (o_aux o) /\ named_init (o_dual o).
Lemma initialize_total (f : pobjR -> list matR -> pyint -> pyint -> nat -> res (auxvalR * nat)) Xs rank rA rB rC pos :
  (forall o m p, simple_obj o -> (0 <= m <= 2)%Z -> exists y q, f o Xs rank (PyInt m) p = Ok (y, q) /\ kind_ok m y) ->
  Forall simple_obj rA -> Forall simple_obj rB -> Forall simple_obj rC ->
  exists a b c q, initialize (N:=RNum) f Xs rank (rA, rB, rC) pos = Ok (a, b, c, q) /\
    Forall2 (fun _ => kind_ok 0) rA a /\ Forall2 (fun _ => kind_ok 1) rB b /\ Forall2 (fun _ => kind_ok 2) rC c.
Proof.
  intros Hf FA FB FC. unfold initialize. rewrite Forall_forall in FA, FB, FC.
  destruct (mapS_total (fun o => f o Xs rank (PyInt 0)) (fun _ => kind_ok 0) rA (fun o p Ho => Hf o 0%Z p (FA o Ho) ltac:(lia)) pos) as (a & p1 & E1 & K1). rewrite E1. cbn [bind].
  destruct (mapS_total (fun o => f o Xs rank (PyInt 1)) (fun _ => kind_ok 1) rB (fun o p Ho => Hf o 1%Z p (FB o Ho) ltac:(lia)) p1) as (b & p2 & E2 & K2). rewrite E2. cbn [bind].
  destruct (mapS_total (fun o => f o Xs rank (PyInt 2)) (fun _ => kind_ok 2) rC (fun o p Ho => Hf o 2%Z p (FC o Ho) ltac:(lia)) p2) as (c & p3 & E3 & K3). rewrite E3. cbn [bind].
  exists a, b, c, p3. auto.
Qed.
Lemma make_mregs_total m (l : list pobjR) : m <> 1%Z -> forall a d, Forall2 (fun _ => kind_ok m) l a -> Forall2 (fun _ => kind_ok m) l d -> exists g, make_mregs l a d = Ok g.
Proof.
  intros Hm. induction l as [|o l IH]; intros a d FA FD; inversion FA as [|? v ? a' QV FA']; subst; inversion FD as [|? w ? d' QW FD']; subst; cbn [make_mregs]; [eauto|].
  destruct v as [M|[x|x y]]; cbn in QV; try contradiction. destruct w as [D|[x|x y]]; cbn in QW; try contradiction.
  destruct (IH _ _ FA' FD') as (g & E0). rewrite E0. cbn [bind]. eauto.
Qed.
Lemma make_bregs_total (l : list pobjR) : forall a d, Forall2 (fun _ => kind_ok 1) l a -> Forall2 (fun _ => kind_ok 1) l d -> exists g, make_bregs l a d = Ok g.
Proof.
  induction l as [|o l IH]; intros a d FA FD; inversion FA as [|? v ? a' QV FA']; subst; inversion FD as [|? w ? d' QW FD']; subst; cbn [make_bregs]; [eauto|].
  destruct v as [M|[x|x y]]; cbn in QV; try contradiction. destruct w as [D|[x'|x' y]]; cbn in QW; try contradiction.
  destruct (IH _ _ FA' FD') as (g & E0). rewrite E0. cbn [bind]. eauto.
Qed.
Lemma shapes_match_ok Xs (c : rcmf) rank b : data_fits Xs c -> mc (cA c) = rank -> shapes_match Xs c (PyInt (Z.of_nat rank)) b = true.
Proof.
  intros (V & L & H) HR. unfold shapes_match. rewrite L, Nat.eqb_refl. cbn [andb]. rewrite HR, Z.eqb_refl, orb_true_r, andb_true_r.
  apply forallb_forall. intros [X B] IN. destruct (In_nth _ _ (no_mat, no_mat) IN) as (i & Hi & E0). rewrite combine_length, L, Nat.min_id in Hi.
  rewrite combine_nth in E0 by exact L. injection E0 as <- <-.
  destruct (H i ltac:(rewrite L; exact Hi)) as (_ & K1 & K2). cbn [fst snd]. unfold nthX, nthB in *. rewrite K1, K2, !Nat.eqb_refl. reflexivity.
Qed.
Lemma plain_parsed V kw ai di l : asks_plain kw -> parse_mode (N:=RNum) V kw ai di = Ok l ->
  Forall (fun o => rho_free (o_pen o) /\ o_aux o = ai /\ o_dual o = di) l /\ (~ asks_matrixwise kw -> Forall (fun o => rowwise (o_pen o)) l).
Proof.
  intros (A1 & A2 & A3 & A4) H. apply parse_mode_iff in H as (_ & gl & GL & ->).
  assert (G : gl = []) by (unfold gl_ok in GL; now destruct A3 as [A3|A3]; rewrite A3 in GL). subst gl.
  assert (S5 : s_tv kw ai di = []).
  { unfold s_tv. destruct (k_tv kw) as [b|]; [|reflexivity]. cbn in A2. subst b. now rewrite zero_not_truthy. }
  assert (S6 : s_l1 kw ai di = []).
  { unfold s_l1. replace (ntruthy (N:=RNum) _) with false; [reflexivity|]. symmetry.
    destruct (k_tv kw) as [b|]; cbn in A2; [subst b|]; cbn [otruthy]; rewrite ?zero_not_truthy; destruct (k_l1 kw) as [b|]; cbn in A1; try subst b; exact zero_not_truthy. }
  unfold s_pf2. rewrite A4, S5, S6. cbn [app]. split.
  - rewrite !Forall_app. unfold s_uni, s_ball, s_box, s_non.
    split; [destruct (btruthy (k_uni kw)); repeat constructor|]. split; [destruct (k_norm kw) as [b|]; [destruct (ntruthy b)|]; repeat constructor|].
    split; [destruct (k_lower kw), (k_upper kw); repeat constructor|]. destruct (_ && _)%bool; repeat constructor.
  - intros NM. assert (B5 : btruthy (k_uni kw) = false).
    { destruct (btruthy (k_uni kw)) eqn:E0; [|reflexivity]. destruct NM. right; left. now apply btruthy_wants. }
    assert (S4 : s_ball kw ai di = []).
    { unfold s_ball. destruct (k_norm kw) as [b|] eqn:EN; [|reflexivity]. destruct (ntruthy (N:=RNum) b) eqn:E0; [|reflexivity]. destruct NM. left. rewrite EN. cbn. now apply ntruthy_true. }
    unfold s_uni. rewrite B5, S4. cbn [app]. rewrite Forall_app. unfold s_box, s_non. 
    split; [destruct (k_lower kw), (k_upper kw); repeat constructor|]. destruct (_ && _)%bool; repeat constructor.
Qed.
Lemma rho_free_not_pf2 (p : penalty (N:=RNum)) : rho_free p -> ~ is_parafac2 p.
Proof. destruct p; cbn; intros H; try contradiction; auto. Qed.
Lemma rowwise_dec (p : penalty (N:=RNum)) : rowwise p \/ ~ rowwise p.
Proof. destruct p; cbn; auto. Qed.
Lemma not_exists_rowwise (l : list pobjR) : ~ Exists (fun o => ~ rowwise (o_pen o)) l -> Forall (fun o => rowwise (o_pen o)) l.
Proof.
  induction l as [|o l IH]; intros H; constructor.
  - destruct (rowwise_dec (o_pen o)) as [K|K]; [exact K|]. destruct H. now left.
  - apply IH. intros K. apply H. now right.
Qed.
Lemma pens_Forall {B} (f : B -> penalty) (Q : penalty (N:=RNum) -> Prop) (l : list pobjR) : forall gs, map f gs = map o_pen l -> Forall (fun o => Q (o_pen o)) l -> Forall (fun g => Q (f g)) gs.
Proof.
  induction l as [|o l IH]; intros [|g gs] E0 H; try discriminate; constructor; injection E0 as E0 E1; inversion H; subst; [now rewrite E0|auto].
Qed.
Theorem C51_fit_total V IE rnd (a : fitR) rank : dependable V a rank -> ranks_kept IE -> svd_correct (e_ext V) rank -> exists out, cmf_aoadmm V IE rnd a = Ok out.
Proof.
  intros (HS & SC & ST & SV & CO & NA & ND & WL & WK & GR & AC & UP & CA & TO) RK HE.
  pose proof HS as (HX & HXs & HR & HR0 & HIR & HSC & HL2 & HKW & HUS & HPF).
  (* the initial factorization *)
  assert (INI : exists c pos, initialize_cmf (e_ext V) IE rnd (f_data a) (f_rank a) (f_init a) 0 = Ok (c, pos) /\ data_fits (f_data a) c /\ mc (cA c) = rank).
  { rewrite HR. unfold start_ok in ST. destruct (f_init a) as [l|m].
    - destruct ST as (c0 & EQ & DF & MC). destruct (C41_given_start_partial (e_ext V) IE rnd (f_data a) (PyInt (Z.of_nat rank)) c0 l 0 (proj1 DF) EQ) as (c & E1 & VC & W & M1 & M2 & M3 & _).
      exists c, 0%nat. split; [exact E1|]. split; [|congruence]. destruct DF as (_ & L & DF). split; [exact VC|]. rewrite M2, M3. split; [exact L|].
      unfold nthB in *. rewrite M2. exact DF.
    - destruct m; try contradiction. destruct (C53_random_start (e_ext V) IE rnd (f_data a) rank 0 HX) as (c & p1 & p2 & p3 & E1 & VC & W & D1 & D2 & D3).
      exists c, p3. split; [exact E1|]. apply drawn_list_shaped in D3. split; [|exact (proj2 (proj2 (proj1 D1)))].
      destruct c as [w A Bs C]. cbn in W. subst w. eapply shaped_fits; eauto; [apply D1|apply D2]. }
  destruct INI as (c & pos & EI & DF & MC).
  destruct (listify_total _ WL) as (x & y & z & EL).
  destruct (parse_all_total V (f_kw a) (f_regs a) (f_aux a) (f_dual a) GR WK AC) as (t & EP).
  (* the penalties *)
  assert (PEN : forall m, (m < 3)%nat -> updates a m = true -> Forall (fun o => rho_free (o_pen o) /\ named_init (o_aux o) /\ named_init (o_dual o)) (pick t m)).
  { intros m Hm Um. destruct (UP m Hm Um) as (_ & U1 & U2). destruct (parse_all_ok _ _ _ _ _ _ EP m Hm) as (kw & pa & u & MV & PM & US & ->).
    apply Forall_app. split; [|now apply U2]. destruct (plain_parsed _ _ _ _ _ (U1 kw MV) PM) as (K & _). 
    eapply Forall_impl; [|exact K]. intros o (K1 & K2 & K3). cbv beta. rewrite K2, K3. auto. }
  assert (SIM : forall m, (m < 3)%nat -> Forall simple_obj (if updates a m then pick t m else [])).
  { intros m Hm. destruct (updates a m) eqn:Um; [|constructor]. eapply Forall_impl; [|exact (PEN m Hm Um)]. intros o (K1 & K2). split; [now apply rho_free_not_pf2|exact K2]. }
  assert (SET : exists s, setup V IE rnd a = Ok (s, (x, y, z))).
  { unfold setup. rewrite SV. cbn [negb]. rewrite EI. cbn [bind]. rewrite EL. cbn [bind]. rewrite EP. cbn [bind]. destruct t as [[rA rB] rC]. cbv zeta.
    pose proof (SIM 0%nat ltac:(lia)) as S0. pose proof (SIM 1%nat ltac:(lia)) as S1. pose proof (SIM 2%nat ltac:(lia)) as S2. cbn [updates pick] in S0, S1, S2.
    rewrite HR.
    destruct (initialize_total (init_aux rnd true) (f_data a) (PyInt (Z.of_nat rank)) _ _ _ pos
      (fun o m p (Ho : simple_obj o) Hm => eq_ind_r (fun g => exists y q, g (f_data a) (PyInt (Z.of_nat rank)) (PyInt m) p = Ok (y, q) /\ kind_ok m y)
        (common_total rnd (o_aux o) (f_data a) rank m p HX (proj1 (proj2 Ho)) Hm) (not_pf2_init_aux rnd true o (proj1 Ho))) S0 S1 S2) as (aA & aB & aC & p1 & E1 & A0 & A1 & A2).
    destruct (initialize_total (init_dual rnd) (f_data a) (PyInt (Z.of_nat rank)) _ _ _ p1
      (fun o m p (Ho : simple_obj o) Hm => common_total rnd (o_dual o) (f_data a) rank m p HX (proj2 (proj2 Ho)) Hm) S0 S1 S2) as (dA & dB & dC & p2 & E2 & B0 & B1 & B2).
    unfold initialize_aux, initialize_dual. rewrite E1. cbn [bind]. rewrite E2. cbn [bind]. rewrite shapes_match_ok by assumption. cbn [negb].
    destruct (make_mregs_total 0 _ ltac:(lia) _ _ A0 B0) as (gA & G0). rewrite G0. cbn [bind].
    destruct (make_bregs_total _ _ _ A1 B1) as (gB & G1). rewrite G1. cbn [bind].
    destruct (make_mregs_total 2 _ ltac:(lia) _ _ A2 B2) as (gC & G2). rewrite G2. cbn [bind]. eauto. }
  destruct SET as (s & ES).
  destruct (setup_ok _ _ _ _ _ _ _ HS RK ES) as (VS & SI & MCs & _ & _ & t' & (EP' & MA & MB & MCc)).
  rewrite EP in EP'. injection EP' as EP'. subst t'.
  assert (FL : exists flags, const_flags (f_const a) = Ok flags /\ (fst flags = constant_for_A (f_const a))) by (destruct (f_const a) as [[]| | |]; try (now destruct CO); eexists; split; reflexivity).
  destruct FL as (flags & EF & FA).
  destruct (fit_params_fields a (x, y, z) flags) as (F1 & F2 & F3 & _ & _ & F6 & F7 & _ & _ & F10 & _).
  assert (MEA := proj1 (listify_iff _ _ _ _) EL). destruct MEA as (MX & MY & MZ).
  assert (ROB : robust (fit_params a (x, y, z) flags) s).
  { unfold robust. rewrite F1, F2, F3, F10. cbn [fit_params p_l2A p_l2B p_l2C]. split; [|split]; intros Um; rewrite Um in *.
    - destruct (UP 0%nat ltac:(lia) Um) as (U0 & U1 & _). split; [exact (U0 x MX)|]. pose proof (PEN 0%nat ltac:(lia) Um) as PE. split.
      + apply (pens_Forall g_pen rho_free (pick t 0)); [exact MA|]. eapply Forall_impl; [|exact PE]. now intros o (K & _).
      + intros CF. rewrite FA in CF. specialize (CA eq_refl CF). apply (pens_Forall g_pen rowwise (pick t 0)); [exact MA|].
        destruct (parse_all_ok _ _ _ _ _ _ EP 0%nat ltac:(lia)) as (kw & pa & u & MV & PM & US & ->). apply Forall_app. split.
        * apply (plain_parsed _ _ _ _ _ (U1 kw MV) PM). intros K. apply CA. left. eauto.
        * apply not_exists_rowwise. intros K. apply CA. right. eauto.
    - destruct (UP 1%nat ltac:(lia) Um) as (U0 & _). split; [exact (U0 y MY)|]. apply (pens_Forall b_pen rho_free (pick t 1)); [exact MB|].
      eapply Forall_impl; [|exact (PEN 1%nat ltac:(lia) Um)]. now intros o (K & _).
    - destruct (UP 2%nat ltac:(lia) Um) as (U0 & _). split; [exact (U0 z MZ)|]. apply (pens_Forall g_pen rho_free (pick t 2)); [exact MCc|].
      eapply Forall_impl; [|exact (PEN 2%nat ltac:(lia) Um)]. now intros o (K & _). }
  assert (HE' : svd_correct (e_ext V) (mc (cA (st_cmf s)))) by now rewrite MCs.
  assert (TOL : tols_ok (fit_params a (x, y, z) flags)) by (unfold tols_ok; rewrite F6, F7; exact TO).
  destruct (C51_run_total (e_ext V) (fit_params a (x, y, z) flags) (f_data a) (f_n_iter a) s (fit_params_ok _ _ _ _ _ HS EL) TOL VS HE' ROB) as ([s' d] & ER).
  unfold cmf_aoadmm. rewrite ES. cbn [bind].
  assert (IH : init_hist (fit_params a (x, y, z) (false, false)) (f_data a) s = init_hist (fit_params a (x, y, z) flags) (f_data a) s) by reflexivity.
  rewrite IH. pose proof ER as ER'. unfold run in ER'. destruct (init_hist (fit_params a (x, y, z) flags) (f_data a) s) as [h|]; [|discriminate ER']. cbn [bind].
  rewrite EF. cbn [bind]. rewrite ER. cbn [bind]. eauto.
Qed.
Print Assumptions C51_fit_total.
