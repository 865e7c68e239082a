(** The factor updates and the outer loop with the matrices in another order. *)
From Coq Require Import Reals Lra Lia List Arith Bool ZArith Permutation FunctionalExtensionality.
From Verif Require Import Num Numpy RFacts MatFacts Spec Unimodal Penalties CoupledMatrices CmfSpec CmfProofs Decomp OrderSpec OrderProofs OrderSizes ReorderFacts ReorderSpec ReorderPen.
Import ListNotations.

Notation mreg' := (mreg (N:=RNum)).
Notation breg' := (breg (N:=RNum)).
Notation M0 := (Mat (N:=RNum) 0 0 []).

Section Perm.
Variables (p : list nat) (n : nat).
Hypothesis Hp : Permutation p (seq 0 n).
Variable E : ext (N:=RNum).
Hypothesis HW : right_width E.
Local Open Scope R_scope.
Notation re := (reorder p).
Notation mre := (mreorder p).
Notation tall := (tall n).

Definition greg_re (g : mreg') : mreg' := MReg (g_pen g) (mre (g_aux g)) (mre (g_dual g)).
Definition aux_re (a : auxes (N:=RNum)) : auxes := match a with AList l => AList (re l) | APf2 b c => APf2 (re b) c end.
Definition breg_re (g : breg') : breg' := BReg (b_pen g) (aux_re (b_aux g)) (re (b_dual g)).
Definition cmf_re (c : cmf (N:=RNum)) : cmf := Cmf (cw c) (mre (cA c)) (re (cBs c)) (cC c).
Definition inter_re (i : list (list (@num RNum)) * list rmat) : list (list (@num RNum)) * list rmat := (re (fst i), re (snd i)).
Definition state_re (s : state (N:=RNum)) : state :=
  St (cmf_re (st_cmf s)) (map greg_re (st_rA s)) (map breg_re (st_rB s)) (st_rC s) (option_map inter_re (st_inter s)).

Lemma inner_sim {S S'} (step : S -> res S) (step' : S' -> res S') conv conv' (phi : S -> S') (Inv : S -> Prop) :
  (forall s s', Inv s -> step s = Ok s' -> step' (phi s) = Ok (phi s') /\ Inv s') ->
  (forall s s' b, Inv s -> Inv s' -> conv s s' = Ok b -> conv' (phi s) (phi s') = Ok b) ->
  forall k s r, Inv s -> inner_loop step conv k s = Ok r -> inner_loop step' conv' k (phi s) = Ok (phi r) /\ Inv r.
Proof.
  intros HS HC. induction k as [|k IH]; intros s r I H; cbn [inner_loop] in *; [injection H as <-; auto|].
  destruct (step s) as [s1|] eqn:E1; [|discriminate]. cbn [bind] in H. destruct (HS s s1 I E1) as (K1 & I1).
  destruct (conv s s1) as [b|] eqn:E2; [|discriminate]. cbn [bind] in H. rewrite K1. cbn [bind]. rewrite (HC _ _ _ I I1 E2). cbn [bind].
  destruct b; [injection H as <-; auto|]. now apply IH.
Qed.

(** ** Gaps *)
Definition gok (g : mreg') : Prop := order_free (g_pen g) /\ tall (g_aux g) /\ tall (g_dual g).
Lemma order_free_sub q A B X : order_free q -> subtract_from_aux (N:=RNum) q A B = Ok X -> X = msub A B /\ forall A' B', subtract_from_aux (N:=RNum) q A' B' = Ok (msub A' B').
Proof. destruct q; cbn [order_free subtract_from_aux]; intros F H; try contradiction; injection H as <-; split; reflexivity. Qed.
Lemma sub_ok q A B : order_free q -> subtract_from_aux (N:=RNum) q A B = Ok (msub A B).
Proof. destruct q; cbn [order_free subtract_from_aux]; intros F; try contradiction; reflexivity. Qed.
Lemma msub_re A B : tall A -> tall B -> msub (mre A) (mre B) = mre (msub A B).
Proof. apply (mmap2_re p n Hp). Qed.
Lemma madd_re A B : tall A -> tall B -> madd (mre A) (mre B) = mre (madd A B).
Proof. apply (mmap2_re p n Hp). Qed.
Lemma gap_mat_re M g : tall M -> gok g -> gap_mat (mre M) (greg_re g) = gap_mat M g.
Proof.
  intros T (F & T1 & T2). unfold gap_mat. cbn [greg_re g_pen g_aux]. rewrite !sub_ok by assumption. cbn [bind].
  rewrite msub_re by assumption. rewrite !(mnorm_re p n Hp); [reflexivity|assumption|]. now apply tall_mmap2.
Qed.
Lemma gaps_mat_re M gs : tall M -> Forall gok gs -> mapM (gap_mat (mre M)) (map greg_re gs) = mapM (gap_mat M) gs.
Proof. intros T F. rewrite mapM_map. apply mapM_ext. intros g Hg. rewrite Forall_forall in F. apply gap_mat_re; auto. Qed.
Lemma rss_re (l : list rmat) : length l = n -> root_sum_squared (re l) = root_sum_squared l.
Proof. intros L. unfold root_sum_squared. f_equal. rewrite <- reorder_map. apply (lsum_reorder p n Hp). now rewrite map_length. Qed.

(** ** Variables of mode 1 *)
Variable R : nat.
Definition wide (l : list rmat) : Prop := length l = n /\ Forall (fun B => mc B = R) l.
Definition aux_ok (a : auxes (N:=RNum)) : Prop := match a with AList l => length l = n | APf2 b c => wide b /\ mr c = R end.
Definition bok (g : breg') : Prop := aux_ok (b_aux g) /\ length (b_dual g) = n.
Lemma len_map2 {T U W} (f : T -> U -> W) l m : length l = n -> length m = n -> length (map2 f l m) = n.
Proof. intros. rewrite length_map2. lia. Qed.
Lemma sub_auxes_re q a ds X : aux_ok a -> length ds = n -> subtract_from_auxes q a ds = Ok X ->
  subtract_from_auxes q (aux_re a) (re ds) = Ok (re X) /\ length X = n.
Proof.
  intros HA HD H. destruct q, a as [l|b c]; cbn [subtract_from_auxes aux_re aux_ok] in *; try discriminate; injection H as <-;
    (split; [f_equal; symmetry; apply reorder_map2; unfold wide in HA; intuition congruence|apply len_map2; unfold wide in *; intuition]).
Qed.
Lemma gap_list_re Bs g r : length Bs = n -> bok g -> gap_list Bs g = Ok r -> gap_list (re Bs) (breg_re g) = Ok r.
Proof.
  intros LB (HA & HD) H. unfold gap_list in *. cbn [breg_re b_pen b_aux]. destruct (subtract_from_auxes _ _ Bs) as [d|] eqn:ES; [|discriminate]. cbn [bind] in H. injection H as <-.
  destruct (sub_auxes_re _ _ _ _ HA LB ES) as (K & L). rewrite K. cbn [bind]. now rewrite !rss_re.
Qed.
Lemma gaps_list_re Bs gs r : length Bs = n -> Forall bok gs -> mapM (gap_list Bs) gs = Ok r -> mapM (gap_list (re Bs)) (map breg_re gs) = Ok r.
Proof.
  intros LB F H. rewrite <- (map_id r). eapply (mapM_commute _ _ _ (fun x => x) bok); [|exact F|exact H]. intros g y Hg HY. now apply gap_list_re.
Qed.
Lemma pf2_basis_re fms c b : length fms = n -> mr c = R -> pf2_basis E fms c = Ok b -> pf2_basis E (re fms) c = Ok (re b) /\ wide b.
Proof.
  intros L HC H. unfold pf2_basis in *. split; [now apply mapM_reorder|]. split; [apply mapM_length in H; congruence|].
  apply (mapM_Forall _ (fun B => mc B = R)) in H; [exact H|]. intros fm P _ HP. pose proof (HW (mmul fm (mtrans c))) as W. change (mc (mmul fm (mtrans c))) with (mr c) in W.
  destruct (x_svd E (mmul fm (mtrans c)) (mr c)) as [[U s] Vh]. cbn [snd] in W. unfold matmul in HP. destruct (mc U =? mr Vh); [|discriminate]. injection HP as <-. cbn. congruence.
Qed.
Lemma pf2_coord_re fms b rhos c : wide fms -> wide b -> length rhos = n -> pf2_coord fms b rhos = Ok c -> pf2_coord (re fms) (re b) (re rhos) = Ok c /\ mr c = R.
Proof.
  intros (L1 & W1) (L2 & W2) L3 H. unfold pf2_coord in *.
  assert (TR : pf2_terms (re fms) (re b) (re rhos) = re (pf2_terms fms b rhos)).
  { unfold pf2_terms. rewrite !combine_map2. rewrite <- reorder_map2 by congruence. rewrite <- reorder_map2; [reflexivity|]. rewrite len_map2; congruence. }
  assert (LT : length (pf2_terms fms b rhos) = n) by (unfold pf2_terms; rewrite combine_map2; apply len_map2; [now apply len_map2|assumption]).
  assert (D : forall X, In X (pf2_terms fms b rhos) -> mr X = R /\ mc X = R).
  { intros X HX. unfold pf2_terms in HX. rewrite combine_map2 in HX. apply in_map2 in HX as (pr & rho & H1 & _ & ->). apply in_map2 in H1 as (P & fm & HP & HF & ->). cbn.
    rewrite Forall_forall in W1, W2. split; [now apply W2|now apply W1]. }
  rewrite TR. rewrite <- (msum_list_perm (pf2_terms fms b rhos) (re (pf2_terms fms b rhos)) R R); [|symmetry; now apply (reorder_perm p n Hp)|exact D].
  destruct (msum_list (pf2_terms fms b rhos)) as [m|] eqn:EM; [|discriminate].
  rewrite (lsum_reorder p n Hp rhos L3 : lsum (N:=RNum) (@reorder (@num RNum) p rhos) = lsum rhos). rewrite H. split; [reflexivity|].
  destruct (ntruthy (lsum rhos)); [|discriminate]. injection H as <-. cbn. now destruct (msum_list_dims _ _ R R EM D).
Qed.
Lemma pf2_loop_re ub uc fms rhos : wide fms -> length rhos = n -> forall it b c b' c', wide b -> mr c = R ->
  pf2_loop E ub uc fms rhos it b c = Ok (b', c') -> pf2_loop E ub uc (re fms) (re rhos) it (re b) c = Ok (re b', c') /\ wide b' /\ mr c' = R.
Proof.
  intros WF LR. induction it as [|it IH]; intros b c b' c' WB HC H; cbn [pf2_loop] in *; [injection H as <- <-; auto|].
  assert (K1 : forall b1, (if ub then pf2_basis E fms c else Ok b) = Ok b1 -> (if ub then pf2_basis E (re fms) c else Ok (re b)) = Ok (re b1) /\ wide b1).
  { intros b1 H1. destruct ub; [apply pf2_basis_re; auto; apply WF|]. injection H1 as <-. auto. }
  destruct (if ub then pf2_basis E fms c else Ok b) as [b1|] eqn:E1; [|discriminate]. destruct (K1 b1 eq_refl) as (K1' & W1). rewrite K1'. cbn [bind] in *.
  assert (K2 : forall c1, (if uc then pf2_coord fms b1 rhos else Ok c) = Ok c1 -> (if uc then pf2_coord (re fms) (re b1) (re rhos) else Ok c) = Ok c1 /\ mr c1 = R).
  { intros c1 H1. destruct uc; [now apply pf2_coord_re|]. injection H1 as <-. auto. }
  destruct (if uc then pf2_coord fms b1 rhos else Ok c) as [c1|] eqn:E2; [|discriminate]. destruct (K2 c1 eq_refl) as (K2' & W2). rewrite K2'. cbn [bind] in *.
  destruct (negb uc || negb ub); [injection H as <- <-; auto|]. now apply IH.
Qed.
Lemma updates_re q fms rhos a a' : wide fms -> length rhos = n -> aux_ok a -> factor_matrices_update E q fms rhos a = Ok a' ->
  factor_matrices_update E q (re fms) (re rhos) (aux_re a) = Ok (aux_re a') /\ aux_ok a'.
Proof.
  intros WF LR HA H. pose proof WF as (LF & _).
  assert (LU : forall (l : list rmat) r, length l = n -> (let* r := matrices_update_list E q fms rhos (length l) in Ok (AList r)) = Ok r ->
    (let* r := matrices_update_list E q (re fms) (re rhos) (length (re l)) in Ok (AList r)) = Ok (aux_re r) /\ aux_ok r).
  { intros l r HL HR. rewrite (reorder_length p n Hp) by assumption. rewrite HL in HR. destruct (matrices_update_list E q fms rhos n) as [r0|] eqn:EL; [|discriminate]. cbn [bind] in HR. injection HR as <-.
    destruct (list_update_re p n Hp E q fms rhos r0 LF LR EL) as (K1 & K2). rewrite K1. cbn [bind aux_re aux_ok]. auto. }
  destruct q as [|lo hi|reg nn|M U s|reg l1|b nn| |nn|k ub uc], a as [l|b0 c0]; cbn [factor_matrices_update aux_re aux_ok] in *; try discriminate; try (now apply LU).
  destruct (pf2_loop E ub uc fms rhos k b0 c0) as [[b1 c1]|] eqn:EL; [|discriminate]. cbn [bind] in H. injection H as <-. destruct HA as (HB & HC).
  destruct (pf2_loop_re ub uc fms rhos WF LR k b0 c0 b1 c1 HB HC EL) as (K1 & K2 & K3). rewrite K1. cbn [bind aux_re aux_ok]. auto.
Qed.
Lemma nth_re {T} (l : list T) d k : length l = n -> (k < n)%nat -> nth k (re l) d = nth (nth k p 0%nat) l d.
Proof. apply (reorder_nth p n Hp). Qed.
Lemma wide_map2_madd Bs ds : wide Bs -> length ds = n -> wide (map2 madd Bs ds).
Proof.
  intros (L & W) LD. split; [now apply len_map2|]. apply Forall_forall. intros X HX. apply in_map2 in HX as (B & d & HB & _ & ->). cbn. rewrite Forall_forall in W. now apply W.
Qed.
Lemma B_reg_re fps Bs g g' : length fps = n -> wide Bs -> bok g -> B_reg_step E fps Bs g = Ok g' -> B_reg_step E (re fps) (re Bs) (breg_re g) = Ok (breg_re g') /\ bok g'.
Proof.
  intros LF WB (HA & HD) H. unfold B_reg_step in *. cbv zeta in *. cbn [breg_re b_pen b_aux b_dual]. pose proof WB as (LB & _).
  destruct (factor_matrices_update E _ _ _ _) as [a|] eqn:EU; [|discriminate]. cbn [bind] in H.
  rewrite <- reorder_map2 by congruence. destruct (updates_re _ _ _ _ _ (wide_map2_madd _ _ WB HD) LF HA EU) as (K1 & K2). rewrite K1. cbn [bind].
  destruct (subtract_from_auxes _ _ _) as [sh|] eqn:ES; [|discriminate]. cbn [bind] in H. injection H as <-.
  destruct (sub_auxes_re _ _ _ _ K2 HD ES) as (K3 & K4). rewrite K3. cbn [bind]. rewrite <- reorder_map2 by congruence.
  split; [reflexivity|]. split; cbn [b_aux b_dual]; [exact K2|now apply len_map2].
Qed.
Lemma mapM_keep {T} (f f' : T -> res T) (h : T -> T) (Q : T -> Prop) l r : (forall x y, Q x -> f x = Ok y -> f' (h x) = Ok (h y) /\ Q y) -> Forall Q l -> mapM f l = Ok r ->
  mapM f' (map h l) = Ok (map h r) /\ Forall Q r.
Proof.
  intros HF F H. split.
  - eapply (mapM_commute f f' h h Q); [|exact F|exact H]. intros x y Hx Hy. now apply HF.
  - refine (mapM_keeps f Q Q l r _ F H). intros x y Hx Hy. now apply HF in Hy.
Qed.
Definition Bphi (s : list rmat * list breg') := (re (fst s), map breg_re (snd s)).
Definition Binv (s : list rmat * list breg') := wide (fst s) /\ Forall bok (snd s).
Lemma B_step_re svds fps rhses s s' : length svds = n -> length fps = n -> length rhses = n -> (forall k, (k < n)%nat -> mc (snd (nth k svds (M0, [], M0))) = R) -> Binv s ->
  B_step E svds fps rhses s = Ok s' -> B_step E (re svds) (re fps) (re rhses) (Bphi s) = Ok (Bphi s') /\ Binv s'.
Proof.
  intros L1 L2 L3 WS (WB & F) H. destruct s as [Bs regs]. cbn [fst snd] in *. unfold B_step in *. unfold Bphi at 1. cbn [fst snd] in *. pose proof WB as (LB & _).
  destruct (shifted_lists regs) as [sh|] eqn:ES; [|discriminate]. cbn [bind] in H.
  assert (KS : shifted_lists (map breg_re regs) = Ok (map re sh) /\ Forall (fun l => length l = n) sh).
  { unfold shifted_lists in *. split.
    - eapply (mapM_commute _ _ breg_re re bok); [|exact F|exact ES]. intros g y (HA & HD) HY. cbn [breg_re b_pen b_aux b_dual]. now apply sub_auxes_re.
    - refine (mapM_Forall _ (fun l => length l = n) _ _ _ ES). intros g y Hg HY. rewrite Forall_forall in F. destruct (F g Hg) as (HA & HD). now destruct (sub_auxes_re _ _ _ _ HA HD HY). }
  destruct KS as (KS1 & KS2). rewrite KS1. cbn [bind]. rewrite (reorder_length p n Hp) by assumption. rewrite LB in H.
  destruct (mapM _ (seq 0 n)) as [B1|] eqn:EB; [|discriminate]. cbn [bind] in H.
  rewrite (mapM_seq_reorder p n Hp (fun i => let H0 := nth i rhses M0 in solve_mat (nth i svds (M0, [], M0))
        (madd (mscale (nth i fps n0) (sum_mats (mr H0) (mc H0) (map (fun l => nth i l M0) sh))) H0)) _ B1); [|..|exact EB].
  2:{ intros k Hk. assert (KM : map (fun l => nth k l M0) (map re sh) = map (fun l => nth (nth k p 0%nat) l M0) sh).
    { rewrite map_map. apply map_ext_in. intros l Hl. rewrite Forall_forall in KS2. apply nth_re; auto. }
    rewrite KM, !nth_re by assumption. reflexivity. }
  cbn [bind]. destruct (mapM (B_reg_step E fps B1) regs) as [g1|] eqn:EG; [|discriminate]. cbn [bind] in H. injection H as <-.
  assert (W1 : wide B1).
  { split; [apply mapM_length in EB; now rewrite seq_length in EB|]. refine (mapM_Forall _ (fun B => mc B = R) _ _ _ EB). intros k B Hk HB. apply in_seq in Hk. apply solve_mat_sized in HB as (_ & HB & _). rewrite HB. apply WS. lia. }
  destruct (mapM_keep (B_reg_step E fps B1) (B_reg_step E (re fps) (re B1)) breg_re bok regs g1) as (K1 & K2); auto.
  { intros x y Hx Hy. now apply B_reg_re. }
  rewrite K1. cbn [bind]. split; [reflexivity|]. split; assumption.
Qed.
Lemma conv_list_re tol s s' b : Binv s -> Binv s' -> conv_list tol s s' = Ok b -> conv_list tol (Bphi s) (Bphi s') = Ok b.
Proof.
  intros ((L1 & _) & _) ((L2 & _) & F2) H. unfold conv_list, Bphi in *. cbn [fst snd]. rewrite <- reorder_map2 by congruence. rewrite !rss_re by (try apply len_map2; assumption).
  unfold inner_conv in *. destruct tol as [t|]; [|exact H]. destruct (negb (ntruthy t) || (t <? n0)%n); [exact H|]. destruct (_ <? _)%n; [exact H|].
  destruct (mapM (gap_list (fst s')) (snd s')) as [g|] eqn:EG; [|discriminate]. rewrite (gaps_list_re _ _ _ L2 F2 EG). exact H.
Qed.
Lemma fps_re scale cst lhses fps : length lhses = n -> feas_penalties scale cst lhses = Ok fps ->
  feas_penalties scale cst (re lhses) = Ok (re fps) /\ length fps = n /\ (cst = true -> nth 0 (re fps) n0 = nth 0 fps n0).
Proof.
  intros L H. pose proof (feas_penalties_length _ _ _ _ H) as LF. rewrite L in LF. unfold feas_penalties in *. cbv zeta in *. rewrite <- reorder_map.
  assert (LM : length (map (feas_penalty scale) lhses) = n) by now rewrite map_length.
  set (fs := map (feas_penalty scale) lhses) in *. clearbody fs. destruct cst; [|injection H as <-; split; [reflexivity|]; split; [exact LF|discriminate]].
  destruct fs as [|x t] eqn:EF; [discriminate|]. rewrite <- EF in *. injection H as <-.
  assert (LR : length (re fs) = n) by now apply (reorder_length p n Hp).
  assert (N0 : (0 < n)%nat) by (rewrite <- LM, EF; cbn; lia).
  rewrite (lmax_reorder p n Hp fs LM : lmax (N:=RNum) (@reorder (@num RNum) p fs) = lmax fs).
  split; [|split; [exact LF|]].
  - destruct (re fs) as [|y u] eqn:ER; [cbn in LR; lia|]. rewrite <- ER. now rewrite reorder_map.
  - intros _. rewrite reorder_map. assert (K : forall l : list (@num RNum), length l = n -> nth 0 (map (fun _ => lmax fs) l) n0 = lmax fs) by (intros [|z l] HL; [cbn in HL; lia|reflexivity]).
    rewrite !K; auto.
Qed.
Lemma svds_re lhses fps k l2 : length lhses = n -> length fps = n -> lhs_svds E (re lhses) (re fps) k l2 = re (lhs_svds E lhses fps k l2).
Proof. intros L1 L2. unfold lhs_svds. symmetry. apply reorder_map2. congruence. Qed.
Lemma HV : svd_widths E.
Proof. intros M SQ. pose proof (HW M) as K. rewrite <- SQ in K. destruct (x_svd E M (mr M)) as [[U s] Vh]. cbn in K. congruence. Qed.

Section Data.
Variable Xs : list rmat.
Hypothesis LX : length Xs = n.
Variable KK : nat.
Hypothesis HK : forall X, In X Xs -> mc X = KK.
(** what is true of the factor matrices *)
Definition fok (c : cmf (N:=RNum)) : Prop := tall (cA c) /\ wide (cBs c) /\ mc (cC c) = R /\ cw c = None.

Lemma upd_B_re c regs l2 m tol scale cst c' regs' : fok c -> Forall bok regs -> admm_update_B E Xs c regs l2 m tol scale cst = Ok (c', regs') ->
  admm_update_B E (re Xs) (cmf_re c) (map breg_re regs) l2 m tol scale cst = Ok (cmf_re c', map breg_re regs') /\ fok c' /\ Forall bok regs'.
Proof.
  intros (TA & WB & HC & HN) F H. unfold admm_update_B in *. cbv zeta in *. cbn [cmf_re cA cBs cC cw mreorder me]. pose proof TA as (_ & LA).
  rewrite <- !reorder_map2 by congruence. set (rh := map2 (fun X a => B_rhs X (cC c) a) Xs (me (cA c))) in *. set (lh := map2 (fun _ a => B_lhs (cC c) a) Xs (me (cA c))) in *.
  assert (LR : length rh = n) by (apply len_map2; assumption). assert (LL : length lh = n) by (apply len_map2; assumption).
  destruct (feas_penalties scale cst lh) as [fps|] eqn:EF; [|discriminate]. cbn [bind] in H.
  destruct (fps_re _ _ _ _ LL EF) as (K1 & LF & _). rewrite K1. cbn [bind]. rewrite map_length, svds_re by assumption.
  destruct (inner_loop _ _ m (cBs c, regs)) as [[B1 r1]|] eqn:EI; [|discriminate]. cbn [bind] in H. injection H as <- <-.
  destruct (inner_sim (B_step E (lhs_svds E lh fps (length regs) l2) fps rh) (B_step E (re (lhs_svds E lh fps (length regs) l2)) (re fps) (re rh)) (conv_list tol) (conv_list tol) Bphi Binv) with (k := m) (s := (cBs c, regs)) (r := (B1, r1)) as (I1 & I2 & I3).
  - intros s s' Is Hs. apply B_step_re; auto; [unfold lhs_svds; now apply len_map2|]. intros k Hk. apply (lhs_svds_width E HV); try lia.
    intros M HM. unfold lh in HM. apply in_map2 in HM as (X & a & _ & _ & ->). cbn. split; exact HC.
  - intros s s' b. apply conv_list_re.
  - split; assumption.
  - exact EI.
  - cbn [fst snd] in I2, I3. unfold Bphi in I1. cbn [fst snd] in I1. rewrite I1. cbn [bind]. split; [reflexivity|]. split; [split; [exact TA|split; [exact I2|split; [exact HC|reflexivity]]]|exact I3].
Qed.

(** ** C *)
Lemma C_terms_re c : fok c -> msum_list (C_lhs_terms (re Xs) (re (cBs c)) (mre (cA c))) = msum_list (C_lhs_terms Xs (cBs c) (cA c)) /\
  msum_list (C_rhs_terms (re Xs) (re (cBs c)) (mre (cA c))) = msum_list (C_rhs_terms Xs (cBs c) (cA c)) /\
  (forall M, msum_list (C_lhs_terms Xs (cBs c) (cA c)) = Some M -> mr M = R /\ mc M = R).
Proof.
  intros ((_ & LA) & (LB & WB) & _). unfold C_lhs_terms, C_rhs_terms, BA. cbn [mreorder me].
  rewrite <- (reorder_map2 p mcolscale) by congruence. assert (LD : length (map2 mcolscale (cBs c) (me (cA c))) = n) by now apply len_map2.
  rewrite <- !reorder_map2 by congruence.
  assert (DD : forall X, In X (map2 mcolscale (cBs c) (me (cA c))) -> mc X = R).
  { intros X HX. apply in_map2 in HX as (B & a & HB & _ & ->). cbn. rewrite Forall_forall in WB. now apply WB. }
  assert (D1 : forall X, In X (map2 (fun _ D => mmul (mtrans D) D) Xs (map2 mcolscale (cBs c) (me (cA c)))) -> mr X = R /\ mc X = R).
  { intros X HX. apply in_map2 in HX as (Y & D & _ & HD & ->). cbn. auto. }
  split; [|split].
  - symmetry. apply (msum_list_perm _ _ R R); [symmetry; apply (reorder_perm p n Hp); now apply len_map2|exact D1].
  - symmetry. apply (msum_list_perm _ _ KK R); [symmetry; apply (reorder_perm p n Hp); now apply len_map2|]. intros X HX. apply in_map2 in HX as (Y & D & HY & HD & ->). cbn. auto.
  - intros M HM. exact (msum_list_dims _ _ R R HM D1).
Qed.
Lemma upd_C_re c regs l2 m tol scale c' regs' : fok c -> admm_update_C E Xs c regs l2 m tol scale = Ok (c', regs') ->
  admm_update_C E (re Xs) (cmf_re c) regs l2 m tol scale = Ok (cmf_re c', regs') /\ fok c'.
Proof.
  intros FK H. destruct (C_terms_re c FK) as (K1 & K2 & KD). unfold admm_update_C in *. cbn [cmf_re cA cBs cC]. rewrite K1, K2.
  destruct (msum_list (C_lhs_terms Xs (cBs c) (cA c))) as [lhs|]; [|discriminate]. destruct (msum_list (C_rhs_terms Xs (cBs c) (cA c))) as [rhs|]; [|discriminate]. cbv zeta in *.
  destruct (KD lhs eq_refl) as (D1 & D2).
  destruct (inner_loop _ _ m (cC c, regs)) as [[C1 r1]|] eqn:EI; [|discriminate]. cbn [bind] in *. injection H as <- <-. split; [reflexivity|].
  destruct FK as (TA & WB & HC & HN). split; [exact TA|]. split; [exact WB|]. cbn [cC cw]. split; [|reflexivity].
  assert (I : forall (s s' : rmat * list mreg'), mc (fst s) = R -> C_step E (lhs_svd E (ridge lhs (feas_penalty scale lhs) (length regs) l2)) (feas_penalty scale lhs) rhs s = Ok s' -> mc (fst s') = R).
  { intros [C0 g0] [C2 g2] _ HS. unfold C_step in HS. destruct (shifted_mats g0); [|discriminate]. cbn [bind] in HS. destruct (solve_mat _ _) as [C3|] eqn:E3; [|discriminate]. cbn [bind] in HS.
    destruct (mapM _ g0); [|discriminate]. cbn [bind] in HS. injection HS as <- _. cbn [fst]. apply solve_mat_sized in E3 as (_ & E3 & _). rewrite E3, (lhs_svd_width E HV); congruence. }
  assert (G : forall k s r, mc (fst s) = R -> inner_loop (C_step E (lhs_svd E (ridge lhs (feas_penalty scale lhs) (length regs) l2)) (feas_penalty scale lhs) rhs) (conv_mat tol) k s = Ok r -> mc (fst r) = R).
  { induction k as [|k IH]; intros s r H0 HL; cbn [inner_loop] in HL; [now injection HL as <-|]. destruct (C_step _ _ _ _ s) as [s1|] eqn:E1; [|discriminate]. cbn [bind] in HL. apply I in E1; [|exact H0].
    destruct (conv_mat tol s s1) as [bb|]; [|discriminate]. cbn [bind] in HL. destruct bb; [now injection HL as <-|]. eapply IH; eauto. }
  exact (G m (cC c, regs) (C1, r1) HC EI).
Qed.

(** ** A *)
Lemma A_reg_re cst fps A g g' : length fps = n -> (cst = true -> nth 0 (re fps) n0 = nth 0 fps n0) -> tall A -> gok g -> A_reg_step E cst fps A g = Ok g' ->
  A_reg_step E cst (re fps) (mre A) (greg_re g) = Ok (greg_re g') /\ gok g'.
Proof.
  intros LF H0 TA (OF & T1 & T2) H. unfold A_reg_step in *. cbv zeta in *. cbn [greg_re g_pen g_aux g_dual]. rewrite madd_re by assumption.
  assert (TV : tall (madd A (g_dual g))) by now apply tall_mmap2.
  assert (K : forall X, (if cst then factor_matrix_update E (g_pen g) (madd A (g_dual g)) (nth 0 fps n0) else rows_update (g_pen g) (madd A (g_dual g)) fps) = Ok X ->
    (if cst then factor_matrix_update E (g_pen g) (mre (madd A (g_dual g))) (nth 0 (re fps) n0) else rows_update (g_pen g) (mre (madd A (g_dual g))) (re fps)) = Ok (mre X) /\ tall X).
  { intros X HX. destruct cst; [rewrite H0 by reflexivity; now apply (update_re p n Hp)|now apply (rows_update_re p n Hp)]. }
  destruct (if cst then factor_matrix_update E (g_pen g) (madd A (g_dual g)) (nth 0 fps n0) else rows_update (g_pen g) (madd A (g_dual g)) fps) as [X|]; [|discriminate].
  destruct (K X eq_refl) as (K1 & TX). rewrite K1. cbn [bind] in *. rewrite sub_ok in * by assumption. cbn [bind] in *. injection H as <-.
  rewrite msub_re by assumption. assert (TS : tall (msub X (g_dual g))) by now apply tall_mmap2. rewrite msub_re by assumption. split; [reflexivity|].
  split; [exact OF|]. split; [exact TX|]. cbn [g_dual]. now apply tall_mmap2.
Qed.
Definition Aphi (s : rmat * list mreg') := (mre (fst s), map greg_re (snd s)).
Definition Ainv (s : rmat * list mreg') := tall (fst s) /\ Forall gok (snd s).
Lemma sum_rows_re Rk sh k : Forall tall sh -> (k < n)%nat -> sum_rows Rk (map mre sh) k = sum_rows Rk sh (nth k p 0%nat).
Proof.
  intros F Hk. unfold sum_rows. generalize (repeat (@n0 RNum) Rk). induction F as [|M sh TM F IH]; intros acc; [reflexivity|]. cbn [map fold_left]. rewrite (mrow_re p n Hp) by assumption. apply IH.
Qed.
Lemma A_step_re cst svds fps rhses s s' : length svds = n -> length fps = n -> length rhses = n -> (cst = true -> nth 0 (re fps) n0 = nth 0 fps n0) -> Ainv s ->
  A_step E cst svds fps rhses s = Ok s' -> A_step E cst (re svds) (re fps) (re rhses) (Aphi s) = Ok (Aphi s') /\ Ainv s'.
Proof.
  intros L1 L2 L3 H0 (TA & F) H. destruct s as [A regs]. cbn [fst snd] in *. unfold A_step in *. unfold Aphi at 1. cbn [fst snd] in *.
  destruct (shifted_mats regs) as [sh|] eqn:ES; [|discriminate]. cbn [bind] in H.
  assert (KS : shifted_mats (map greg_re regs) = Ok (map mre sh) /\ Forall tall sh).
  { unfold shifted_mats in *. split.
    - eapply (mapM_commute _ _ greg_re mre gok); [|exact F|exact ES]. intros g y (OF & T1 & T2) HY. cbn [greg_re g_pen g_aux g_dual]. rewrite sub_ok in * by assumption. injection HY as <-. now rewrite msub_re.
    - refine (mapM_Forall _ tall _ _ _ ES). intros g y Hg HY. rewrite Forall_forall in F. destruct (F g Hg) as (OF & T1 & T2). rewrite sub_ok in HY by assumption. injection HY as <-. now apply tall_mmap2. }
  destruct KS as (KS1 & KS2). rewrite KS1. cbn [bind]. pose proof TA as (RA & LA). change (mr (mre A)) with (mr A). change (mc (mre A)) with (mc A). rewrite RA in *.
  destruct (mapM _ (seq 0 n)) as [rows|] eqn:EB; [|discriminate]. cbn [bind] in H.
  rewrite (mapM_seq_reorder p n Hp (fun i => solve_row (nth i svds (M0, [], M0)) (vadd (vscale (nth i fps n0) (sum_rows (mc A) sh i)) (nth i rhses []))) _ rows); [|..|exact EB].
  2:{ intros k Hk. rewrite !nth_re by assumption. rewrite sum_rows_re by assumption. reflexivity. }
  cbn [bind]. set (A1 := Mat (N:=RNum) n (mc A) rows) in *. change (Mat (N:=RNum) n (mc A) (re rows)) with (mre A1).
  assert (T1 : tall A1) by (split; [reflexivity|]; cbn; apply mapM_length in EB; now rewrite seq_length in EB).
  destruct (mapM (A_reg_step E cst fps A1) regs) as [g1|] eqn:EG; [|discriminate]. cbn [bind] in H. injection H as <-.
  destruct (mapM_keep (A_reg_step E cst fps A1) (A_reg_step E cst (re fps) (mre A1)) greg_re gok regs g1) as (K1 & K2); auto.
  { intros x y Hx Hy. now apply A_reg_re. }
  rewrite K1. cbn [bind]. split; [reflexivity|]. split; assumption.
Qed.
Lemma conv_mat_re tol s s' b : Ainv s -> Ainv s' -> conv_mat tol s s' = Ok b -> conv_mat tol (Aphi s) (Aphi s') = Ok b.
Proof.
  intros (T1 & _) (T2 & F2) H. unfold conv_mat, Aphi in *. cbn [fst snd]. rewrite msub_re by assumption. rewrite !(mnorm_re p n Hp) by (try apply tall_mmap2; assumption).
  now rewrite gaps_mat_re.
Qed.
Lemma upd_A_re c regs l2 m tol scale cst c' regs' i : fok c -> Forall gok regs -> admm_update_A E Xs c regs l2 m tol scale cst = Ok (c', regs', i) ->
  admm_update_A E (re Xs) (cmf_re c) (map greg_re regs) l2 m tol scale cst = Ok (cmf_re c', map greg_re regs', inter_re i) /\ fok c' /\ Forall gok regs' /\ length (fst i) = n /\ length (snd i) = n.
Proof.
  intros (TA & (LB & WB) & HC & HN) F H. unfold admm_update_A in *. cbv zeta in *. cbn [cmf_re cA cBs cC]. unfold A_cross, A_rhses in *.
  rewrite <- !reorder_map2 by congruence. set (cr := map2 (fun _ B => cross_product (cC c) B) Xs (cBs c)) in *. set (rh := map2 (fun X B => mdiag (btxc X B (cC c))) Xs (cBs c)) in *.
  assert (LR : length rh = n) by (apply len_map2; assumption). assert (LL : length cr = n) by (apply len_map2; assumption).
  destruct (feas_penalties scale cst cr) as [fps|] eqn:EF; [|discriminate]. cbn [bind] in H.
  destruct (fps_re _ _ _ _ LL EF) as (K1 & LF & K0). rewrite K1. cbn [bind]. rewrite map_length, svds_re by assumption.
  destruct (inner_loop _ _ m (cA c, regs)) as [[A1 r1]|] eqn:EI; [|discriminate]. cbn [bind] in H. injection H as <- <- <-.
  destruct (inner_sim (A_step E cst (lhs_svds E cr fps (length regs) l2) fps rh) (A_step E cst (re (lhs_svds E cr fps (length regs) l2)) (re fps) (re rh)) (conv_mat tol) (conv_mat tol) Aphi Ainv) with (k := m) (s := (cA c, regs)) (r := (A1, r1)) as (I1 & I2 & I3).
  - intros s s' Is Hs. apply A_step_re; auto. unfold lhs_svds; now apply len_map2.
  - intros s s' b. apply conv_mat_re.
  - split; assumption.
  - exact EI.
  - cbn [fst snd] in I2, I3. unfold Aphi in I1. cbn [fst snd] in I1. rewrite I1. cbn [bind inter_re fst snd]. split; [reflexivity|].
    split; [split; [exact I2|split; [now split|split; [exact HC|reflexivity]]]|]. auto.
Qed.

(** ** Diagnostics *)
Definition iok (i : option (list (list (@num RNum)) * list rmat)) : Prop := match i with None => True | Some i => length (fst i) = n /\ length (snd i) = n end.
Definition sok (s : state (N:=RNum)) : Prop := fok (st_cmf s) /\ Forall gok (st_rA s) /\ Forall bok (st_rB s) /\ iok (st_inter s).
Lemma scaled_re c : tall (cA c) -> scaled_A (cmf_re c) = mre (scaled_A c) /\ tall (scaled_A c).
Proof.
  intros T. unfold scaled_A. cbn [cmf_re cw cA]. destruct (cw c) as [w|]; [|now split]. split; [now apply (mcolscale_re p n Hp)|]. unfold mcolscale. destruct T as (-> & _). apply tall_mbuild.
Qed.
Lemma lsum_map2_re {T U} (f : T -> U -> Rdefinitions.R) l m : length l = n -> length m = n -> lsum (N:=RNum) (map2 f (re l) (re m)) = lsum (N:=RNum) (map2 f l m).
Proof. intros L1 L2. rewrite <- reorder_map2 by congruence. apply (lsum_reorder p n Hp). now apply len_map2. Qed.
Lemma lsum_map_re {T} (f : T -> Rdefinitions.R) l : length l = n -> lsum (N:=RNum) (map f (re l)) = lsum (N:=RNum) (map f l).
Proof. intros L. rewrite <- reorder_map. apply (lsum_reorder p n Hp). now rewrite map_length. Qed.
Lemma error_re s : sok s -> state_error (re Xs) (state_re s) = state_error Xs s.
Proof.
  intros ((TA & (LB & _) & _) & _ & _ & IO). unfold state_error. cbv zeta. rewrite rss_re by assumption. f_equal. cbn [state_re st_cmf st_inter].
  unfold rec_error. destruct (scaled_re (st_cmf s) TA) as (-> & (_ & LS)). cbn [mreorder me cmf_re cBs cC]. destruct (st_inter s) as [[rh cr]|]; cbn [option_map inter_re fst snd iok] in *.
  - destruct IO as (L1 & L2). now rewrite !lsum_map2_re by assumption.
  - unfold BA. cbn [mreorder me]. rewrite <- (reorder_map2 p mcolscale) by congruence. rewrite lsum_map2_re, lsum_map_re by (try apply len_map2; assumption). reflexivity.
Qed.
Lemma state_gaps_re s g : sok s -> state_gaps s = Ok g -> state_gaps (state_re s) = Ok g.
Proof.
  intros ((TA & (LB & _) & _) & GA & GB & _) H. unfold state_gaps, compute_gaps in *. cbn [state_re st_cmf st_rA st_rB st_rC cmf_re cA cBs cC].
  rewrite gaps_mat_re by assumption. destruct (mapM (gap_mat (cA (st_cmf s))) (st_rA s)) as [a|]; [|discriminate]. cbn [bind] in *.
  destruct (mapM (gap_list (cBs (st_cmf s))) (st_rB s)) as [b|] eqn:EB; [|discriminate]. rewrite (gaps_list_re _ _ _ LB GB EB). exact H.
Qed.
Lemma penalty_list_re q l r : length l = n -> penalty_list (N:=RNum) q l = Ok r -> penalty_list (N:=RNum) q (re l) = Ok r.
Proof.
  intros L H.
  assert (K : (let* vs := mapM (penalty_mat q) l in Ok (lsum vs)) = Ok r -> (let* vs := mapM (penalty_mat q) (re l) in Ok (lsum vs)) = Ok r).
  { destruct (mapM (penalty_mat q) l) as [vs|] eqn:EM; [|discriminate]. rewrite (mapM_reorder p _ _ _ EM). cbn [bind]. intros HR. rewrite <- HR. f_equal. apply (lsum_reorder p n Hp). apply mapM_length in EM. exact (eq_trans EM L). }
  destruct q; cbn [penalty_list] in *; try exact H; try (now apply K). rewrite <- H. do 2 f_equal. now apply lsum_map_re.
Qed.
Lemma loss_re P s l : sok s -> state_loss P Xs s = Ok l -> state_loss P (re Xs) (state_re s) = Ok l.
Proof.
  intros SO H. pose proof SO as ((TA & (LB & _) & _) & GA & GB & _). unfold state_loss in *. rewrite error_re by assumption.
  assert (KP : forall x, reg_penalty (st_cmf s) (st_rA s) (st_rB s) (st_rC s) = Ok x -> reg_penalty (cmf_re (st_cmf s)) (map greg_re (st_rA s)) (map breg_re (st_rB s)) (st_rC s) = Ok x).
  { intros x HX. unfold reg_penalty in *. cbn [cmf_re cA cBs cC]. rewrite mapM_map.
    rewrite (mapM_ext _ (fun g => penalty_mat (g_pen g) (cA (st_cmf s)))) by (intros g Hg; rewrite Forall_forall in GA; destruct (GA g Hg) as (OF & _); cbn [greg_re g_pen]; now apply (penalty_mat_re p n Hp)).
    destruct (mapM _ (st_rA s)); [|discriminate]. cbn [bind] in *. destruct (mapM _ (st_rB s)) as [b|] eqn:EB; [|discriminate]. cbn [bind] in HX.
    rewrite (mapM_commute (fun g => penalty_list (b_pen g) (cBs (st_cmf s))) (fun g => penalty_list (b_pen g) (re (cBs (st_cmf s)))) breg_re (fun v => v) bok (st_rB s) b); [|..|exact EB]; [|intros g y _ HY; cbn [breg_re b_pen]; now apply penalty_list_re|exact GB].
    rewrite map_id. exact HX. }
  cbn [state_re st_cmf st_rA st_rB st_rC]. destruct (reg_penalty (st_cmf s) _ _ _) as [x|]; [|discriminate]. rewrite (KP x eq_refl). cbn [bind] in *.
  destruct (state_error Xs s); try exact H. rewrite <- H. do 2 f_equal. unfold l2_reg. cbn [cmf_re cA cBs cC].
  rewrite (msumsq_re p n Hp) by assumption. now rewrite lsum_map_re by assumption.
Qed.

(** ** The outer loop *)
Lemma outer_re P s s' : sok s -> outer_step E P Xs s = Ok s' -> outer_step E P (re Xs) (state_re s) = Ok (state_re s') /\ sok s'.
Proof.
  intros SO H. unfold outer_step in *.
  destruct (upd_B E P Xs s) as [s1|] eqn:E1; [|discriminate]. cbn [bind] in H. destruct (upd_C E P Xs s1) as [s2|] eqn:E2; [|discriminate]. cbn [bind] in H.
  assert (K1 : upd_B E P (re Xs) (state_re s) = Ok (state_re s1) /\ sok s1).
  { destruct SO as (FK & GA & GB & IO). unfold upd_B in *. cbn [state_re st_cmf st_rA st_rB st_rC]. destruct (p_updB P); [|injection E1 as <-; split; [reflexivity|]; repeat split; auto; apply FK].
    destruct (admm_update_B _ Xs _ _ _ _ _ _ _) as [[c r]|] eqn:EU; [|discriminate]. cbn [bind] in E1. injection E1 as <-.
    destruct (upd_B_re _ _ _ _ _ _ _ _ _ FK GB EU) as (Q1 & Q2 & Q3). rewrite Q1. cbn [bind]. split; [reflexivity|]. repeat split; auto; apply Q2. }
  destruct K1 as (K1 & SO1). rewrite K1. cbn [bind].
  assert (K2 : upd_C E P (re Xs) (state_re s1) = Ok (state_re s2) /\ sok s2).
  { destruct SO1 as (FK & GA & GB & IO). unfold upd_C in *. cbn [state_re st_cmf st_rA st_rB st_rC]. destruct (p_updC P); [|injection E2 as <-; split; [reflexivity|]; repeat split; auto; apply FK].
    destruct (admm_update_C _ Xs _ _ _ _ _ _) as [[c r]|] eqn:EU; [|discriminate]. cbn [bind] in E2. injection E2 as <-.
    destruct (upd_C_re _ _ _ _ _ _ _ _ FK EU) as (Q1 & Q2). rewrite Q1. cbn [bind]. split; [reflexivity|]. repeat split; auto; apply Q2. }
  destruct K2 as (K2 & SO2). rewrite K2. cbn [bind].
  destruct SO2 as (FK & GA & GB & IO). unfold upd_A in *. cbn [state_re st_cmf st_rA st_rB st_rC]. destruct (p_updA P); [|injection H as <-; split; [reflexivity|]; repeat split; auto; apply FK].
  destruct (admm_update_A _ Xs _ _ _ _ _ _ _) as [[[c r] i]|] eqn:EU; [|discriminate]. cbn [bind] in H. injection H as <-.
  destruct (upd_A_re _ _ _ _ _ _ _ _ _ _ FK GA EU) as (Q1 & Q2 & Q3 & Q4). rewrite Q1. cbn [bind]. split; [reflexivity|]. split; [exact Q2|]. split; [exact Q3|]. split; [exact GB|exact Q4].
Qed.
Lemma loop_re P : forall k it s h s' h' it' msg, sok s -> ao_loop E P Xs k it s h = Ok (s', h', it', msg) ->
  ao_loop E P (re Xs) k it (state_re s) h = Ok (state_re s', h', it', msg) /\ sok s'.
Proof.
  induction k as [|k IH]; intros it s h s' h' it' msg SO H; cbn [ao_loop] in *; [injection H as <- <- <- <-; auto|].
  destruct (outer_step E P Xs s) as [s1|] eqn:E1; [|discriminate]. cbn [bind] in H. cbv zeta in *.
  destruct (outer_re P s s1 SO E1) as (K1 & SO1). rewrite K1. cbn [bind].
  destruct (otruthy (p_tol P) || otruthy (p_abs_tol P) || p_return_errors P); [|now apply IH].
  destruct (state_gaps s1) as [g|] eqn:EG; [|discriminate]. rewrite (state_gaps_re _ _ SO1 EG). cbn [bind h_errors h_gaps h_losses] in *.
  match type of H with context[if ?b then ao_loop _ _ _ _ _ _ _ else _] => destruct b end; [now apply IH|].
  destruct (state_loss P Xs s1) as [l|] eqn:EL; [|discriminate]. rewrite (loss_re _ _ _ SO1 EL). cbn [bind] in *. rewrite error_re by assumption.
  destruct (p_tol P) as [t|]; [|now apply IH]. destruct (ntruthy t); [|now apply IH].
  destruct (p_abs_tol P) as [ab|]; [|discriminate].
  match type of H with context[if ?b then _ else _] => destruct b end; [injection H as <- <- <- <-; auto|].
  match type of H with context[if ?b then _ else _] => destruct b end; [injection H as <- <- <- <-; auto|]. now apply IH.
Qed.
Lemma init_hist_re P s h : sok s -> init_hist P Xs s = Ok h -> init_hist P (re Xs) (state_re s) = Ok h.
Proof.
  intros SO H. unfold init_hist in *. cbv zeta in *. rewrite error_re by assumption. destruct (state_loss P Xs s) as [l|] eqn:EL; [|discriminate]. rewrite (loss_re _ _ _ SO EL). cbn [bind] in *.
  destruct (state_gaps s) as [g|] eqn:EG; [|discriminate]. now rewrite (state_gaps_re _ _ SO EG).
Qed.
End Data.
End Perm.
