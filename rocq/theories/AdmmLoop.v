(** Inner loops as sequences of one-iteration updates; gaps; what one iteration does. *)
From Coq Require Import Reals Lra Lia List Arith Bool Classical_Prop.
From Verif Require Import Num Numpy Unimodal RFacts Spec SpecFacts MatFacts SvdFacts ModelSpec Penalties PenaltySpec
  ProxProofs TVProofs GenL2Proofs SimplexProofs Parafac2Proofs PenaltyMain CoupledMatrices CmfSpec CmfProofs
  Decomp DecompSpec DecompFacts AdmmProofs AdmmB AdmmA AdmmRegs.
Import ListNotations.
Local Open Scope R_scope.

Lemma mapM_Forall2 {A B} (f : A -> res B) (l : list A) : forall r, mapM f l = Ok r -> Forall2 (fun x y => f x = Ok y) l r.
Proof.
  induction l as [|x l IH]; intros r H; cbn [mapM bind] in H.
  - injection H as <-. constructor.
  - destruct (f x) eqn:E; [|discriminate]. cbn [bind] in H. destruct (mapM f l) eqn:E2; [|discriminate]. cbn [bind] in H.
    injection H as <-. constructor; [assumption|]. now apply IH.
Qed.
Lemma Forall2_Forall {A B} (P : A -> Prop) (R S : A -> B -> Prop) (l : list A) (m : list B) :
  Forall P l -> Forall2 R l m -> (forall x y, P x -> R x y -> S x y) -> Forall2 S l m.
Proof. intros HP H K. induction H; constructor; inversion HP; subst; auto. Qed.
Lemma Forall2_right {A B} (R : A -> B -> Prop) (Q : B -> Prop) (l : list A) (m : list B) :
  Forall2 R l m -> (forall x y, R x y -> Q y) -> Forall Q m.
Proof. intros H K. induction H; constructor; eauto. Qed.

(** ** The loop *)
Lemma inner_loop_trace {S} (step : S -> res S) (conv : S -> S -> res bool) n : forall s s',
  inner_loop step conv n s = Ok s' ->
  exists m tr, iterates (fun a b => step a = Ok b) (fun a b => conv a b = Ok true) n s s' m tr /\
    forall i, (i < m)%nat -> exists b, conv (tr i) (tr (Datatypes.S i)) = Ok b.
Proof.
  induction n as [|n IH]; intros s s' H; cbn [inner_loop] in H.
  - injection H as <-. exists 0%nat, (fun _ => s). split; [|intros; lia].
    split; [lia|]. split; [reflexivity|]. split; [reflexivity|]. split; [intros; lia|]. split; intros; lia.
  - destruct (step s) as [s1|] eqn:E1; [|discriminate]. cbn [bind] in H.
    destruct (conv s s1) as [b|] eqn:E2; [|discriminate]. cbn [bind] in H. destruct b.
    + injection H as <-. exists 1%nat, (fun i => match i with O => s | _ => s1 end).
      split.
      * split; [lia|]. split; [reflexivity|]. split; [reflexivity|]. split; [|split].
        -- intros i Hi. assert (i = 0)%nat as -> by lia. exact E1.
        -- intros; lia.
        -- intros _. split; [lia|exact E2].
      * intros i Hi. assert (i = 0)%nat as -> by lia. now exists true.
    + destruct (IH s1 s' H) as (m & tr & (H1 & H2 & H3 & H4 & H5 & H6) & H7).
      exists (Datatypes.S m), (fun i => match i with O => s | Datatypes.S k => tr k end). split.
      * split; [lia|]. split; [reflexivity|]. split; [assumption|]. split; [|split].
        -- intros [|i] Hi; [now rewrite H2|]. apply H4. lia.
        -- intros [|i] Hi; [rewrite H2, E2; discriminate|]. apply H5. lia.
        -- intros Hm. split; [lia|]. destruct (H6 ltac:(lia)) as (H8 & H9). cbn [Nat.sub].
           destruct m as [|m]; [lia|]. replace (Datatypes.S m - 0)%nat with (Datatypes.S m) by lia.
           now replace (Datatypes.S m - 1)%nat with m in H9 by lia.
      * intros [|i] Hi; [rewrite H2; now exists false|]. apply H7. lia.
Qed.
(** invariants along a trace *)
Lemma iterates_inv {S} (one done : S -> S -> Prop) n s s' m tr (P : S -> Prop) :
  iterates one done n s s' m tr -> P s -> (forall a b, P a -> one a b -> P b) -> forall i, (i <= m)%nat -> P (tr i).
Proof.
  intros (_ & H2 & _ & H4 & _) Hs Hp. induction i as [|i IH]; intros Hi; [now rewrite H2|].
  apply (Hp (tr i)); [apply IH; lia|apply H4; lia].
Qed.
Lemma iterates_map {S T} (one done : S -> S -> Prop) (one' done' : T -> T -> Prop) (f : S -> T) n s s' m tr (P : S -> Prop) :
  iterates one done n s s' m tr -> (forall i, (i <= m)%nat -> P (tr i)) ->
  (forall a b, P a -> P b -> one a b -> one' (f a) (f b)) ->
  (forall a b, P a -> P b -> one a b -> (done a b <-> done' (f a) (f b))) ->
  iterates one' done' n (f s) (f s') m (fun i => f (tr i)).
Proof.
  intros (H1 & H2 & H3 & H4 & H5 & H6) HP K1 K2. split; [assumption|]. split; [now rewrite H2|]. split; [now rewrite H3|].
  split; [|split].
  - intros i Hi. apply K1; [apply HP; lia|apply HP; lia|now apply H4].
  - intros i Hi X. apply (H5 i Hi). apply K2; [apply HP; lia|apply HP; lia|apply H4; lia|assumption].
  - intros Hm. destruct (H6 Hm) as (H7 & H8). split; [assumption|]. 
    assert (O : one (tr (m - 1)%nat) (tr m)).
    { replace m with (Datatypes.S (m - 1)) at 2 by lia. apply H4. lia. }
    apply K2; auto; apply HP; lia.
Qed.

(** ** Gaps *)
Lemma xmax_fold_lt (t : R) (l : list xnumR) : (forall x, In x l -> exists a, x = Fin a) -> forall m : R,
  xlt (fold_left (fun m y => if xgt y m then y else m) l (Fin m)) t = true <->
  m < t /\ forall x, In x l -> xlt x t = true.
Proof.
  induction l as [|x l IH]; intros HF m; cbn [fold_left].
  - cbn [xlt]. rewrite nltb_true. split; [intros H; split; [assumption|]; intros ? []|tauto].
  - destruct (HF x (or_introl eq_refl)) as (a & ->).
    assert (HF' : forall y, In y l -> exists b, y = Fin b) by (intros; apply HF; now right).
    cbn [xgt]. destruct (nltb (N:=RNum) m a) eqn:C.
    + rewrite IH by assumption. apply nltb_true in C. split.
      * intros (H1 & H2). split; [lra|]. intros y [<-|Hy]; [cbn [xlt]; now apply nltb_true|now apply H2].
      * intros (H1 & H2). split; [apply (nltb_true a t); apply (H2 (Fin a)); now left|]. intros; apply H2; now right.
    + rewrite IH by assumption. assert (a <= m) by (apply Rnot_lt_le; intros X; apply nltb_true in X; congruence). split.
      * intros (H1 & H2). split; [assumption|]. intros y [<-|Hy]; [cbn [xlt]; apply nltb_true; lra|now apply H2].
      * intros (H1 & H2). split; [assumption|]. intros; apply H2; now right.
Qed.
Lemma xmax_lt (t : R) (l : list xnumR) : (forall x, In x l -> exists a, x = Fin a) ->
  match xmax_list l with None => true | Some m => xlt m t end = true <-> forall x, In x l -> xlt x t = true.
Proof.
  destruct l as [|x l]; intros HF; cbn [xmax_list].
  - split; [intros _ ? []|reflexivity].
  - destruct (HF x (or_introl eq_refl)) as (a & ->). rewrite xmax_fold_lt by (intros; apply HF; now right). split.
    + intros (H1 & H2) y [<-|Hy]; [cbn [xlt]; now apply nltb_true|now apply H2].
    + intros H. split; [apply (nltb_true a t); apply (H (Fin a)); now left|]. intros; apply H; now right.
Qed.
Lemma xmax_inf (t : R) (l : list xnumR) : (forall x, In x l -> forall a, x <> Fin a) -> l <> [] ->
  match xmax_list l with None => true | Some m => xlt m t end = false.
Proof.
  intros HF Hne. destruct l as [|x l]; [congruence|]. cbn [xmax_list].
  assert (K : forall m : xnumR, (forall a, m <> Fin a) -> forall a, fold_left (fun m y => if xgt y m then y else m) l m <> Fin a).
  { assert (HF' : forall y, In y l -> forall a, y <> Fin a) by (intros y Hy; apply HF; now right). clear HF Hne.
    induction l as [|y l IH]; intros m Hm; cbn [fold_left]; [assumption|]. apply IH; [intros; apply HF'; now right|].
    destruct (xgt y m); [apply HF'; now left|assumption]. }
  specialize (K x (HF x (or_introl eq_refl))).
  destruct (fold_left _ l x); [exfalso; now apply (K x0)|reflexivity|reflexivity].
Qed.
Lemma xdiv_pos (a b : R) : 0 < b -> xdiv (N:=RNum) a b = Fin (a / b).
Proof. intros H. unfold xdiv. destruct (neqb (N:=RNum) b n0) eqn:E; [|reflexivity]. apply neqb_true in E. rn. lra. Qed.
Lemma xdiv_zero (a : R) : forall x, xdiv (N:=RNum) a 0 <> Fin x.
Proof.
  intros x. unfold xdiv. destruct (neqb (N:=RNum) 0 n0) eqn:E; [destruct (neqb (N:=RNum) a n0); discriminate|].
  assert (neqb (N:=RNum) 0 n0 = true) by (apply neqb_true; reflexivity). congruence.
Qed.
(** every gap is d_q / M for one norm M >= 0 *)
Lemma gaps_all_lt {G} (d : G -> R) (M t : R) (l : list G) : 0 <= M -> (forall g, 0 <= d g) ->
  match xmax_list (map (fun g => xdiv (N:=RNum) (d g) M) l) with None => true | Some m => xlt m t end = true <->
  Forall (fun g => d g < t * M) l.
Proof.
  intros HM Hd. destruct (Rle_lt_or_eq_dec 0 M HM) as [HP|HZ].
  - rewrite xmax_lt.
    2:{ intros x Hx. apply in_map_iff in Hx. destruct Hx as (g & <- & _). eexists. now apply xdiv_pos. }
    rewrite Forall_forall. 
    assert (K : forall g, xlt (N:=RNum) (xdiv (N:=RNum) (d g) M) t = true <-> d g < t * M).
    { intros g. rewrite xdiv_pos by assumption. cbn [xlt]. rewrite nltb_true. split; intros H.
      - apply (Rmult_lt_compat_r M) in H; [|assumption]. rn. unfold Rdiv in H. rewrite Rmult_assoc, Rinv_l in H by lra. lra.
      - apply (Rmult_lt_reg_r M); [assumption|]. rn. unfold Rdiv. rewrite Rmult_assoc, Rinv_l by lra. lra. }
    split.
    + intros H g Hg. apply K. apply H. apply in_map_iff. now exists g.
    + intros H x Hx. apply in_map_iff in Hx. destruct Hx as (g & <- & Hg). apply K. now apply H.
  - subst M. destruct l as [|g l].
    + cbn. split; [constructor|reflexivity].
    + rewrite xmax_inf; [|intros x Hx; apply in_map_iff in Hx; destruct Hx as (h & <- & _); apply xdiv_zero|discriminate].
      split; [discriminate|]. intros H. inversion H as [|? ? H1 H2]; subst. specialize (Hd g). lra.
Qed.
Lemma mnorm_fnorm (M : rmat) r c : shaped M r c -> mnorm (N:=RNum) M = fnorm r c (rget M).
Proof. intros (_ & H1 & H2). rewrite mnorm_sqrt. unfold fnorm. f_equal. symmetry. now apply sumsq_nsq. Qed.
Lemma mnorm_fdist (M P : rmat) r c : shaped M r c -> mnorm (N:=RNum) (msub M P) = fdist r c (rget M) (rget P).
Proof. intros (_ & H1 & H2). rewrite mnorm_sqrt. unfold fdist. f_equal. symmetry. now apply dist2_nsq. Qed.
Lemma root_lnorm n J c (l : list rmat) : list_shaped n J c l -> root_sum_squared (N:=RNum) l = lnorm n J c (entB l).
Proof.
  intros (L & H). unfold root_sum_squared, lnorm. rn. f_equal. rewrite (lsum_map _ l n no_mat) by assumption.
  apply rsum_Sum_ext. intros i Hi. unfold entB. destruct (H i Hi) as (W & A & B). rewrite (sumsq_nsq (nth i l no_mat)) by assumption.
  apply msumsq_nsq.
Qed.
Lemma fnorm_nonneg r c X : 0 <= fnorm r c X. Proof. apply sqrt_pos. Qed.
Lemma fdist_nonneg r c X Y : 0 <= fdist r c X Y. Proof. apply sqrt_pos. Qed.
Lemma lnorm_nonneg n J c X : 0 <= lnorm n J c X. Proof. apply sqrt_pos. Qed.
Lemma ldist_nonneg n J c X Y : 0 <= ldist n J c X Y. Proof. apply sqrt_pos. Qed.
Lemma fdist_sym r c X Y : fdist r c X Y = fdist r c Y X.
Proof. unfold fdist. f_equal. rewrite !dist2_rsum. apply rsum_ext; intros. apply rsum_ext; intros. ring. Qed.
Lemma lnorm_sub n J c X Y Z : (forall i, (i < n)%nat -> same (J i) c (Z i) (fun j r => X i j r - Y i j r)) ->
  lnorm n J c Z = ldist n J c X Y.
Proof.
  intros H. unfold lnorm, ldist. f_equal. rewrite !(Sum_rsum n). apply rsum_ext. intros i Hi. rewrite (sumsq_ext _ _ _ _ (H i Hi)). reflexivity.
Qed.

(** gaps of one penalty *)
Lemma gap_mat_ok (M : rmat) (g : mregR) r c : shaped M r c -> mreg_valid r c g ->
  gap_mat (N:=RNum) M g = Ok (xdiv (N:=RNum) (fdist r c (rget (g_aux g)) (rget M)) (fnorm r c (rget M))).
Proof.
  intros HM (NP & _ & HA & _). unfold gap_mat. rewrite not_pf2_sub by assumption. cbn [bind].
  rewrite (mnorm_fdist _ _ r c) by assumption. now rewrite (mnorm_fnorm _ r c) by assumption.
Qed.
Lemma subtract_ok n J c (g : bregR) (d : list rmat) : breg_valid n J c g -> list_shaped n J c d ->
  exists sh, subtract_from_auxes (b_pen g) (b_aux g) d = Ok sh.
Proof.
  intros (_ & H) _. unfold subtract_from_auxes. destruct (b_pen g), (b_aux g); try contradiction; eexists; reflexivity.
Qed.
Lemma gap_list_ok n J c (Bs : list rmat) (g : bregR) : list_shaped n J c Bs -> breg_valid n J c g ->
  gap_list (N:=RNum) Bs g = Ok (xdiv (N:=RNum) (ldist n J c (baux g) (entB Bs)) (lnorm n J c (entB Bs))).
Proof.
  intros HB Hg. unfold gap_list. destruct (subtract_ok n J c g Bs Hg HB) as (sh & E). rewrite E. cbn [bind].
  destruct (breg_valid_shape _ _ _ _ Hg) as (Ha & _).
  destruct (subtract_entries n J c (b_pen g) (b_aux g) Bs sh Ha HB E) as (Ls & Es).
  rewrite (root_lnorm n J c) by assumption. rewrite (root_lnorm n J c Bs) by assumption.
  rewrite (lnorm_sub n J c (baux g) (entB Bs)); [reflexivity|]. exact Es.
Qed.
Lemma mapM_ok {A B} (f : A -> res B) (h : A -> B) (l : list A) : (forall x, In x l -> f x = Ok (h x)) -> mapM f l = Ok (map h l).
Proof.
  induction l as [|x l IH]; intros H; [reflexivity|]. cbn [mapM map]. rewrite (H x (or_introl eq_refl)). cbn [bind].
  rewrite IH by (intros; apply H; now right). reflexivity.
Qed.

(** ** Inner convergence *)
Lemma inner_conv_spec {G} tol (norm change : R) (d : G -> R) (l : list G) : 0 <= norm -> (forall g, 0 <= d g) ->
  exists b, inner_conv (N:=RNum) tol norm change (Ok (map (fun g => xdiv (N:=RNum) (d g) norm) l)) = Ok b /\
    (b = true <-> exists t, tol = Some t /\ 0 < t /\ change <= t * norm /\ Forall (fun g => d g < t * norm) l).
Proof.
  intros HM Hd. unfold inner_conv. destruct tol as [t|].
  2:{ exists false. split; [reflexivity|]. split; [discriminate|]. intros (t & H & _). discriminate. }
  destruct (negb (ntruthy (N:=RNum) t) || nltb (N:=RNum) t n0) eqn:B.
  - exists false. split; [reflexivity|]. split; [discriminate|]. intros (u & Hu & Hp & _). injection Hu as <-.
    rewrite (ntruthy_pos t Hp) in B. cbn [negb orb] in B. apply nltb_true in B. rn. lra.
  - apply orb_false_elim in B. destruct B as (B1 & B2). apply negb_false_iff in B1. apply ntruthy_R in B1. apply nltb_false in B2.
    assert (Hp : 0 < t) by (rn; lra).
    destruct (nltb (N:=RNum) (nmul (Num:=RNum) t norm) change) eqn:C.
    + exists false. split; [reflexivity|]. split; [discriminate|]. intros (u & Hu & _ & Hc & _). injection Hu as <-.
      apply nltb_true in C. rn. lra.
    + apply nltb_false in C. cbn [bind].
      exists (match xmax_list (map (fun g => xdiv (N:=RNum) (d g) norm) l) with None => true | Some m => xlt m t end).
      split; [now destruct (xmax_list _)|]. rewrite gaps_all_lt by assumption. split.
      * intros H. exists t. repeat (split; [now try assumption|]). assumption.
      * intros (u & Hu & _ & _ & H). injection Hu as <-. exact H.
Qed.
Lemma conv_mat_spec tol (C C' : rmat) (regs regs' : list mregR) r c : shaped C' r c -> Forall (mreg_valid r c) regs' ->
  exists b, conv_mat (N:=RNum) tol (C, regs) (C', regs') = Ok b /\ (b = true <-> settled tol r c (rget C) (rget C') regs').
Proof.
  intros HC Hr. unfold conv_mat. cbn [fst snd]. rewrite (mapM_ok _ (fun g => xdiv (N:=RNum) (fdist r c (rget (g_aux g)) (rget C')) (fnorm r c (rget C')))).
  2:{ intros g Hg. apply gap_mat_ok; [assumption|]. rewrite Forall_forall in Hr. now apply Hr. }
  rewrite (mnorm_fnorm C' r c), (mnorm_fdist C' C r c) by assumption.
  destruct (inner_conv_spec tol (fnorm r c (rget C')) (fdist r c (rget C') (rget C))
     (fun g : mregR => fdist r c (rget (g_aux g)) (rget C')) regs' (fnorm_nonneg _ _ _) (fun g => fdist_nonneg _ _ _ _)) as (b & E & H).
  exists b. split; [exact E|exact H].
Qed.
Lemma conv_list_spec tol n J c (B B' : list rmat) (regs regs' : list bregR) : list_shaped n J c B -> list_shaped n J c B' ->
  Forall (breg_valid n J c) regs' ->
  exists b, conv_list (N:=RNum) tol (B, regs) (B', regs') = Ok b /\ (b = true <-> b_settled tol n J c (entB B) (entB B') regs').
Proof.
  intros HB HB' Hr. unfold conv_list. cbn [fst snd].
  rewrite (mapM_ok _ (fun g => xdiv (N:=RNum) (ldist n J c (baux g) (entB B')) (lnorm n J c (entB B')))).
  2:{ intros g Hg. apply gap_list_ok; [assumption|]. rewrite Forall_forall in Hr. now apply Hr. }
  rewrite (root_lnorm n J c B') by assumption.
  assert (E1 : root_sum_squared (N:=RNum) (map2 msub B' B) = ldist n J c (entB B') (entB B)).
  { destruct HB as (L & H), HB' as (L' & H'). rewrite (root_lnorm n J c).
    - apply lnorm_sub. intros i Hi j r Hj Hr'. unfold entB. rewrite (nth_map2 _ _ _ _ no_mat no_mat) by (rn; lia).
      destruct (H' i Hi) as (W & A1 & A2). now rewrite mget_msub by (rn; congruence).
    - split; [rewrite length_map2; rn; lia|]. intros i Hi. rewrite (nth_map2 _ _ _ _ no_mat no_mat) by (rn; lia).
      destruct (H' i Hi) as (W & A1 & A2). split; [auto with mwf|mshape; now split]. }
  rewrite E1.
  destruct (inner_conv_spec tol (lnorm n J c (entB B')) (ldist n J c (entB B') (entB B))
     (fun g : bregR => ldist n J c (baux g) (entB B')) regs' (lnorm_nonneg _ _ _ _) (fun g => ldist_nonneg _ _ _ _ _)) as (b & E & H).
  exists b. split; [exact E|exact H].
Qed.
