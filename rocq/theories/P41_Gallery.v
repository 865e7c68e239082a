(** Properties of the scripts of the example gallery: C84 (choosing one of several starts). *)
From Coq Require Import Reals Lra Lia List Arith Bool ZArith.
From Verif Require Import Num Numpy RFacts Spec SpecFacts MatFacts ModelSpec Penalties PenaltySpec CoupledMatrices CmfSpec CmfProofs Decomp DecompSpec
  DecompFacts AoRun TotalRun
  InitVars InitSpec Parse ParseSpec ParseProofs Fit FitSpec FitProofs P08_Fit P11_Total Ideal FitExamples DecompExamples P39_Turned P10_Start OrderSpec Binary64 Gallery GallerySpec.
Import ListNotations.

(** ** Any arithmetic in which numbers can be compared *)
Section Any.
Context {N : Num}.
Lemma last_item_ok {A} (l : list A) x : last_item l = Ok x <-> exists ls, l = ls ++ [x].
Proof.
  split.
  - destruct l as [|y l]; [discriminate|]. intros E. injection E as <-. destruct (exists_last (l:=y :: l)) as (ls & z & E); [discriminate|]. exists ls.
    rewrite E. f_equal. f_equal. transitivity (last (y :: l) y); [rewrite E; symmetry; apply last_last|]. destruct l; reflexivity.
  - intros (ls & ->). destruct ls as [|y ls]; [reflexivity|]. cbn [app last_item]. f_equal. apply last_last.
Qed.
Lemma for_in_inv {S} (body : S -> nat -> res S) (P : nat -> S -> Prop) : (forall i s s', P i s -> body s i = Ok s' -> P (Datatypes.S i) s') ->
  forall n k s s', P k s -> for_in body (seq k n) s = Ok s' -> P (k + n) s'.
Proof.
  intros HB. induction n as [|n IH]; intros k s s' HP E; cbn [seq for_in] in E; [injection E as <-; now rewrite Nat.add_0_r|].
  destruct (body s k) as [s1|] eqn:E1; [|discriminate]. cbn [bind] in E. replace (k + Datatypes.S n) with (Datatypes.S k + n) by lia. eapply IH; [|exact E]. eapply HB; eassumption.
Qed.
Lemma xless_lt (x y : xnum) : xless x y = true <-> exists a, x = Fin a /\ (y = PInf \/ exists b, y = Fin b /\ lt a b).
Proof.
  unfold lt, le. destruct x as [a| |], y as [b| |]; cbn; unfold nltb; (split; [intros H|intros (c & E & [K|(d & K & L)])]); try discriminate; try injection E as <-; try injection K as <-; try reflexivity.
  - exists a. split; [reflexivity|]. right. exists b. split; [reflexivity|]. now destruct (nleb b a).
  - now destruct (nleb b a).
  - exists a. auto.
Qed.
Lemma lt_le (HO : ordered) (x y : num) : lt x y -> le x y.
Proof. intros L. destruct (proj1 HO x y) as [H|H]; [exact H|contradiction]. Qed.
Lemma lt_le_trans (HO : ordered) (x y z : num) : lt x y -> le y z -> lt x z.
Proof. intros L K H. apply L. eapply (proj2 HO); eassumption. Qed.
Lemma not_lt (x y : num) : ~ lt x y -> le y x.
Proof. unfold lt. intros H. unfold le in *. destruct (nleb y x); [reflexivity|]. exfalso. apply H. discriminate. Qed.
Lemma loss_fun (f : fitted) l m : ends_with_loss f l -> ends_with_loss f m -> l = m.
Proof. intros H K. apply last_item_ok in H, K. rewrite H in K. congruence. Qed.

(** What has been found after k starts. *)
Definition found (fits : list fitted) (sel : option nat) (low : xnum) : Prop :=
  match sel with
  | None => low = PInf /\ forall j g m, nth_error fits j = Some g -> ~ ends_with_loss g m
  | Some i => exists f l, low = Fin l /\ nth_error fits i = Some f /\ ends_with_loss f l /\
      forall j g m, nth_error fits j = Some g -> ends_with_loss g m -> le l m /\ (j < i -> lt l m)
  end.
Lemma nth_snoc {A} (l : list A) x j y : nth_error (l ++ [x]) j = Some y -> j < length l /\ nth_error l j = Some y \/ j = length l /\ y = x.
Proof.
  intros H. destruct (Nat.lt_ge_cases j (length l)) as [L|L]; [left; rewrite nth_error_app1 in H by exact L; auto|].
  rewrite nth_error_app2 in H by exact L. right. destruct (j - length l) as [|k] eqn:E; [cbn in H; split; [lia|congruence]|]. cbn in H. destruct k; discriminate.
Qed.
Lemma nth_snoc_old {A} (l : list A) x j y : nth_error l j = Some y -> nth_error (l ++ [x]) j = Some y.
Proof. intros H. rewrite nth_error_app1; [exact H|]. apply nth_error_Some. congruence. Qed.
Lemma nth_snoc_new {A} (l : list A) x : nth_error (l ++ [x]) (length l) = Some x.
Proof. rewrite nth_error_app2, Nat.sub_diag by lia. reflexivity. Qed.
Lemma fits_snoc (start : nat -> res fitted) n fits f : fits_of start n fits -> start n = Ok f -> fits_of start (S n) (fits ++ [f]).
Proof.
  intros (L & H) E. split; [rewrite app_length, L; cbn; lia|]. intros j g K. apply nth_snoc in K as [(_ & K)|(-> & ->)]; [now apply H|]. now rewrite L.
Qed.
Lemma found_step (HO : ordered) fits sel low f x : found fits sel low -> last_item (d_losses (snd f)) = Ok x ->
  found (fits ++ [f]) (if xless x low then Some (length fits) else sel) (if xless x low then x else low).
Proof.
  intros HF E. destruct (xless x low) eqn:XL.
  - apply xless_lt in XL as (a & -> & HX). exists f, a. split; [reflexivity|]. split; [apply nth_snoc_new|]. split; [now apply last_item_ok|].
    intros j g m K M. apply nth_snoc in K as [(Lj & K)|(-> & ->)].
    + destruct sel as [i|].
      * destruct HF as (f' & l & -> & _ & _ & HF). destruct HX as [HX|(b & HX & LT)]; [discriminate|]. injection HX as <-. destruct (HF j g m K M) as (LE & _).
        pose proof (lt_le_trans HO _ _ _ LT LE) as H. split; [now apply lt_le|auto].
      * exfalso. exact (proj2 HF j g m K M).
    + apply last_item_ok in M. rewrite E in M. injection M as <-. split; [|lia]. destruct (proj1 HO a a); assumption.
  - assert (NX : forall a, x = Fin a -> low <> PInf /\ forall b, low = Fin b -> le b a).
    { intros a ->. split; [intros ->; discriminate|]. intros b ->. apply not_lt. intros K. rewrite (proj2 (xless_lt (Fin a) (Fin b))) in XL; [discriminate|]. exists a. split; [reflexivity|]. right. now exists b. }
    destruct sel as [i|].
    + destruct HF as (f' & l & -> & Hi & Hl & HF). exists f', l. split; [reflexivity|]. split; [now apply nth_snoc_old|]. split; [exact Hl|]. intros j g m K M.
      apply nth_snoc in K as [(Lj & K)|(-> & ->)]; [now apply (HF j g m)|]. apply last_item_ok in M. rewrite E in M. injection M as ->.
      split; [now apply (NX m)|]. intros Li. exfalso. assert (i < length fits) by (apply nth_error_Some; congruence). lia.
    + destruct HF as (-> & HF). split; [reflexivity|]. intros j g m K M. apply nth_snoc in K as [(Lj & K)|(-> & ->)]; [exact (HF j g m K M)|].
      apply last_item_ok in M. rewrite E in M. injection M as ->. now apply (NX m).
Qed.
Lemma bike_found (HO : ordered) start n all sel low : bike_starts start n = Ok (all, sel, low) -> fits_of start n all /\ found all sel low.
Proof.
  intros E. unfold bike_starts in E.
  apply (for_in_inv _ (fun k s => let '(all, sel, low) := s in fits_of start k all /\ found all sel low)) with (k := 0) in E; [exact E| |].
  - intros i ((al & se) & lo) ((al' & se') & lo') (HF & HS) ES. unfold bike_step in ES. destruct (start i) as [[c d]|] eqn:E1; [|discriminate]. cbn [bind] in ES.
    destruct (last_item (d_losses d)) as [x|] eqn:E2; [|discriminate]. cbn [bind] in ES. injection ES as <- <- <-.
    split; [now apply fits_snoc|]. assert (EL : length al = i) by apply HF. rewrite <- EL. now apply found_step.
  - split; [split; [reflexivity|intros [|j] f K; discriminate]|]. split; [reflexivity|]. intros [|j] f K; discriminate.
Qed.

(** ** C84: the bike sharing script keeps every fit and selects the first with the lowest loss; no fit is selected
    exactly when none ends with a number. *)
Theorem C84_lowest_loss (start : nat -> res fitted) (n : nat) m : ordered -> bike_model start n = Ok m ->
  exists fits, fits_of start n fits /\
    (forall f, m = Some f -> exists i, lowest_loss fits i f) /\
    (m = None <-> forall i f l, nth_error fits i = Some f -> ~ ends_with_loss f l).
Proof.
  intros HO E. unfold bike_model in E. destruct (bike_starts start n) as [[[all sel] low]|] eqn:ES; [|discriminate]. cbn [bind] in E.
  destruct (bike_found HO _ _ _ _ _ ES) as (HF & HS). exists all. split; [exact HF|]. destruct sel as [i|].
  - destruct HS as (f & l & _ & Hi & Hl & HS). rewrite Hi in E. injection E as <-. split.
    + intros f' Ef. injection Ef as <-. exists i. split; [exact Hi|]. exists l. auto.
    + split; [discriminate|]. intros K. exfalso. exact (K i f l Hi Hl).
  - injection E as <-. split; [discriminate|]. split; [|reflexivity]. intros _. apply HS.
Qed.

(** If every start returns and reports a loss, the script selects a model or none. *)
Lemma bike_total start n : (forall i, i < n -> exists f x, start i = Ok f /\ last_item (d_losses (snd f)) = Ok x) -> exists m, bike_model start n = Ok m.
Proof.
  intros H. assert (G : forall n k al se lo, (forall i, i < k + n -> exists f x, start i = Ok f /\ last_item (d_losses (snd f)) = Ok x) -> length al = k -> (forall i, se = Some i -> i < k) ->
    exists al' se' lo', for_in (bike_step start) (seq k n) (al, se, lo) = Ok (al', se', lo') /\ (forall i, se' = Some i -> i < length al')).
  { clear. induction n as [|n IH]; intros k al se lo H HL HS; cbn [seq for_in]; [exists al, se, lo; split; [reflexivity|]; intros i K; rewrite HL; now apply HS|].
    destruct (H k ltac:(lia)) as ((c & d) & x & E1 & E2). unfold bike_step at 1. rewrite E1. cbn [bind]. cbn [snd] in E2. rewrite E2. cbn [bind]. apply IH.
    - intros i Hi. apply H. lia.
    - rewrite app_length, HL. cbn. lia.
    - intros i K. destruct (xless x lo); [injection K as <-; lia|]. specialize (HS i K). lia. }
  destruct (G n 0 [] None PInf H eq_refl ltac:(discriminate)) as (al & se & lo & E & HS). unfold bike_model, bike_starts. rewrite E. cbn [bind].
  destruct se as [i|]; [|eauto]. destruct (nth_error al i) as [f|] eqn:EN; [eauto|]. apply nth_error_None in EN. specialize (HS i eq_refl). lia.
Qed.

(** The script about the number of components: for every number of components the score is one minus the lowest loss,
    and the model is the first with that loss.  (If no loss is a number the model of the previous number of
    components is used.) *)
Lemma scree_found (HO : ordered) start n s s' low : for_in (scree_step start) (seq 0 n) (s, PInf) = Ok (s', low) ->
  exists fits sel, fits_of start n fits /\ found fits sel low /\ s' = match sel with Some i => nth_error fits i | None => s end.
Proof.
  intros E.
  apply (for_in_inv _ (fun k st => let '(s1, lo) := st in exists fits sel, fits_of start k fits /\ found fits sel lo /\ s1 = match sel with Some i => nth_error fits i | None => s end)) with (k := 0) in E; [exact E| |].
  - intros i (s1 & lo) (s2 & lo') (fits & sel & HF & HS & E1) ES. unfold scree_step in ES. destruct (start i) as [[c d]|] eqn:EI; [|discriminate]. cbn [bind] in ES.
    destruct (last_item (d_losses d)) as [x|] eqn:EL; [|discriminate]. cbn [bind] in ES. injection ES as ES.
    exists (fits ++ [(c, d)]), (if xless x lo then Some (length fits) else sel). split; [now apply fits_snoc|].
    pose proof (found_step HO fits sel lo (c, d) x HS EL) as K. destruct (xless x lo); injection ES as <- <-.
    + split; [exact K|]. now rewrite nth_snoc_new.
    + split; [exact K|]. rewrite E1. destruct sel as [j|]; [|reflexivity]. destruct HS as (f & l & _ & Hj & _). rewrite Hj. symmetry. now apply nth_snoc_old.
  - exists [], None. split; [split; [reflexivity|intros [|j] f K; discriminate]|]. split; [|reflexivity]. split; [reflexivity|]. intros [|j] f K; discriminate.
Qed.
Theorem C84_scores (start : nat -> nat -> res fitted) (n : nat) (ranks : list nat) scores : ordered -> scree start n ranks = Ok scores ->
  Forall2 (fun r x => score_of (start r) n x) ranks scores.
Proof.
  intros HO E. unfold scree in E. destruct (for_in (scree_rank start n) ranks ([], None)) as [[sc sl]|] eqn:EF; [|discriminate]. cbn [bind] in E. injection E as <-.
  enough (G : forall ranks done sc0 s0 sc s, Forall2 (fun r x => score_of (start r) n x) done sc0 -> for_in (scree_rank start n) ranks (sc0, s0) = Ok (sc, s) ->
    Forall2 (fun r x => score_of (start r) n x) (done ++ ranks) sc) by exact (G ranks [] [] None sc sl (Forall2_nil _) EF).
  clear - HO. induction ranks as [|r ranks IH]; intros done sc0 s0 sc s HD E; cbn [for_in] in E; [injection E as <- <-; now rewrite app_nil_r|].
  destruct (scree_rank start n (sc0, s0) r) as [[sc1 s1]|] eqn:E1; [|discriminate]. cbn [bind] in E. unfold scree_rank in E1.
  destruct (for_in (scree_step (start r)) (seq 0 n) (s0, PInf)) as [[s2 low]|] eqn:E2; [|discriminate]. cbn [bind] in E1. injection E1 as <- <-.
  change (r :: ranks) with ([r] ++ ranks). rewrite app_assoc. eapply IH; [|exact E]. apply Forall2_app; [exact HD|]. constructor; [|constructor].
  destruct (scree_found HO _ _ _ _ _ E2) as (fits & sel & HF & HS & ->). exists fits. split; [exact HF|]. destruct sel as [i|].
  - destruct HS as (f & l & -> & Hi & Hl & HS). left. exists i, f, l. rewrite Hi. split; [reflexivity|]. split; [|exact Hl]. split; [exact Hi|]. exists l. auto.
  - destruct HS as (-> & HS). right. split; [reflexivity|exact HS].
Qed.

(** The scripts about simulated data: the kept fit stopped by its stopping condition, and the loss of no later such
    fit is below the reconstruction error of the kept one; no fit is kept exactly when none stopped by its condition
    with a number as loss. *)
Definition kept_so_far (fits : list fitted) (kept : option fitted) (low : xnum) : Prop :=
  match kept with
  | None => low = PInf /\ forall i f l, nth_error fits i = Some f -> converged f -> ~ ends_with_loss f l
  | Some f => exists i l, nth_error fits i = Some f /\ converged f /\ ends_with_loss f l /\ last_item (d_errors (snd f)) = Ok low /\
      forall j g m, i < j -> nth_error fits j = Some g -> converged g -> ends_with_loss g m -> xless (Fin m) low = false
  end.
Lemma nonnegative_kept start n kept low : nonnegative_starts start n = Ok (kept, low) -> exists fits, fits_of start n fits /\ kept_so_far fits kept low.
Proof.
  intros E. unfold nonnegative_starts in E.
  apply (for_in_inv _ (fun k s => let '(kept, low) := s in exists fits, fits_of start k fits /\ kept_so_far fits kept low)) with (k := 0) in E; [exact E| |].
  - intros i (k1 & lo) (k2 & lo') (fits & HF & HK) ES. unfold nonnegative_step in ES. destruct (start i) as [[c d]|] eqn:EI; [|discriminate]. cbn [bind] in ES.
    destruct (last_item (d_losses d)) as [x|] eqn:EL; [|discriminate]. cbn [bind] in ES. exists (fits ++ [(c, d)]). split; [now apply fits_snoc|].
    destruct (xless x lo && match d_stopped d with Some b => b | None => false end) eqn:EB.
    + apply andb_true_iff in EB as (X1 & X2). destruct (last_item (d_errors d)) as [e|] eqn:EE; [|discriminate]. cbn [bind] in ES. injection ES as <- <-.
      apply xless_lt in X1 as (a & -> & _). exists (length fits), a. split; [apply nth_snoc_new|].
      split; [unfold converged; cbn [snd]; destruct (d_stopped d) as [[]|]; [reflexivity|discriminate..]|]. split; [now apply last_item_ok|]. split; [exact EE|].
      intros j g m Hj K. apply nth_snoc in K as [(K & _)|(K & _)]; lia.
    + injection ES as <- <-. destruct k1 as [f|].
      * destruct HK as (q & l & Hq & HC & Hl & He & HK). exists q, l. split; [now apply nth_snoc_old|]. split; [exact HC|]. split; [exact Hl|]. split; [exact He|].
        intros j g m Hj K CG M. apply nth_snoc in K as [(_ & K)|(-> & ->)]; [now apply (HK j g m)|]. unfold converged in CG. cbn [snd] in CG. rewrite CG, andb_true_r in EB.
        apply last_item_ok in M. cbn [snd] in M. rewrite EL in M. injection M as ->. exact EB.
      * destruct HK as (-> & HK). split; [reflexivity|]. intros j g m K CG M. apply nth_snoc in K as [(_ & K)|(-> & ->)]; [exact (HK j g m K CG M)|].
        unfold converged in CG. cbn [snd] in CG. rewrite CG, andb_true_r in EB. apply last_item_ok in M. cbn [snd] in M. rewrite EL in M. injection M as ->. discriminate.
  - exists []. split; [split; [reflexivity|intros [|j] f K; discriminate]|]. split; [reflexivity|]. intros [|j] f l K; discriminate.
Qed.
Theorem C84_converged_partial (start : nat -> res fitted) (n : nat) kept low : nonnegative_starts start n = Ok (kept, low) ->
  exists fits, fits_of start n fits /\
    (forall f, kept = Some f -> exists i, nth_error fits i = Some f /\ converged f /\
      forall e, ends_with_error f e -> forall j g l, i < j -> nth_error fits j = Some g -> converged g -> ends_with_loss g l -> le e l) /\
    (kept = None <-> forall i f l, nth_error fits i = Some f -> converged f -> ~ ends_with_loss f l).
Proof.
  intros E. destruct (nonnegative_kept _ _ _ _ E) as (fits & HF & HK). exists fits. split; [exact HF|]. destruct kept as [f|].
  - destruct HK as (i & l & Hi & HC & Hl & He & HK). split.
    + intros f' Ef. injection Ef as <-. exists i. split; [exact Hi|]. split; [exact HC|]. intros e Ee j g m Hj Kj CG M. apply last_item_ok in Ee. rewrite Ee in He. injection He as <-.
      apply not_lt. intros L. specialize (HK j g m Hj Kj CG M). rewrite (proj2 (xless_lt (Fin m) (Fin e))) in HK; [discriminate|]. exists m. split; [reflexivity|]. right. now exists e.
    + split; [discriminate|]. intros K. exfalso. exact (K i f l Hi HC Hl).
  - split; [discriminate|]. split; [|reflexivity]. intros _. apply HK.
Qed.
End Any.
Print Assumptions C84_lowest_loss.
Print Assumptions C84_scores.
Print Assumptions C84_converged_partial.

(** ** Real numbers: calls of [parafac2_aoadmm] *)
Local Open Scope R_scope.
Section Calls.
Variables (V : envR) (IE : initextR) (rnd : nat -> randR).
Variables (Xs : list matR) (rank : nat) (n_iter : Z) (tol : R) (nn : arg bool) (regs : regsarg (N:=RNum)).
Hypotheses (HX : fittable Xs rank) (HW : well_formed nn) (HG : constraints_only regs) (HR : good_regs regs) (HI : ranks_kept IE) (HV : svd_correct (e_ext V) rank).
Let call : fitR := script_call (N:=RNum) Xs rank n_iter tol nn regs.
Let start := start_fit (N:=RNum) V IE rnd call.

Lemma call_sensible : sensible V (with_parafac2 (N:=RNum) call) rank.
Proof.
  destruct HX as (X1 & X2 & X3 & X4). unfold sensible, call, script_call, with_parafac2. cbn [f_data f_rank f_init f_scale f_l2 f_kw f_regs].
  split; [exact X1|]. split. { apply Forall_forall. intros X IN. destruct (X3 X IN) as (W & A & B). split; [exact W|]. lia. }
  split; [reflexivity|]. split; [exact X2|]. split; [exact I|]. split; [rn; lra|].
  split. { intros m v _ E. cbn in E. subst v. cbn. rn. lra. }
  split. { intros m r kw _ _ (_ & E2 & E3 & _ & _ & _ & _ & E8 & _). cbn in E2, E3, E8. split; [intros hi K; congruence|intros M K; congruence]. }
  split. { intros m r u _ _ K. apply Forall_forall. intros o IN. specialize (HG m u K o IN). destruct (o_pen o); try contradiction; exact Logic.I. }
  intros _ X IN. now apply X3.
Qed.
Lemma users : exists u, forall m, (m < 3)%nat -> user_penalties regs m (u m).
Proof.
  destruct regs as [| |es] eqn:EG; cbn in HR; [exists (fun _ => []); reflexivity|contradiction|]. destruct HR as (_ & K).
  destruct (K 0%nat ltac:(lia)) as (u0 & U0), (K 1%nat ltac:(lia)) as (u1 & U1), (K 2%nat ltac:(lia)) as (u2 & U2).
  exists (fun m => match m with 0%nat => u0 | 1%nat => u1 | _ => u2 end). intros [|[|[|m]]] Hm; try lia; assumption.
Qed.
Lemma no_penalty (u : list (pobj (N:=RNum))) r c X : (forall o, In o u -> match o_pen o with NonNegativity | Unimodality _ => True | _ => False end) -> total_penalty u r c X = 0.
Proof.
  induction u as [|o u IH]; intros H; cbn [total_penalty]; [reflexivity|]. rewrite IH by (intros; apply H; now right). specialize (H o (or_introl eq_refl)). destruct (o_pen o); try contradiction; cbn; lra.
Qed.
Lemma nn_value m : (m < 3)%nat -> means nn m (match nn with AOne x => x | AIter l => nth m l None | ADict d => match d m with Some v => v | None => None end end).
Proof.
  intros Hm. destruct nn as [x|d|l]; cbn in *; [reflexivity|destruct (d m); auto|]. split; [exact HW|]. apply nth_error_nth'. lia.
Qed.
Lemma call_arguments : exists l kw u, arguments (with_parafac2 (N:=RNum) call) l kw u /\ forall c, fit_loss (with_parafac2 (N:=RNum) call) l kw u c = 1 / 2 * rel_error Xs c ^ 2.
Proof.
  destruct users as (u & HU).
  exists (fun _ => 0), (fun m => ModeKw (N:=RNum) (match nn with AOne x => x | AIter l => nth m l None | ADict d => match d m with Some v => v | None => None end end) None None None None (m =? 1)%nat None None None), u. split.
  - intros m Hm. split; [exists (Some 0); split; reflexivity|]. split; [|now apply HU].
    unfold mode_values, with_parafac2, call, script_call. cbn. split; [now apply nn_value|]. repeat split.
  - intros c. unfold fit_loss, call, script_call, with_parafac2. cbn [f_data f_updA f_updB f_updC]. unfold mode_penalty, requested_penalty. cbn [k_l1 k_tv k_gl2 strength].
    rewrite (no_penalty (u 0%nat)) by (intros o IN; apply (HG _ _ (HU 0%nat ltac:(lia)) o IN)). rewrite (no_penalty (u 2%nat)) by (intros o IN; apply (HG _ _ (HU 2%nat ltac:(lia)) o IN)).
    assert (Z : forall n (g : nat -> R), (forall i, (i < n)%nat -> g i = 0) -> Sum n g = 0).
    { intros n g K. rewrite (Sum_ext n g (fun _ => 0)) by exact K. clear. induction n as [|n IH]; cbn [Sum]; [reflexivity|]. rewrite IH. lra. }
    match goal with |- _ + _ + (_ + Sum ?n ?g + _) = _ => assert (ZB : Sum n g = 0); [apply Z|rewrite ZB; lra] end. intros i Hi. rewrite (no_penalty (u 1%nat)) by (intros o IN; apply (HG _ _ (HU 1%nat ltac:(lia)) o IN)). lra.
Qed.
Lemma start_reports i f : start i = Ok f -> ends_with_loss f (1 / 2 * rel_error Xs (fst f) ^ 2) /\ ends_with_error f (rel_error Xs (fst f)).
Proof.
  unfold start, start_fit, parafac2_aoadmm. intros E. destruct (cmf_aoadmm V IE (rnd i) (with_parafac2 (N:=RNum) call)) as [out|] eqn:EO; [|discriminate]. cbn [bind] in E.
  destruct (out_vars out); [discriminate|]. destruct (out_diag out) as [d|] eqn:ED; [|discriminate]. injection E as <-.
  destruct (C33_fit_reports V IE (rnd i) _ rank out call_sensible HI HV (proj2 (proj2 (proj2 HX))) EO) as (_ & _ & K).
  destruct (K d ED) as (L1 & L2 & _ & _ & c0 & pos & _ & _ & K1 & K2). destruct call_arguments as (l & kw & u & HA & HL). destruct (K2 l kw u HA) as (_ & K3). rewrite HL in K3. cbn [fst snd].
  assert (LAST : forall (xs : list xnumR) n y, length xs = S n -> nth n xs NaN = y -> exists ys, xs = ys ++ [y]).
  { intros xs n y HL' HN. destruct (exists_last (l:=xs)) as (ys & z & ->); [intros ->; discriminate|]. exists ys. rewrite app_length in HL'. cbn in HL'. rewrite app_nth2, (ltac:(lia) : (n - length ys = 0)%nat) in HN by lia. cbn in HN. now rewrite HN. }
  split; eapply LAST; eassumption.
Qed.
Lemma rel_error_nonneg c : 0 <= rel_error Xs c.
Proof. destruct HX as (_ & _ & _ & P). unfold rel_error. apply Rmult_le_pos; [apply sqrt_pos|]. left. apply Rinv_0_lt_compat. now apply sqrt_lt_R0. Qed.
Lemma R_ordered : ordered (N:=RNum).
Proof.
  unfold ordered, le. rn. split.
  - intros x y. rewrite !Rleb_true. lra.
  - intros x y z. rewrite !Rleb_true. lra.
Qed.
Lemma le_R (x y : R) : le (N:=RNum) x y <-> x <= y.
Proof. unfold le. rn. apply Rleb_true. Qed.
Lemma half_square x y : 0 <= x -> 0 <= y -> (1 / 2 * x ^ 2 <= 1 / 2 * y ^ 2 <-> x <= y).
Proof. intros. split; intros; nra. Qed.

(** ** C84: the selected model has the smallest reconstruction error of all starts. *)
Theorem C84_smallest_error n m : bike_model start n = Ok m ->
  (m = None <-> n = 0%nat) /\
  forall f, m = Some f -> exists i, (i < n)%nat /\ start i = Ok f /\
    forall j, (j < n)%nat -> exists g, start j = Ok g /\ rel_error Xs (fst f) <= rel_error Xs (fst g) /\ ((j < i)%nat -> rel_error Xs (fst f) < rel_error Xs (fst g)).
Proof.
  intros E. destruct (C84_lowest_loss start n m R_ordered E) as (fits & (LF & HF) & H1 & H2).
  assert (FJ : forall j, (j < n)%nat -> exists g, nth_error fits j = Some g /\ start j = Ok g).
  { intros j Hj. destruct (nth_error fits j) as [g|] eqn:EJ; [exists g; split; [reflexivity|now apply HF]|]. apply nth_error_None in EJ. lia. }
  split.
  - rewrite H2. split.
    + intros K. destruct n as [|k]; [reflexivity|]. destruct (FJ 0%nat ltac:(lia)) as (g & G1 & G2). exfalso. apply (K _ _ _ G1 (proj1 (start_reports _ _ G2))).
    + intros -> i f l K. destruct fits; [destruct i; discriminate|discriminate].
  - intros f Em. destruct (H1 f Em) as (i & Hi & l & Hl & K). exists i. assert (Li : (i < n)%nat) by (rewrite <- LF; apply nth_error_Some; congruence).
    split; [exact Li|]. split; [now apply HF|]. intros j Hj. destruct (FJ j Hj) as (g & G1 & G2). exists g. split; [exact G2|].
    assert (l = 1 / 2 * rel_error Xs (fst f) ^ 2) as -> by (apply (loss_fun f); [exact Hl|]; apply (start_reports i), HF, Hi).
    destruct (K j g _ G1 (proj1 (start_reports _ _ G2))) as (K1 & K2). rewrite le_R, half_square in K1 by apply rel_error_nonneg. split; [exact K1|].
    intros L. specialize (K2 L). unfold lt in K2. rewrite le_R, half_square in K2 by apply rel_error_nonneg. lra.
Qed.

(** ** C84: the scripts about simulated data keep the last converged start whenever half the squared error of every
    converged start is below the error of every other. *)
Theorem C84_last_converged n kept low : nonnegative_starts start n = Ok (kept, low) ->
  (forall i j f g, (i < n)%nat -> (j < n)%nat -> start i = Ok f -> start j = Ok g -> converged f -> converged g -> rel_error Xs (fst f) ^ 2 / 2 < rel_error Xs (fst g)) ->
  forall i f, (i < n)%nat -> start i = Ok f -> converged f -> (forall j g, (i < j < n)%nat -> start j = Ok g -> ~ converged g) -> kept = Some f.
Proof.
  intros E HE i f Hi Ef CF HL. destruct (C84_converged_partial start n kept low E) as (fits & (LF & HF) & H1 & H2).
  assert (Ni : nth_error fits i = Some f).
  { destruct (nth_error fits i) as [g|] eqn:EJ; [|apply nth_error_None in EJ; lia]. pose proof (HF _ _ EJ). congruence. }
  destruct kept as [g|].
  - destruct (H1 g eq_refl) as (q & Hq & CG & K). assert (Lq : (q < n)%nat) by (rewrite <- LF; apply nth_error_Some; congruence). pose proof (HF _ _ Hq) as Eg.
    destruct (Nat.lt_trichotomy q i) as [L|[->|L]]; [|congruence|exfalso; apply (HL q g); auto].
    exfalso. pose proof (K _ (proj2 (start_reports _ _ Eg)) i f _ L Ni CF (proj1 (start_reports _ _ Ef))) as M. rewrite le_R in M.
    specialize (HE i q f g Hi Lq Ef Eg CF CG). lra.
  - exfalso. exact (proj1 H2 eq_refl i f _ Ni CF (proj1 (start_reports _ _ Ef))).
Qed.
End Calls.
Print Assumptions C84_smallest_error.
Print Assumptions C84_last_converged.

(** A case that meets the hypotheses: one 1 x 1 matrix, rank 1, no iterations; the two starts have the relative
    errors 7/8 and 0, and the second is selected. *)
Definition seeds41 (seed : nat) : randR := fun _ _ => if (seed =? 0)%nat then 1 / 2 else 1.
Definition call41 : fitR := script_call (N:=RNum) [m11 1] 1 0 (1 / 1000) (AOne None) RNone.
Definition state41 (x : R) : state (N:=RNum) :=
  St (N:=RNum) (Cmf (N:=RNum) None (m11 x) [m11 x] (m11 x)) [] [BReg (N:=RNum) (Parafac2 1 true true) (APf2 [m11 1] (m11 x)) [m11 x]] [] None.
Lemma parse41 V : parse_all V (f_kw (with_parafac2 (N:=RNum) call41)) RNone (IStr RandomUniform) (IStr RandomUniform) = Ok ([], [PObj (N:=RNum) (Parafac2 1 true true) (IStr RandomUniform) (IStr RandomUniform)], []).
Proof.
  unfold parse_all. cbn [f_kw with_parafac2 with_pf2 call41 script_call check_regs a_nn a_upper a_lower a_norm a_uni a_l1 a_gl2 a_tv a_pf2 listify bind].
  assert (K : forall b ai di, parse_mode V (ModeKw (N:=RNum) None None None None None b None None None) ai di = Ok (if b then [PObj (N:=RNum) (Parafac2 1 true true) ai di] else [])).
  { intros b ai di. unfold parse_mode. cbn [k_nn k_lower k_upper k_norm k_uni k_pf2 k_l1 k_tv k_gl2 btruthy bind otruthy]. cbv zeta. cbv iota.
    change (ntruthy (N:=RNum) n0) with (ntruthy (N:=RNum) 0). rewrite zero_not_truthy. destruct b; reflexivity. }
  rewrite !K. reflexivity.
Qed.
Lemma setup41 V seed : setup V no_ext (seeds41 seed) (with_parafac2 (N:=RNum) call41) = Ok (state41 (if (seed =? 0)%nat then 1 / 2 else 1), (Some 0, Some 0, Some 0)).
Proof.
  pose proof (parse41 V) as PA. unfold setup. cbn [with_parafac2 call41 script_call f_svd f_data f_rank f_init f_l2 f_kw f_regs f_aux f_dual f_updA f_updB f_updC negb] in PA |- *.
  match goal with |- _ = Ok (?s, _) => match goal with |- context[initialize_cmf ?a ?b ?c ?d ?e ?f ?g] => assert (E1 : initialize_cmf a b c d e f g = Ok (st_cmf s, 3%nat)) by reflexivity end end.
  rewrite E1. cbn [bind listify]. rewrite PA. reflexivity.
Qed.
Lemma fittable41 : fittable [m11 1] 1.
Proof.
  split; [discriminate|]. split; [lia|]. split; [intros X [<-|[]]; split; [repeat constructor|cbn; lia]|]. cbv -[R Rplus Rmult IZR Rlt]. lra.
Qed.
Lemma start41 V seed : exists d, start_fit (N:=RNum) V no_ext seeds41 call41 seed = Ok (st_cmf (state41 (if (seed =? 0)%nat then 1 / 2 else 1)), d).
Proof.
  assert (HS : sensible V (with_parafac2 (N:=RNum) call41) 1) by (apply call_sensible; [exact fittable41|intros m u -> o []]).
  pose proof (setup41 V seed) as SU. set (x := if (seed =? 0)%nat then 1 / 2 else 1) in *. destruct (setup_ok _ _ _ _ _ _ _ HS no_ext_ranks SU) as (VS & _). change (f_data (with_parafac2 (N:=RNum) call41)) with [m11 1] in VS.
  destruct (state_gaps_ok [m11 1] _ VS) as (g & GO & _).
  assert (LO : forall P, exists lo, state_loss P [m11 1] (state41 x) = Ok lo) by (intros P; now apply state_loss_total).
  unfold start_fit, parafac2_aoadmm, cmf_aoadmm. rewrite SU. cbn [bind]. change (f_data (with_parafac2 (N:=RNum) call41)) with [m11 1].
  change (f_const (with_parafac2 (N:=RNum) call41)) with (CBool false). change (f_n_iter (with_parafac2 (N:=RNum) call41)) with 0%Z. change (f_return_vars (with_parafac2 (N:=RNum) call41)) with false.
  unfold init_hist at 1. destruct (LO (fit_params (with_parafac2 (N:=RNum) call41) (Some 0, Some 0, Some 0) (false, false))) as (lo & EL). cbv zeta. rewrite EL. cbn [bind]. rewrite GO. cbn [bind const_flags].
  unfold run, init_hist. cbv zeta. rewrite EL. cbn [bind]. rewrite GO. cbn [bind]. change (Z.to_nat 0) with 0%nat. cbn [ao_loop bind].
  change (p_return_errors (fit_params (with_parafac2 (N:=RNum) call41) (Some 0, Some 0, Some 0) (false, false))) with true. rewrite GO. rewrite revalidate_ok by apply VS.
  destruct (p_feas_tol _) as [t|]; [destruct (ntruthy (N:=RNum) t && true)%bool|]; cbn [bind out_vars out_diag out_cmf]; eexists; reflexivity.
Qed.
Example C84_nonvacuous : exists V f, svd_correct (e_ext V) 1 /\ fittable [m11 1] 1 /\ ranks_kept no_ext /\ constraints_only (RNone (N:=RNum)) /\
  bike_model (N:=RNum) (start_fit (N:=RNum) V no_ext seeds41 call41) 2 = Ok (Some f) /\ rel_error [m11 1] (fst f) = 0 /\
  exists g, start_fit (N:=RNum) V no_ext seeds41 call41 0 = Ok g /\ rel_error [m11 1] (fst g) = 7 / 8.
Proof.
  destruct ideal_exists as (E & HE & _). set (V := Env (N:=RNum) E (fun _ => []) true). exists V.
  destruct (start41 V 0) as (d0 & E0), (start41 V 1) as (d1 & E1). cbn [Nat.eqb] in E0, E1.
  assert (CO : constraints_only (RNone (N:=RNum))) by (intros m u -> o []).
  pose proof (start_reports V no_ext seeds41 [m11 1] 1 0 (1 / 1000) (AOne None) RNone fittable41 I CO I no_ext_ranks (HE 1%nat)) as REP. fold call41 in REP.
  assert (RE : forall x, 0 <= x <= 1 -> rel_error [m11 1] (st_cmf (state41 x)) = 1 - x ^ 3).
  { intros x Hx. unfold rel_error. replace (data_sumsq [m11 1]) with 1 by (cbv -[R Rplus Rmult IZR]; ring). rewrite sqrt_1.
    replace (residual [m11 1] (st_cmf (state41 x))) with ((1 - x ^ 3) * (1 - x ^ 3)) by (cbv -[R Rplus Rminus Ropp Rmult IZR]; ring). rewrite sqrt_square; [lra|]. pose proof (pow_incr x 1 3 Hx). rewrite pow1 in H. lra. }
  destruct (bike_total (start_fit (N:=RNum) V no_ext seeds41 call41) 2) as (m & EM).
  { intros i Hi. destruct (start41 V i) as (d & Ei). eexists. exists (Fin (N:=RNum) (1 / 2 * rel_error [m11 1] (st_cmf (state41 (if (i =? 0)%nat then 1 / 2 else 1))) ^ 2)). split; [exact Ei|]. apply last_item_ok. exact (proj1 (REP i _ Ei)). }
  destruct (C84_smallest_error V no_ext seeds41 [m11 1] 1 0 (1 / 1000) (AOne None) RNone fittable41 I CO I no_ext_ranks (HE 1%nat) 2 m EM) as (K1 & K2).
  destruct m as [f|]; [|exfalso; pose proof (proj1 K1 eq_refl); lia]. destruct (K2 f eq_refl) as (i & Hi & Ei & K3). destruct (K3 1%nat ltac:(lia)) as (g & Eg & L & _). fold call41 in Ei, Eg.
  rewrite E1 in Eg. assert (EG : fst g = st_cmf (state41 1)) by (injection Eg as <-; reflexivity). rewrite EG, RE in L by lra.
  exists f. split; [apply HE|]. split; [exact fittable41|]. split; [exact no_ext_ranks|]. split; [exact CO|]. split; [exact EM|]. split.
  - pose proof (rel_error_nonneg [m11 1] 1 fittable41 (fst f)). lra.
  - eexists. split; [exact E0|]. cbn [fst]. rewrite RE by lra. lra.
Qed.

(** The scores of the script about the number of components, for real numbers: one minus half the squared relative
    error of the best start (not one minus the squared relative error: the score of a model that is as good as
    zero is 1/2). *)
Theorem C84_fit_scores (V : envR) IE rnd (Xs : list matR) (n : nat) (ranks : list nat) scores :
  (0 < n)%nat -> (forall r, In r ranks -> fittable Xs r /\ svd_correct (e_ext V) r) -> ranks_kept IE ->
  let start r := start_fit (N:=RNum) V IE rnd (scree_call (N:=RNum) Xs r) in
  scree (N:=RNum) start n ranks = Ok scores ->
  Forall2 (fun r x => exists i f, (i < n)%nat /\ start r i = Ok f /\ x = (Some (1 - rel_error Xs (fst f) ^ 2 / 2), Some f) /\
    forall j g, (j < n)%nat -> start r j = Ok g -> rel_error Xs (fst f) <= rel_error Xs (fst g)) ranks scores.
Proof.
  intros Hn HR HI start E. pose proof (C84_scores start n ranks scores R_ordered E) as F.
  assert (REP : forall r i f, In r ranks -> start r i = Ok f -> ends_with_loss f (1 / 2 * rel_error Xs (fst f) ^ 2)).
  { intros r i f IN K. destruct (HR r IN) as (H1 & H2).
    assert (W : well_formed (AIter [Some true; Some false; Some false])) by reflexivity.
    assert (CO : constraints_only (RNone (N:=RNum))) by (intros m u -> o []).
    exact (proj1 (start_reports V IE rnd Xs r 1000 (nlit (Num:=RNum) 1 100000000) (AIter [Some true; Some false; Some false]) RNone H1 W CO I HI H2 i f K)). }
  revert F REP. generalize HR. clear - Hn. intros HR F. induction F as [|r x ranks scores (fits & (LF & HF) & HS) F IH]; intros REP; constructor.
  - assert (FP : forall c, 0 <= rel_error Xs c) by (intros c; apply (rel_error_nonneg Xs r); apply HR; now left).
    destruct HS as [(i & f & l & -> & (Hi & l' & Hl' & K) & Hl)|(_ & K)].
    + exists i, f. split; [rewrite <- LF; apply nth_error_Some; congruence|]. split; [now apply HF|]. pose proof (REP r i f (or_introl eq_refl) (HF _ _ Hi)) as HL.
      pose proof (loss_fun f _ _ Hl HL) as ->. pose proof (loss_fun f _ _ Hl' HL) as ->. split; [f_equal; f_equal; rn; lra|].
      intros j g Hj Eg. destruct (nth_error fits j) as [g'|] eqn:EJ; [|apply nth_error_None in EJ; lia]. pose proof (HF _ _ EJ) as Eg'. rewrite Eg in Eg'. injection Eg' as <-.
      destruct (K j g _ EJ (REP r j g (or_introl eq_refl) Eg)) as (K1 & _). rewrite le_R, half_square in K1 by apply FP. exact K1.
    + exfalso. destruct (nth_error fits 0) as [g|] eqn:EJ; [|apply nth_error_None in EJ; lia]. exact (K _ _ _ EJ (REP r 0%nat g (or_introl eq_refl) (HF _ _ EJ))).
  - apply IH; [intros q Hq; apply HR; now right|]. intros q i f Hq. apply REP. now right.
Qed.
Print Assumptions C84_fit_scores.

(** ** Runs in double precision: two starts of the non-negative script, both converged after nine iterations; the
    first fit has relative error 0.573, the second 0.819.  The script keeps the second. *)
Definition two_matrices : list (mat (N:=DNum)) := [Mat (N:=DNum) 1 2 [[lit 1 1; lit 0 1]]; Mat (N:=DNum) 1 2 [[lit 0 1; lit 7 10]]].
Definition two_seeds (seed : nat) : rand (N:=DNum) := fun _ i =>
  if (i <? 4)%nat then (if (i mod 2 =? seed)%nat then lit 9 10 else lit 1 1000000000) else if (i <? 6)%nat then lit 1 2 else lit 1 1000000000.
Definition two_starts : nat -> res (fitted (N:=DNum)) := start_fit (N:=DNum) double_env double_init two_seeds (nonnegative_call (N:=DNum) two_matrices 1).
Definition x_last (l : list (xnum (N:=DNum))) : xnum (N:=DNum) := last l NaN.
Definition finite (x : xnum (N:=DNum)) : bool := match x with Fin _ => true | _ => false end.
Definition stopped (d : diagnostics (N:=DNum)) : bool := match d_stopped d with Some b => b | None => false end.
Definition check_starts (start : nat -> res (fitted (N:=DNum))) : bool :=
  match start 0%nat, start 1%nat with
  | Ok (_, d0), Ok (_, d1) =>
      stopped d0 && stopped d1 && xless (N:=DNum) (x_last (d_losses d0)) (x_last (d_losses d1)) && finite (x_last (d_losses d0)) && finite (x_last (d_losses d1)) &&
      xless (N:=DNum) (x_last (d_errors d0)) (Fin (N:=DNum) (lit 6 10)) && xless (N:=DNum) (Fin (N:=DNum) (lit 8 10)) (x_last (d_errors d1)) &&
      xless (N:=DNum) (x_last (d_losses d1)) (x_last (d_errors d0)) && finite (x_last (d_errors d1))
  | _, _ => false
  end.
Lemma two_checked : check_starts two_starts = true.
Proof. vm_compute. reflexivity. Qed.
Lemma x_last_fin (l : list (xnum (N:=DNum))) x : x_last l = Fin x -> exists ls, l = ls ++ [Fin x].
Proof.
  intros E. destruct l as [|y l]; [discriminate|]. destruct (exists_last (l:=y :: l)) as (ls & z & EL); [discriminate|]. unfold x_last in E. rewrite EL, last_last in E. subst z. now exists ls.
Qed.
Lemma check_outcome (start : nat -> res (fitted (N:=DNum))) : check_starts start = true -> exists good bad low,
  start 0%nat = Ok good /\ converged good /\ start 1%nat = Ok bad /\ converged bad /\
  (* the script keeps the second *)
  nonnegative_starts start 2%nat = Ok (Some bad, low) /\
  (* whose loss and error are larger than those of the first *)
  (exists l l', ends_with_loss good l /\ ends_with_loss bad l' /\ lt (N:=DNum) l l') /\
  (exists e e', ends_with_error good e /\ ends_with_error bad e' /\ lt (N:=DNum) e (lit 6 10) /\ lt (N:=DNum) (lit 8 10) e') /\
  (* the bike sharing script would have selected the first *)
  bike_model start 2%nat = Ok (Some good).
Proof.
  intros C. unfold check_starts in C. destruct (start 0%nat) as [[c0 d0]|] eqn:E0; [|discriminate]. destruct (start 1%nat) as [[c1 d1]|] eqn:E1; [|discriminate].
  repeat (apply andb_true_iff in C as (C & ?)). rename C into S0. rename H6 into S1. unfold stopped in S0, S1.
  destruct (x_last (d_losses d0)) as [l0| |] eqn:L0; try discriminate. destruct (x_last (d_losses d1)) as [l1| |] eqn:L1; try discriminate.
  destruct (x_last (d_errors d0)) as [e0| |] eqn:F0; try discriminate. destruct (x_last (d_errors d1)) as [e1| |] eqn:F1; try discriminate.
  assert (LT : forall x y : num (Num:=DNum), xless (N:=DNum) (Fin x) (Fin y) = true -> lt (N:=DNum) x y).
  { intros x y K. apply xless_lt in K as (u & K1 & [K|(b & K & L)]); [discriminate|]. injection K1 as <-. injection K as <-. exact L. }
  apply x_last_fin in L0, L1, F0, F1.
  assert (X0 : last_item (d_losses d0) = Ok (Fin l0)) by now apply last_item_ok. assert (X1 : last_item (d_losses d1) = Ok (Fin l1)) by now apply last_item_ok.
  assert (Y0 : last_item (d_errors d0) = Ok (Fin e0)) by now apply last_item_ok. assert (Y1 : last_item (d_errors d1) = Ok (Fin e1)) by now apply last_item_ok.
  exists (c0, d0), (c1, d1), (Fin e1). split; [reflexivity|]. split; [unfold converged; cbn [snd]; destruct (d_stopped d0) as [[]|]; [reflexivity|discriminate..]|].
  split; [reflexivity|]. split; [unfold converged; cbn [snd]; destruct (d_stopped d1) as [[]|]; [reflexivity|discriminate..]|].
  split. { unfold nonnegative_starts. cbn [seq for_in]. unfold nonnegative_step at 1. rewrite E0. cbn [bind]. rewrite X0. cbn [bind xless andb]. rewrite S0, Y0. cbn [bind].
    unfold nonnegative_step. rewrite E1. cbn [bind]. rewrite X1. cbn [bind]. rewrite H0, S1. cbn [andb]. rewrite Y1. reflexivity. }
  split; [exists l0, l1; split; [exact L0|]; split; [exact L1|]; now apply LT|].
  split; [exists e0, e1; split; [exact F0|]; split; [exact F1|]; split; now apply LT|].
  unfold bike_model, bike_starts. cbn [seq for_in]. unfold bike_step at 1. rewrite E0. cbn [bind]. rewrite X0. cbn [bind xless]. unfold bike_step. rewrite E1. cbn [bind]. rewrite X1. cbn [bind].
  assert (Z : xless (N:=DNum) (Fin l1) (Fin l0) = false).
  { destruct (xless (N:=DNum) (Fin l1) (Fin l0)) eqn:K; [|reflexivity]. apply LT in K. apply LT in H5. exfalso. exact (H5 (lt_le double_ordered _ _ K)). }
  rewrite Z. reflexivity.
Qed.
Theorem C84_simulated_refuted : exists good bad low,
  two_starts 0 = Ok good /\ converged good /\ two_starts 1 = Ok bad /\ converged bad /\
  (* the script keeps the second *)
  nonnegative_starts two_starts 2 = Ok (Some bad, low) /\
  (* whose loss and error are larger than those of the first *)
  (exists l l', ends_with_loss good l /\ ends_with_loss bad l' /\ lt (N:=DNum) l l') /\
  (exists e e', ends_with_error good e /\ ends_with_error bad e' /\ lt (N:=DNum) e (lit 6 10) /\ lt (N:=DNum) (lit 8 10) e') /\
  (* the bike sharing script would have selected the first *)
  bike_model two_starts 2 = Ok (Some good).
Proof. exact (check_outcome two_starts two_checked). Qed.
Print Assumptions C84_simulated_refuted.
