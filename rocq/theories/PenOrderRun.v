(** The same penalties in another order: steps, loops and runs. *)
From Coq Require Import Reals Lra Lia List Arith Bool ZArith Permutation.
From Verif Require Import Num Numpy RFacts Spec SpecFacts MatFacts ModelSpec Penalties PenaltySpec CoupledMatrices CmfSpec Decomp DecompSpec
  AdmmLoop OrderProofs ReorderFacts.
Import ListNotations.
Local Open Scope R_scope.

(** What holds of whatever is returned. *)
Definition fwd {A B} (Q : A -> B -> Prop) (x : res A) (y : res B) : Prop := forall r, x = Ok r -> exists r', y = Ok r' /\ Q r r'.
Lemma fwd_bind {A B A' B'} (Q : A -> B -> Prop) (Q' : A' -> B' -> Prop) x y f g :
  fwd Q x y -> (forall a b, x = Ok a -> Q a b -> fwd Q' (f a) (g b)) -> fwd Q' (bind x f) (bind y g).
Proof.
  intros H K r E. destruct x as [a|]; [|discriminate E]. cbn [bind] in E. destruct (H a eq_refl) as (b & -> & HQ). cbn [bind]. now apply (K a b eq_refl HQ).
Qed.
Lemma fwd_ok {A B} (Q : A -> B -> Prop) a b : Q a b -> fwd Q (Ok a) (Ok b).
Proof. intros H r E. injection E as <-. eauto. Qed.
Lemma fwd_refl {A} (x : res A) : fwd eq x x. Proof. intros r ->. eauto. Qed.

(** ** Lists in another order *)
Definition perm_of (p : list nat) {T} (l l' : list T) : Prop := Permutation p (seq 0 (length l)) /\ l' = reorder p l.
Lemma perm_length p {T} (l l' : list T) : perm_of p l l' -> length l' = length l.
Proof. intros (H & ->). now apply reorder_length. Qed.
Lemma perm_perm p {T} (l l' : list T) : perm_of p l l' -> Permutation l' l.
Proof. intros (H & ->). now apply (reorder_perm p (length l)). Qed.
Lemma perm_map p {T U} (f : T -> U) l l' : perm_of p l l' -> perm_of p (map f l) (map f l').
Proof. intros (H & ->). split; [now rewrite map_length|now rewrite reorder_map]. Qed.
Lemma perm_mapM p {T U} (f : T -> res U) l l' : perm_of p l l' -> fwd (perm_of p) (mapM f l) (mapM f l').
Proof.
  intros (H & ->) r E. exists (reorder p r). split; [now apply mapM_reorder|]. split; [|reflexivity]. now rewrite (mapM_length _ _ _ E).
Qed.
Lemma perm_short p {T} (l l' : list T) : perm_of p l l' -> (length l <= 1)%nat -> l' = l.
Proof.
  intros H L. apply perm_perm in H. destruct l as [|x [|y l]]; cbn in L; [|now apply Permutation_sym, Permutation_length_1_inv in H|lia]. now apply Permutation_sym, Permutation_nil in H.
Qed.
Lemma fold_permT {T U} (f : U -> T -> U) : (forall a x y, f (f a x) y = f (f a y) x) -> forall l m, Permutation l m -> forall a, fold_left f l a = fold_left f m a.
Proof.
  intros HF l m H. induction H as [|x l m H IH|x y l|l m k H1 IH1 H2 IH2]; intros a; cbn [fold_left]; auto.
  - now rewrite HF.
  - now rewrite IH1.
Qed.
Lemma vadd_swap (a x y : list R) : vadd (N:=RNum) (vadd (N:=RNum) a x) y = vadd (N:=RNum) (vadd (N:=RNum) a y) x.
Proof.
  unfold vadd. revert x y. induction a as [|u a IH]; intros [|v x] [|w y]; cbn [map2]; try reflexivity. f_equal; [cbn; lra|apply IH].
Qed.
Lemma madd_swap (a x y : rmat) : madd (madd a x) y = madd (madd a y) x.
Proof.
  unfold madd, mmap2. cbn [mr mc]. unfold mbuild. cbn [mr mc]. f_equal. apply map_ext_in. intros i Hi. apply map_ext_in. intros j Hj. apply in_seq in Hi, Hj.
  fold (@mbuild RNum (mr a) (mc a)). 
  assert (G : forall f, mget (N:=RNum) (Mat (mr a) (mc a) (map (fun i => map (f i) (seq 0 (mc a))) (seq 0 (mr a)))) i j = f i j) by (intros f; apply mget_mbuild; lia).
  rewrite !G. cbn. lra.
Qed.
Lemma sum_rows_perm R0 (l l' : list rmat) i : Permutation l' l -> sum_rows R0 l' i = sum_rows R0 l i.
Proof. intros H. unfold sum_rows. apply fold_permT; [|exact H]. intros a x y. apply vadd_swap. Qed.
Lemma sum_mats_perm r c (l l' : list rmat) : Permutation l' l -> sum_mats r c l' = sum_mats r c l.
Proof. intros H. unfold sum_mats. apply fold_permT; [|exact H]. intros a x y. apply madd_swap. Qed.

(** ** The largest gap *)
Notation xR := (xnum (N:=RNum)).
Definition all_fin (l : list xR) : Prop := forall x, In x l -> exists a, x = Fin (N:=RNum) a.
Definition none_fin (l : list xR) : Prop := forall x, In x l -> forall a, x <> Fin (N:=RNum) a.
Lemma xmax_cmp t (l l' : list xR) : Permutation l' l -> all_fin l \/ none_fin l ->
  match xmax_list l' with None => true | Some m => xlt m t end = match xmax_list l with None => true | Some m => xlt m t end.
Proof.
  intros P [H|H].
  - assert (H' : all_fin l') by (intros x Hx; apply H; now apply (Permutation_in _ P)).
    apply eq_true_iff_eq. rewrite (xmax_lt t l H), (xmax_lt t l' H'). split; intros K x Hx; apply K; [now apply (Permutation_in _ (Permutation_sym P))|now apply (Permutation_in _ P)].
  - destruct l as [|y l]; [apply Permutation_sym, Permutation_nil in P; now subst|].
    assert (H' : none_fin l') by (intros x Hx; apply H; now apply (Permutation_in _ P)).
    rewrite (xmax_inf t _ H) by discriminate. apply (xmax_inf t _ H'). intros ->. apply Permutation_nil in P. discriminate.
Qed.
Lemma fold_fin (l : list R) : forall a, fold_left (fun m y : xR => if xgt y m then y else m) (map (Fin (N:=RNum)) l) (Fin (N:=RNum) a) = Fin (N:=RNum) (fold_left Rmax l a).
Proof.
  induction l as [|b l IH]; intros a; [reflexivity|]. cbn [map fold_left xgt]. rewrite <- IH. f_equal. destruct (nltb (N:=RNum) a b) eqn:E; [apply nltb_true in E|]; f_equal.
  - symmetry. apply Rmax_right. lra.
  - symmetry. apply Rmax_left. apply Rnot_lt_le. intros X. apply nltb_true in X. congruence.
Qed.
Lemma all_fin_map l : all_fin l -> exists v, l = map (Fin (N:=RNum)) v.
Proof.
  induction l as [|x l IH]; intros H; [now exists []|]. destruct (H x (or_introl eq_refl)) as (a & ->). destruct IH as (v & ->); [intros y Hy; apply H; now right|]. now exists (a :: v).
Qed.
Lemma xmax_fin (l l' : list xR) : Permutation l' l -> all_fin l -> xmax_list l' = xmax_list l.
Proof.
  intros P H. assert (H' : all_fin l') by (intros x Hx; apply H; now apply (Permutation_in _ P)).
  destruct (all_fin_map _ H) as (v & ->), (all_fin_map _ H') as (v' & ->). clear H H'.
  assert (P' : Permutation v' v). { apply (Permutation_map (fun x : xR => match x with Fin a => a | _ => 0 end)) in P. rewrite !map_map in P. cbn in P. now rewrite !map_id in P. }
  pose proof (extreme_perm Rmax v' v Rmax_comm (fun x y z => eq_sym (Rmax_assoc x y z)) (fun x => Rmax_left x x (Rle_refl x)) P') as X.
  destruct v' as [|a v'], v as [|b v]; try reflexivity; try (apply Permutation_nil in P'; discriminate); try (apply Permutation_sym, Permutation_nil in P'; discriminate).
  cbn [map xmax_list]. rewrite !fold_fin. now rewrite X.
Qed.

(** ** Gaps *)
Lemma xdiv_fin (a b : R) : b <> 0 -> exists x, xdiv (N:=RNum) a b = Fin (N:=RNum) x.
Proof. intros H. unfold xdiv. destruct (neqb (N:=RNum) b n0) eqn:E; [apply neqb_true in E; contradiction|eauto]. Qed.
Lemma xdiv_none (a b : R) : b = 0 -> forall x, xdiv (N:=RNum) a b <> Fin (N:=RNum) x.
Proof. intros ->. apply xdiv_zero. Qed.
Lemma gaps_mat_fin (M : rmat) l g : mapM (gap_mat M) l = Ok g -> (mnorm M <> 0 -> all_fin g) /\ (mnorm M = 0 -> none_fin g).
Proof.
  revert g. induction l as [|x l IH]; intros g H; cbn [mapM] in H; [injection H as <-; split; intros _ y []|].
  unfold gap_mat at 1 in H. destruct (subtract_from_aux _ _ _) as [d|]; [|discriminate]. cbn [bind] in H. destruct (mapM (gap_mat M) l) as [g'|]; [|discriminate]. cbn [bind] in H. injection H as <-.
  destruct (IH g' eq_refl) as (I1 & I2). split; intros N0 y [<-|Hy]; [now apply xdiv_fin|now apply I1|now apply xdiv_none|now apply I2].
Qed.
Lemma gaps_list_fin (Bs : list rmat) l g : mapM (gap_list Bs) l = Ok g -> (root_sum_squared (N:=RNum) Bs <> 0 -> all_fin g) /\ (root_sum_squared (N:=RNum) Bs = 0 -> none_fin g).
Proof.
  revert g. induction l as [|x l IH]; intros g H; cbn [mapM] in H; [injection H as <-; split; intros _ y []|].
  unfold gap_list at 1 in H. destruct (subtract_from_auxes _ _ _) as [d|]; [|discriminate]. cbn [bind] in H. destruct (mapM (gap_list Bs) l) as [g'|]; [|discriminate]. cbn [bind] in H. injection H as <-.
  destruct (IH g' eq_refl) as (I1 & I2). split; intros N0 y [<-|Hy]; [now apply xdiv_fin|now apply I1|now apply xdiv_none|now apply I2].
Qed.

Lemma conv_fwd tol (nm ch : R) p (gs gs' : res (list xR)) : (forall g, gs = Ok g -> all_fin g \/ none_fin g) -> fwd (perm_of p) gs gs' ->
  fwd eq (inner_conv (N:=RNum) tol nm ch gs) (inner_conv (N:=RNum) tol nm ch gs').
Proof.
  intros HF H. unfold inner_conv. destruct tol as [t|]; [|apply fwd_refl]. destruct (_ || _)%bool; [apply fwd_refl|]. destruct (nltb _ _); [apply fwd_refl|].
  eapply fwd_bind; [exact H|]. intros g g' E PG. pose proof (xmax_cmp t _ _ (perm_perm _ _ _ PG) (HF g E)) as X.
  destruct (xmax_list g'), (xmax_list g); rewrite ?X; try (apply fwd_ok; congruence); apply fwd_ok; congruence.
Qed.

(** ** Inner loops *)
Lemma inner_fwd {S S'} (Q : S -> S' -> Prop) step step' conv conv' :
  (forall a b, Q a b -> fwd Q (step a) (step' b)) -> (forall a b a' b', Q a b -> Q a' b' -> fwd eq (conv a a') (conv' b b')) ->
  forall n a b, Q a b -> fwd Q (inner_loop step conv n a) (inner_loop step' conv' n b).
Proof.
  intros H1 H2. induction n as [|n IH]; intros a b HQ; cbn [inner_loop]; [now apply fwd_ok|].
  eapply fwd_bind; [now apply H1|]. intros a' b' _ HQ'. eapply fwd_bind; [now apply H2|]. intros x y _ <-. destruct x; [now apply fwd_ok|now apply IH].
Qed.
Definition pin (p : list nat) {M G} (a b : M * list G) : Prop := fst b = fst a /\ perm_of p (snd a) (snd b).

Section Run.
Variables (E : ext (N:=RNum)) (pA pB pC : list nat).
Lemma conv_mat_fwd p tol (a b a' b' : rmat * list (mreg (N:=RNum))) : pin p a b -> pin p a' b' -> fwd eq (conv_mat tol a a') (conv_mat tol b b').
Proof.
  intros (E1 & _) (E2 & P2). unfold conv_mat. rewrite E1, E2. apply (conv_fwd tol _ _ p); [|now apply perm_mapM].
  intros g EG. destruct (gaps_mat_fin _ _ _ EG) as (X & Y). destruct (Req_dec (mnorm (fst a')) 0); auto.
Qed.
Lemma conv_list_fwd p tol (a b a' b' : list rmat * list (breg (N:=RNum))) : pin p a b -> pin p a' b' -> fwd eq (conv_list tol a a') (conv_list tol b b').
Proof.
  intros (E1 & _) (E2 & P2). unfold conv_list. rewrite E1, E2. apply (conv_fwd tol _ _ p); [|now apply perm_mapM].
  intros g EG. destruct (gaps_list_fin _ _ _ EG) as (X & Y). destruct (Req_dec (root_sum_squared (N:=RNum) (fst a')) 0); auto.
Qed.
Lemma A_step_fwd p const svds fps rhses (a b : rmat * list (mreg (N:=RNum))) : pin p a b -> fwd (pin p) (A_step E const svds fps rhses a) (A_step E const svds fps rhses b).
Proof.
  destruct a as [A r], b as [A' r']. intros (E1 & P1). cbn [fst snd] in *. subst A'. unfold A_step.
  eapply fwd_bind; [unfold shifted_mats; apply (perm_mapM p); exact P1|]. intros sh sh' _ PS. 
  assert (ES : forall i, sum_rows (mc A) sh' i = sum_rows (mc A) sh i) by (intros i; apply sum_rows_perm; now apply (perm_perm p)).
  replace (mapM (fun i => solve_row (nth i svds (Mat 0 0 [], [], Mat 0 0 [])) (vadd (vscale (nth i fps n0) (sum_rows (mc A) sh' i)) (nth i rhses []))) (seq 0 (mr A)))
    with (mapM (fun i => solve_row (nth i svds (Mat 0 0 [], [], Mat 0 0 [])) (vadd (vscale (nth i fps n0) (sum_rows (mc A) sh i)) (nth i rhses []))) (seq 0 (mr A))) by (apply mapM_ext; intros i _; now rewrite ES).
  eapply fwd_bind; [apply fwd_refl|]. intros rows ? _ <-. cbv zeta. eapply fwd_bind; [apply (perm_mapM p); exact P1|]. intros g g' _ PG. apply fwd_ok. split; [reflexivity|exact PG].
Qed.
Lemma C_step_fwd p d fp rhs (a b : rmat * list (mreg (N:=RNum))) : pin p a b -> fwd (pin p) (C_step E d fp rhs a) (C_step E d fp rhs b).
Proof.
  destruct a as [C r], b as [C' r']. intros (E1 & P1). cbn [fst snd] in *. subst C'. unfold C_step.
  eapply fwd_bind; [unfold shifted_mats; apply (perm_mapM p); exact P1|]. intros sh sh' _ PS. rewrite (sum_mats_perm _ _ sh sh' (perm_perm p _ _ PS)).
  eapply fwd_bind; [apply fwd_refl|]. intros C2 ? _ <-. eapply fwd_bind; [apply (perm_mapM p); exact P1|]. intros g g' _ PG. apply fwd_ok. split; [reflexivity|exact PG].
Qed.
Lemma B_step_fwd p svds fps rhses (a b : list rmat * list (breg (N:=RNum))) : pin p a b -> fwd (pin p) (B_step E svds fps rhses a) (B_step E svds fps rhses b).
Proof.
  destruct a as [Bs r], b as [Bs' r']. intros (E1 & P1). cbn [fst snd] in *. subst Bs'. unfold B_step.
  eapply fwd_bind; [unfold shifted_lists; apply (perm_mapM p); exact P1|]. intros sh sh' _ PS.
  eapply fwd_bind with (Q := eq).
  - match goal with |- fwd eq ?x ?y => replace y with x; [apply fwd_refl|] end. apply mapM_ext. intros i _. cbv zeta.
    rewrite (sum_mats_perm _ _ (map (fun l => nth i l (Mat 0 0 [])) sh) (map (fun l => nth i l (Mat 0 0 [])) sh')); [reflexivity|]. apply Permutation_map. now apply (perm_perm p).
  - intros Bs2 ? _ <-. eapply fwd_bind; [apply (perm_mapM p); exact P1|]. intros g g' _ PG. apply fwd_ok. split; [reflexivity|exact PG].
Qed.

(** ** Outer iterations *)
Definition sst (s s' : state (N:=RNum)) : Prop :=
  st_cmf s' = st_cmf s /\ perm_of pA (st_rA s) (st_rA s') /\ perm_of pB (st_rB s) (st_rB s') /\ perm_of pC (st_rC s) (st_rC s') /\ st_inter s' = st_inter s.
Variables (P : params (N:=RNum)) (Xs : list rmat).
Lemma upd_B_fwd s s' : sst s s' -> fwd sst (upd_B E P Xs s) (upd_B E P Xs s').
Proof.
  intros (E1 & QA & QB & QC & E2). unfold upd_B. destruct (p_updB P); [|apply fwd_ok; unfold sst; cbn; auto].
  unfold admm_update_B. cbv zeta. rewrite E1, (perm_length pB _ _ QB).
  eapply fwd_bind with (Q := fun u v => fst v = fst u /\ perm_of pB (snd u) (snd v)).
  - eapply fwd_bind; [apply fwd_refl|]. intros fps ? _ <-. eapply fwd_bind; [apply (inner_fwd (pin pB)); [intros a b; apply B_step_fwd|intros a b a' b'; apply conv_list_fwd|split; [reflexivity|exact QB]]|].
    intros [Bs r] [Bs' r'] _ (K1 & K2). cbn [fst snd] in *. subst. apply fwd_ok. split; [reflexivity|exact K2].
  - intros [c r] [c' r'] _ (K1 & K2). cbn [fst snd] in *. subst. apply fwd_ok. unfold sst. cbn. auto.
Qed.
Lemma upd_C_fwd s s' : sst s s' -> fwd sst (upd_C E P Xs s) (upd_C E P Xs s').
Proof.
  intros (E1 & QA & QB & QC & E2). unfold upd_C. destruct (p_updC P); [|apply fwd_ok; unfold sst; cbn; auto].
  unfold admm_update_C. cbv zeta. rewrite E1, (perm_length pC _ _ QC). destruct (msum_list _) as [lhs|]; [|intros r H; discriminate H]. destruct (msum_list _) as [rhs|]; [|intros r H; discriminate H].
  eapply fwd_bind with (Q := fun u v => fst v = fst u /\ perm_of pC (snd u) (snd v)).
  - eapply fwd_bind; [apply (inner_fwd (pin pC)); [intros a b; apply C_step_fwd|intros a b a' b'; apply conv_mat_fwd|split; [reflexivity|exact QC]]|].
    intros [C r] [C' r'] _ (K1 & K2). cbn [fst snd] in *. subst. apply fwd_ok. split; [reflexivity|exact K2].
  - intros [c r] [c' r'] _ (K1 & K2). cbn [fst snd] in *. subst. apply fwd_ok. unfold sst. cbn. auto.
Qed.
Lemma upd_A_fwd s s' : sst s s' -> fwd sst (upd_A E P Xs s) (upd_A E P Xs s').
Proof.
  intros (E1 & QA & QB & QC & E2). unfold upd_A. destruct (p_updA P); [|apply fwd_ok; unfold sst; cbn; auto].
  unfold admm_update_A. cbv zeta. rewrite E1, (perm_length pA _ _ QA).
  eapply fwd_bind with (Q := fun u v => fst (fst v) = fst (fst u) /\ snd v = snd u /\ perm_of pA (snd (fst u)) (snd (fst v))).
  - eapply fwd_bind; [apply fwd_refl|]. intros fps ? _ <-. eapply fwd_bind; [apply (inner_fwd (pin pA)); [intros a b; apply A_step_fwd|intros a b a' b'; apply conv_mat_fwd|split; [reflexivity|exact QA]]|].
    intros [A r] [A' r'] _ (K1 & K2). cbn [fst snd] in *. subst. apply fwd_ok. split; [reflexivity|]. split; [reflexivity|exact K2].
  - intros [[c r] i] [[c' r'] i'] _ (K1 & K2 & K3). cbn [fst snd] in *. subst. apply fwd_ok. unfold sst. cbn. auto.
Qed.
Lemma outer_fwd s s' : sst s s' -> fwd sst (outer_step E P Xs s) (outer_step E P Xs s').
Proof.
  intros H. unfold outer_step. eapply fwd_bind; [now apply upd_B_fwd|]. intros s1 s1' _ H1. eapply fwd_bind; [now apply upd_C_fwd|]. intros s2 s2' _ H2. now apply upd_A_fwd.
Qed.
(** ** Diagnostics *)
Definition gperm (g g' : gaps (N:=RNum)) : Prop :=
  perm_of pA (fst (fst g)) (fst (fst g')) /\ perm_of pB (snd (fst g)) (snd (fst g')) /\ perm_of pC (snd g) (snd g').
Lemma gaps_fwd s s' : sst s s' -> fwd gperm (state_gaps s) (state_gaps s').
Proof.
  intros (E1 & QA & QB & QC & E2). unfold state_gaps, compute_gaps. rewrite E1.
  eapply fwd_bind; [apply perm_mapM; exact QA|]. intros gA gA' _ GA. eapply fwd_bind; [apply perm_mapM; exact QB|]. intros gB gB' _ GB. eapply fwd_bind; [apply perm_mapM; exact QC|]. intros gC gC' _ GC.
  apply fwd_ok. split; [exact GA|split; [exact GB|exact GC]].
Qed.
Lemma error_same s s' : sst s s' -> state_error Xs s' = state_error Xs s.
Proof. intros (E1 & _ & _ & _ & E2). unfold state_error. now rewrite E1, E2. Qed.
Lemma loss_fwd s s' : sst s s' -> fwd eq (state_loss P Xs s) (state_loss P Xs s').
Proof.
  intros H. pose proof H as (E1 & QA & QB & QC & E2). unfold state_loss. rewrite (error_same s s' H), E1. eapply fwd_bind with (Q := eq).
  - unfold reg_penalty. eapply fwd_bind; [apply perm_mapM; exact QA|]. intros gA gA' _ GA. eapply fwd_bind; [apply perm_mapM; exact QB|]. intros gB gB' _ GB. eapply fwd_bind; [apply perm_mapM; exact QC|]. intros gC gC' _ GC.
    apply fwd_ok. apply perm_perm in GA, GB, GC. rewrite (lsum_perm _ _ GA), (lsum_perm _ _ GB), (lsum_perm _ _ GC). reflexivity.
  - intros x ? _ <-. apply fwd_refl.
Qed.
(** Either only one mode has penalties, or no mode with several of them is zero. *)
Definition sound_gaps (s : state (N:=RNum)) : Prop :=
  ((2 <= length (st_rA s))%nat -> mnorm (cA (st_cmf s)) <> 0) /\ ((2 <= length (st_rB s))%nat -> root_sum_squared (N:=RNum) (cBs (st_cmf s)) <> 0) /\
  ((2 <= length (st_rC s))%nat -> mnorm (cC (st_cmf s)) <> 0).
Definition lone_mode (s : state (N:=RNum)) : Prop :=
  (st_rA s = [] /\ st_rB s = []) \/ (st_rA s = [] /\ st_rC s = []) \/ (st_rB s = [] /\ st_rC s = []).
Lemma xmax_same p (l l' : list xR) : perm_of p l l' -> ((2 <= length l)%nat -> all_fin l) -> xmax_list l' = xmax_list l.
Proof.
  intros H F. destruct (le_lt_dec 2 (length l)) as [L|L]; [apply xmax_fin; [now apply (perm_perm p)|now apply F]|]. now rewrite (perm_short p l l' H) by lia.
Qed.
Lemma feas_acc_nil (m : option xR) : feas_acc [] m = m. Proof. reflexivity. Qed.
Lemma feas_acc_none (l : list xR) : feas_acc l None = xmax_list l. Proof. unfold feas_acc. now destruct (xmax_list l). Qed.
Lemma check_same s s' g g' t : sst s s' -> sound_gaps s \/ lone_mode s -> state_gaps s = Ok g -> gperm g g' -> check_feasibility g' t = check_feasibility g t.
Proof.
  intros (E1 & QA & QB & QC & _) HG H HP. unfold state_gaps, compute_gaps in H.
  destruct (mapM (gap_mat (cA (st_cmf s))) (st_rA s)) as [gA|] eqn:EA; [|discriminate]. cbn [bind] in H. destruct (mapM (gap_list _) _) as [gB|] eqn:EB; [|discriminate]. cbn [bind] in H.
  destruct (mapM (gap_mat (cC (st_cmf s))) (st_rC s)) as [gC|] eqn:EC; [|discriminate]. cbn [bind] in H. injection H as <-. destruct g' as [[gA' gB'] gC']. destruct HP as (PA & PB & PC). cbn [fst snd] in *.
  pose proof (mapM_length _ _ _ EA) as LA. pose proof (mapM_length _ _ _ EB) as LB. pose proof (mapM_length _ _ _ EC) as LC.
  destruct (gaps_mat_fin _ _ _ EA) as (FA & ZA). destruct (gaps_list_fin _ _ _ EB) as (FB & ZB). destruct (gaps_mat_fin _ _ _ EC) as (FC & ZC).
  unfold check_feasibility. destruct HG as [(N1 & N2 & N3)|HL].
  - assert (KA : xmax_list gA' = xmax_list gA) by (apply (xmax_same pA); [exact PA|intros L; apply FA, N1; lia]).
    assert (KB : xmax_list gB' = xmax_list gB) by (apply (xmax_same pB); [exact PB|intros L; apply FB, N2; lia]).
    assert (KC : xmax_list gC' = xmax_list gC) by (apply (xmax_same pC); [exact PC|intros L; apply FC, N3; lia]).
    unfold feas_acc. now rewrite KA, KB, KC.
  - assert (NIL : forall T (l l' : list xR) (r : list T) p, perm_of p l l' -> length l = length r -> r = [] -> l = [] /\ l' = []).
    { intros T l l' r p H L ->. apply length_zero_iff_nil in L. split; [exact L|]. apply length_zero_iff_nil. now rewrite (perm_length p _ _ H), L. }
    destruct HL as [(H1 & H2)|[(H1 & H2)|(H1 & H2)]].
    + destruct (NIL _ _ _ _ _ PA LA H1) as (-> & ->), (NIL _ _ _ _ _ PB LB H2) as (-> & ->). rewrite !feas_acc_nil, !feas_acc_none. apply xmax_cmp; [now apply (perm_perm pC)|]. destruct (Req_dec (mnorm (cC (st_cmf s))) 0); auto.
    + destruct (NIL _ _ _ _ _ PA LA H1) as (-> & ->), (NIL _ _ _ _ _ PC LC H2) as (-> & ->). rewrite !feas_acc_nil, !feas_acc_none. apply xmax_cmp; [now apply (perm_perm pB)|]. destruct (Req_dec (root_sum_squared (N:=RNum) (cBs (st_cmf s))) 0); auto.
    + destruct (NIL _ _ _ _ _ PB LB H1) as (-> & ->), (NIL _ _ _ _ _ PC LC H2) as (-> & ->). rewrite !feas_acc_nil, !feas_acc_none. apply xmax_cmp; [now apply (perm_perm pA)|]. destruct (Req_dec (mnorm (cA (st_cmf s))) 0); auto.
Qed.
(** ** The loop *)
Fixpoint steps (k : nat) (s : state (N:=RNum)) : res (state (N:=RNum)) :=
  match k with O => Ok s | S k => let* s1 := outer_step E P Xs s in steps k s1 end.
Definition hperm (h h' : hist (N:=RNum)) : Prop :=
  h_errors h' = h_errors h /\ Forall2 gperm (h_gaps h) (h_gaps h') /\ h_losses h' = h_losses h.
Definition endp (u v : state (N:=RNum) * hist (N:=RNum) * nat * message) : Prop :=
  let '(a, g, it, m) := u in let '(b, g', it', m') := v in sst a b /\ hperm g g' /\ it' = it /\ m' = m.
Lemma loop_fwd : forall n it s s' h h', sst s s' -> hperm h h' -> (forall k x, (k <= n)%nat -> steps k s = Ok x -> sound_gaps x \/ lone_mode x) ->
  fwd endp (ao_loop E P Xs n it s h) (ao_loop E P Xs n it s' h').
Proof.
  induction n as [|n IH]; intros it s s' h h' HS HH HG; cbn [ao_loop]; [apply fwd_ok; unfold endp; auto|].
  eapply fwd_bind; [now apply outer_fwd|]. intros s1 s1' E1 H1. pose proof HH as (HE & HF & HL).
  assert (G1 : sound_gaps s1 \/ lone_mode s1) by (apply (HG 1%nat); [lia|cbn [steps]; now rewrite E1]).
  assert (G2 : forall k x, (k <= n)%nat -> steps k s1 = Ok x -> sound_gaps x \/ lone_mode x) by (intros k x Hk Hx; apply (HG (S k)); [lia|cbn [steps]; now rewrite E1]).
  destruct (otruthy (p_tol P) || otruthy (p_abs_tol P) || p_return_errors P); [|now apply IH].
  eapply fwd_bind; [now apply gaps_fwd|]. intros g g' EG PG. cbv zeta.
  assert (EF : match p_feas_tol P with Some t => ntruthy t && check_feasibility g' t | None => false end = match p_feas_tol P with Some t => ntruthy t && check_feasibility g t | None => false end)
    by (destruct (p_feas_tol P) as [tf|]; [|reflexivity]; now rewrite (check_same s1 s1' g g' tf H1 G1 EG PG)).
  rewrite EF. match goal with |- context [if ?x then ao_loop _ _ _ _ _ s1 _ else _] => destruct x end.
  { apply IH; auto. split; [exact HE|]. split; [|exact HL]. cbn [h_gaps]. apply Forall2_app; [exact HF|repeat constructor; apply PG]. }
  eapply fwd_bind; [now apply loss_fwd|]. intros l ? _ <-. rewrite (error_same s1 s1' H1), HE, HL.
  assert (HH2 : hperm (Hist (h_errors h ++ [state_error Xs s1]) (h_gaps h ++ [g]) (h_losses h ++ [l])) (Hist (h_errors h ++ [state_error Xs s1]) (h_gaps h' ++ [g']) (h_losses h ++ [l]))).
  { split; [reflexivity|]. split; [|reflexivity]. cbn [h_gaps]. apply Forall2_app; [exact HF|repeat constructor; apply PG]. }
  cbn [h_gaps h_errors h_losses].
  destruct (p_tol P) as [tol|]; [|now apply IH]. destruct (ntruthy tol); [|now apply IH]. destruct (p_abs_tol P) as [ab|]; [|intros r X; discriminate X].
  match goal with |- context [if ?x then Ok _ else _] => destruct x end; [apply fwd_ok; unfold endp; auto|].
  match goal with |- context [if ?x then Ok _ else _] => destruct x end; [apply fwd_ok; unfold endp; auto|]. now apply IH.
Qed.
(** The loop ends after some number of iterations. *)
Lemma loop_steps : forall n it s h s1 h1 it1 m, ao_loop E P Xs n it s h = Ok (s1, h1, it1, m) -> exists k, (k <= n)%nat /\ steps k s = Ok s1.
Proof.
  induction n as [|n IH]; intros it s h s1 h1 it1 m H; cbn [ao_loop] in H; [injection H as <- _ _ _; exists 0%nat; split; [lia|reflexivity]|].
  destruct (outer_step E P Xs s) as [x|] eqn:EO; [|discriminate H]. cbn [bind] in H.
  assert (ONE : forall k, (k <= n)%nat -> steps k x = Ok s1 -> exists k, (k <= S n)%nat /\ steps k s = Ok s1) by (intros k Hk K; exists (S k); split; [lia|cbn [steps]; now rewrite EO]).
  assert (TL : forall it' h', ao_loop E P Xs n it' x h' = Ok (s1, h1, it1, m) -> exists k, (k <= S n)%nat /\ steps k s = Ok s1) by (intros it' h' K; destruct (IH _ _ _ _ _ _ _ K) as (k & Hk & K'); eauto).
  destruct (_ || _ || _); [|eauto]. destruct (state_gaps x) as [g|]; [|discriminate H]. cbn [bind] in H.
  match type of H with context [if ?x then ao_loop _ _ _ _ _ _ _ else _] => destruct x end; [eauto|]. destruct (state_loss P Xs x) as [l|]; [|discriminate H]. cbn [bind] in H.
  assert (OK : Ok x = Ok s1 -> exists k, (k <= S n)%nat /\ steps k s = Ok s1) by (intros K; apply (ONE 0%nat); [lia|exact K]).
  destruct (p_tol P) as [tol|]; [|eauto]. destruct (ntruthy tol); [|eauto]. destruct (p_abs_tol P) as [ab|]; [|discriminate H].
  match type of H with context [if ?x then Ok _ else _] => destruct x end; [injection H as <- _ _ _; now apply OK|].
  match type of H with context [if ?x then Ok _ else _] => destruct x end; [injection H as <- _ _ _; now apply OK|]. eauto.
Qed.
Definition dperm (d d' : diagnostics (N:=RNum)) : Prop :=
  d_errors d' = d_errors d /\ d_losses d' = d_losses d /\ Forall2 gperm (d_gaps d) (d_gaps d') /\
  d_stopped d' = d_stopped d /\ d_feasible d' = d_feasible d /\ d_n_iter d' = d_n_iter d /\ d_message d' = d_message d.
Definition odperm (x y : option (diagnostics (N:=RNum))) : Prop := match x, y with Some u, Some v => dperm u v | None, None => True | _, _ => False end.
Lemma init_fwd s s' : sst s s' -> fwd hperm (init_hist P Xs s) (init_hist P Xs s').
Proof.
  intros H. unfold init_hist. cbv zeta. rewrite (error_same s s' H). eapply fwd_bind; [now apply loss_fwd|]. intros l ? _ <-. eapply fwd_bind; [now apply gaps_fwd|]. intros g g' _ PG.
  apply fwd_ok. split; [reflexivity|]. split; [repeat constructor; apply PG|reflexivity].
Qed.
Lemma run_fwd n s s' : sst s s' -> (forall k x, (k <= Z.to_nat n)%nat -> steps k s = Ok x -> sound_gaps x \/ lone_mode x) ->
  fwd (fun u v => sst (fst u) (fst v) /\ odperm (snd u) (snd v)) (run E P Xs n s) (run E P Xs n s').
Proof.
  intros HS HG. unfold run. eapply fwd_bind; [now apply init_fwd|]. intros h h' _ HH. eapply fwd_bind; [now apply loop_fwd|]. intros [[[s1 h1] it] m] [[[s1' h1'] it'] m'] EL (H1 & HH1 & -> & ->). cbv zeta.
  destruct (loop_steps _ _ _ _ _ _ _ _ EL) as (k & Hk & EK). pose proof (HG k s1 Hk EK) as G1.
  eapply fwd_bind with (Q := eq).
  { destruct (p_feas_tol P) as [t|]; [|apply fwd_refl]. destruct (ntruthy t && p_return_errors P); [|apply fwd_refl]. eapply fwd_bind; [now apply gaps_fwd|]. intros g g' EG PG. apply fwd_ok. now rewrite (check_same s1 s1' g g' t H1 G1 EG PG). }
  intros fe ? _ <-. pose proof H1 as (E1 & QA & QB & QC & E2). rewrite E1. eapply fwd_bind; [apply fwd_refl|]. intros c ? _ <-.
  assert (S2 : sst (St c (st_rA s1) (st_rB s1) (st_rC s1) (st_inter s1)) (St c (st_rA s1') (st_rB s1') (st_rC s1') (st_inter s1'))) by (unfold sst; cbn; auto).
  destruct HH1 as (K1 & K2 & K3). destruct (p_return_errors P); apply fwd_ok; (split; [exact S2|]); cbn [snd odperm]; [|exact Logic.I].
  unfold dperm. cbn. auto 10.
Qed.
End Run.
