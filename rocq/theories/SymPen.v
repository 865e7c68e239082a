(** Corresponding penalties update corresponding matrices to corresponding ones. *)
From Coq Require Import Reals Lra Lia List Arith Bool ZArith Permutation FunctionalExtensionality.
From Verif Require Import Num Numpy Unimodal RFacts Spec SpecFacts MatFacts ModelSpec Penalties PenaltySpec ProxProofs SvdFacts GenL2Proofs SimplexProofs UnimodalMain PenaltyMain
  CoupledMatrices CmfSpec CmfProofs Decomp DecompSpec DecompFacts OrderProofs ReorderFacts SymSpec SymFacts.
Import ListNotations.
Local Open Scope R_scope.

(** ** Several results *)
Lemma mapM_err {A B} (f : A -> res B) : forall l e, mapM f l = Err e -> exists x, In x l /\ f x = Err e.
Proof.
  induction l as [|x l IH]; intros e H; cbn [mapM] in H; [discriminate|]. destruct (f x) as [y|e'] eqn:E; cbn [bind] in H; [|injection H as <-; exists x; split; [now left|exact E]].
  destruct (mapM f l) as [ys|e'] eqn:E2; cbn [bind] in H; [discriminate|]. injection H as <-. destruct (IH _ eq_refl) as (z & Hz & Ez). exists z. split; [now right|exact Ez].
Qed.
Lemma mapM_total' {A B} (f : A -> res B) : forall l, (forall x, In x l -> exists y, f x = Ok y) -> exists r, mapM f l = Ok r.
Proof.
  induction l as [|x l IH]; intros H; [now exists []|]. destruct (H x (or_introl eq_refl)) as (y & Ey). destruct IH as (ys & Eys); [intros; apply H; now right|].
  exists (y :: ys). cbn [mapM]. now rewrite Ey, Eys.
Qed.
Lemma mapM_moved {A B} (f : nat -> res A) (g : nat -> res B) c q e (Q : A -> B -> Prop) da db : rearranges c q ->
  (forall j, (j < c)%nat -> res_rel Q (f (q j)) (g j)) -> (forall j e', (j < c)%nat -> f j = Err e' -> e' = e) ->
  res_rel (fun l l' => length l = c /\ length l' = c /\ forall j, (j < c)%nat -> Q (nth (q j) l da) (nth j l' db)) (mapM f (seq 0 c)) (mapM g (seq 0 c)).
Proof.
  intros Hq HR HE. destruct (mapM f (seq 0 c)) as [l|e1] eqn:E1.
  - assert (Hn : forall j, (j < c)%nat -> f j = Ok (nth j l da)).
    { intros j Hj. pose proof (mapM_nth f _ _ E1 j 0%nat da ltac:(now rewrite seq_length)) as K. now rewrite seq_nth in K by assumption. }
    destruct (mapM_total' g (seq 0 c)) as (l' & E2).
    { intros j Hj. apply in_seq in Hj. pose proof (HR j ltac:(lia)) as K. rewrite Hn in K by (apply (re_lt c q Hq); lia). destruct (g j); [eauto|contradiction]. }
    rewrite E2. cbn. split; [apply mapM_length in E1; now rewrite E1, seq_length|]. split; [apply mapM_length in E2; now rewrite E2, seq_length|].
    intros j Hj. pose proof (mapM_nth g _ _ E2 j 0%nat db ltac:(now rewrite seq_length)) as K. rewrite seq_nth in K by assumption. cbn in K.
    pose proof (HR j Hj) as R1. rewrite K, Hn in R1 by now apply (re_lt c q Hq). exact R1.
  - destruct (mapM_err _ _ _ E1) as (j & Hj & Ej). apply in_seq in Hj. pose proof (HE j e1 ltac:(lia) Ej) as ->.
    destruct (re_onto c q Hq j ltac:(lia)) as (i & Hi & <-). pose proof (HR i Hi) as R1. rewrite Ej in R1. destruct (g i) as [|eg] eqn:Eg; [contradiction|]. cbn in R1. subst eg.
    destruct (mapM g (seq 0 c)) as [l'|e2] eqn:E2.
    + exfalso. pose proof (mapM_nth g _ _ E2 i 0%nat db ltac:(now rewrite seq_length)) as K. rewrite seq_nth in K by assumption. cbn in K. congruence.
    + cbn. destruct (mapM_err _ _ _ E2) as (a & Ha & Ea). apply in_seq in Ha. pose proof (HR a ltac:(lia)) as R2. rewrite Ea in R2. destruct (f (q a)) as [|ef] eqn:Ef; [contradiction|].
      cbn in R2. subst ef. apply (HE (q a)); [apply (re_lt c q Hq); lia|exact Ef].
Qed.
Lemma res_rel_impl {T U} (P Q : T -> U -> Prop) x y : (forall a b, P a b -> Q a b) -> res_rel P x y -> res_rel Q x y.
Proof. intros H. destruct x, y; cbn; auto. Qed.
Lemma res_rel_bind {T U V W} (P : T -> U -> Prop) (Q : V -> W -> Prop) x y f g : res_rel P x y -> (forall a b, P a b -> res_rel Q (f a) (g b)) -> res_rel Q (bind x f) (bind y g).
Proof. intros H K. destruct x, y; cbn in *; auto; contradiction. Qed.

(** ** Numbers *)
Lemma relu_k k x : 0 < k -> relu (N:=RNum) (k * x) = k * relu (N:=RNum) x.
Proof. intros H. rewrite !relu_R. unfold Rmax. destruct (Rle_dec (k * x) 0), (Rle_dec x 0); nra. Qed.
Lemma clip_k k lo hi x : 0 < k -> clip1 (N:=RNum) (option_map (Rmult k) lo) (option_map (Rmult k) hi) (k * x) = k * clip1 (N:=RNum) lo hi x.
Proof.
  intros H. rewrite !clip1_R. cbv zeta. assert (M : forall a b, Rmax (k * a) (k * b) = k * Rmax a b) by (intros; unfold Rmax; destruct (Rle_dec (k * a) (k * b)), (Rle_dec a b); nra).
  assert (M2 : forall a b, Rmin (k * a) (k * b) = k * Rmin a b) by (intros; unfold Rmin; destruct (Rle_dec (k * a) (k * b)), (Rle_dec a b); nra).
  destruct lo, hi; cbn [option_map]; rewrite ?M, ?M2; reflexivity.
Qed.
Lemma soft_k k t x : 0 < k -> 0 <= t -> soft (N:=RNum) (k * t) (k * x) = k * soft (N:=RNum) t x.
Proof.
  intros H Ht. rewrite !soft_R by nra. destruct (Rle_dec (k * x) (- (k * t))), (Rle_dec x (- t)), (Rle_dec (k * t) (k * x)), (Rle_dec t x); nra.
Qed.
Lemma ntruthy_k k x : k <> 0 -> ntruthy (N:=RNum) (k * x) = ntruthy (N:=RNum) x.
Proof.
  intros H. destruct (ntruthy (N:=RNum) x) eqn:E.
  - apply ntruthy_R. apply ntruthy_R in E. rn. intros K. apply Rmult_integral in K. tauto.
  - apply ntruthy_R_false. apply ntruthy_R_false in E. rn. rewrite E. ring.
Qed.
Lemma div_k t k a b : t <> 0 -> t * k * a / (t * b) = k * (a / b).
Proof. intros H. unfold Rdiv. rewrite Rinv_mult. transitivity (k * (a * / b) * (t * / t)); [ring|]. rewrite Rinv_r by assumption. ring. Qed.

(** ** Columns *)
Lemma mcol_len (A : rmat) j : mwf A -> length (mcol A j) = mr A.
Proof. intros (H & _). unfold mcol. rewrite map_length. exact H. Qed.
Lemma mcol_list (A : rmat) j : mwf A -> mcol A j = map (fun i => rget A i j) (seq 0 (mr A)).
Proof.
  intros W. apply (nth_ext _ _ 0 0); [rewrite map_length, seq_length; now apply mcol_len|]. intros i Hi. rewrite mcol_len in Hi by assumption.
  rewrite (nth_map_lt _ _ _ _ 0%nat) by now rewrite seq_length. rewrite seq_nth by assumption. now apply vg_mcol.
Qed.
Lemma moved_mcol_straight r c (p q : nat -> nat) (A A' : rmat) j : same_order p -> moved r c 1 p q A A' -> (j < c)%nat -> mcol A' j = mcol A (q j).
Proof.
  intros Hp (( W & Sr & Sc) & (W' & Sr' & Sc') & H) Hj. rewrite !mcol_list by assumption. rewrite Sr, Sr'. apply map_ext_in. intros i Hi. apply in_seq in Hi. rewrite H by lia. rewrite Hp. rr.
Qed.
Lemma moved_mcol_perm r c (p q : nat -> nat) (A A' : rmat) j : rearranges r p -> moved r c 1 p q A A' -> (j < c)%nat -> Permutation (mcol A' j) (mcol A (q j)).
Proof.
  intros Hp ((W & Sr & Sc) & (W' & Sr' & Sc') & H) Hj. rewrite !mcol_list by assumption. rewrite Sr, Sr'.
  rewrite (map_ext_in _ (fun i => rget A (p i) (q j))); [|intros i Hi; apply in_seq in Hi; rewrite H by lia; rr].
  rewrite <- (map_map p (fun i => rget A i (q j))). now apply Permutation_map.
Qed.
Lemma lagrange_perm (a b : list R) : Permutation a b -> lagrange_multiplier (N:=RNum) a = lagrange_multiplier (N:=RNum) b.
Proof.
  intros P. destruct a as [|x t]; [apply Permutation_nil in P; now subst|]. destruct b as [|y u]; [apply Permutation_sym, Permutation_nil in P; discriminate|].
  unfold lagrange_multiplier.
  assert (N1 : x :: t <> []) by discriminate. assert (N2 : y :: u <> []) by discriminate. set (a := x :: t) in *. set (b := y :: u) in *. clearbody a b.
  destruct (lmin_spec a N1) as (A1 & A2). destruct (lmin_spec b N2) as (B1 & B2). destruct (lmax_spec a N1) as (A3 & A4). destruct (lmax_spec b N2) as (B3 & B4).
  assert (P' := Permutation_sym P).
  assert (E1 : lmin (N:=RNum) a = lmin (N:=RNum) b) by (apply Rle_antisym; [apply A2; now apply (Permutation_in _ P')|apply B2; now apply (Permutation_in _ P)]).
  assert (E2 : lmax (N:=RNum) a = lmax (N:=RNum) b) by (apply Rle_antisym; [apply B4; now apply (Permutation_in _ P)|apply A4; now apply (Permutation_in _ P')]).
  f_equal.
  - apply functional_extensionality. intros m. unfold simplex_f. f_equal. apply lsum_perm. now apply Permutation_map.
  - unfold simplex_lo. now rewrite E1.
  - unfold simplex_hi. now rewrite E2.
Qed.
Lemma mget_of_cols r (cols : list (list R)) i j : (i < r)%nat -> (j < length cols)%nat -> rget (of_cols (N:=RNum) r cols) i j = nth i (nth j cols []) 0.
Proof. intros Hi Hj. unfold of_cols. rewrite mget_mbuild by assumption. reflexivity. Qed.
Lemma shaped_of_cols r c (cols : list (list R)) : length cols = c -> shaped (of_cols (N:=RNum) r cols) r c.
Proof. intros <-. unfold of_cols. split; [apply mwf_mbuild|split; reflexivity]. Qed.

(** ** The generalised ridge *)
Lemma genl2_eq (E : ext (N:=RNum)) (M U : rmat) (s : list R) n (V X : rmat) rho : valid_penalty (GeneralizedL2 (N:=RNum) M U s) n -> mwf V -> mr V = n -> 0 < rho ->
  factor_matrix_update E (GeneralizedL2 (N:=RNum) M U s) V rho = Ok X ->
  shaped X n (mc V) /\ forall i j, (i < n)%nat -> (j < mc V)%nat -> mvec n (rget M) (fun l => rget X l j) i = rho / 2 * (rget V i j - rget X i j).
Proof.
  intros (WM & HM & HM2 & HS & HP & Vh & H) WV HV Hr EX0.
  pose proof (svd_UUt M U Vh s n H HM) as UU. pose proof (eigen M U Vh s n WM HM HM2 H HS HP) as Eig. pose proof (s_nonneg M U Vh s n H) as Sn.
  destruct H as (W1 & S1 & S2 & L & W2 & S3 & S4 & _). rn.
  set (d := map (fun x => 1 / x) (map (fun x => x + 1 / 2 * rho) s)).
  set (W := mmul (N:=RNum) (mtrans U) (mscale (N:=RNum) (1 / 2 * rho) V)) in *.
  unfold factor_matrix_update in EX0. rewrite (ntruthy_pos rho) in EX0 by assumption. cbn [negb] in EX0. cbv zeta in EX0. injection EX0 as EX0.
  assert (EX1 : X = mmul (N:=RNum) (mcolscale (N:=RNum) U d) W) by (rewrite <- EX0; reflexivity). clear EX0.
  split; [rewrite EX1; split; [auto with mwf|split; unfold W; mlia]|].
  assert (UW : mmul U W = mscale (N:=RNum) (1 / 2 * rho) V).
  { unfold W. rewrite <- mmul_assoc by mlia. rewrite UU. apply mmul_eye_l; [auto with mwf|mlia]. }
  assert (Dv : forall k, (k < n)%nat -> (at_ s k + rho / 2) * vg d k = 1).
  { intros k Hk. unfold d. rewrite vg_map by (rewrite map_length; lia). rewrite vg_map by lia.
    change (vg s k) with (at_ s k). pose proof (Sn k Hk). field. lra. }
  intros i j Hi Hj.
  assert (EX : forall l, (l < n)%nat -> rget X l j = rsum n (fun k => rget U l k * vg d k * rget W k j)).
  { intros l Hl. rewrite EX1. rewrite mget_mmul by (unfold W; mlia). mshape. rewrite S2. apply rsum_ext.
    intros k Hk. rewrite mget_mcolscale by mlia. reflexivity. }
  unfold mvec. rewrite (rsum_ext n _ (fun l => rsum n (fun k => rget M i l * rget U l k * (vg d k * rget W k j)))).
  2:{ intros l Hl. rewrite EX by assumption. rewrite <- rsum_scal. apply rsum_ext; intros; ring. }
  rewrite rsum_swap.
  rewrite (rsum_ext n _ (fun k => at_ s k * rget U i k * (vg d k * rget W k j))).
  2:{ intros k Hk. rewrite rsum_scal_r. pose proof (Eig i k Hi Hk) as Ek. unfold mvec in Ek. rewrite Ek. reflexivity. }
  rewrite EX by assumption.
  pose proof (f_equal (fun A => rget A i j) UW) as EW. cbv beta in EW.
  rewrite mget_mmul, mget_mscale in EW by (unfold W; mlia). rewrite S2 in EW.
  enough (rsum n (fun k => at_ s k * rget U i k * (vg d k * rget W k j)) + rho / 2 * rsum n (fun k => rget U i k * vg d k * rget W k j)
          = 1 / 2 * rho * rget V i j) by lra.
  rewrite <- EW. rewrite <- rsum_scal, <- rsum_add. apply rsum_ext. intros k Hk.
  transitivity (rget U i k * rget W k j * ((at_ s k + rho / 2) * vg d k)); [ring|]. rewrite Dv by assumption. ring.
Qed.
Lemma genl2_one n (M : nat -> nat -> R) rho (x y : nat -> R) (v : nat -> R) : psd n M -> 0 < rho ->
  (forall i, (i < n)%nat -> mvec n M x i = rho / 2 * (v i - x i)) -> (forall i, (i < n)%nat -> mvec n M y i = rho / 2 * (v i - y i)) -> forall i, (i < n)%nat -> x i = y i.
Proof.
  intros HP Hr Hx Hy i Hi. set (d := fun i => x i - y i).
  assert (Hd : forall a, (a < n)%nat -> mvec n M d a = - (rho / 2) * d a).
  { intros a Ha. pose proof (Hx a Ha). pose proof (Hy a Ha). assert (mvec n M d a = mvec n M x a - mvec n M y a).
    { unfold mvec. rewrite <- rsum_sub. apply rsum_ext. intros; unfold d; ring. } unfold d in *. lra. }
  pose proof (psd_bil n M d HP) as B. rewrite bil_mvec in B.
  rewrite (rsum_ext n _ (fun a => - (rho / 2) * (d a * d a))) in B by (intros a Ha; rewrite Hd by assumption; ring). rewrite rsum_scal in B.
  assert (N : 0 <= rsum n (fun i => d i * d i)) by (apply rsum_nonneg; intros; apply Rle_0_sqr).
  assert (Z : rsum n (fun i => d i * d i) = 0) by nra.
  pose proof (rsum_nonneg_zero _ _ (fun i' _ => Rle_0_sqr (d i')) Z i Hi) as Z'. cbv beta in Z'. apply Rsqr_0_uniq in Z'. unfold d in Z'. lra.
Qed.

(** ** One matrix *)
Section Upd.
Variables (E E' : ext (N:=RNum)) (r c : nat) (P Q : nat -> nat) (t k rho rho' : R).
Hypothesis Hr : (0 < r)%nat.
Hypothesis Hc : (0 < c)%nat.
Hypothesis HP : rearranges r P.
Hypothesis HQ : rearranges c Q.
Hypothesis Ht : 0 < t.
Hypothesis Hk : 0 < k.
Hypothesis Hrho : 0 <= rho.
Hypothesis Hrho' : rho' = t * rho.
Lemma truthy_rho : ntruthy (N:=RNum) rho' = ntruthy (N:=RNum) rho.
Proof. rewrite Hrho'. apply ntruthy_k. lra. Qed.
Lemma moved_update p p' (V V' : rmat) : moved_pen E E' t k (same_order P) p p' -> valid_penalty p r -> valid_penalty p' r -> moved r c k P Q V V' ->
  res_rel (moved r c k P Q) (factor_matrix_update E p V rho) (factor_matrix_update E' p' V' rho').
Proof.
  intros MP VP VP' MV. pose proof MV as ((W & Sr & Sc) & (W' & Sr' & Sc') & HV).
  destruct p as [|lo hi|reg nn|M U s|reg l1|b nn| |nn|it ub uc], p' as [|lo' hi'|reg' nn'|M' U' s'|reg' l1'|b' nn'| |nn'|it' ub' uc']; cbn [moved_pen] in MP; try contradiction.
  - cbn. apply (moved_map r c P Q HP HQ k k); [|exact MV]. intros x. now apply relu_k.
  - destruct MP as (-> & ->). cbn [factor_matrix_update]. assert (EC : clip_ok (N:=RNum) (option_map (Rmult k) lo) (option_map (Rmult k) hi) = clip_ok (N:=RNum) lo hi) by now destruct lo, hi.
    rewrite EC. destruct (clip_ok (N:=RNum) lo hi); [|reflexivity]. cbn. apply (moved_map r c P Q HP HQ k k); [|exact MV]. intros x. now apply clip_k.
  - destruct MP as (-> & ->). cbn [factor_matrix_update]. rewrite truthy_rho. destruct (ntruthy (N:=RNum) rho) eqn:TR; [|reflexivity]. cbn [negb].
    assert (ED : @ndiv RNum (t * k * reg) rho' = k * (reg / rho)) by (rn; rewrite Hrho'; apply div_k; lra). rewrite ED.
    destruct nn; cbn; (apply (moved_map r c P Q HP HQ k k); [|exact MV]); intros x.
    + rn. replace (k * x - k * (reg / rho)) with (k * (x - reg / rho)) by ring. now apply relu_k.
    + apply soft_k; [assumption|]. rn. cbn in VP. apply Rdiv_nonneg; [assumption|]. apply ntruthy_R in TR. rn. lra.
  - destruct MP as (SO & ->).
    destruct (ntruthy (N:=RNum) rho) eqn:TR.
    2:{ cbn [factor_matrix_update]. rewrite truthy_rho, TR. reflexivity. }
    assert (Rp : 0 < rho) by (apply ntruthy_R in TR; rn; lra). assert (Rp' : 0 < rho') by (rewrite Hrho'; now apply Rmult_lt_0_compat).
    assert (TR' := truthy_rho). rewrite TR in TR'.
    destruct (factor_matrix_update E (GeneralizedL2 M U s) V rho) as [X|] eqn:E1; [|unfold factor_matrix_update in E1; rewrite TR in E1; discriminate].
    destruct (factor_matrix_update E' (GeneralizedL2 (mscale (N:=RNum) t M) U' s') V' rho') as [X'|] eqn:E2; [|unfold factor_matrix_update in E2; rewrite TR' in E2; discriminate].
    destruct (genl2_eq _ _ _ _ _ _ _ _ VP W Sr Rp E1) as (SX & H1). destruct (genl2_eq _ _ _ _ _ _ _ _ VP' W' Sr' Rp' E2) as (SX' & H2). rewrite Sc in *. rewrite Sc' in *.
    destruct VP as (WM & HM & HM2 & HS & HPs & _). destruct VP' as (_ & _ & _ & _ & HPs' & _).
    cbn. split; [exact SX|]. split; [exact SX'|]. intros i j Hi Hj. rewrite SO.
    pose proof (re_lt _ _ HQ j Hj) as Hj'.
    apply (genl2_one r (rget (mscale (N:=RNum) t M)) rho' (fun i => rget X' i j) (fun i => k * rget X i (Q j)) (fun i => rget V' i j)); [exact HPs'|exact Rp'| | |exact Hi].
    + intros a Ha. now apply H2.
    + intros a Ha. rewrite HV by assumption. rewrite SO. transitivity (t * k * mvec r (rget M) (fun l => rget X l (Q j)) a).
      * unfold mvec. rewrite <- rsum_scal. apply rsum_ext. intros b Hb. rewrite mget_mscale by lia. rr.
      * rewrite (H1 a (Q j) Ha Hj'). rewrite Hrho'. field.
  - destruct MP as (-> & SO & -> & -> & HT). cbn [factor_matrix_update]. rewrite truthy_rho. destruct (ntruthy (N:=RNum) rho) eqn:TR; [|reflexivity]. cbn [negb]. cbv zeta.
    assert (ED : @ndiv RNum (@nmul RNum (t * reg) (nlit 2 1)) rho' = @ndiv RNum (@nmul RNum reg (nlit 2 1)) rho).
    { rn. rewrite Hrho'. unfold Rdiv. rewrite !Rinv_mult. transitivity (reg * (2 * / 1) * / rho * (t * / t)); [ring|]. rewrite Rinv_r by lra. ring. }
    rewrite ED. set (a := @ndiv RNum (@nmul RNum reg _) rho). rewrite Sr, Sr', Sc, Sc'.
    assert (MX : moved r c 1 P Q (of_cols (N:=RNum) r (map (fun j => x_tv E (mcol V j) a) (seq 0 c))) (of_cols (N:=RNum) r (map (fun j => x_tv E' (mcol V' j) a) (seq 0 c)))).
    { split; [apply shaped_of_cols; now rewrite map_length, seq_length|]. split; [apply shaped_of_cols; now rewrite map_length, seq_length|].
      intros i j Hi Hj. pose proof (re_lt _ _ HQ j Hj) as Hj'. rewrite SO. rewrite !mget_of_cols by (rewrite ?map_length, ?seq_length; assumption).
      rewrite !(nth_map_lt _ _ _ _ 0%nat) by now rewrite seq_length. rewrite !seq_nth by assumption. cbn [Nat.add]. rewrite HT, (moved_mcol_straight r c P Q V V' j SO MV Hj). rr. }
    rewrite ntruthy_k by lra. destruct (ntruthy (N:=RNum) l1); cbn; [|exact MX]. apply (moved_map r c P Q HP HQ 1 1); [|exact MX].
    intros x. rn. rewrite !Rmult_1_l. f_equal. rewrite Hrho'. unfold Rdiv. rewrite Rinv_mult. transitivity (l1 * / rho * (t * / t)); [ring|]. rewrite Rinv_r by lra. ring.
  - destruct MP as (-> & ->). cbn [factor_matrix_update res_rel]. cbv zeta.
    assert (M1 : moved r c k P Q (if nn then mmap (N:=RNum) relu V else V) (if nn then mmap (N:=RNum) relu V' else V')).
    { destruct nn; [|exact MV]. apply (moved_map r c P Q HP HQ k k); [|exact MV]. intros x. now apply relu_k. }
    set (Y := if nn then mmap (N:=RNum) relu V else V) in *. set (Y' := if nn then mmap (N:=RNum) relu V' else V') in *. clearbody Y Y'. pose proof M1 as ((WY & SrY & ScY) & (WY' & SrY' & ScY') & HY).
    assert (MN : moved_vec c k Q (map (clip1 (N:=RNum) (Some b) None) (col_norms (N:=RNum) Y)) (map (clip1 (N:=RNum) (Some (k * b)) None) (col_norms (N:=RNum) Y'))).
    { split; [unfold col_norms; rewrite map_length, length_vbuild; exact ScY|]. split; [unfold col_norms; rewrite map_length, length_vbuild; exact ScY'|]. intros j Hj. pose proof (re_lt _ _ HQ j Hj) as Hj'.
      unfold at_. rewrite !(nth_map_lt _ _ _ _ 0) by (unfold col_norms; rewrite length_vbuild, ?ScY, ?ScY'; assumption).
      rewrite <- (clip_k k (Some b) None) by assumption. cbn [option_map]. f_equal.
      change (vg (col_norms (N:=RNum) Y') j = k * vg (col_norms (N:=RNum) Y) (Q j)). unfold col_norms. rewrite !vget_vbuild by (rewrite ?ScY, ?ScY'; assumption). rewrite SrY, SrY'. rn. rewrite !nsum_rsum.
      rewrite (rsum_ext r (fun i => rget Y' i j * rget Y' i j) (fun i => k * k * (rget Y (P i) (Q j) * rget Y (P i) (Q j)))) by (intros i Hi; rewrite HY by assumption; rr).
      rewrite rsum_scal. rewrite (re_sum r P HP (fun i => rget Y i (Q j) * rget Y i (Q j))). rewrite sqrt_mult; [now rewrite sqrt_square by lra|nra|]. apply rsum_nonneg. intros. apply Rle_0_sqr. }
    pose proof (moved_mscale r c P Q HP HQ k k b (k * b) Y Y' eq_refl M1) as M2.
    set (v := map (clip1 (N:=RNum) (Some b) None) (col_norms (N:=RNum) Y)) in *. set (v' := map (clip1 (N:=RNum) (Some (k * b)) None) (col_norms (N:=RNum) Y')) in *.
    set (Z := mscale (N:=RNum) b Y) in *. set (Z' := mscale (N:=RNum) (k * b) Y') in *. destruct M2 as ((WZ & SrZ & ScZ) & (WZ' & SrZ' & ScZ') & HZ). destruct MN as (L1 & L2 & HN).
    split; [split; [auto with mwf|mshape; split; congruence]|]. split; [split; [auto with mwf|mshape; split; congruence]|].
    intros i j Hi Hj. pose proof (re_lt _ _ HP i Hi). pose proof (re_lt _ _ HQ j Hj). rewrite !mget_mcoldiv by lia. rewrite HZ by assumption.
    change (vg v' j) with (at_ v' j). rewrite HN by assumption. change (vg v (Q j)) with (at_ v (Q j)). cbn [num RNum] in *. unfold Rdiv. rewrite Rinv_mult.
    transitivity (k * (rget Z (P i) (Q j) * / at_ v (Q j)) * (k * / k)); [rr|]. rewrite Rinv_r by lra. rr.
  - subst k. cbn [factor_matrix_update].
    assert (K : res_rel (fun l l' => length l = c /\ length l' = c /\ forall j, (j < c)%nat -> forall i, (i < r)%nat -> nth i (nth j l' []) 0 = nth (P i) (nth (Q j) l []) 0)
      (mapM (fun j => simplex_col (N:=RNum) (mcol V j)) (seq 0 c)) (mapM (fun j => simplex_col (N:=RNum) (mcol V' j)) (seq 0 c))).
    { eapply res_rel_impl; [|apply (mapM_moved _ _ c Q RuntimeError (fun a b => forall i, (i < r)%nat -> nth i b 0 = nth (P i) a 0) [] [] HQ)]; cbv beta.
      - intros l l' (A1 & A2 & A3). split; [exact A1|]. split; [exact A2|]. intros j Hj i Hi. now apply A3.
      - intros j Hj. pose proof (re_lt _ _ HQ j Hj) as Hj'. unfold simplex_col. rewrite (lagrange_perm _ _ (moved_mcol_perm r c P Q V V' j HP MV Hj)).
        destruct (lagrange_multiplier (N:=RNum) (mcol V (Q j))) as [mu|]; [|reflexivity]. cbn. intros i Hi. pose proof (re_lt _ _ HP i Hi) as Hi'.
        rewrite !(nth_map_lt _ _ _ _ 0) by (rewrite mcol_len by assumption; lia). f_equal. f_equal. change (vg (mcol V' j) i = vg (mcol V (Q j)) (P i)).
        rewrite !vg_mcol by (assumption || lia). rewrite HV by assumption. rr.
      - intros j e' Hj He. destruct (simplex_col_spec (mcol V j)) as [(x & r0 & Ex & _)|(Ex & _)].
        + intros K. apply (f_equal (@length R)) in K. pose proof (mcol_len V j W) as LL. rn. rewrite LL, Sr in K. cbn in K. lia.
        + rn. congruence.
        + rn. congruence. }
    rewrite Sr, Sr', Sc, Sc'. eapply res_rel_bind; [exact K|]. intros l l' (A1 & A2 & A3). cbn. split; [now apply shaped_of_cols|]. split; [now apply shaped_of_cols|].
    intros i j Hi Hj. rewrite !mget_of_cols by (rewrite ?A1, ?A2; first [assumption | now apply (re_lt _ _ HP) | now apply (re_lt _ _ HQ)]). rewrite A3 by assumption. rr.
  - destruct MP as (-> & SO & ->). cbn [factor_matrix_update].
    destruct (unimodal_cols_spec V nn W ltac:(lia) ltac:(lia)) as (cols & EC & LC & _). destruct (unimodal_cols_spec V' nn W' ltac:(lia) ltac:(lia)) as (cols' & EC' & LC' & _).
    rn. rewrite EC, EC'. cbn [bind]. 
    pose proof (all_some_map (concat cols)) as EA. pose proof (concat_map_Some cols) as EB. pose proof (all_some_map (concat cols')) as EA'. pose proof (concat_map_Some cols') as EB'. rn.
    rewrite EB, EA, EB', EA'. cbn [res_rel]. rewrite Sr, Sr'.
    assert (CM : forall l : list (list R), map (map (opt_get (N:=RNum))) (map (map Some) l) = l).
    { intros l. rewrite map_map. rewrite <- (map_id l) at 2. apply map_ext. intros a. rewrite map_map. rewrite <- (map_id a) at 2. now apply map_ext. }
    rewrite !CM. split; [apply shaped_of_cols; congruence|]. split; [apply shaped_of_cols; congruence|]. intros i j Hi Hj. pose proof (re_lt _ _ HQ j Hj) as Hj'. rewrite SO.
    rewrite !mget_of_cols by (assumption || lia).
    assert (EQ : nth j cols' [] = nth (Q j) cols []); [|rewrite EQ; rr].
    unfold unimodal_regression_cols in EC, EC'. rewrite Sc in EC. rewrite Sc' in EC'. destruct (Nat.eqb_spec c 0) as [|_]; [lia|].
    pose proof (mapM_nth _ _ _ EC (Q j) 0%nat [] ltac:(now rewrite seq_length)) as K1. pose proof (mapM_nth _ _ _ EC' j 0%nat [] ltac:(now rewrite seq_length)) as K2.
    rewrite seq_nth in K1, K2 by assumption. cbn [Nat.add] in K1, K2. rewrite (moved_mcol_straight r c P Q V V' j SO MV Hj) in K2. rewrite K1 in K2. injection K2 as K2.
    change (@nil (option R)) with (map (@Some R) []) in K2. rewrite !map_nth in K2. apply (f_equal (map (opt_get (N:=RNum)))) in K2. rewrite !map_map in K2. cbn [opt_get] in K2. now rewrite !map_id in K2.
  - destruct MP as (SO & -> & -> & ->). reflexivity.
Qed.
End Upd.
