(** C73: without penalties but with ridge terms the iterates approach stationary points. *)
From Coq Require Import Reals Lra Lia List Arith Bool Classical_Prop FunctionalExtensionality ZArith.
From Verif Require Import Num Numpy Unimodal RFacts Spec SpecFacts MatFacts SvdFacts ModelSpec Penalties PenaltySpec
  ProxProofs TVProofs GenL2Proofs SimplexProofs Parafac2Proofs PenaltyMain CoupledMatrices CmfSpec CmfProofs
  Decomp DecompSpec DecompFacts AdmmProofs AdmmB AdmmA AdmmRegs AdmmLoop AdmmOne AoState AoLoop AoMono AoMain TotalRun
  InitVars InitSpec Parse ParseSpec ParseProofs Fit FitSpec FitProofs P05_Runs P09_Calls P11_Total
  StationarySpec Stationary AoStationary Ideal FitExamples P25_Starts P29_Symmetry.
Import ListNotations.
Local Open Scope R_scope.

(** ** From the entries to factorizations *)
Section Bridge.
Variables (P : params (N:=RNum)) (Xs : list rmat).
Lemma F_ext K n (x y : pt) :
  (forall i r, (i < length Xs)%nat -> (r < n)%nat -> pA x i r = pA y i r) ->
  (forall i j r, (i < length Xs)%nat -> (j < rowsX Xs i)%nat -> (r < n)%nat -> pB x i j r = pB y i j r) ->
  (forall k r, (k < K)%nat -> (r < n)%nat -> pC x k r = pC y k r) ->
  F (length Xs) K n (rowsX Xs) (entX Xs) (p_l2A P) (p_l2B P) (p_l2C P) x = F (length Xs) K n (rowsX Xs) (entX Xs) (p_l2A P) (p_l2B P) (p_l2C P) y.
Proof.
  intros HA HB HC. unfold F, S3, pair2, T. f_equal; f_equal; [|f_equal; [f_equal|]; f_equal].
  - apply Sum_ext. intros i Hi. apply Sum_ext. intros j Hj. apply Sum_ext. intros k Hk. do 2 f_equal. apply Sum_ext. intros r Hr. rewrite HA, HB, HC by assumption. reflexivity.
  - apply Sum_ext. intros i Hi. apply Sum_ext. intros r Hr. now rewrite HA by assumption.
  - apply Sum_ext. intros i Hi. apply Sum_ext. intros j Hj. apply Sum_ext. intros r Hr. now rewrite HB by assumption.
  - apply Sum_ext. intros i Hi. apply Sum_ext. intros r Hr. now rewrite HC by assumption.
Qed.
Lemma nthB_moved c d t i : (i < length (cBs c))%nat ->
  nthB (moved_by c d t) i = mbuild (N:=RNum) (mr (nthB c i)) (mc (nthB c i)) (fun j r => mget (nthB c i) j r + t * dB d i j r).
Proof. intros Hi. unfold nthB at 1, moved_by. cbn [cBs]. now rewrite nth_seq_map by assumption. Qed.
Lemma moved_fits c d t : data_fits Xs c -> data_fits Xs (moved_by c d t).
Proof.
  intros ((WA & WC & HC & HA & HB & _) & EL & HX).
  assert (LB : length (cBs (moved_by c d t)) = length (cBs c)) by (unfold moved_by; cbn [cBs]; now rewrite map_length, seq_length).
  split; [|split].
  - unfold valid_cmf. rewrite LB.
    split; [apply mwf_mbuild|]. split; [apply mwf_mbuild|]. split; [exact HC|]. split; [exact HA|]. split; [|discriminate].
    intros i Hi. rewrite nthB_moved by assumption. split; [apply mwf_mbuild|]. exact (proj2 (HB i Hi)).
  - rewrite LB. exact EL.
  - intros i Hi. rewrite nthB_moved by (rewrite <- EL; exact Hi). exact (HX i Hi).
Qed.
Definition dir_pt (d : direction) : pt := Pt (dA d) (dB d) (dC d).
Lemma objective_moved c d t : data_fits Xs c ->
  objective P Xs (moved_by c d t) = F (length Xs) (mr (cC c)) (mc (cA c)) (rowsX Xs) (entX Xs) (p_l2A P) (p_l2B P) (p_l2C P) (add (to_pt c) t (dir_pt d)).
Proof.
  intros HF. rewrite (objective_F P Xs _ (moved_fits c d t HF) eq_refl). destruct HF as ((WA & WC & HC & HA & HB & _) & EL & HX).
  change (mr (cC (moved_by c d t))) with (mr (cC c)). change (mc (cA (moved_by c d t))) with (mc (cA c)).
  apply F_ext; unfold to_pt, add, dir_pt, moved_by; cbn [pA pB pC cA cBs cC].
  - intros i r Hi Hr. apply mget_mbuild; [rewrite HA, <- EL; exact Hi|exact Hr].
  - intros i j r Hi Hj Hr. unfold entB at 1. rewrite nth_seq_map by (rewrite <- EL; exact Hi).
    destruct (HX i Hi) as (_ & E1 & _). unfold rowsX in Hj. rewrite E1 in Hj. destruct (HB i ltac:(rewrite <- EL; exact Hi)) as (_ & E2).
    now rewrite mget_mbuild by (rewrite ?E2; assumption).
  - intros k r Hk Hr. apply mget_mbuild; [exact Hk|now rewrite HC].
Qed.
Lemma step_sq_nrm c c' : data_fits Xs c ->
  step_sq c c' = nrm2 (length Xs) (mr (cC c)) (mc (cA c)) (rowsX Xs) (diff (to_pt c) (to_pt c')).
Proof.
  intros ((WA & WC & HC & HA & HB & _) & EL & HX). unfold step_sq, nrm2, dist2, diff, to_pt. cbn [pA pB pC]. rewrite HA, HC, <- EL.
  f_equal. f_equal. apply Sum_ext. intros i Hi. destruct (HX i Hi) as (_ & E1 & _). unfold rowsX. rewrite E1. rewrite EL in Hi. destruct (HB i Hi) as (_ & ->). reflexivity.
Qed.
Lemma step_sq_pos c c' : 0 <= step_sq c c'.
Proof. unfold step_sq, dist2. assert (Q : forall r k f, 0 <= Sum r (fun i => Sum k (fun j => f i j ^ 2))) by (intros; apply Sum_pos; intros; apply Sum_pos; intros; apply pow2_ge_0).
  pose proof (Q (mr (cA c)) (mc (cA c)) (fun i j => mget (cA c) i j - mget (cA c') i j)). pose proof (Q (mr (cC c)) (mc (cC c)) (fun i j => mget (cC c) i j - mget (cC c') i j)).
  assert (0 <= Sum (length (cBs c)) (fun i => Sum (mr (nthB c i)) (fun i0 => Sum (mc (nthB c i)) (fun j => (mget (nthB c i) i0 j - mget (nthB c' i) i0 j) ^ 2)))) by (apply Sum_pos; intros; apply (Q _ _ (fun a b => mget (nthB c i) a b - mget (nthB c' i) a b))).
  cbn beta in *. cbn [num RNum] in *. lra.
Qed.
Lemma slopes_of c g : data_fits Xs c -> cw c = None ->
  (forall d, allowed (length Xs) (mr (cC c)) (mc (cA c)) (rowsX Xs) (p_updA P) (p_updB P) (p_updC P) d ->
     Rabs (DF (length Xs) (mr (cC c)) (mc (cA c)) (rowsX Xs) (entX Xs) (p_l2A P) (p_l2B P) (p_l2C P) (to_pt c) d) <= g) ->
  slopes_within (updated P) (objective P Xs) c g.
Proof.
  intros HF Hw H. split; [exact Hw|]. intros d (D1 & D2 & D3). cbn [updated] in *.
  eexists. split.
  - assert (E : (fun t => objective P Xs (moved_by c d t)) = fun t => F (length Xs) (mr (cC c)) (mc (cA c)) (rowsX Xs) (entX Xs) (p_l2A P) (p_l2B P) (p_l2C P) (add (to_pt c) t (dir_pt d))).
    { extensionality t. now apply objective_moved. }
    rewrite E. apply dlim_F.
  - apply H. split; [|split; [|split]].
    + split; [|split]; intros; cbn; [apply D1|apply D2|apply D3].
    + intros U0. extensionality i. extensionality r. now apply (proj2 (D1 i r)).
    + intros U0. extensionality i. extensionality j. extensionality r. now apply (proj2 (D2 i j r)).
    + intros U0. extensionality i. extensionality r. now apply (proj2 (D3 i r)).
Qed.
End Bridge.

Lemma floor_exists P s : ridge_only P s -> exists l, ridge_floor P l.
Proof.
  intros (RA & RB & RC & _).
  set (f := fun (b : bool) (x : R) => if b then x else 1).
  assert (Q : forall b x, (b = true -> 0 < x) -> 0 < f b x) by (intros [|] x H; cbn; [auto|lra]).
  pose proof (Q _ _ (fun u => proj1 (RA u))) as QA. pose proof (Q _ _ (fun u => proj1 (RB u))) as QB. pose proof (Q _ _ (fun u => proj1 (RC u))) as QC.
  exists (Rmin (f (p_updA P) (p_l2A P)) (Rmin (f (p_updB P) (p_l2B P)) (f (p_updC P) (p_l2C P)))).
  pose proof (Rmin_l (f (p_updA P) (p_l2A P)) (Rmin (f (p_updB P) (p_l2B P)) (f (p_updC P) (p_l2C P)))).
  pose proof (Rmin_r (f (p_updA P) (p_l2A P)) (Rmin (f (p_updB P) (p_l2B P)) (f (p_updC P) (p_l2C P)))).
  pose proof (Rmin_l (f (p_updB P) (p_l2B P)) (f (p_updC P) (p_l2C P))).
  pose proof (Rmin_r (f (p_updB P) (p_l2B P)) (f (p_updC P) (p_l2C P))).
  split; [|split; [|split]].
  - repeat apply Rmin_glb_lt; assumption.
  - intros U0. unfold f in *. rewrite U0 in *. lra.
  - intros U0. unfold f in *. rewrite U0 in *. lra.
  - intros U0. unfold f in *. rewrite U0 in *. lra.
Qed.
Lemma ridge_run E P Xs n tr : params_ok P -> trajectory E P Xs n tr -> valid_state Xs (tr 0%nat) ->
  svd_correct E (mc (cA (st_cmf (tr 0%nat)))) -> ridge_only P (tr 0%nat) -> (0 < p_inner P)%nat ->
  forall j, (j <= n)%nat -> valid_state Xs (tr j) /\ same_sizes (st_cmf (tr 0%nat)) (st_cmf (tr j)) /\ ridge_only P (tr j) /\ ((0 < j)%nat -> cw (st_cmf (tr j)) = None).
Proof.
  intros HP HT V Hsvd HR Hn.
  assert (AU : any_update P = true). { destruct HR as (_ & _ & _ & [U0|[U0|U0]]); unfold any_update; rewrite U0; now rewrite ?orb_true_r. }
  induction j as [|j IH]; intros Hj.
  - split; [exact V|]. split; [apply same_sizes_refl|]. split; [exact HR|lia].
  - destruct (IH ltac:(lia)) as (V1 & S1 & R1 & _).
    destruct (trajectory_ok E P Xs HP n tr HT V Hsvd (S j) Hj) as ((V2 & S2 & _) & _ & _ & W & _).
    assert (Hsvd1 : svd_correct E (mc (cA (st_cmf (tr j))))) by (destruct S1 as (_ & -> & _); exact Hsvd).
    destruct (outer_round E P Xs HP _ _ V1 Hsvd1 R1 Hn (HT j ltac:(lia))) as (R2 & _).
    split; [exact V2|]. split; [exact S2|]. split; [exact R2|]. intros _. apply W; [lia|exact AU].
Qed.

(** From the second iterate on the slopes are at most a constant times the last step, and
    the squared steps have a bounded sum: they, and the slopes, go to zero. *)
Theorem C73_slopes_follow_steps E P Xs (s : state (N:=RNum)) :
  params_ok P -> valid_state Xs s -> svd_correct E (mc (cA (st_cmf s))) -> ridge_only P s -> (0 < p_inner P)%nat ->
  exists L, 0 <= L /\ forall n tr, tr 0%nat = s -> trajectory E P Xs n tr ->
    (forall l, ridge_floor P l ->
       Sum (n - 1) (fun j => step_sq (st_cmf (tr (S j))) (st_cmf (tr (S (S j))))) <= 2 / l * objective P Xs (st_cmf (tr 1%nat))) /\
    forall j, (1 <= j < n)%nat ->
      slopes_within (updated P) (objective P Xs) (st_cmf (tr (S j))) (L * step_size (st_cmf (tr j)) (st_cmf (tr (S j)))).
Proof.
  intros HP V Hsvd HR Hn.
  destruct (outer_step E P Xs s) as [s1|] eqn:E1.
  2: { exists 0. split; [lra|]. intros n tr T0 HT. assert (n = 0)%nat as ->.
       { destruct n as [|n]; [reflexivity|]. specialize (HT 0%nat ltac:(lia)). rewrite T0, E1 in HT. discriminate. }
       split; [|intros; lia]. intros l (Hl & _). cbn [Nat.sub Sum]. apply Rmult_le_pos; [apply Rlt_le, Rdiv_lt_0_compat; lra|].
       unfold objective, l2_sum, residual, dist2, sumsq. destruct HP as (P1 & P2 & P3 & _).
       assert (Q : forall r k f, 0 <= Sum r (fun i => Sum k (fun j => f i j ^ 2))) by (intros; apply Sum_pos; intros; apply Sum_pos; intros; apply pow2_ge_0).
       apply Rplus_le_le_0_compat; [apply Rmult_le_pos; [lra|]; apply Sum_pos; intros; apply (Q _ _ (fun a b => _ - _))|].
       apply Rplus_le_le_0_compat; [apply Rplus_le_le_0_compat|]; (apply Rmult_le_pos; [lra|]); [apply Q|apply Sum_pos; intros; apply Q|apply Q]. }
  destruct (floor_exists P s HR) as (l0 & HL0).
  destruct HP as (P1 & P2 & P3 & P4).
  assert (SL : forall l, ridge_floor P l -> exists L, 0 <= L /\ forall m (xs y1 y2 : nat -> pt), xs 0%nat = to_pt (st_cmf s1) ->
    (forall j, (j < m)%nat -> round (length Xs) (mr (cC (st_cmf s))) (mc (cA (st_cmf s))) (rowsX Xs) (entX Xs) (p_l2A P) (p_l2B P) (p_l2C P) (p_updA P) (p_updB P) (p_updC P) (xs j) (y1 j) (y2 j) (xs (S j))) ->
    Sum m (fun j => nrm2 (length Xs) (mr (cC (st_cmf s))) (mc (cA (st_cmf s))) (rowsX Xs) (diff (xs j) (xs (S j)))) <=
      2 / l * F (length Xs) (mr (cC (st_cmf s))) (mc (cA (st_cmf s))) (rowsX Xs) (entX Xs) (p_l2A P) (p_l2B P) (p_l2C P) (to_pt (st_cmf s1)) /\
    forall j d, (j < m)%nat -> allowed (length Xs) (mr (cC (st_cmf s))) (mc (cA (st_cmf s))) (rowsX Xs) (p_updA P) (p_updB P) (p_updC P) d ->
      Rabs (DF (length Xs) (mr (cC (st_cmf s))) (mc (cA (st_cmf s))) (rowsX Xs) (entX Xs) (p_l2A P) (p_l2B P) (p_l2C P) (xs (S j)) d) <=
        L * sqrt (nrm2 (length Xs) (mr (cC (st_cmf s))) (mc (cA (st_cmf s))) (rowsX Xs) (diff (xs j) (xs (S j))))).
  { intros l (Hl & LA & LB & LC). apply rounds_slope; auto. }
  destruct (SL l0 HL0) as (L & PL & HL). exists L. split; [exact PL|].
  intros n tr T0 HT. subst s.
  assert (HP : params_ok P) by (repeat split; assumption).
  pose proof (ridge_run E P Xs n tr HP HT V Hsvd HR Hn) as RR.
  destruct n as [|n].
  { split; [|intros; lia]. intros l Hlf. cbn [Nat.sub Sum]. apply Rmult_le_pos; [apply Rlt_le, Rdiv_lt_0_compat; [lra|apply Hlf]|].
    unfold objective, l2_sum, residual, dist2, sumsq.
    assert (Q : forall r k f, 0 <= Sum r (fun i => Sum k (fun j => f i j ^ 2))) by (intros; apply Sum_pos; intros; apply Sum_pos; intros; apply pow2_ge_0).
    apply Rplus_le_le_0_compat; [apply Rmult_le_pos; [lra|]; apply Sum_pos; intros; apply (Q _ _ (fun a b => _ - _))|].
    apply Rplus_le_le_0_compat; [apply Rplus_le_le_0_compat|]; (apply Rmult_le_pos; [lra|]); [apply Q|apply Sum_pos; intros; apply Q|apply Q]. }
  assert (T1 : tr 1%nat = s1) by (specialize (HT 0%nat ltac:(lia)); congruence).
  assert (RD : forall j, exists ys, (j < n)%nat -> round (length Xs) (mr (cC (st_cmf (tr 0%nat)))) (mc (cA (st_cmf (tr 0%nat)))) (rowsX Xs) (entX Xs) (p_l2A P) (p_l2B P) (p_l2C P) (p_updA P) (p_updB P) (p_updC P)
     (to_pt (st_cmf (tr (S j)))) (fst ys) (snd ys) (to_pt (st_cmf (tr (S (S j)))))).
  { intros j. destruct (lt_dec j n) as [Hj|]; [|exists (Pt z2 z3 z2, Pt z2 z3 z2); intros; lia].
    destruct (RR (S j) ltac:(lia)) as (V1 & (_ & S1 & S2 & _) & R1 & _).
    assert (Hsvd1 : svd_correct E (mc (cA (st_cmf (tr (S j)))))) by (rewrite S1; exact Hsvd).
    destruct (outer_round E P Xs HP _ _ V1 Hsvd1 R1 Hn (HT (S j) ltac:(lia))) as (_ & y1 & y2 & RD). rewrite S1, S2 in RD. exists (y1, y2). intros _. exact RD. }
  assert (CH : exists ys : nat -> pt * pt, forall j, (j < n)%nat -> round (length Xs) (mr (cC (st_cmf (tr 0%nat)))) (mc (cA (st_cmf (tr 0%nat)))) (rowsX Xs) (entX Xs) (p_l2A P) (p_l2B P) (p_l2C P) (p_updA P) (p_updB P) (p_updC P)
     (to_pt (st_cmf (tr (S j)))) (fst (ys j)) (snd (ys j)) (to_pt (st_cmf (tr (S (S j)))))).
  { assert (Q : forall q, exists ys : nat -> pt * pt, forall j, (j < q)%nat -> (j < n)%nat -> round (length Xs) (mr (cC (st_cmf (tr 0%nat)))) (mc (cA (st_cmf (tr 0%nat)))) (rowsX Xs) (entX Xs) (p_l2A P) (p_l2B P) (p_l2C P) (p_updA P) (p_updB P) (p_updC P)
     (to_pt (st_cmf (tr (S j)))) (fst (ys j)) (snd (ys j)) (to_pt (st_cmf (tr (S (S j)))))).
    { induction q as [|q (ys & IH)]; [exists (fun _ => (Pt z2 z3 z2, Pt z2 z3 z2)); intros; lia|].
      destruct (RD q) as (y & Hy). exists (fun j => if Nat.eq_dec j q then y else ys j). intros j Hj Hjn. destruct (Nat.eq_dec j q) as [->|]; [auto|]. apply IH; [lia|assumption]. }
    destruct (Q n) as (ys & H). exists ys. intros j Hj. now apply H. }
  destruct CH as (ys & CH).
  assert (NS : forall j, (j <= n)%nat -> step_sq (st_cmf (tr (S j))) (st_cmf (tr (S (S j)))) =
     nrm2 (length Xs) (mr (cC (st_cmf (tr 0%nat)))) (mc (cA (st_cmf (tr 0%nat)))) (rowsX Xs) (diff (to_pt (st_cmf (tr (S j)))) (to_pt (st_cmf (tr (S (S j))))))).
  { intros j Hj. destruct (RR (S j) ltac:(lia)) as ((VF & _) & (_ & S1 & S2 & _) & _). rewrite (step_sq_nrm Xs _ _ VF). now rewrite S1, S2. }
  split.
  - intros l Hlf. destruct (SL l Hlf) as (L' & _ & HL').
    destruct (HL' n (fun j => to_pt (st_cmf (tr (S j)))) (fun j => fst (ys j)) (fun j => snd (ys j)) (f_equal (fun s => to_pt (st_cmf s)) T1) CH) as (Q & _).
    replace (S n - 1)%nat with n by lia. rewrite (Sum_ext n _ (fun j => nrm2 (length Xs) (mr (cC (st_cmf (tr 0%nat)))) (mc (cA (st_cmf (tr 0%nat)))) (rowsX Xs) (diff (to_pt (st_cmf (tr (S j)))) (to_pt (st_cmf (tr (S (S j)))))))) by (intros; apply NS; lia).
    destruct (RR 1%nat ltac:(lia)) as ((VF & _) & (_ & S1 & S2 & _) & _ & W). rewrite (objective_F P Xs _ VF (W ltac:(lia))). rewrite S1, S2, T1. exact Q.
  - intros j Hj. destruct (RR (S j) ltac:(lia)) as ((VF & _) & (_ & S1 & S2 & _) & _ & W).
    apply slopes_of; [exact VF|apply W; lia|]. rewrite S1, S2. intros d Hd.
    destruct j as [|j]; [lia|]. unfold step_size. rewrite NS by lia.
    destruct (HL n (fun j => to_pt (st_cmf (tr (S j)))) (fun j => fst (ys j)) (fun j => snd (ys j)) (f_equal (fun s => to_pt (st_cmf s)) T1) CH) as (_ & Q).
    apply (Q j d); [lia|exact Hd].
Qed.
Print Assumptions C73_slopes_follow_steps.

(** ** Whole calls *)
Lemma terms_vanish (f : nat -> R) K : (forall j, 0 <= f j) -> (forall n, Sum n f <= K) ->
  forall eps, 0 < eps -> exists N, forall j, (N <= j)%nat -> f j < eps.
Proof.
  intros Hf HK eps He.
  assert (G : Un_growing (fun n => Sum n f)) by (intros n; cbn [Sum]; pose proof (Hf n); lra).
  assert (B : has_ub (fun n => Sum n f)) by (exists K; intros x (n & ->); apply HK).
  destruct (growing_cv _ G B) as (lim & HC). pose proof (CV_Cauchy _ (exist _ lim HC)) as CC.
  destruct (CC eps He) as (N & HN). exists N. intros j Hj. specialize (HN (S j) j ltac:(lia) ltac:(lia)).
  unfold R_dist in HN. cbn [Sum] in HN. replace (Sum j f + f j - Sum j f) with (f j) in HN by ring. rewrite Rabs_right in HN; [exact HN|]. apply Rle_ge, Hf.
Qed.
Fixpoint walk (E : ext (N:=RNum)) (P : params (N:=RNum)) (Xs : list rmat) (s : state (N:=RNum)) (j : nat) : state (N:=RNum) :=
  match j with
  | O => s
  | S j' => match outer_step E P Xs (walk E P Xs s j') with Ok s' => s' | Err _ => walk E P Xs s j' end
  end.
Lemma walk_trajectory E P Xs n tr : trajectory E P Xs n tr -> forall j, (j <= n)%nat -> tr j = walk E P Xs (tr 0%nat) j.
Proof.
  intros HT. induction j as [|j IH]; intros Hj; [reflexivity|]. cbn [walk]. rewrite <- IH by lia. now rewrite (HT j ltac:(lia)).
Qed.
Lemma no_penalties_no_nan s : no_penalties s -> no_nan s.
Proof. intros (A & B & C). unfold no_nan. rewrite A, B, C. cbn [length]. repeat split; intros; lia. Qed.
Lemma slopes_weaken u f c g g' : slopes_within u f c g -> g <= g' -> slopes_within u f c g'.
Proof. intros (W & H) Hg. split; [exact W|]. intros d Hd. destruct (H d Hd) as (s & D & B). exists s. split; [exact D|lra]. Qed.
Lemma ridge_params a l2 flags l : listify (f_l2 a) = Ok l2 -> ridges a l ->
  p_l2A (fit_params a l2 flags) = l 0%nat /\ p_l2B (fit_params a l2 flags) = l 1%nat /\ p_l2C (fit_params a l2 flags) = l 2%nat.
Proof.
  intros EL HL. destruct l2 as [[x y] z]. apply listify_iff in EL as (M0 & M1 & M2). unfold fit_params. cbn [p_l2A p_l2B p_l2C].
  split; [|split].
  - destruct (HL 0%nat ltac:(lia)) as (v & Mv & ->). now rewrite (means_fun _ _ _ _ Mv M0).
  - destruct (HL 1%nat ltac:(lia)) as (v & Mv & ->). now rewrite (means_fun _ _ _ _ Mv M1).
  - destruct (HL 2%nat ltac:(lia)) as (v & Mv & ->). now rewrite (means_fun _ _ _ _ Mv M2).
Qed.
Theorem C73_fit_stationary V IE rnd (a : fitR) rank (l : nat -> R) :
  sensible V a rank -> ranks_kept IE -> svd_correct (e_ext V) rank -> 0 < data_sumsq (f_data a) ->
  unpenalised a -> ridged a -> ridges a l -> (0 < f_inner a)%Z -> ~ tol_set (f_tol a) ->
  forall eps, 0 < eps -> exists n0, forall n out, (n0 <= n)%Z ->
    cmf_aoadmm V IE rnd (with_iterations n a) = Ok out ->
    slopes_within (updates a) (ridge_objective a l) (out_cmf out) eps.
Proof.
  intros HS RK HE HD HU (HR & m0 & Hm0 & Um0) HL HIn HT eps Heps.
  destruct (setup V IE rnd a) as [[s l2]|] eqn:ES.
  2: { exists 0%Z. intros n out _ H. destruct (fit_run _ _ _ _ _ H) as (s & l2 & flags & s' & d & ES' & _).
       change (setup V IE rnd (with_iterations n a)) with (setup V IE rnd a) in ES'. congruence. }
  destruct (const_flags (f_const a)) as [flags|] eqn:EF.
  2: { exists 0%Z. intros n out _ H. destruct (fit_run _ _ _ _ _ H) as (s' & l2' & flags & s'' & d & _ & EF' & _). cbn [f_const with_iterations] in EF'. congruence. }
  destruct (setup_ok _ _ _ _ _ _ _ HS RK ES) as (VS & SI & MC & EL & _ & t & PA).
  pose proof (unpenalised_parsed _ _ _ _ HU PA) as NP.
  assert (PO : params_ok (fit_params a l2 flags)) by (eapply fit_params_ok; eauto).
  destruct (ridge_params a l2 flags l EL HL) as (L0 & L1 & L2).
  set (P := fit_params a l2 flags) in *.
  assert (UP : updated P = updates a). { extensionality m. unfold P, fit_params. destruct l2 as [[x y] z]. destruct m as [|[|m]]; reflexivity. }
  assert (OB : objective P (f_data a) = ridge_objective a l). { extensionality c. unfold objective, l2_sum, ridge_objective. now rewrite L0, L1, L2. }
  assert (RO : ridge_only P s).
  { assert (Q : forall m, (m < 3)%nat -> updates a m = true -> 0 < l m) by (intros m Hm Um; destruct (HL m Hm) as (v & Mv & ->); now apply (HR m v)).
    destruct NP as (N1 & N2 & N3). unfold ridge_only. rewrite L0, L1, L2.
    assert (U0 : updated P 0%nat = updates a 0%nat) by now rewrite UP. assert (U1 : updated P 1%nat = updates a 1%nat) by now rewrite UP. assert (U2 : updated P 2%nat = updates a 2%nat) by now rewrite UP.
    cbn [updated] in U0, U1, U2. rewrite U0, U1, U2.
    split; [intros U3; split; [now apply Q; [lia|]|assumption]|]. split; [intros U3; split; [now apply Q; [lia|]|assumption]|]. split; [intros U3; split; [now apply Q; [lia|]|assumption]|].
    destruct m0 as [|[|[|m0]]]; [auto|auto|auto|lia]. }
  destruct (fit_params_fields a l2 flags) as (_ & _ & _ & F4 & _). fold P in F4.
  assert (HI : (0 < p_inner P)%nat) by (rewrite F4; lia).
  assert (HE' : svd_correct (e_ext V) (mc (cA (st_cmf s)))) by now rewrite MC.
  assert (PT : p_tol P = f_tol a) by (unfold P, fit_params; destruct l2 as [[x y] z]; reflexivity).
  destruct (C73_slopes_follow_steps (e_ext V) P (f_data a) s PO VS HE' RO HI) as (L & PL & HLS).
  (* every call of n iterations makes n iterations *)
  assert (RUN : forall n out, (0 <= n)%Z -> cmf_aoadmm V IE rnd (with_iterations n a) = Ok out ->
    exists tr, tr 0%nat = s /\ trajectory (e_ext V) P (f_data a) (Z.to_nat n) tr /\ out_cmf out = st_cmf (tr (Z.to_nat n))).
  { intros n out Hn H. destruct (fit_run _ _ _ _ _ H) as (s0 & l20 & flags0 & s' & d & ES' & EF' & ER & ->).
    change (setup V IE rnd (with_iterations n a)) with (setup V IE rnd a) in ES'. cbn [f_const f_data f_n_iter with_iterations] in *.
    rewrite ES in ES'. injection ES' as <- <-. rewrite EF in EF'. injection EF' as <-.
    change (fit_params (with_iterations n a) l2 flags) with P in ER.
    destruct (run_main _ _ _ _ _ _ _ PO VS SI HE' HD ER) as (m & tr & pv & msg & Hm & T0 & Tm & TT & ST & _).
    assert (NN : forall j, (0 < j <= m)%nat -> no_nan (tr j)).
    { intros j Hj. apply no_penalties_no_nan. rewrite <- T0 in VS, HE', NP. destruct (trajectory_ok _ _ _ PO m tr TT VS HE' j ltac:(lia)) as ((_ & _ & SP & _) & _). eapply AoErrors.pens_nil; eauto. }
    destruct (ST NN) as (_ & _ & K1 & K2 & K3).
    assert (m = Z.to_nat n) as ->.
    { destruct (Nat.eq_dec m (Z.to_nat n)) as [|Hne]; [assumption|exfalso]. assert (M1 : msg <> MaxIter) by (apply K1; lia).
      destruct m as [|m]; [now apply M1, K2|]. specialize (K3 m eq_refl).
      destruct msg; cbn [message_ok] in K3; [congruence| |].
      - destruct K3 as (_ & (x & E0 & E1 & _)). apply HT. exists x. rewrite <- PT. auto.
      - destruct K3 as (_ & _ & ((x & E0 & E1) & _)). apply HT. exists x. rewrite <- PT. auto. }
    exists tr. split; [assumption|]. split; [assumption|]. cbn [out_cmf]. now rewrite Tm. }
  destruct (classic (exists j, forall s', outer_step (e_ext V) P (f_data a) (walk (e_ext V) P (f_data a) s j) <> Ok s')) as [(j & Hj)|HN].
  - exists (Z.of_nat (S j)). intros n out Hn H. exfalso. destruct (RUN n out ltac:(lia) H) as (tr & T0 & TT & _).
    pose proof (TT j ltac:(lia)) as Q. rewrite (walk_trajectory _ _ _ _ _ TT j ltac:(lia)), T0 in Q. exact (Hj _ Q).
  - assert (TW : forall n, trajectory (e_ext V) P (f_data a) n (walk (e_ext V) P (f_data a) s)).
    { intros n j Hj. cbn [walk]. destruct (outer_step (e_ext V) P (f_data a) (walk (e_ext V) P (f_data a) s j)) as [s'|] eqn:EO; [reflexivity|].
      exfalso. apply HN. exists j. intros s' Q. congruence. }
    set (tr := walk (e_ext V) P (f_data a) s) in *.
    destruct (floor_exists P s RO) as (lo & Hlo).
    assert (HV : forall e, 0 < e -> exists N, forall j, (N <= j)%nat -> step_sq (st_cmf (tr (S j))) (st_cmf (tr (S (S j)))) < e).
    { apply (terms_vanish _ (2 / lo * objective P (f_data a) (st_cmf (tr 1%nat)))); [intros; apply step_sq_pos|].
      intros n. destruct (HLS (S n) tr eq_refl (TW (S n))) as (Q & _). specialize (Q lo Hlo). replace (S n - 1)%nat with n in Q by lia. exact Q. }
    assert (He2 : 0 < (eps / (L + 1)) ^ 2) by (apply pow_lt, Rdiv_lt_0_compat; lra).
    destruct (HV _ He2) as (N & HN2).
    exists (Z.of_nat (S (S N))). intros n out Hn H. destruct (RUN n out ltac:(lia) H) as (tr' & T0 & TT & ->).
    rewrite (walk_trajectory _ _ _ _ _ TT (Z.to_nat n) (le_n _)), T0. fold tr.
    destruct (Z.to_nat n) as [|[|k]] eqn:EK; [lia|lia|].
    destruct (HLS (S (S k)) tr eq_refl (TW _)) as (_ & Q). specialize (Q (S k) ltac:(lia)). rewrite UP, OB in Q.
    apply (slopes_weaken _ _ _ _ _ Q). specialize (HN2 k ltac:(lia)). unfold step_size.
    assert (SQ : sqrt (step_sq (st_cmf (tr (S k))) (st_cmf (tr (S (S k))))) <= eps / (L + 1)).
    { rewrite <- (sqrt_pow2 (eps / (L + 1))) by (apply Rlt_le, Rdiv_lt_0_compat; lra). apply sqrt_le_1_alt. lra. }
    apply Rle_trans with ((L + 1) * (eps / (L + 1))); [|right; field; lra].
    apply Rmult_le_compat; [exact PL|apply sqrt_pos|lra|exact SQ].
Qed.
Print Assumptions C73_fit_stationary.
(** Calls that cannot fail: enough iterations always reach slopes below any bound. *)
Theorem C73_fit_converges V IE rnd (a : fitR) rank (l : nat -> R) :
  dependable V a rank -> ranks_kept IE -> svd_correct (e_ext V) rank -> 0 < data_sumsq (f_data a) ->
  unpenalised a -> (exists m, (m < 3)%nat /\ updates a m = true) -> ridges a l -> (0 < f_inner a)%Z -> ~ tol_set (f_tol a) ->
  forall eps, 0 < eps -> exists n0, forall n, (n0 <= n)%Z -> exists out,
    cmf_aoadmm V IE rnd (with_iterations n a) = Ok out /\
    slopes_within (updates a) (ridge_objective a l) (out_cmf out) eps.
Proof.
  intros D RK HE HD HU HM HL HI HT eps Heps.
  assert (HR : ridged a).
  { split; [|exact HM]. destruct D as (_ & _ & _ & _ & _ & _ & _ & _ & _ & _ & _ & D & _). intros m v Hm Um Mv. destruct (D m Hm Um) as (Q & _). now apply Q. }
  destruct (C73_fit_stationary V IE rnd a rank l (proj1 D) RK HE HD HU HR HL HI HT eps Heps) as (n0 & H). exists n0. intros n Hn.
  assert (D' : dependable V (with_iterations n a) rank) by exact D.
  destruct (C51_fit_total V IE rnd _ rank D' RK HE) as (out & EO). exists out. split; [exact EO|]. now apply (H n).
Qed.
Print Assumptions C73_fit_converges.

(** ** How fast *)
Lemma small_term n (f : nat -> R) K : (0 < n)%nat -> Sum n f <= K -> exists j, (j < n)%nat /\ f j <= K / INR n.
Proof.
  intros Hn HS. destruct (classic (exists j, (j < n)%nat /\ f j <= K / INR n)) as [|N]; [assumption|exfalso].
  assert (PN : 0 < INR n) by (apply lt_0_INR; lia).
  assert (Q : forall j, (j < n)%nat -> K / INR n < f j). { intros j Hj. destruct (Rlt_or_le (K / INR n) (f j)); [assumption|]. exfalso. apply N. eauto. }
  assert (SQ : forall q, (q <= n)%nat -> INR q * (K / INR n) <= Sum q f /\ ((0 < q)%nat -> INR q * (K / INR n) < Sum q f)).
  { induction q as [|q IH]; intros Hq; [cbn; split; [lra|lia]|]. destruct (IH ltac:(lia)) as (I1 & _). specialize (Q q ltac:(lia)). rewrite S_INR. cbn [Sum]. split; [|intros _]; lra. }
  destruct (SQ n (le_n n)) as (_ & L). specialize (L Hn). replace (INR n * (K / INR n)) with K in L by (field; lra). lra.
Qed.
(** After n+1 iterations one of the iterates 2, ..., n+1 has slopes of order 1/sqrt n. *)
Theorem C73_rate E P Xs (s : state (N:=RNum)) :
  params_ok P -> valid_state Xs s -> svd_correct E (mc (cA (st_cmf s))) -> ridge_only P s -> (0 < p_inner P)%nat ->
  exists K, 0 <= K /\ forall n tr, (0 < n)%nat -> tr 0%nat = s -> trajectory E P Xs (S n) tr ->
    exists j, (2 <= j <= S n)%nat /\ slopes_within (updated P) (objective P Xs) (st_cmf (tr j)) (K / sqrt (INR n)).
Proof.
  intros HP V Hsvd HR Hn. destruct (C73_slopes_follow_steps E P Xs s HP V Hsvd HR Hn) as (L & PL & H). destruct (floor_exists P s HR) as (l & Hl).
  set (f1 := fun c => 2 / l * objective P Xs c). 
  assert (HK : exists K1, 0 <= K1 /\ forall n tr, (0 < n)%nat -> tr 0%nat = s -> trajectory E P Xs (S n) tr -> Sum n (fun j => step_sq (st_cmf (tr (S j))) (st_cmf (tr (S (S j))))) <= K1).
  { destruct (outer_step E P Xs s) as [s1|] eqn:E1.
    - exists (Rmax 0 (f1 (st_cmf s1))). split; [apply Rmax_l|]. intros n tr Hn0 T0 HT. destruct (H (S n) tr T0 HT) as (Q & _). specialize (Q l Hl). replace (S n - 1)%nat with n in Q by lia.
      assert (T1 : tr 1%nat = s1) by (specialize (HT 0%nat ltac:(lia)); congruence). rewrite T1 in Q. fold (f1 (st_cmf s1)) in Q. pose proof (Rmax_r 0 (f1 (st_cmf s1))). lra.
    - exists 0. split; [lra|]. intros n tr Hn0 T0 HT. exfalso. specialize (HT 0%nat ltac:(lia)). rewrite T0, E1 in HT. discriminate. }
  destruct HK as (K1 & P1 & HK). exists (L * sqrt K1). split; [apply Rmult_le_pos; [exact PL|apply sqrt_pos]|].
  intros n tr Hn0 T0 HT. destruct (small_term n _ K1 Hn0 (HK n tr Hn0 T0 HT)) as (j & Hj & Q). exists (S (S j)). split; [lia|].
  destruct (H (S n) tr T0 HT) as (_ & SW). apply (slopes_weaken _ _ _ _ _ (SW (S j) ltac:(lia))). unfold step_size.
  unfold Rdiv. rewrite Rmult_assoc. apply Rmult_le_compat_l; [exact PL|].
  assert (PN : 0 < INR n) by (apply lt_0_INR; lia). change (sqrt K1 * / sqrt (INR n)) with (sqrt K1 / sqrt (INR n)). rewrite <- sqrt_div_alt by assumption. now apply sqrt_le_1_alt.
Qed.
Print Assumptions C73_rate.

(** ** Cases that meet the hypotheses *)
(** two matrices with two and one rows, a weighted start, C not updated *)
Definition start73 : rcmf := Cmf (N:=RNum) (Some [1; 2]) (m22 1 2 3 1) [m22 1 0 2 1; m12 1 3] (m22 1 2 0 1).
Definition args73 : fitR :=
  FitArgs (N:=RNum) (data69 1 1 2 3 4 5 6) (PyInt 2) (InitSeq (seq66 start73)) 3 (AIter [Some (1 / 10); Some (1 / 5); None])
    (KwArgs (AOne None) (AOne None) (AOne None) (AOne None) (AOne None) false (AOne None) (AOne None) (AOne None)) RNone
    1 (CBool false) (IStr Zeros) (IStr Zeros) true None None (Some (1 / 10000)) None 5 true true false true true.
Definition ridge73 (m : nat) : R := match m with 0%nat => 1 / 10 | 1%nat => 1 / 5 | _ => 0 end.
Lemma kw73 m kw : (m < 3)%nat -> mode_values (f_kw args73) m kw -> k_nn kw = None /\ k_lower kw = None /\ k_upper kw = None /\ k_norm kw = None /\
  k_uni kw = None /\ k_l1 kw = None /\ k_tv kw = None /\ k_gl2 kw = None /\ k_pf2 kw = false.
Proof. intros Hm (K1 & K2 & K3 & K4 & K5 & K6 & K7 & K8 & K9). cbn in K1, K2, K3, K4, K5, K6, K7, K8, K9. rewrite K9. destruct m as [|[|[|m]]]; try lia; auto 20. Qed.
Lemma l273 m v : (m < 3)%nat -> means (f_l2 args73) m v -> strength v = ridge73 m.
Proof. intros Hm (_ & K). destruct m as [|[|[|m]]]; [| | |lia]; cbn in K; injection K as <-; reflexivity. Qed.
Lemma dependable73 E : dependable (Env (N:=RNum) E (fun _ => []) true) args73 2.
Proof.
  set (a := args73).
  assert (UPX : forall m u, user_penalties (f_regs a) m u -> u = []) by (intros m u H; exact H).
  assert (L2X : forall m v, (m < 3)%nat -> means (f_l2 a) m v -> 0 <= strength v) by (intros m v Hm MV; rewrite (l273 m v Hm MV); destruct m as [|[|m]]; cbn; lra).
  split.
  { unfold sensible. split; [discriminate|]. split; [repeat constructor|].
    split; [reflexivity|]. split; [lia|]. split; [do 5 eexists; reflexivity|]. split; [cbn; lra|]. split; [exact L2X|]. split.
    - intros m r kw Hm _ MV. destruct (kw73 m kw Hm MV) as (K1 & K2 & K3 & K4 & K5 & K6 & K7 & K8 & K9). split; [intros hi E0; congruence|intros M E0; congruence].
    - split.
      + intros m r u Hm _ HU. rewrite (UPX m u HU). constructor.
      + intros [K|(u & HU & K)]; [discriminate K|]. rewrite (UPX 1%nat u HU) in K. inversion K. }
  split; [intros X [<-|[<-|[]]]; reflexivity|]. split.
  { eexists. split; [reflexivity|]. split; [|reflexivity]. split; [|split; [reflexivity|]].
    - split; [repeat constructor|]. split; [repeat constructor|]. split; [reflexivity|]. split; [reflexivity|]. split; [|intros w K; now injection K as <-].
      intros [|[|i]] Hi; [repeat constructor|repeat constructor|cbn in Hi; lia].
    - intros [|[|i]] Hi; [repeat constructor|repeat constructor|cbn in Hi; lia]. }
  split; [reflexivity|]. split; [discriminate|].
  split; [eexists; split; [reflexivity|discriminate]|]. split; [eexists; split; [reflexivity|discriminate]|].
  split; [reflexivity|]. split; [repeat split; exact Logic.I|]. split; [exact Logic.I|]. split.
  { intros m kw Hm MV. destruct (kw73 m kw Hm MV) as (K1 & K2 & K3 & K4 & K5 & K6 & K7 & K8 & K9). unfold acceptable. rewrite K4, K6, K7, K8. cbn [strength].
    split; [lra|]. split; [lra|]. split; [intros K; now destruct K|]. split; [lra|exact Logic.I]. }
  split.
  { intros m Hm Um. split; [|split].
    - intros v MV. rewrite (l273 m v Hm MV). destruct m as [|[|[|m]]]; cbn in Um |- *; [lra|lra|discriminate Um|lia].
    - intros kw MV. destruct (kw73 m kw Hm MV) as (K1 & K2 & K3 & K4 & K5 & K6 & K7 & K8 & K9). unfold asks_plain. rewrite K6, K7, K8, K9. cbn. auto.
    - intros u HU. rewrite (UPX m u HU). constructor. }
  split.
  { intros _ _ [(kw & MV & K)|(u & HU & K)].
    - destruct (kw73 0%nat kw ltac:(lia) MV) as (K1 & K2 & K3 & K4 & K5 & K6 & K7 & K8 & K9). unfold asks_matrixwise, wants in K. rewrite K4, K5, K7, K8 in K. cbn in K.
      destruct K as [K|[K|[K|(M & K)]]]; try discriminate K; lra.
    - rewrite (UPX 0%nat u HU) in K. inversion K. }
  intros (x & K & _). discriminate K.
Qed.
Example C73_nonvacuous (rnd : rand (N:=RNum)) : exists V, dependable V args73 2 /\ sensible V args73 2 /\ ranks_kept no_ext /\ svd_correct (e_ext V) 2 /\ 0 < data_sumsq (f_data args73) /\
  unpenalised args73 /\ ridged args73 /\ ridges args73 ridge73 /\ (0 < f_inner args73)%Z /\ ~ tol_set (f_tol args73) /\
  forall eps, 0 < eps -> exists n0, forall n, (n0 <= n)%Z -> exists out, cmf_aoadmm V no_ext rnd (with_iterations n args73) = Ok out /\
    slopes_within (updates args73) (ridge_objective args73 ridge73) (out_cmf out) eps.
Proof.
  destruct ideal_exists as (E & HE & _). set (V := Env (N:=RNum) E (fun _ => []) true). exists V.
  assert (D : dependable V args73 2) by apply dependable73.
  assert (HD : 0 < data_sumsq (f_data args73)) by (unfold data_sumsq, sumsq, nthX; cbn; unfold mget; cbn; lra).
  assert (HU : unpenalised args73).
  { intros m Hm _. split; [|intros u HU; exact HU]. intros kw MV. destruct (kw73 m kw Hm MV) as (K1 & K2 & K3 & K4 & K5 & K6 & K7 & K8 & K9).
    unfold asks_nothing, wants. rewrite K1, K2, K3, K4, K5, K6, K7, K8, K9. cbn [strength]. repeat split; try discriminate; auto. }
  assert (HM : exists m, (m < 3)%nat /\ updates args73 m = true) by (exists 0%nat; split; [lia|reflexivity]).
  assert (HL : ridges args73 ridge73).
  { intros m Hm. destruct m as [|[|[|m]]]; [exists (Some (1 / 10))|exists (Some (1 / 5))|exists None|lia]; (split; [split; reflexivity|reflexivity]). }
  assert (HT : ~ tol_set (f_tol args73)) by (intros (x & K & _); discriminate K).
  split; [exact D|]. split; [apply D|]. split; [exact no_ext_ranks|]. split; [apply HE|]. split; [exact HD|]. split; [exact HU|]. split.
  { split; [|exact HM]. intros m v Hm Um Mv. rewrite (l273 m v Hm Mv). destruct m as [|[|[|m]]]; cbn in Um |- *; [lra|lra|discriminate Um|lia]. }
  split; [exact HL|]. split; [reflexivity|]. split; [exact HT|].
  exact (C73_fit_converges V no_ext rnd args73 2 ridge73 D no_ext_ranks (HE 2%nat) HD HU HM HL eq_refl HT).
Qed.
(** The runs of C73_slopes_follow_steps and C73_rate: the same data, a weighted start. *)
Definition P73 : params (N:=RNum) := Params (N:=RNum) (1 / 10) (1 / 5) 0 1 false false 5 None true true false None None None true.
Definition s73 : state (N:=RNum) := St start73 [] [] [] None.
Example C73_runs_nonvacuous : exists E tr, params_ok P73 /\ valid_state (data69 1 1 2 3 4 5 6) s73 /\ svd_correct E (mc (cA (st_cmf s73))) /\ ridge_only P73 s73 /\
  (0 < p_inner P73)%nat /\ ridge_floor P73 (1 / 10) /\ cw (st_cmf s73) <> None /\ tr 0%nat = s73 /\ forall n, trajectory E P73 (data69 1 1 2 3 4 5 6) n tr.
Proof.
  destruct ideal_exists as (E & HE & _). set (Xs := data69 1 1 2 3 4 5 6).
  assert (HP : params_ok P73) by (unfold params_ok, P73; cbn; lra).
  assert (VS : valid_state Xs s73).
  { split; [|split; [|repeat split; constructor]].
    - split; [|split; [reflexivity|]].
      + split; [repeat constructor|]. split; [repeat constructor|]. split; [reflexivity|]. split; [reflexivity|]. split; [|intros w K; now injection K as <-].
        intros [|[|i]] Hi; [repeat constructor|repeat constructor|cbn in Hi; lia].
      + intros [|[|i]] Hi; [repeat constructor|repeat constructor|cbn in Hi; lia].
    - split; [cbn; lia|]. split; [cbn; lia|]. split; [cbn; lia|]. intros [|[|i]] Hi; [cbn; lia|cbn; lia|cbn in Hi; lia]. }
  assert (HR : robust P73 s73).
  { split; [|split]; cbn; intros K; try discriminate; (split; [lra|]); [split; [constructor|intros _; constructor]|constructor]. }
  exists E, (walk E P73 Xs s73). split; [exact HP|]. split; [exact VS|]. split; [apply HE|]. split.
  { split; [cbn; split; [lra|reflexivity]|]. split; [cbn; split; [lra|reflexivity]|]. split; [discriminate|]. now left. }
  split; [cbn; lia|]. split; [split; [lra|]; cbn; split; [lra|]; split; [lra|discriminate]|]. split; [discriminate|]. split; [reflexivity|].
  assert (Q : forall j, valid_state Xs (walk E P73 Xs s73 j) /\ svd_correct E (mc (cA (st_cmf (walk E P73 Xs s73 j)))) /\ robust P73 (walk E P73 Xs s73 j)).
  { induction j as [|j (V1 & E1 & R1)]; [split; [exact VS|]; split; [apply HE|exact HR]|]. cbn [walk].
    destruct (outer_total E P73 Xs HP _ V1 E1 R1) as (s' & EO). rewrite EO.
    destruct (outer_step_ok E P73 Xs HP _ _ V1 E1 EO) as ((V2 & S2 & P2 & _) & _). split; [exact V2|]. split; [apply HE|]. exact (robust_same _ _ _ P2 R1). }
  intros n j Hj. destruct (Q j) as (V1 & E1 & R1). cbn [walk]. destruct (outer_total E P73 Xs HP _ V1 E1 R1) as (s' & EO). rewrite EO. reflexivity.
Qed.
