(** C12, C13 in the terms of PenaltySpec.v *)
From Coq Require Import Reals Lra Lia List Arith Bool ZArith.
From Verif Require Import Num Numpy Unimodal RFacts MatFacts Spec SpecFacts ModelSpec SvdFacts Penalties PenaltySpec
  ProxProofs SimplexProofs Parafac2Proofs.
Import ListNotations.
Local Open Scope R_scope.

Section Main.
Variable E : ext (N:=RNum).
Variable k : nat.
Variables (fms : list rmat) (rhos : list R).
Hypothesis Hin : parafac2_input k fms rhos.

Lemma bases_ok basis : orthonormal_bases k fms basis <-> basis_ok k fms basis.
Proof.
  unfold orthonormal_bases, basis_ok. split; intros (H1 & H2); (split; [exact H1|]); intros i Hi; specialize (H2 i Hi).
  - destruct H2 as ((A & B & C) & D). unfold no_mat, dm in *. split; [assumption|]. split; [assumption|]. split; [assumption|].
    apply ortho_cols_mat. rewrite B, C. exact D.
  - destruct H2 as (A & B & C & D). unfold no_mat, dm in *. split; [split; [assumption|split; assumption]|].
    apply ortho_cols_mat in D. rewrite B, C in D. exact D.
Qed.
Lemma nsq_dist2 (A B : rmat) : mr A = mr B -> mc A = mc B -> nsq (msub A B) = dist2 (mr A) (mc A) (rget A) (rget B).
Proof.
  intros S1 S2. rewrite dist2_rsum. unfold nsq, mip. mshape. apply rsum_ext. intros i Hi. apply rsum_ext. intros j Hj.
  rewrite mget_msub by assumption. ring.
Qed.
Lemma obj_weighted basis (D : rmat) : basis_ok k fms basis -> coord_ok k D ->
  obj fms rhos basis D = weighted_dist k rhos fms (map (fun P => mmul P D) basis).
Proof.
  intros (Lb & Hb) (WD & D1 & D2). unfold obj, weighted_dist. apply rsum_Sum_ext. intros i Hi.
  destruct Hin as (_ & _ & _ & Hf). destruct (Hf i Hi) as (W & C & Rr). destruct (Hb i Hi) as (B1 & B2 & B3 & B4).
  unfold no_mat in *. fold dm in *.
  rewrite (nth_map_lt _ _ i _ dm) by lia. rewrite nsq_dist2 by mlia. rewrite C. reflexivity.
Qed.
Lemma cross_mat (A : rmat) r a b : mr A = r -> (a < mc A)%nat -> (b < mc A)%nat ->
  cross r (rget A) a b = rget (mmul (mtrans A) A) a b.
Proof.
  intros <- Ha Hb. unfold cross. rewrite mget_mmul by mlia. mshape. apply Sum_rsum_ext. intros i Hi.
  rewrite mget_mtrans by mlia. reflexivity.
Qed.
Lemma cross_PD (P D : rmat) : orthocols P -> mwf D -> mc P = mr D -> mmul (mtrans (mmul P D)) (mmul P D) = mmul (mtrans D) D.
Proof.
  intros O W S. rewrite mtrans_mmul by assumption. rewrite mmul_assoc by mlia. rewrite <- (mmul_assoc (mtrans P)) by mlia.
  unfold orthocols in O. rewrite O. rewrite mmul_eye_l by (auto; mlia). reflexivity.
Qed.

Hypothesis Hsvd : svd_correct E k.

Lemma hyps : (forall i, (i < length fms)%nat -> mwf (mnth fms i) /\ mc (mnth fms i) = k /\ (k <= mr (mnth fms i))%nat) /\
  length rhos = length fms /\ Forall (fun x => 0 < x) rhos /\ fms <> [].
Proof. destruct Hin as (H1 & H2 & H3 & H4). auto. Qed.

Lemma as_matrices_pf2 n ub uc (basis : list rmat) (D : rmat) :
  auxes_as_matrices (N:=RNum) (Parafac2 n ub uc) (APf2 basis D) = Ok (map (fun P => mmul P D) basis).
Proof. reflexivity. Qed.

Lemma pf2_update_main n ub uc basis (D : rmat) :
  shaped D k k -> ((ub = true /\ n <> 0%nat) \/ orthonormal_bases k fms basis) ->
  exists basis' D', factor_matrices_update E (Parafac2 (N:=RNum) n ub uc) fms rhos (APf2 basis D) = Ok (APf2 basis' D') /\
    shaped D' k k /\ orthonormal_bases k fms basis' /\
    all_nth (length fms) (map (fun P => mmul P D') basis')
      (fun i X => shaped X (mr (nth i fms no_mat)) k /\ same k k (cross (mr X) (rget X)) (cross k (rget D'))) /\
    (orthonormal_bases k fms basis ->
       weighted_dist k rhos fms (map (fun P => mmul P D') basis') <= weighted_dist k rhos fms (map (fun P => mmul P D) basis)).
Proof.
  intros HD Hb. destruct hyps as (H1 & H2 & H3 & H4).
  destruct (pf2_loop_spec E k fms rhos H1 Hsvd H2 H3 H4 ub uc n basis D HD) as (b' & D' & EL & OD & OB & Hle).
  { destruct Hb as [Hb|Hb]; [now right|left; now apply bases_ok]. }
  exists b', D'. split; [cbn [factor_matrices_update]; rewrite EL; reflexivity|].
  split; [exact OD|]. split; [now apply bases_ok|]. split.
  - destruct OB as (Lb & OB). split; [now rewrite map_length|]. intros i X HX.
    assert (Hi : (i < length fms)%nat).
    { rewrite <- Lb. rewrite <- (map_length (fun P => mmul P D')). apply nth_error_Some. congruence. }
    destruct (OB i Hi) as (B1 & B2 & B3 & B4). destruct OD as (WD & D1 & D2).
    apply (nth_error_nth _ _ dm) in HX. rewrite (nth_map_lt _ _ i _ dm) in HX by lia. subst X.
    split; [unfold shaped; unfold no_mat; fold dm; split; [auto with mwf|]; mlia|].
    intros a b Ha Hb'. rewrite !cross_mat by mlia. rewrite cross_PD by (auto; mlia). reflexivity.
  - intros Hb'. apply bases_ok in Hb'. rewrite <- !obj_weighted by assumption. now apply Hle.
Qed.
Lemma pf2_more n ub uc basis (D : rmat) :
  shaped D k k -> orthonormal_bases k fms basis ->
  exists b1 D1 b2 D2,
    factor_matrices_update E (Parafac2 (N:=RNum) n ub uc) fms rhos (APf2 basis D) = Ok (APf2 b1 D1) /\
    factor_matrices_update E (Parafac2 (N:=RNum) (S n) ub uc) fms rhos (APf2 basis D) = Ok (APf2 b2 D2) /\
    weighted_dist k rhos fms (map (fun P => mmul P D2) b2) <= weighted_dist k rhos fms (map (fun P => mmul P D1) b1).
Proof.
  intros HD Hb. destruct hyps as (H1 & H2 & H3 & H4). pose proof Hb as Hb'. apply bases_ok in Hb'.
  destruct (pf2_loop_more E k fms rhos H1 Hsvd H2 H3 H4 ub uc n basis D HD Hb') as (b1 & D1 & b2 & D2 & E1 & E2 & Hle).
  exists b1, D1, b2, D2. cbn [factor_matrices_update]. rewrite E1, E2. do 2 (split; [reflexivity|]).
  destruct (pf2_loop_spec E k fms rhos H1 Hsvd H2 H3 H4 ub uc n basis D HD (or_introl Hb')) as (b1' & D1' & E1' & O1 & O2 & _).
  rewrite E1 in E1'. injection E1' as <- <-.
  destruct (pf2_loop_spec E k fms rhos H1 Hsvd H2 H3 H4 ub uc (S n) basis D HD (or_introl Hb')) as (b2' & D2' & E2' & O3 & O4 & _).
  rewrite E2 in E2'. injection E2' as <- <-.
  rewrite <- !obj_weighted by assumption. exact Hle.
Qed.
(** only the bases: best among all orthonormal bases, matrix by matrix *)
Lemma pf2_basis_only n basis (D : rmat) : shaped D k k ->
  exists basis', factor_matrices_update E (Parafac2 (N:=RNum) (S n) true false) fms rhos (APf2 basis D) = Ok (APf2 basis' D) /\
    orthonormal_bases k fms basis' /\
    forall other, orthonormal_bases k fms other -> forall i, (i < length fms)%nat ->
      dist2 (mr (nth i fms no_mat)) k (rget (nth i fms no_mat)) (rget (mmul (nth i basis' no_mat) D)) <=
      dist2 (mr (nth i fms no_mat)) k (rget (nth i fms no_mat)) (rget (mmul (nth i other no_mat) D)).
Proof.
  intros HD. destruct hyps as (H1 & H2 & H3 & H4).
  destruct (basis_step E k fms rhos H1 Hsvd H2 D HD) as (b & Eb & Ob & Hopt).
  exists b. cbn [factor_matrices_update pf2_loop]. rewrite Eb. cbn [bind negb orb]. split; [reflexivity|].
  split; [now apply bases_ok|]. intros other Ho i Hi. apply bases_ok in Ho. destruct Ho as (_ & Ho).
  destruct (Ho i Hi) as (O1 & O2 & O3 & O4). specialize (Hopt i (mnth other i) Hi O1 O2 O3 O4).
  destruct Ob as (_ & Ob). destruct (Ob i Hi) as (B1 & B2 & B3 & B4). destruct (H1 i Hi) as (W & C & Rr).
  destruct HD as (WD & D1 & D2). unfold no_mat in *. fold dm in *.
  rewrite !nsq_dist2 in Hopt by mlia. rewrite C in Hopt. exact Hopt.
Qed.
(** only the coordinates: best among all coordinate matrices *)
Lemma pf2_coord_only n basis (D : rmat) : shaped D k k -> orthonormal_bases k fms basis ->
  exists D', factor_matrices_update E (Parafac2 (N:=RNum) (S n) false true) fms rhos (APf2 basis D) = Ok (APf2 basis D') /\
    shaped D' k k /\
    forall other, shaped other k k ->
      weighted_dist k rhos fms (map (fun P => mmul P D') basis) + Sum (length rhos) (at_ rhos) * dist2 k k (rget D') (rget other) =
      weighted_dist k rhos fms (map (fun P => mmul P other) basis).
Proof.
  intros HD Hb. apply bases_ok in Hb. destruct hyps as (H1 & H2 & H3 & H4).
  destruct (coord_step k fms rhos H1 H2 H3 H4 basis Hb) as (D' & ED & OD & Hopt).
  exists D'. cbn [factor_matrices_update pf2_loop bind]. rewrite ED. cbn [bind negb orb]. split; [reflexivity|].
  split; [exact OD|]. intros other Ho. rewrite <- !obj_weighted by assumption. rewrite <- (Hopt other Ho).
  destruct OD as (WD & D1 & D2). destruct Ho as (WO & O1 & O2).
  rewrite nsq_dist2 by mlia. rewrite D1, D2. f_equal. f_equal. rewrite lsum_rsum. apply Sum_rsum.
Qed.
End Main.

(** ** A concrete SVD for one column: non-vacuity of [svd_correct E 1] *)
Definition svd1 (M : rmat) (k : nat) : rmat * list R * rmat :=
  let nrm := sqrt (nsq M) in
  (if Req_EM_T (nsq M) 0 then mbuild (N:=RNum) (mr M) 1 (fun i _ => if (i =? 0)%nat then 1 else 0)
   else mbuild (N:=RNum) (mr M) 1 (fun i _ => rget M i 0 / nrm),
   [nrm], mbuild (N:=RNum) 1 1 (fun _ _ => 1)).
Lemma svd1_correct tv : svd_correct (Ext (N:=RNum) svd1 tv) 1.
Proof.
  intros M W C Hr. cbn [x_svd]. unfold svd1.
  pose proof (nsq_nonneg M) as Hn.
  assert (NS : nsq M = rsum (mr M) (fun i => rget M i 0 * rget M i 0)).
  { unfold nsq, mip. rewrite C. apply rsum_ext. intros i Hi. rewrite rsum_S, rsum_0. ring. }
  assert (V1 : forall i j, (i < 1)%nat -> (j < 1)%nat -> rget (mbuild (N:=RNum) 1 1 (fun _ _ => 1)) i j = 1).
  { intros i j Hi Hj. now rewrite mget_mbuild. }
  set (U := if Req_EM_T (nsq M) 0 then _ else _).
  assert (SU : mwf U /\ mr U = mr M /\ mc U = 1%nat).
  { unfold U. destruct Req_EM_T; (split; [apply mwf_mbuild|split; reflexivity]). }
  destruct SU as (W1 & S1 & S2).
  split; [assumption|]. split; [assumption|]. split; [assumption|]. split; [reflexivity|]. split; [apply mwf_mbuild|].
  split; [reflexivity|]. split; [now rewrite C|]. rewrite C.
  assert (Hs : sqrt (nsq M) * sqrt (nsq M) = nsq M) by now apply sqrt_sqrt.
  split; [|split; [|split]].
  - intros a b Ha Hb. assert (a = 0%nat) by lia. assert (b = 0%nat) by lia. subst a b. unfold kron. cbn [Nat.eqb].
    rewrite Sum_rsum. unfold U. destruct Req_EM_T as [Z|Z].
    + rewrite (rsum_single _ 0%nat); [|lia|].
      * rewrite mget_mbuild by lia. cbn. ring.
      * intros i Hi Hne. rewrite mget_mbuild by lia. rn. destruct (Nat.eqb_spec i 0); [congruence|ring].
    + assert (sqrt (nsq M) <> 0) by (intros Z'; rewrite Z' in Hs; lra).
      rewrite (rsum_ext (mr M) _ (fun i => / (sqrt (nsq M) * sqrt (nsq M)) * (rget M i 0 * rget M i 0))).
      * rewrite rsum_scal, Hs, <- NS. now apply Rinv_l.
      * intros i Hi. rewrite mget_mbuild by lia. rn. field. assumption.
  - intros a b Ha Hb. assert (a = 0%nat) by lia. assert (b = 0%nat) by lia. subst a b.
    cbn [Sum]. rewrite V1 by lia. unfold kron; cbn. ring.
  - intros a Ha. assert (a = 0%nat) by lia. subst a. cbn. apply sqrt_pos.
  - intros i j Hi Hj. assert (j = 0%nat) by lia. subst j. cbn [Sum]. rewrite V1 by lia. unfold U.
    change (at_ [sqrt (nsq M)] 0) with (sqrt (nsq M)).
    destruct Req_EM_T as [Z|Z].
    + rewrite Z, sqrt_0. rewrite (nsq_zero M Z) by lia. ring.
    + rewrite mget_mbuild by lia. assert (sqrt (nsq M) <> 0) by (intros Z'; rewrite Z' in Hs; lra).
      generalize (rget M i 0%nat) as m; intros m. change R in m. change (@eq R m (0 + m / sqrt (nsq M) * sqrt (nsq M) * 1)). field. assumption.
Qed.

(** ** Forms used by P02_Penalties.v *)
Lemma C12_main E k (fms : list rmat) (rhos : list R) n ub uc (basis : list rmat) (D : rmat) :
  parafac2_input k fms rhos -> svd_correct E k -> shaped D k k ->
  ((ub = true /\ n <> 0%nat) \/ orthonormal_bases k fms basis) ->
  exists a' Xs Phi,
    factor_matrices_update E (Parafac2 (N:=RNum) n ub uc) fms rhos (APf2 basis D) = Ok a' /\
    auxes_as_matrices (N:=RNum) (Parafac2 n ub uc) a' = Ok Xs /\
    all_nth (length fms) Xs (fun i X =>
      shaped X (mr (nth i fms no_mat)) k /\ same k k (cross (mr X) (rget X)) Phi).
Proof.
  intros H1 H2 H3 H4. destruct (pf2_update_main E k fms rhos H1 H2 n ub uc basis D H3 H4) as (b & D' & E1 & _ & _ & H5 & _).
  eexists _, _, (cross k (rget D')). split; [exact E1|]. split; [reflexivity|]. exact H5.
Qed.
Lemma C12_few E (fms : list rmat) (rhos : list R) n uc (basis : list rmat) (D : rmat) i :
  (0 < n)%nat -> (i < length fms)%nat ->
  (forall fm, In fm fms -> let '(U, _, Vh) := x_svd E (mmul fm (mtrans D)) (mr D) in
      mc U = Nat.min (mr fm) (mr D) /\ mr Vh = mr D) ->
  (mr (nth i fms no_mat) < mr D)%nat ->
  factor_matrices_update E (Parafac2 (N:=RNum) n true uc) fms rhos (APf2 basis D) = Err ValueError.
Proof.
  intros H1 H2 H3 H4. cbn [factor_matrices_update]. rewrite (pf2_wide_error E fms rhos n uc basis D i H1 H2 H3 H4). reflexivity.
Qed.
Lemma C13_main E k (fms : list rmat) (rhos : list R) n ub uc (basis : list rmat) (D : rmat) :
  parafac2_input k fms rhos -> svd_correct E k -> shaped D k k -> orthonormal_bases k fms basis ->
  let p := fun m => Parafac2 (N:=RNum) m ub uc in
  exists X0 X1 X2 a1 a2,
    auxes_as_matrices (N:=RNum) (p n) (APf2 basis D) = Ok X0 /\
    factor_matrices_update E (p n) fms rhos (APf2 basis D) = Ok a1 /\ auxes_as_matrices (N:=RNum) (p n) a1 = Ok X1 /\
    factor_matrices_update E (p (S n)) fms rhos (APf2 basis D) = Ok a2 /\ auxes_as_matrices (N:=RNum) (p (S n)) a2 = Ok X2 /\
    weighted_dist k rhos fms X1 <= weighted_dist k rhos fms X0 /\
    weighted_dist k rhos fms X2 <= weighted_dist k rhos fms X1.
Proof.
  intros H1 H2 H3 H4 p.
  destruct (pf2_update_main E k fms rhos H1 H2 n ub uc basis D H3 (or_intror H4)) as (b & D' & E1 & _ & _ & _ & Hle).
  destruct (pf2_more E k fms rhos H1 H2 n ub uc basis D H3 H4) as (b1 & D1 & b2 & D2 & E2 & E3 & Hle2).
  rewrite E1 in E2. injection E2 as <- <-.
  do 5 eexists. split; [reflexivity|]. split; [exact E1|]. split; [reflexivity|]. split; [exact E3|]. split; [reflexivity|].
  split; [now apply Hle|assumption].
Qed.
