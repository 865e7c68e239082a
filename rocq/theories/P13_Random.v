(** Properties of random_coupled_matrices: C43. *)
From Coq Require Import Reals Lra Lia List Arith Bool ZArith.
From Verif Require Import Num Numpy RFacts Spec SpecFacts MatFacts ModelSpec Penalties PenaltySpec ProxProofs CoupledMatrices CmfSpec CmfProofs
  Decomp DecompSpec InitVars InitSpec InitProofs P03_CoupledMatrices RandomGen RandomSpec.
Import ListNotations.
Local Open Scope R_scope.

Definition nrm (M : matR) (j : nat) : R := sqrt (rsum (mr M) (fun i => mget M i j ^ 2)).
Lemma nrm_pos (M : matR) r c j : shaped M r c -> nonzero_columns r c (mget M) -> (j < c)%nat -> 0 < nrm M j.
Proof.
  intros (_ & E & _) NZ Hj. apply sqrt_lt_R0. apply rsum_pos.
  - intros i _. apply pow2_ge_0.
  - destruct (NZ j Hj) as (i & Hi & H). exists i. split; [rewrite E; exact Hi|]. pose proof (pow2_ge_0 (mget M i j)).
    destruct (Req_dec (mget M i j ^ 2) 0) as [Z|Z]; [|lra]. destruct H. revert Z. rn. cbn. rewrite Rmult_1_r. intros Z. now apply Rmult_integral in Z as [|].
Qed.
Lemma nrm_sq (M : matR) j : nrm M j * nrm M j = rsum (mr M) (fun i => mget M i j ^ 2).
Proof. apply sqrt_sqrt. apply rsum_nonneg. intros. apply pow2_ge_0. Qed.
Lemma forallb_truthy_norms (M : matR) r c : shaped M r c -> nonzero_columns r c (mget M) -> forallb (ntruthy (N:=RNum)) (col_norms M) = true.
Proof.
  intros SH NZ. apply forallb_forall. intros x Hx. apply In_nth with (d := 0) in Hx as (j & Hj & <-). 
  unfold col_norms in Hj. rewrite length_vbuild in Hj. apply ntruthy_pos. change (nth j (col_norms (N:=RNum) M) 0) with (vget (N:=RNum) (col_norms M) j).
  rewrite at_col_norms by exact Hj. fold (nrm M j). destruct SH as (W & E1 & E2). rewrite E2 in Hj. eapply nrm_pos; [|exact NZ|exact Hj]. now split.
Qed.
Lemma normalise_ok (M : matR) r c : shaped M r c -> nonzero_columns r c (mget M) ->
  exists M', div_columns M (col_norms M) = Ok M' /\ shaped M' r c /\ unit_columns r c (mget M') /\
    forall i j, (i < r)%nat -> (j < c)%nat -> mget M' i j * nrm M j = mget M i j.
Proof.
  intros SH NZ. unfold div_columns. rewrite (forallb_truthy_norms M r c SH NZ), orb_true_r. eexists. split; [reflexivity|].
  pose proof SH as (W & E1 & E2).
  assert (V : forall i j, (i < r)%nat -> (j < c)%nat -> rget (mcoldiv M (col_norms M)) i j = mget M i j / nrm M j).
  { intros i j Hi Hj. unfold mcoldiv. rewrite mget_mbuild by (rewrite ?E1, ?E2; assumption). rewrite at_col_norms by (rewrite E2; exact Hj). reflexivity. }
  split; [split; [apply mwf_mcoldiv|split; [exact E1|exact E2]]|]. split.
  - intros j Hj. rewrite Sum_rsum. pose proof (nrm_pos M r c j SH NZ Hj) as P.
    rewrite (rsum_ext r _ (fun i => / (nrm M j * nrm M j) * mget M i j ^ 2)).
    + rewrite rsum_scal. pose proof (nrm_sq M j) as Q. rewrite E1 in Q. rewrite <- Q. field. lra.
    + intros i Hi. rewrite V by assumption. field. lra.
  - intros i j Hi Hj. rewrite V by assumption. pose proof (nrm_pos M r c j SH NZ Hj). field. lra.
Qed.
Lemma normalise_list c : forall (Bs : list matR), (forall i, (i < length Bs)%nat -> shaped (nth i Bs no_mat) (mr (nth i Bs no_mat)) c /\
    nonzero_columns (mr (nth i Bs no_mat)) c (mget (nth i Bs no_mat))) ->
  exists Bs', mapM (fun Bn => div_columns (fst Bn) (snd Bn)) (combine Bs (map col_norms Bs)) = Ok Bs' /\ length Bs' = length Bs /\
    forall i, (i < length Bs)%nat -> let B := nth i Bs no_mat in let B' := nth i Bs' no_mat in
      shaped B' (mr B) c /\ unit_columns (mr B) c (mget B') /\
      forall j r, (j < mr B)%nat -> (r < c)%nat -> mget B' j r * nrm B r = mget B j r.
Proof.
  induction Bs as [|B Bs IH]; intros H.
  - exists []. split; [reflexivity|]. split; [reflexivity|]. intros i Hi. cbn in Hi. lia.
  - destruct (H 0%nat ltac:(cbn; lia)) as (SH & NZ). cbn in SH, NZ. destruct (normalise_ok B _ _ SH NZ) as (B' & E & S1 & U1 & V1).
    destruct IH as (Bs' & E' & L' & K). { intros i Hi. exact (H (S i) ltac:(cbn; lia)). }
    exists (B' :: Bs'). cbn [map combine mapM fst snd]. rewrite E. cbn [bind]. rewrite E'. cbn [bind]. split; [reflexivity|]. split; [cbn; now rewrite L'|].
    intros [|i] Hi; cbn zeta; cbn [nth]; [split; [exact S1|split; [exact U1|exact V1]]|]. apply K. cbn in Hi. lia.
Qed.

Lemma draw_shapes rnd (rank : nat) : forall (shapes : list (nat * nat)) pos, exists l p,
  mapS (fun s => draw_mat (N:=RNum) rnd Uniform (fst s) (Z.of_nat rank)) shapes pos = Ok (l, p) /\ drawn_list rnd RandomUniform (map fst shapes) rank pos l p.
Proof.
  induction shapes as [|s shapes IH]; intros pos; cbn [mapS map].
  - exists [], pos. now split.
  - destruct (draw_drawn rnd RandomUniform (fst s) (Z.of_nat rank) pos ltac:(discriminate) ltac:(lia)) as (M & q & E & D). cbn [name_dist] in E. rewrite E. cbn [bind].
    rewrite Nat2Z.id in D. destruct (IH q) as (l & p & E' & D'). rewrite E'. cbn [bind]. exists (M :: l), p. split; [reflexivity|]. exists q. now split.
Qed.
Lemma drawn_list_parts rnd s c : forall rows pos l p, drawn_list rnd s rows c pos l p -> length l = length rows /\
  forall i, (i < length rows)%nat -> shaped (nth i l no_mat) (nth i rows 0%nat) c.
Proof.
  induction rows as [|r rows IH]; intros pos [|M l] p H; cbn in H; try contradiction; [split; [reflexivity|intros i Hi; cbn in Hi; lia]|].
  destruct H as (q & (D & _) & H). destruct (IH _ _ _ H) as (L & K). split; [cbn; now rewrite L|]. intros [|i] Hi; [exact D|]. apply K. cbn in Hi. lia.
Qed.

(** Every call with a non-empty list of shapes of equal column counts succeeds for draws without
    zero columns (no condition on the draws when nothing is normalised).  The factorization
    represents the matrices B_i diag(a_i) C^T of the drawn factors whatever is normalised;
    requested normalisations hold; factors that no normalisation concerns are the drawn ones;
    [full] gives the dense matrices of the same factorization. *)
Theorem C43_random_factorization rnd (shapes : list (nat * nat)) (rank pos : nat) (nf nb : bool) :
  shapes <> [] -> equal_columns shapes ->
  exists A0 Bs0 C0 pos', draws rnd shapes rank pos A0 Bs0 C0 pos' /\
    let nI := length shapes in let J := fun i => fst (nth i shapes (0, 0)%nat) in let K := snd (nth 0 shapes (0, 0)%nat) in
    ((nf = true -> nonzero_columns nI rank (mget A0) /\ nonzero_columns K rank (mget C0)) ->
     (nf = true \/ nb = true -> forall i, (i < nI)%nat -> nonzero_columns (J i) rank (mget (nth i Bs0 no_mat))) ->
     exists c w, random_coupled_matrices rnd shapes (Z.of_nat rank) false nf nb pos = Ok (Factorization c, pos') /\
       valid_cmf c /\ cw c = Some w /\ length w = rank /\
       shaped (cA c) nI rank /\ shaped (cC c) K rank /\ length (cBs c) = nI /\ (forall i, (i < nI)%nat -> shaped (nthB c i) (J i) rank) /\
       (forall i j k, (i < nI)%nat -> (j < J i)%nat -> (k < K)%nat ->
          cmf_entry c i j k = Sum rank (fun r => mget (nth i Bs0 no_mat) j r * mget A0 i r * mget C0 k r)) /\
       (nf = true -> unit_columns nI rank (mget (cA c)) /\ unit_columns K rank (mget (cC c))) /\
       (nf = true \/ nb = true -> forall i, (i < nI)%nat -> unit_columns (J i) rank (mget (nthB c i))) /\
       (nf = false -> cC c = C0 /\ forall r, (r < rank)%nat -> weight c r = 1) /\
       (nf = false -> nb = false -> cA c = A0 /\ cBs c = Bs0) /\
       ((forall d n, 0 <= rnd d n) -> entries nI rank (fun x => 0 <= x) (mget (cA c)) /\ entries K rank (fun x => 0 <= x) (mget (cC c)) /\
          (forall r, (r < rank)%nat -> 0 <= weight c r) /\ forall i, (i < nI)%nat -> entries (J i) rank (fun x => 0 <= x) (mget (nthB c i))) /\
       exists Xs, random_coupled_matrices rnd shapes (Z.of_nat rank) true nf nb pos = Ok (Dense Xs, pos') /\ length Xs = nI /\
         forall i, (i < nI)%nat -> is_matrix_of c i (nth i Xs no_mat)).
Proof.
  intros NE EQ. cbv zeta.
  destruct (draw_drawn rnd RandomUniform (length shapes) (Z.of_nat rank) pos ltac:(discriminate) ltac:(lia)) as (A0 & p1 & E1 & D1). cbn [name_dist] in E1. rewrite Nat2Z.id in D1.
  destruct (draw_shapes rnd rank shapes p1) as (Bs0 & p2 & E2 & D2).
  set (K := snd (nth 0 shapes (0, 0)%nat)).
  destruct (draw_drawn rnd RandomUniform K (Z.of_nat rank) p2 ltac:(discriminate) ltac:(lia)) as (C0 & p3 & E3 & D3). cbn [name_dist] in E3. rewrite Nat2Z.id in D3.
  exists A0, Bs0, C0, p3. split; [exists p1, p2; auto|]. intros NZ NZB.
  set (nI := length shapes) in *. set (J := fun i => fst (nth i shapes (0, 0)%nat)).
  destruct (drawn_list_parts _ _ _ _ _ _ _ D2) as (LB & SB). rewrite map_length in LB, SB. fold nI in LB, SB.
  assert (SB' : forall i, (i < nI)%nat -> shaped (nth i Bs0 no_mat) (J i) rank).
  { intros i Hi. pose proof (SB i Hi) as Q. change 0%nat with (fst (0, 0)%nat) in Q at 1. rewrite map_nth in Q. exact Q. }
  pose proof D1 as (SA & _). pose proof D3 as (SC & _).
  (* the common part of the two calls *)
  set (core := fun full => random_coupled_matrices rnd shapes (Z.of_nat rank) full nf nb pos).
  assert (STEP : exists A Bs C w, (forall full, core full = (let* c := revalidate (Cmf (N:=RNum) (Some w) A Bs C) in
       if full then let* Xs := cmf_to_matrices c true in Ok (Dense Xs, p3) else Ok (Factorization c, p3))) /\
     length w = rank /\ shaped A nI rank /\ shaped C K rank /\ length Bs = nI /\ (forall i, (i < nI)%nat -> shaped (nth i Bs no_mat) (J i) rank) /\
     (forall i j k r, (i < nI)%nat -> (j < J i)%nat -> (k < K)%nat -> (r < rank)%nat ->
        mget (nth i Bs no_mat) j r * (mget A i r * at_ w r) * mget C k r = mget (nth i Bs0 no_mat) j r * mget A0 i r * mget C0 k r) /\
     (nf = true -> unit_columns nI rank (mget A) /\ unit_columns K rank (mget C)) /\
     (nf = true \/ nb = true -> forall i, (i < nI)%nat -> unit_columns (J i) rank (mget (nth i Bs no_mat))) /\
     (nf = false -> C = C0 /\ w = repeat 1 rank) /\ (nf = false -> nb = false -> A = A0 /\ Bs = Bs0) /\
     ((forall d n, 0 <= rnd d n) -> entries nI rank (fun x => 0 <= x) (mget A) /\ entries K rank (fun x => 0 <= x) (mget C) /\
        (forall r, (r < rank)%nat -> 0 <= at_ w r) /\ forall i, (i < nI)%nat -> entries (J i) rank (fun x => 0 <= x) (mget (nth i Bs no_mat)))).
  { assert (CE : forallb (fun s : nat * nat => (snd s =? snd (nth 0 shapes (0, 0)%nat))%nat) shapes = true).
    { apply forallb_forall. intros s Hs. apply Nat.eqb_eq. apply EQ; [exact Hs|]. apply nth_In. destruct shapes; [congruence|cbn; lia]. }
    assert (CK : match shapes with s :: _ => Ok (snd s) | [] => Err IndexError end = Ok K) by (unfold K; destruct shapes; [congruence|reflexivity]).
    assert (CORE : forall full, core full =
      (let* (A, Bs) := if nf || nb then
            (let* Bs' := mapM (fun Bn => div_columns (fst Bn) (snd Bn)) (combine Bs0 (map col_norms Bs0)) in Ok (mhad A0 (stack_rows rank (map col_norms Bs0)), Bs')) else Ok (A0, Bs0) in
       let* (weights, A, C) := if nf then (let* A' := div_columns A (col_norms A) in let* C' := div_columns C0 (col_norms C0) in Ok (vmul (col_norms A) (col_norms C0), A', C'))
            else Ok (repeat 1 rank, A, C0) in
       let* c := revalidate (Cmf (N:=RNum) (Some weights) A Bs C) in
       if full then let* Xs := cmf_to_matrices c true in Ok (Dense Xs, p3) else Ok (Factorization c, p3))).
    { intros full. unfold core, random_coupled_matrices. rewrite CE. cbn [negb]. fold nI. rewrite E1. cbn [bind]. rewrite E2. cbn [bind]. rewrite CK. cbn [bind]. rewrite E3. cbn [bind].
      rewrite Nat2Z.id. reflexivity. }
    assert (NNs : forall rM cM q M q', drawn rnd RandomUniform rM cM q M q' -> (forall d n, 0 <= rnd d n) -> entries rM cM (fun x => 0 <= x) (mget M)).
    { intros rM cM q M q' (_ & _ & V) P i j Hi Hj. rewrite V by assumption. apply P. }
    assert (NNB : (forall d n, 0 <= rnd d n) -> forall i, (i < nI)%nat -> entries (J i) rank (fun x => 0 <= x) (mget (nth i Bs0 no_mat))).
    { intros P. assert (G : forall rows q l q', drawn_list rnd RandomUniform rows rank q l q' -> forall i, (i < length rows)%nat -> entries (nth i rows 0%nat) rank (fun x => 0 <= x) (mget (nth i l no_mat))).
      { clear - NNs P. induction rows as [|r rows IH]; intros q [|M l] q' H [|i] Hi; cbn in H, Hi; try contradiction; try lia; destruct H as (q1 & D & H).
        - cbn [nth]. exact (NNs _ _ _ _ _ D P).
        - cbn [nth]. apply (IH _ _ _ H). lia. }
      intros i Hi. pose proof (G _ _ _ _ D2 i ltac:(rewrite map_length; exact Hi)) as Q. change 0%nat with (fst (0, 0)%nat) in Q at 1. rewrite map_nth in Q. exact Q. }
    (* after the normalisation of the B_i *)
    assert (S1 : exists A1 Bs1, (if nf || nb then
            (let* Bs' := mapM (fun Bn => div_columns (fst Bn) (snd Bn)) (combine Bs0 (map col_norms Bs0)) in Ok (mhad A0 (stack_rows rank (map col_norms Bs0)), Bs')) else Ok (A0, Bs0)) = Ok (A1, Bs1) /\
       shaped A1 nI rank /\ length Bs1 = nI /\ (forall i, (i < nI)%nat -> shaped (nth i Bs1 no_mat) (J i) rank) /\
       (forall i j r, (i < nI)%nat -> (j < J i)%nat -> (r < rank)%nat -> mget (nth i Bs1 no_mat) j r * mget A1 i r = mget (nth i Bs0 no_mat) j r * mget A0 i r) /\
       (nf = true \/ nb = true -> forall i, (i < nI)%nat -> unit_columns (J i) rank (mget (nth i Bs1 no_mat))) /\
       (nf = true -> nonzero_columns nI rank (mget A1)) /\ (nf = false -> nb = false -> A1 = A0 /\ Bs1 = Bs0) /\
       ((forall d n, 0 <= rnd d n) -> entries nI rank (fun x => 0 <= x) (mget A1) /\ forall i, (i < nI)%nat -> entries (J i) rank (fun x => 0 <= x) (mget (nth i Bs1 no_mat)))).
    { destruct (nf || nb) eqn:NB.
      - assert (N0 : nf = true \/ nb = true) by (destruct nf, nb; auto; discriminate NB).
        destruct (normalise_list rank Bs0) as (Bs1 & EB & L1 & KB).
        { rewrite LB. intros i Hi. pose proof (SB' i Hi) as Q. pose proof (proj1 (proj2 Q)) as ER. rewrite ER. split; [exact Q|now apply NZB]. }
        rewrite EB. cbn [bind]. rewrite LB in L1, KB. exists (mhad A0 (stack_rows rank (map col_norms Bs0))), Bs1. split; [reflexivity|].
        destruct SA as (WA & RA & CA).
        assert (VA : forall i r, (i < nI)%nat -> (r < rank)%nat -> mget (mhad A0 (stack_rows rank (map col_norms Bs0))) i r = mget A0 i r * nrm (nth i Bs0 no_mat) r).
        { intros i r Hi Hr. unfold mhad, mmap2. rewrite mget_mbuild by (rewrite ?RA, ?CA; assumption). rn. f_equal. unfold stack_rows.
          rewrite mget_mbuild by (rewrite ?map_length, ?LB; assumption). rewrite (nth_indep _ [] (col_norms no_mat)) by (rewrite map_length, LB; exact Hi). rewrite map_nth.
          rewrite at_col_norms; [reflexivity|]. rewrite (proj2 (proj2 (SB' i Hi))). exact Hr. }
        assert (PB : forall i r, (i < nI)%nat -> (r < rank)%nat -> 0 < nrm (nth i Bs0 no_mat) r).
        { intros i r Hi Hr. eapply nrm_pos; [exact (SB' i Hi)|now apply NZB|exact Hr]. }
        split; [split; [apply mwf_mhad|split; [exact RA|exact CA]]|]. split; [exact L1|].
        split; [intros i Hi; destruct (KB i Hi) as (Q & _); rewrite (proj1 (proj2 (SB' i Hi))) in Q; exact Q|].
        split; [|split; [|split; [|split]]].
        + intros i j r Hi Hj Hr. rewrite VA by assumption. destruct (KB i Hi) as (_ & _ & V). rewrite (proj1 (proj2 (SB' i Hi))) in V. rewrite <- (V j r Hj Hr). ring.
        + intros _ i Hi. destruct (KB i Hi) as (_ & U & _). rewrite (proj1 (proj2 (SB' i Hi))) in U. exact U.
        + intros F r Hr. destruct (NZ F) as (NA & _). destruct (NA r Hr) as (i & Hi & H). exists i. split; [exact Hi|]. rewrite VA by assumption.
          apply Rmult_integral_contrapositive_currified; [exact H|]. pose proof (PB i r Hi Hr). lra.
        + intros F1 F2. subst. discriminate NB.
        + intros P. split.
          * intros i r Hi Hr. rewrite VA by assumption. apply Rmult_le_pos; [exact (NNs _ _ _ _ _ D1 P i r Hi Hr)|]. pose proof (PB i r Hi Hr). lra.
          * intros i Hi j r Hj Hr. destruct (KB i Hi) as (_ & _ & V). rewrite (proj1 (proj2 (SB' i Hi))) in V. pose proof (V j r Hj Hr) as Q.
            pose proof (NNB P i Hi j r Hj Hr) as Q2. cbv beta in Q2. pose proof (PB i r Hi Hr) as Q3. rewrite <- Q in Q2.
            apply Rmult_le_reg_r with (nrm (nth i Bs0 no_mat) r); [exact Q3|]. rewrite Rmult_0_l. exact Q2.
      - assert (nf = false /\ nb = false) as (F1 & F2) by (destruct nf, nb; auto; discriminate NB).
        exists A0, Bs0. split; [reflexivity|]. split; [exact SA|]. split; [exact LB|]. split; [exact SB'|]. split; [reflexivity|].
        split; [intros [H|H]; congruence|]. split; [congruence|]. split; [auto|]. intros P. split; [exact (NNs _ _ _ _ _ D1 P)|exact (NNB P)]. }
    destruct S1 as (A1 & Bs1 & ES & SA1 & L1 & SB1 & V1 & U1 & NZ1 & K1 & P1).
    assert (S2 : exists w A C, (if nf then (let* A' := div_columns A1 (col_norms A1) in let* C' := div_columns C0 (col_norms C0) in Ok (vmul (col_norms A1) (col_norms C0), A', C'))
            else Ok (repeat 1 rank, A1, C0)) = Ok (w, A, C) /\ length w = rank /\ shaped A nI rank /\ shaped C K rank /\
       (forall i k r, (i < nI)%nat -> (k < K)%nat -> (r < rank)%nat -> mget A i r * at_ w r * mget C k r = mget A1 i r * mget C0 k r) /\
       (nf = true -> unit_columns nI rank (mget A) /\ unit_columns K rank (mget C)) /\ (nf = false -> C = C0 /\ w = repeat 1 rank /\ A = A1) /\
       ((forall d n, 0 <= rnd d n) -> entries nI rank (fun x => 0 <= x) (mget A) /\ entries K rank (fun x => 0 <= x) (mget C) /\ forall r, (r < rank)%nat -> 0 <= at_ w r)).
    { destruct nf.
      - destruct (NZ eq_refl) as (_ & NC). destruct (normalise_ok A1 _ _ SA1 (NZ1 eq_refl)) as (A & EA & SA2 & UA & VA). destruct (normalise_ok C0 _ _ SC NC) as (C & EC & SC2 & UC & VC).
        rewrite EA. cbn [bind]. rewrite EC. cbn [bind]. eexists _, A, C. split; [reflexivity|].
        assert (LN : forall M : matR, length (col_norms M) = mc M) by (intros M; unfold col_norms; apply length_vbuild).
        assert (LM : forall (u v : list R), length u = length v -> length (map2 Rmult u v) = length u).
        { induction u as [|a u IH]; intros [|b v] H; cbn in *; try lia. f_equal. apply IH. lia. }
        assert (LW : length (vmul (N:=RNum) (col_norms A1) (col_norms C0)) = rank).
        { unfold vmul. rn. rewrite LM; rewrite !LN; [apply SA1|]. rewrite (proj2 (proj2 SA1)), (proj2 (proj2 SC)). reflexivity. }
        assert (WV : forall r, (r < rank)%nat -> at_ (vmul (N:=RNum) (col_norms A1) (col_norms C0)) r = nrm A1 r * nrm C0 r).
        { intros r Hr. unfold at_, vmul. rn.
          assert (G : forall (u v : list R) r, (r < length u)%nat -> length u = length v -> nth r (map2 Rmult u v) 0 = nth r u 0 * nth r v 0).
          { clear. induction u as [|a u IH]; intros [|b v] [|r] H1 H2; cbn in *; try lia; [reflexivity|]. apply IH; lia. }
          rewrite G by (rewrite ?LN, ?(proj2 (proj2 SA1)), ?(proj2 (proj2 SC)); auto).
          change (nth r (col_norms (N:=RNum) A1) 0) with (vget (N:=RNum) (col_norms A1) r). change (nth r (col_norms (N:=RNum) C0) 0) with (vget (N:=RNum) (col_norms C0) r).
          rewrite !at_col_norms by (rewrite ?(proj2 (proj2 SA1)), ?(proj2 (proj2 SC)); auto). reflexivity. }
        split; [exact LW|]. split; [exact SA2|]. split; [exact SC2|]. split; [|split; [|split]].
        + intros i k r Hi Hk Hr. rewrite WV by exact Hr. rewrite <- (VA i r Hi Hr), <- (VC k r Hk Hr). ring.
        + auto.
        + discriminate.
        + intros P. destruct (P1 P) as (PA & _). pose proof (NNs _ _ _ _ _ D3 P) as PC. split; [|split].
          * intros i r Hi Hr. pose proof (nrm_pos A1 _ _ r SA1 (NZ1 eq_refl) Hr) as Q. pose proof (PA i r Hi Hr) as Q2. cbv beta in Q2. rewrite <- (VA i r Hi Hr) in Q2.
            apply Rmult_le_reg_r with (nrm A1 r); [exact Q|]. rewrite Rmult_0_l. exact Q2.
          * intros k r Hk Hr. pose proof (nrm_pos C0 _ _ r SC NC Hr) as Q. pose proof (PC k r Hk Hr) as Q2. cbv beta in Q2. rewrite <- (VC k r Hk Hr) in Q2.
            apply Rmult_le_reg_r with (nrm C0 r); [exact Q|]. rewrite Rmult_0_l. exact Q2.
          * intros r Hr. rewrite WV by exact Hr. apply Rmult_le_pos; apply sqrt_pos.
      - assert (AR : forall r, (r < rank)%nat -> at_ (repeat 1 rank) r = 1).
        { intros r Hr. unfold at_. clear - Hr. revert r Hr. induction rank as [|n IH]; intros [|r] Hr; cbn; try lia; [reflexivity|]. apply IH. lia. }
        exists (repeat 1 rank), A1, C0. split; [reflexivity|]. split; [apply repeat_length|]. split; [exact SA1|]. split; [exact SC|].
        split; [intros i k r Hi Hk Hr; rewrite AR by exact Hr; ring|]. split; [discriminate|]. split; [auto|].
        intros P. split; [apply (P1 P)|]. split; [exact (NNs _ _ _ _ _ D3 P)|]. intros r Hr. rewrite AR by exact Hr. lra. }
    destruct S2 as (w & A & C & ES2 & LW & SA2 & SC2 & V2 & U2 & K2 & P2).
    exists A, Bs1, C, w. split; [intros full; rewrite CORE, ES; cbn [bind]; rewrite ES2; cbn [bind]; reflexivity|].
    split; [exact LW|]. split; [exact SA2|]. split; [exact SC2|]. split; [exact L1|]. split; [exact SB1|].
    split; [|split; [exact U2|split; [exact U1|split; [|split]]]].
    - intros i j k r Hi Hj Hk Hr. rewrite Rmult_assoc, (V2 i k r Hi Hk Hr), <- Rmult_assoc, (V1 i j r Hi Hj Hr). reflexivity.
    - intros F. destruct (K2 F) as (Q1 & Q2 & _). auto.
    - intros F1 F2. destruct (K2 F1) as (_ & _ & Q3). destruct (K1 F1 F2) as (Q1 & Q2). split; [now rewrite Q3|exact Q2].
    - intros P. destruct (P2 P) as (Q1 & Q2 & Q3). destruct (P1 P) as (_ & Q4). auto. }
  destruct STEP as (A & Bs & C & w & CORE & LW & SA2 & SC2 & L1 & SB2 & V & UU & UB & KC & KA & PP).
  set (c := Cmf (N:=RNum) (Some w) A Bs C).
  assert (VC : valid_cmf c).
  { destruct SA2 as (WA & RA & CA), SC2 as (WC & RC & CC). split; [exact WA|]. split; [exact WC|]. split; [cbn; congruence|]. split; [cbn; congruence|]. split.
    - cbn. intros i Hi. rewrite L1 in Hi. destruct (SB2 i Hi) as (W & _ & Cc). split; [exact W|]. unfold nthB. cbn [cBs c]. now rewrite Cc.
    - intros w' E. cbn in E. injection E as <-. cbn. now rewrite CA. }
  exists c, w. split; [fold (core false); rewrite CORE; fold c; rewrite revalidate_ok by exact VC; reflexivity|].
  split; [exact VC|]. split; [reflexivity|]. split; [exact LW|]. split; [exact SA2|]. split; [exact SC2|]. split; [exact L1|]. split; [exact SB2|].
  split; [|split; [exact UU|split; [exact UB|split; [|split; [exact KA|split; [exact PP|]]]]]].
  - intros i j k Hi Hj Hk. unfold cmf_entry. cbn [cA c]. rewrite (proj2 (proj2 SA2)). apply Sum_ext. intros r Hr. exact (V i j k r Hi Hj Hk Hr).
  - intros F. destruct (KC F) as (Q1 & Q2). split; [exact Q1|]. intros r Hr. unfold weight, c. cbn [cw]. rewrite Q2. unfold at_.
    clear - Hr. revert r Hr. induction rank as [|n IH]; intros [|r] Hr; cbn; try lia; [reflexivity|]. apply IH. lia.
  - destruct (C19_to_matrices c true VC) as (Xs & EX & LX & KX). exists Xs. split; [fold (core true); rewrite CORE; fold c; rewrite revalidate_ok by exact VC; cbn [bind]; rewrite EX; reflexivity|].
    cbn [cBs c] in LX, KX. rewrite L1 in LX, KX. split; [exact LX|]. intros i Hi. apply (KX i Hi).
Qed.
Print Assumptions C43_random_factorization.

(** Refused calls. *)
Theorem C43_refused rnd (shapes : list (nat * nat)) (rank pos : nat) full nf nb :
  (~ equal_columns shapes -> random_coupled_matrices (N:=RNum) rnd shapes (Z.of_nat rank) full nf nb pos = Err ValueError) /\
  random_coupled_matrices (N:=RNum) rnd [] (Z.of_nat rank) full nf nb pos = Err IndexError /\
  forall z, (z < 0)%Z -> random_coupled_matrices (N:=RNum) rnd shapes z full nf nb pos = Err ValueError.
Proof.
  split; [|split].
  - intros NE. unfold random_coupled_matrices.
    destruct (forallb (fun s : nat * nat => (snd s =? snd (nth 0 shapes (0, 0)%nat))%nat) shapes) eqn:F; [|reflexivity].
    destruct NE. rewrite forallb_forall in F. intros s t Hs Ht. apply F in Hs, Ht. apply Nat.eqb_eq in Hs, Ht. congruence.
  - unfold random_coupled_matrices. cbn [forallb negb length]. unfold draw_mat at 1. destruct (Z.ltb_spec (Z.of_nat rank) 0); [lia|]. reflexivity.
  - intros z Hz. unfold random_coupled_matrices. destruct (negb _); [reflexivity|]. unfold draw_mat at 1. destruct (Z.ltb_spec z 0); [reflexivity|lia].
Qed.
Print Assumptions C43_refused.

(** A generator whose numbers are 1/2, 2/3, 3/4, ... : every hypothesis above is met. *)
Definition rnd43 : rand (N:=RNum) := fun _ n => INR (S n) / INR (S (S n)).
Example ex_random : let shapes := [(2, 3); (1, 3)]%nat in
  shapes <> [] /\ equal_columns shapes /\ (forall d n, 0 <= rnd43 d n) /\
  exists A0 Bs0 C0 pos', draws rnd43 shapes 2 0 A0 Bs0 C0 pos' /\ nonzero_columns 2 2 (mget A0) /\ nonzero_columns 3 2 (mget C0) /\
    forall i, (i < 2)%nat -> nonzero_columns (fst (nth i shapes (0, 0)%nat)) 2 (mget (nth i Bs0 no_mat)).
Proof.
  cbv zeta. assert (P : forall d n, 0 < rnd43 d n) by (intros d n; unfold rnd43; apply Rdiv_lt_0_compat; apply lt_0_INR; lia).
  split; [discriminate|]. split; [intros s t [<-|[<-|[]]] [<-|[<-|[]]]; reflexivity|]. split; [intros d n; pose proof (P d n); lra|].
  destruct (C43_random_factorization rnd43 [(2, 3); (1, 3)]%nat 2 0 false false ltac:(discriminate) ltac:(intros s t [<-|[<-|[]]] [<-|[<-|[]]]; reflexivity)) as (A0 & Bs0 & C0 & pos' & D & _).
  exists A0, Bs0, C0, pos'. split; [exact D|]. destruct D as (p1 & p2 & (_ & _ & DA) & DB & (_ & _ & DC)).
  split; [|split].
  - intros j Hj. exists 0%nat. split; [cbn; lia|]. rewrite DA by (cbn; lia). apply Rgt_not_eq, P.
  - intros j Hj. exists 0%nat. split; [cbn; lia|]. rewrite DC by (cbn; lia). apply Rgt_not_eq, P.
  - destruct Bs0 as [|B0 [|B1 [|]]]; cbn in DB; try (repeat match goal with H : exists _, _ |- _ => destruct H | H : _ /\ _ |- _ => destruct H end; contradiction).
    destruct DB as (q & (_ & _ & V0) & q' & (_ & _ & V1) & _). intros [|[|i]] Hi j Hj; cbn in Hi |- *; try lia.
    + exists 0%nat. split; [lia|]. rewrite V0 by lia. apply Rgt_not_eq, P.
    + exists 0%nat. split; [lia|]. rewrite V1 by lia. apply Rgt_not_eq, P.
Qed.
