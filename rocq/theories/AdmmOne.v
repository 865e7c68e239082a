(** Factor updates as sequences of one-iteration updates that keep states valid. *)
From Coq Require Import Reals Lra Lia List Arith Bool Classical_Prop.
From Verif Require Import Num Numpy Unimodal RFacts Spec SpecFacts MatFacts SvdFacts ModelSpec Penalties PenaltySpec
  ProxProofs TVProofs GenL2Proofs SimplexProofs Parafac2Proofs PenaltyMain CoupledMatrices CmfSpec CmfProofs
  Decomp DecompSpec DecompFacts AdmmProofs AdmmB AdmmA AdmmRegs AdmmLoop.
Import ListNotations.
Local Open Scope R_scope.

Lemma F2_length {A B} (R : A -> B -> Prop) l m : Forall2 R l m -> length l = length m.
Proof. induction 1; cbn; congruence. Qed.
Lemma F2_impl {A B} (R S : A -> B -> Prop) l m : (forall x y, R x y -> S x y) -> Forall2 R l m -> Forall2 S l m.
Proof. intros H. induction 1; constructor; auto. Qed.
Lemma mreg_vars r c (l : list mregR) : Forall (mreg_valid r c) l -> vars_shaped r c l.
Proof. unfold vars_shaped. apply Forall_impl. intros g (_ & _ & H1 & H2). now split. Qed.
Lemma breg_vars n J c (l : list bregR) : Forall (breg_valid n J c) l -> bvars_shaped n J c l.
Proof. unfold bvars_shaped. apply Forall_impl. intros g H. now apply breg_valid_shape. Qed.

(** what an inner iteration does to one penalty's variables *)
Definition mstep (r c : nat) (M : ent) (g g' : mregR) : Prop :=
  g_pen g' = g_pen g /\ mreg_valid r c g' /\ exact_domain (g_pen g') r c (mget (g_aux g')) /\ dual_updated r c M g g'.
Definition bstep (n : nat) (J : nat -> nat) (c : nat) (M : nat -> ent) (g g' : bregR) : Prop :=
  b_pen g' = b_pen g /\ breg_valid n J c g' /\ (updates_basis (b_pen g) \/ b_ortho n J c g -> b_ortho n J c g') /\
  (updates_basis (b_pen g) \/ b_ortho n J c g -> b_exact n J c g') /\ b_dual_updated n J c M g g'.
Lemma mstep_valid r c M l l' : Forall2 (mstep r c M) l l' -> Forall (mreg_valid r c) l' /\ length l' = length l.
Proof.
  intros H. split; [|symmetry; eapply F2_length; eassumption].
  eapply Forall2_right; [exact H|]. intros x y (_ & K & _). exact K.
Qed.
Lemma bstep_valid n J c M l l' : Forall2 (bstep n J c M) l l' -> Forall (breg_valid n J c) l' /\ length l' = length l.
Proof.
  intros H. split; [|symmetry; eapply F2_length; eassumption].
  eapply Forall2_right; [exact H|]. intros x y (_ & K & _). exact K.
Qed.

(** ** Replacing one factor *)
Lemma data_fits_C Xs (c : rcmf) (C : rmat) : data_fits Xs c -> shaped C (mr (cC c)) (mc (cA c)) ->
  data_fits Xs (Cmf None (cA c) (cBs c) C).
Proof.
  intros ((V1 & V2 & V3 & V4 & V5 & V6) & L & H) (W & C1 & C2). split; [|split].
  - split; [assumption|]. split; [assumption|]. split; [assumption|]. split; [assumption|]. split; [exact V5|]. discriminate.
  - assumption.
  - intros i Hi. cbn [cC]. rewrite C1. now apply H.
Qed.
Lemma data_fits_A Xs (c : rcmf) (A : rmat) : data_fits Xs c -> shaped A (mr (cA c)) (mc (cA c)) ->
  data_fits Xs (Cmf None A (cBs c) (cC c)).
Proof.
  intros ((V1 & V2 & V3 & V4 & V5 & V6) & L & H) (W & C1 & C2). split; [|split].
  - split; [assumption|]. split; [assumption|]. cbn [cA cBs cC]. rn. split; [congruence|]. split; [congruence|]. split; [|discriminate].
    intros i Hi. destruct (V5 i Hi) as (X & Y). split; [exact X|]. unfold nthB in *. cbn [cBs]. rn. congruence.
  - assumption.
  - intros i Hi. now apply H.
Qed.
Lemma data_fits_B Xs (c : rcmf) (Bs : list rmat) : data_fits Xs c ->
  list_shaped (length (cBs c)) (fun i => mr (nthB c i)) (mc (cA c)) Bs -> data_fits Xs (Cmf None (cA c) Bs (cC c)).
Proof.
  intros ((V1 & V2 & V3 & V4 & V5 & V6) & L & H) (LB & HB). split; [|split].
  - split; [assumption|]. split; [assumption|]. split; [assumption|]. cbn [cA cBs cC]. split; [rn; congruence|]. split; [|discriminate].
    intros i Hi. unfold nthB. cbn [cBs]. destruct (HB i) as (X & _ & Y); [congruence|]. now split.
  - cbn [cBs]. congruence.
  - intros i Hi. unfold nthB. cbn [cBs]. destruct (HB i) as (X & Y & Z); [congruence|]. rewrite Y. now apply H.
Qed.
Lemma data_fits_unweighted Xs (c : rcmf) : data_fits Xs c -> data_fits Xs (unweighted c).
Proof.
  intros ((V1 & V2 & V3 & V4 & V5 & V6) & L & H). split; [|split; assumption].
  repeat (split; [assumption|]). discriminate.
Qed.

(** ** Mode C *)
Section C.
Variables (E : ext (N:=RNum)) (Xs : list rmat) (c : rcmf) (l2 scale : R).
Hypothesis HF : data_fits Xs c.
Hypothesis HN : nonempty c.
Hypothesis Hl2 : 0 <= l2.
Hypothesis Hsc : 0 <= scale.
Hypothesis Hsvd : svd_correct E (mc (cA c)).

Lemma C_step_ok lhs rhs (regs regs' : list mregR) (C0 C' : rmat) :
  msum_list (C_lhs_terms Xs (cBs c) (cA c)) = Some lhs -> msum_list (C_rhs_terms Xs (cBs c) (cA c)) = Some rhs ->
  Forall (mreg_valid (mr (cC c)) (mc (cA c))) regs ->
  let fp := feas_penalty (N:=RNum) scale lhs in
  C_step E (lhs_svd E (ridge (N:=RNum) lhs fp (length regs) l2)) fp rhs (C0, regs) = Ok (C', regs') ->
  fp = rho_C scale c /\ shaped C' (mr (cC c)) (mc (cA c)) /\
  (forall Z, obj_C Xs c l2 (rho_C scale c) regs (rget C') <= obj_C Xs c l2 (rho_C scale c) regs Z) /\
  Forall2 (fun g g' => mstep (mr (cC c)) (mc (cA c)) (rget C') g g' /\
     factor_matrix_update E (g_pen g) (madd C' (g_dual g)) fp = Ok (g_aux g')) regs regs'.
Proof.
  intros H1 H2 Hv fp H.
  destruct (C_step_min E Xs c lhs rhs l2 scale regs regs' C0 C' HF Hl2 Hsc Hsvd H1 H2 (mreg_vars _ _ _ Hv) H) as (K1 & K2 & K3 & K4).
  split; [assumption|]. split; [assumption|]. split; [assumption|].
  apply mapM_Forall2 in K3. destruct HN as (_ & N2 & N3 & _).
  eapply Forall2_Forall; [exact Hv|exact K3|]. intros g g' Vg Hg.
  destruct (C_reg_ok E fp C' g g' _ _ N2 N3 K2 Vg Hg) as (A1 & A2 & A3 & A4 & A5). split; [|assumption].
  split; [assumption|]. split; [assumption|]. split; assumption.
Qed.

(** one iteration *)
Lemma update_C_one (regs regs' : list mregR) (c' : rcmf) tol :
  Forall (mreg_valid (mr (cC c)) (mc (cA c))) regs ->
  admm_update_C E Xs c regs l2 1 tol scale = Ok (c', regs') ->
  c' = Cmf None (cA c) (cBs c) (cC c') /\ shaped (cC c') (mr (cC c)) (mc (cA c)) /\
  (forall Z, obj_C Xs c l2 (rho_C scale c) regs (rget (cC c')) <= obj_C Xs c l2 (rho_C scale c) regs Z) /\
  Forall2 (fun g g' => mstep (mr (cC c)) (mc (cA c)) (rget (cC c')) g g' /\
     factor_matrix_update E (g_pen g) (madd (cC c') (g_dual g)) (rho_C scale c) = Ok (g_aux g')) regs regs'.
Proof.
  intros Hv H. unfold admm_update_C in H.
  destruct (msum_list (C_lhs_terms _ _ _)) as [lhs|] eqn:H1; [|discriminate].
  destruct (msum_list (C_rhs_terms _ _ _)) as [rhs|] eqn:H2; [|discriminate]. cbn [inner_loop] in H.
  destruct (C_step _ _ _ _ _) as [[C' r']|] eqn:H3; [|discriminate]. cbn [bind] in H.
  assert (K : Cmf None (cA c) (cBs c) C' = c' /\ r' = regs').
  { destruct (conv_mat _ _ _) as [[|]|]; [| |discriminate]; cbn [bind] in H; injection H as <- <-; now split. }
  destruct K as (<- & <-). cbn [cC].
  destruct (C_step_ok lhs rhs regs r' (cC c) C' H1 H2 Hv H3) as (K1 & K2 & K3 & K4). rewrite K1 in K4.
  split; [reflexivity|]. split; [assumption|]. split; assumption.
Qed.

(** many iterations *)
Definition C_inv (s : rcmf * list mregR) : Prop :=
  fst s = Cmf None (cA c) (cBs c) (cC (fst s)) /\ shaped (cC (fst s)) (mr (cC c)) (mc (cA c)) /\
  Forall (mreg_valid (mr (cC c)) (mc (cA c))) (snd s).
Lemma update_C_trace (regs regs' : list mregR) (c' : rcmf) n tol :
  Forall (mreg_valid (mr (cC c)) (mc (cA c))) regs ->
  admm_update_C E Xs c regs l2 n tol scale = Ok (c', regs') ->
  exists m tr,
    iterates (fun a b => admm_update_C E Xs (fst a) (snd a) l2 1 None scale = Ok b)
             (fun a b => settled tol (mr (cC c)) (mc (cA c)) (rget (cC (fst a))) (rget (cC (fst b))) (snd b))
             n (unweighted c, regs) (c', regs') m tr /\
    forall i, (i <= m)%nat -> C_inv (tr i).
Proof.
  intros Hv H. unfold admm_update_C in H.
  destruct (msum_list (C_lhs_terms _ _ _)) as [lhs|] eqn:H1; [|discriminate].
  destruct (msum_list (C_rhs_terms _ _ _)) as [rhs|] eqn:H2; [|discriminate].
  set (fp := feas_penalty (N:=RNum) scale lhs) in *. cbv zeta in H.
  destruct (inner_loop _ _ n (cC c, regs)) as [[C' r']|] eqn:H3; [|discriminate]. cbn [bind] in H. injection H as <- <-.
  destruct (inner_loop_trace _ _ _ _ _ H3) as (m & tr & HI & HB).
  set (P := fun s : rmat * list mregR => shaped (fst s) (mr (cC c)) (mc (cA c)) /\ Forall (mreg_valid (mr (cC c)) (mc (cA c))) (snd s) /\
              length (snd s) = length regs).
  assert (WC : shaped (cC c) (mr (cC c)) (mc (cA c))).
  { destruct HF as ((_ & V2 & V3 & _) & _). split; [assumption|]. now split. }
  assert (HP : forall i, (i <= m)%nat -> P (tr i)).
  { apply (iterates_inv _ _ _ _ _ _ _ P HI).
    - split; [exact WC|]. split; [exact Hv|reflexivity].
    - intros [Ca ra] [Cb rb] (P1 & P2 & P3) HS. cbn [fst snd] in *. rewrite <- P3 in HS.
      destruct (C_step_ok lhs rhs ra rb Ca Cb H1 H2 P2 HS) as (_ & K2 & _ & K4).
      assert (K5 : Forall2 (mstep (mr (cC c)) (mc (cA c)) (rget Cb)) ra rb).
      { eapply F2_impl; [|exact K4]. intros x y (X & _). exact X. }
      destruct (mstep_valid _ _ _ _ _ K5) as (K6 & K7). split; [assumption|]. split; [assumption|]. cbn [snd]. congruence. }
  exists m, (fun i => (Cmf None (cA c) (cBs c) (fst (tr i)), snd (tr i))). split.
  - apply (iterates_map _ _ _ _ (fun s => (Cmf None (cA c) (cBs c) (fst s), snd s)) _ _ _ _ _ P HI HP).
    + intros [Ca ra] [Cb rb] (P1 & P2 & P3) _ HS. cbn [fst snd] in *. unfold admm_update_C. cbn [cA cBs cC].
      rewrite H1, H2. cbn [inner_loop]. fold fp. rewrite P3. cbv zeta. rewrite HS. cbn [bind]. reflexivity.
    + intros [Ca ra] [Cb rb] _ (P1 & P2 & _) _. cbn [fst snd cC] in *.
      destruct (conv_mat_spec tol Ca Cb ra rb _ _ P1 P2) as (b & E1 & E2). rewrite E1. rewrite <- E2.
      split; [now injection 1|now intros ->].
  - intros i Hi. destruct (HP i Hi) as (P1 & P2 & _). split; [reflexivity|]. split; assumption.
Qed.
End C.

(** ** Mode B *)
Section B.
Variables (E : ext (N:=RNum)) (Xs : list rmat) (c : rcmf) (l2 scale : R) (constant : bool).
Hypothesis HF : data_fits Xs c.
Hypothesis HN : nonempty c.
Hypothesis Hl2 : 0 <= l2.
Hypothesis Hsc : 0 <= scale.
Hypothesis Hsvd : svd_correct E (mc (cA c)).
Notation J := (fun i => mr (nthB c i)).
Notation lhses := (map2 (fun _ a => B_lhs (N:=RNum) (cC c) a) Xs (me (cA c))).
Notation rhses := (map2 (fun X a => B_rhs (N:=RNum) X (cC c) a) Xs (me (cA c))).

Lemma LX : length (cBs c) = length Xs. Proof. destruct HF as (_ & H & _). now symmetry. Qed.
Lemma B_step_ok (fps : list R) (regs regs' : list bregR) (B0 B' : list rmat) :
  length B0 = length Xs -> Forall (breg_valid (length Xs) J (mc (cA c))) regs ->
  feas_penalties (N:=RNum) scale constant lhses = Ok fps ->
  B_step E (lhs_svds E lhses fps (length regs) l2) fps rhses (B0, regs) = Ok (B', regs') ->
  length fps = length Xs /\ rhos_used constant (length Xs) (rho_B scale c) (fun i => vg fps i) /\
  list_shaped (length Xs) J (mc (cA c)) B' /\
  (forall Z, obj_B Xs c l2 (fun i => vg fps i) regs (entB B') <= obj_B Xs c l2 (fun i => vg fps i) regs Z) /\
  Forall2 (fun g g' => bstep (length Xs) J (mc (cA c)) (entB B') g g' /\
     factor_matrices_update E (b_pen g) (map2 madd B' (b_dual g)) fps (b_aux g) = Ok (b_aux g')) regs regs'.
Proof.
  intros HL Hv Hf H.
  destruct (B_step_min Xs c HF E l2 scale constant fps regs regs' B0 B' Hl2 Hsc Hsvd HL (breg_vars _ _ _ _ Hv) Hf H) as (K1 & K2 & K3 & K4 & K5).
  repeat (split; [assumption|]).
  apply mapM_Forall2 in K4. destruct HN as (N1 & N2 & N3 & N4). rewrite LX in N4.
  eapply Forall2_Forall; [exact Hv|exact K4|]. intros g g' Vg Hg.
  destruct (B_reg_ok E fps B' g g' (length Xs) J (mc (cA c)) N3 N4 K1 Hsvd K3 Vg Hg) as (A1 & A2 & A3 & A4 & A5 & A6). split; [|assumption].
  split; [assumption|]. split; [assumption|]. split; [assumption|]. split; [|assumption].
  intros HO. destruct (classic (is_parafac2 (b_pen g))) as [PP|NP]; [|now apply A4].
  rewrite <- A1 in PP. destruct (b_ortho_exact _ _ _ g' A2 PP (A3 HO)) as (Phi & HPhi).
  unfold b_exact. destruct (b_pen g'); try contradiction. exists Phi. exact HPhi.
Qed.
Lemma update_B_one (regs regs' : list bregR) (c' : rcmf) tol :
  Forall (breg_valid (length Xs) J (mc (cA c))) regs ->
  admm_update_B E Xs c regs l2 1 tol scale constant = Ok (c', regs') ->
  c' = Cmf None (cA c) (cBs c') (cC c) /\ list_shaped (length Xs) J (mc (cA c)) (cBs c') /\
  exists fps : list R, length fps = length Xs /\ rhos_used constant (length Xs) (rho_B scale c) (fun i => vg fps i) /\
  (forall Z, obj_B Xs c l2 (fun i => vg fps i) regs (entB (cBs c')) <= obj_B Xs c l2 (fun i => vg fps i) regs Z) /\
  Forall2 (fun g g' => bstep (length Xs) J (mc (cA c)) (entB (cBs c')) g g' /\
     factor_matrices_update E (b_pen g) (map2 madd (cBs c') (b_dual g)) fps (b_aux g) = Ok (b_aux g')) regs regs'.
Proof.
  intros Hv H. unfold admm_update_B in H. cbv zeta in H.
  destruct (feas_penalties _ _ _) as [fps|] eqn:H1; [|discriminate]. cbn [bind inner_loop] in H.
  destruct (B_step _ _ _ _ _) as [[B' r']|] eqn:H3; [|discriminate]. cbn [bind] in H.
  assert (K : Cmf None (cA c) B' (cC c) = c' /\ r' = regs').
  { destruct (conv_list _ _ _) as [[|]|]; [| |discriminate]; cbn [bind] in H; injection H as <- <-; now split. }
  destruct K as (<- & <-). cbn [cBs].
  destruct (B_step_ok fps regs r' (cBs c) B' LX Hv H1 H3) as (K1 & K2 & K3 & K4 & K5).
  split; [reflexivity|]. split; [assumption|]. exists fps. repeat (split; [assumption|]). assumption.
Qed.
Definition B_inv (s : rcmf * list bregR) : Prop :=
  fst s = Cmf None (cA c) (cBs (fst s)) (cC c) /\ list_shaped (length Xs) J (mc (cA c)) (cBs (fst s)) /\
  Forall (breg_valid (length Xs) J (mc (cA c))) (snd s).
Lemma update_B_trace (regs regs' : list bregR) (c' : rcmf) n tol :
  Forall (breg_valid (length Xs) J (mc (cA c))) regs ->
  admm_update_B E Xs c regs l2 n tol scale constant = Ok (c', regs') ->
  exists m tr,
    iterates (fun a b => admm_update_B E Xs (fst a) (snd a) l2 1 None scale constant = Ok b)
             (fun a b => b_settled tol (length Xs) J (mc (cA c)) (entB (cBs (fst a))) (entB (cBs (fst b))) (snd b))
             n (unweighted c, regs) (c', regs') m tr /\
    forall i, (i <= m)%nat -> B_inv (tr i).
Proof.
  intros Hv H. unfold admm_update_B in H. cbv zeta in H.
  destruct (feas_penalties _ _ _) as [fps|] eqn:H1; [|discriminate]. cbn [bind] in H.
  destruct (inner_loop _ _ n (cBs c, regs)) as [[B' r']|] eqn:H3; [|discriminate]. cbn [bind] in H. injection H as <- <-.
  destruct (inner_loop_trace _ _ _ _ _ H3) as (m & tr & HI & HB).
  set (P := fun s : list rmat * list bregR => list_shaped (length Xs) J (mc (cA c)) (fst s) /\
              Forall (breg_valid (length Xs) J (mc (cA c))) (snd s) /\ length (snd s) = length regs).
  assert (WB : list_shaped (length Xs) J (mc (cA c)) (cBs c)).
  { destruct HF as ((_ & _ & _ & _ & V5 & _) & L & _). split; [now symmetry|]. intros i Hi. rewrite L in Hi. destruct (V5 i Hi) as (X & Y).
    split; [exact X|]. split; [reflexivity|exact Y]. }
  assert (HP : forall i, (i <= m)%nat -> P (tr i)).
  { apply (iterates_inv _ _ _ _ _ _ _ P HI).
    - split; [exact WB|]. split; [exact Hv|reflexivity].
    - intros [Ba ra] [Bb rb] (P1 & P2 & P3) HS. cbn [fst snd] in *. rewrite <- P3 in HS.
      destruct (B_step_ok fps ra rb Ba Bb (proj1 P1) P2 H1 HS) as (_ & _ & K2 & _ & K4).
      assert (K5 : Forall2 (bstep (length Xs) J (mc (cA c)) (entB Bb)) ra rb).
      { eapply F2_impl; [|exact K4]. intros x y (X & _). exact X. }
      destruct (bstep_valid _ _ _ _ _ _ K5) as (K6 & K7). split; [assumption|]. split; [assumption|]. cbn [snd]. congruence. }
  exists m, (fun i => (Cmf None (cA c) (fst (tr i)) (cC c), snd (tr i))). split.
  - apply (iterates_map _ _ _ _ (fun s => (Cmf None (cA c) (fst s) (cC c), snd s)) _ _ _ _ _ P HI HP).
    + intros [Ca ra] [Cb rb] (P1 & P2 & P3) _ HS. cbn [fst snd] in *. unfold admm_update_B. cbn [cA cBs cC]. cbv zeta.
      rewrite H1. cbn [bind inner_loop]. rewrite P3. rewrite HS. cbn [bind]. reflexivity.
    + intros [Ca ra] [Cb rb] (P0 & _) (P1 & P2 & _) _. cbn [fst snd cBs] in *.
      destruct (conv_list_spec tol _ _ _ Ca Cb ra rb P0 P1 P2) as (b & E1 & E2). rewrite E1. rewrite <- E2.
      split; [now injection 1|now intros ->].
  - intros i Hi. destruct (HP i Hi) as (P1 & P2 & _). split; [reflexivity|]. split; assumption.
Qed.
End B.

(** ** Mode A *)
Section A.
Variables (E : ext (N:=RNum)) (Xs : list rmat) (c : rcmf) (l2 scale : R) (constant : bool).
Hypothesis HF : data_fits Xs c.
Hypothesis HN : nonempty c.
Hypothesis Hl2 : 0 <= l2.
Hypothesis Hsc : 0 <= scale.
Hypothesis Hsvd : svd_correct E (mc (cA c)).
Notation cross := (A_cross (N:=RNum) (cBs c) (cC c) Xs).
Notation rhses := (A_rhses (N:=RNum) (cBs c) (cC c) Xs).

(** how the auxiliary of one penalty is computed *)
Definition A_aux (fps : list R) (A : rmat) (g g' : mregR) : Prop :=
  (constant = true -> factor_matrix_update E (g_pen g) (madd A (g_dual g)) (vg fps 0) = Ok (g_aux g')) /\
  (constant = false -> row_penalty (g_pen g) /\ forall i, (i < mr (cA c))%nat ->
     factor_matrix_update E (g_pen g) (rowm (mrow (madd A (g_dual g)) i)) (vg fps i) = Ok (rowm (mrow (g_aux g') i))).
Lemma RX : mr (cA c) = length Xs. Proof. destruct HF as ((_ & _ & _ & H & _) & L & _). congruence. Qed.
Lemma A_step_ok (fps : list R) (regs regs' : list mregR) (A0 A' : rmat) :
  shaped A0 (mr (cA c)) (mc (cA c)) -> Forall (mreg_valid (mr (cA c)) (mc (cA c))) regs ->
  feas_penalties (N:=RNum) scale constant cross = Ok fps ->
  A_step E constant (lhs_svds E cross fps (length regs) l2) fps rhses (A0, regs) = Ok (A', regs') ->
  length fps = length Xs /\ rhos_used constant (length Xs) (rho_A scale c) (fun i => vg fps i) /\
  shaped A' (mr (cA c)) (mc (cA c)) /\
  (forall Z, obj_A Xs c l2 (fun i => vg fps i) regs (rget A') <= obj_A Xs c l2 (fun i => vg fps i) regs Z) /\
  Forall2 (fun g g' => mstep (mr (cA c)) (mc (cA c)) (rget A') g g' /\ A_aux fps A' g g') regs regs'.
Proof.
  intros (_ & S1 & S2) Hv Hf H. assert (S1' : mr A0 = length Xs) by (rewrite <- RX; assumption).
  destruct (A_step_min Xs c HF E l2 scale constant fps regs regs' A0 A' Hl2 Hsc Hsvd S1' S2 (mreg_vars _ _ _ Hv) Hf H) as (K1 & K2 & K3 & K4 & K5).
  repeat (split; [assumption|]).
  apply mapM_Forall2 in K4. destruct HN as (N1 & N2 & N3 & N4).
  assert (N0 : (0 < mr (cA c))%nat) by (destruct HF as ((_ & _ & _ & V & _) & _); rn; lia).
  assert (Lf : length fps = mr (cA c)) by (rewrite RX; assumption).
  eapply Forall2_Forall; [exact Hv|exact K4|]. intros g g' Vg Hg.
  destruct (A_reg_ok E constant fps A' g g' _ _ N0 N3 Lf K3 Vg Hg) as (A1 & A2 & A3 & A4 & A5 & A6). split.
  - split; [assumption|]. split; [assumption|]. split; assumption.
  - split; assumption.
Qed.
Lemma update_A_one (regs regs' : list mregR) (c' : rcmf) tol inter :
  Forall (mreg_valid (mr (cA c)) (mc (cA c))) regs ->
  admm_update_A E Xs c regs l2 1 tol scale constant = Ok (c', regs', inter) ->
  inter = (rhses, cross) /\
  c' = Cmf None (cA c') (cBs c) (cC c) /\ shaped (cA c') (mr (cA c)) (mc (cA c)) /\
  exists fps : list R, length fps = length Xs /\ rhos_used constant (length Xs) (rho_A scale c) (fun i => vg fps i) /\
  (forall Z, obj_A Xs c l2 (fun i => vg fps i) regs (rget (cA c')) <= obj_A Xs c l2 (fun i => vg fps i) regs Z) /\
  Forall2 (fun g g' => mstep (mr (cA c)) (mc (cA c)) (rget (cA c')) g g' /\ A_aux fps (cA c') g g') regs regs'.
Proof.
  intros Hv H. unfold admm_update_A in H. cbv zeta in H.
  destruct (feas_penalties _ _ _) as [fps|] eqn:H1; [|discriminate]. cbn [bind inner_loop] in H.
  destruct (A_step _ _ _ _ _ _) as [[A' r']|] eqn:H3; [|discriminate]. cbn [bind] in H.
  assert (K : Cmf None A' (cBs c) (cC c) = c' /\ r' = regs' /\ (rhses, cross) = inter).
  { destruct (conv_mat _ _ _) as [[|]|]; [| |discriminate]; cbn [bind] in H; injection H as <- <- <-; now split. }
  destruct K as (<- & <- & <-). cbn [cA].
  assert (WA : shaped (cA c) (mr (cA c)) (mc (cA c))).
  { destruct HF as ((V1 & _) & _). split; [assumption|]. now split. }
  destruct (A_step_ok fps regs r' (cA c) A' WA Hv H1 H3) as (K1 & K2 & K3 & K4 & K5).
  split; [reflexivity|]. split; [reflexivity|]. split; [assumption|]. exists fps. repeat (split; [assumption|]). assumption.
Qed.
Definition A_inv (s : rcmf * list mregR) : Prop :=
  fst s = Cmf None (cA (fst s)) (cBs c) (cC c) /\ shaped (cA (fst s)) (mr (cA c)) (mc (cA c)) /\
  Forall (mreg_valid (mr (cA c)) (mc (cA c))) (snd s).
Lemma update_A_trace (regs regs' : list mregR) (c' : rcmf) n tol inter :
  Forall (mreg_valid (mr (cA c)) (mc (cA c))) regs ->
  admm_update_A E Xs c regs l2 n tol scale constant = Ok (c', regs', inter) ->
  inter = (rhses, cross) /\
  exists m tr,
    iterates (fun a b => exists i, admm_update_A E Xs (fst a) (snd a) l2 1 None scale constant = Ok (b, i))
             (fun a b => settled tol (mr (cA c)) (mc (cA c)) (rget (cA (fst a))) (rget (cA (fst b))) (snd b))
             n (unweighted c, regs) (c', regs') m tr /\
    forall i, (i <= m)%nat -> A_inv (tr i).
Proof.
  intros Hv H. unfold admm_update_A in H. cbv zeta in H.
  destruct (feas_penalties _ _ _) as [fps|] eqn:H1; [|discriminate]. cbn [bind] in H.
  destruct (inner_loop _ _ n (cA c, regs)) as [[A' r']|] eqn:H3; [|discriminate]. cbn [bind] in H. injection H as <- <- <-.
  split; [reflexivity|].
  destruct (inner_loop_trace _ _ _ _ _ H3) as (m & tr & HI & HB).
  set (P := fun s : rmat * list mregR => shaped (fst s) (mr (cA c)) (mc (cA c)) /\
              Forall (mreg_valid (mr (cA c)) (mc (cA c))) (snd s) /\ length (snd s) = length regs).
  assert (WA : shaped (cA c) (mr (cA c)) (mc (cA c))).
  { destruct HF as ((V1 & _) & _). split; [assumption|]. now split. }
  assert (HP : forall i, (i <= m)%nat -> P (tr i)).
  { apply (iterates_inv _ _ _ _ _ _ _ P HI).
    - split; [exact WA|]. split; [exact Hv|reflexivity].
    - intros [Ca ra] [Cb rb] (P1 & P2 & P3) HS. cbn [fst snd] in *. rewrite <- P3 in HS.
      destruct (A_step_ok fps ra rb Ca Cb P1 P2 H1 HS) as (_ & _ & K2 & _ & K4).
      assert (K5 : Forall2 (mstep (mr (cA c)) (mc (cA c)) (rget Cb)) ra rb).
      { eapply F2_impl; [|exact K4]. intros x y (X & _). exact X. }
      destruct (mstep_valid _ _ _ _ _ K5) as (K6 & K7). split; [assumption|]. split; [assumption|]. cbn [snd]. congruence. }
  exists m, (fun i => (Cmf None (fst (tr i)) (cBs c) (cC c), snd (tr i))). split.
  - apply (iterates_map _ _ _ _ (fun s => (Cmf None (fst s) (cBs c) (cC c), snd s)) _ _ _ _ _ P HI HP).
    + intros [Ca ra] [Cb rb] (P1 & P2 & P3) _ HS. cbn [fst snd] in *. exists (rhses, cross). unfold admm_update_A. cbn [cA cBs cC]. cbv zeta.
      rewrite H1. cbn [bind inner_loop]. rewrite P3. rewrite HS. cbn [bind]. reflexivity.
    + intros [Ca ra] [Cb rb] _ (P1 & P2 & _) _. cbn [fst snd cA] in *.
      destruct (conv_mat_spec tol Ca Cb ra rb _ _ P1 P2) as (b & E1 & E2). rewrite E1. rewrite <- E2.
      split; [now injection 1|now intros ->].
  - intros i Hi. destruct (HP i Hi) as (P1 & P2 & _). split; [reflexivity|]. split; assumption.
Qed.
End A.
