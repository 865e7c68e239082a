(** What an svd routine that refuses matrices does not refuse, it does like the other. *)
From Coq Require Import Reals Lra Lia List Arith Bool ZArith Classical.
From Verif Require Import Num Numpy RFacts MatFacts Spec SpecFacts ModelSpec SvdFacts Penalties PenaltySpec CoupledMatrices CmfSpec Decomp DecompSpec InitVars InitSpec Parse ParseSpec ParseProofs Fit FitSpec SymSpec SymFacts TurnSpec TurnFacts TurnRun TurnPolar.
Import ListNotations.
Local Open Scope R_scope.

Definition ok_le {A} (x y : res A) : Prop := forall r, x = Ok r -> y = Ok r.
Lemma ok_refl {A} (x : res A) : ok_le x x.
Proof. intros r H. exact H. Qed.
Lemma ok_bind {A B} (x y : res A) (f g : A -> res B) : ok_le x y -> (forall a, ok_le (f a) (g a)) -> ok_le (bind x f) (bind y g).
Proof. intros H1 H2 r H. destruct x as [a|]; [|discriminate H]. cbn [bind] in H. rewrite (H1 a eq_refl). cbn [bind]. exact (H2 a r H). Qed.
Lemma ok_mapM {A B} (f g : A -> res B) : (forall a, ok_le (f a) (g a)) -> forall l, ok_le (mapM f l) (mapM g l).
Proof.
  intros H. induction l as [|x l IH]; [apply ok_refl|]. cbn [mapM]. apply ok_bind; [apply H|]. intros y. apply ok_bind; [exact IH|]. intros ys. apply ok_refl.
Qed.
Lemma ok_inner {S} (f g : S -> res S) conv : (forall s, ok_le (f s) (g s)) -> forall n s, ok_le (inner_loop f conv n s) (inner_loop g conv n s).
Proof.
  intros H. induction n as [|n IH]; intros s; cbn [inner_loop]; [apply ok_refl|]. apply ok_bind; [apply H|]. intros s'. apply ok_bind; [apply ok_refl|]. intros [|]; [apply ok_refl|apply IH].
Qed.
Section Refuse.
Variables E Ec : ext (N:=RNum).
Hypothesis HT : x_tv Ec = x_tv E.
Hypothesis HV : forall M k, x_svd Ec M k = x_svd E M k \/ refused (x_svd Ec M k).
Definition sub_svd (dc d : svd3 (N:=RNum)) : Prop := dc = d \/ refused dc.
Lemma solve_row_sub dc d b : sub_svd dc d -> ok_le (solve_row dc b) (solve_row d b).
Proof.
  intros [->|H]; [apply ok_refl|]. intros r HR. pose proof (refused_infinite _ H) as F. destruct dc as [[U s] Vh]. unfold solve_row in HR. rewrite F in HR. discriminate HR.
Qed.
Lemma solve_mat_sub dc d b : sub_svd dc d -> ok_le (solve_mat dc b) (solve_mat d b).
Proof.
  intros [->|H]; [apply ok_refl|]. intros r HR. pose proof (refused_infinite _ H) as F. destruct dc as [[U s] Vh]. unfold solve_mat in HR. rewrite F in HR. discriminate HR.
Qed.
Lemma lhs_sub G : sub_svd (lhs_svd Ec G) (lhs_svd E G).
Proof. unfold lhs_svd. apply HV. Qed.
Lemma svds_sub : forall ls fps m l2 i, sub_svd (nth i (lhs_svds Ec ls fps m l2) (Mat (N:=RNum) 0 0 [], [], Mat (N:=RNum) 0 0 [])) (nth i (lhs_svds E ls fps m l2) (Mat (N:=RNum) 0 0 [], [], Mat (N:=RNum) 0 0 [])).
Proof.
  unfold lhs_svds. induction ls as [|G ls IH]; intros [|fp fps] m l2 i; cbn [map2]; try (destruct i; left; reflexivity). destruct i as [|i]; cbn [nth]; [apply lhs_sub|apply IH].
Qed.
Lemma update_same p (M : rmat) rho : factor_matrix_update Ec p M rho = factor_matrix_update E p M rho.
Proof. destruct p; try reflexivity. cbn. now rewrite HT. Qed.
Lemma ok_basis fms D : ok_le (pf2_basis Ec fms D) (pf2_basis E fms D).
Proof.
  unfold pf2_basis. apply ok_mapM. intros fm. destruct (HV (mmul fm (mtrans D)) (mr D)) as [->|H]; [apply ok_refl|]. intros r HR.
  pose proof (refused_err _ H) as F. destruct (x_svd Ec (mmul fm (mtrans D)) (mr D)) as [[U s] Vh]. rewrite F in HR. discriminate HR.
Qed.
Lemma ok_pf2 ub uc fms rhos : forall m B D, ok_le (pf2_loop Ec ub uc fms rhos m B D) (pf2_loop E ub uc fms rhos m B D).
Proof.
  induction m as [|m IH]; intros B D; cbn [pf2_loop]; [apply ok_refl|]. apply ok_bind; [destruct ub; [apply ok_basis|apply ok_refl]|]. intros B1. apply ok_bind; [apply ok_refl|]. intros D1.
  destruct (negb uc || negb ub); [apply ok_refl|apply IH].
Qed.
Lemma updates_same p : forall fms rhos m, matrices_update_list Ec p fms rhos m = matrices_update_list E p fms rhos m.
Proof. induction fms as [|M fms IH]; intros [|rho rhos] [|m]; cbn [matrices_update_list]; try reflexivity. rewrite update_same. destruct (factor_matrix_update E p M rho); [|reflexivity]. cbn [bind]. now rewrite IH. Qed.
Lemma ok_updates p fms rhos a : ok_le (factor_matrices_update Ec p fms rhos a) (factor_matrices_update E p fms rhos a).
Proof.
  destruct p; destruct a; cbn [factor_matrices_update]; try apply ok_refl; try (rewrite updates_same; apply ok_refl). apply ok_bind; [apply ok_pf2|]. intros [b c]. apply ok_refl.
Qed.
Variables (Xs : list rmat) (P : params (N:=RNum)).
Lemma ok_A c regs l2 m tol scale constant : ok_le (admm_update_A Ec Xs c regs l2 m tol scale constant) (admm_update_A E Xs c regs l2 m tol scale constant).
Proof.
  unfold admm_update_A. cbv zeta. apply ok_bind; [apply ok_refl|]. intros fps. apply ok_bind; [|intros [A r]; apply ok_refl]. apply ok_inner. intros [A r]. unfold A_step.
  apply ok_bind; [apply ok_refl|]. intros sh. apply ok_bind; [apply ok_mapM; intros i; apply solve_row_sub, svds_sub|]. intros rows. cbv zeta. apply ok_bind; [|intros; apply ok_refl].
  apply ok_mapM. intros g. unfold A_reg_step. cbv zeta. rewrite update_same. apply ok_refl.
Qed.
Lemma ok_B c regs l2 m tol scale constant : ok_le (admm_update_B Ec Xs c regs l2 m tol scale constant) (admm_update_B E Xs c regs l2 m tol scale constant).
Proof.
  unfold admm_update_B. cbv zeta. apply ok_bind; [apply ok_refl|]. intros fps. apply ok_bind; [|intros [A r]; apply ok_refl]. apply ok_inner. intros [A r]. unfold B_step.
  apply ok_bind; [apply ok_refl|]. intros sh. apply ok_bind; [apply ok_mapM; intros i; cbv zeta; apply solve_mat_sub, svds_sub|]. intros rows. apply ok_bind; [|intros; apply ok_refl].
  apply ok_mapM. intros g. unfold B_reg_step. cbv zeta. apply ok_bind; [apply ok_updates|]. intros; apply ok_refl.
Qed.
Lemma ok_C c regs l2 m tol scale : ok_le (admm_update_C Ec Xs c regs l2 m tol scale) (admm_update_C E Xs c regs l2 m tol scale).
Proof.
  unfold admm_update_C. destruct (msum_list _) as [lhs|]; [|apply ok_refl]. destruct (msum_list _) as [rhs|]; [|apply ok_refl]. cbv zeta. apply ok_bind; [|intros [A r]; apply ok_refl]. apply ok_inner. intros [A r]. unfold C_step.
  apply ok_bind; [apply ok_refl|]. intros sh. apply ok_bind; [apply solve_mat_sub, lhs_sub|]. intros rows. apply ok_bind; [|intros; apply ok_refl].
  apply ok_mapM. intros g. unfold C_reg_step. rewrite update_same. apply ok_refl.
Qed.
Lemma ok_outer s : ok_le (outer_step Ec P Xs s) (outer_step E P Xs s).
Proof.
  unfold outer_step. apply ok_bind; [|intros s1; apply ok_bind; [|intros s2]].
  - unfold upd_B. destruct (p_updB P); [|apply ok_refl]. apply ok_bind; [apply ok_B|intros [c r]; apply ok_refl].
  - unfold upd_C. destruct (p_updC P); [|apply ok_refl]. apply ok_bind; [apply ok_C|intros [c r]; apply ok_refl].
  - unfold upd_A. destruct (p_updA P); [|apply ok_refl]. apply ok_bind; [apply ok_A|intros [[c r] i]; apply ok_refl].
Qed.
Lemma ok_loop : forall m it s h, ok_le (ao_loop Ec P Xs m it s h) (ao_loop E P Xs m it s h).
Proof.
  induction m as [|m IH]; intros it s h; cbn [ao_loop]; [apply ok_refl|]. apply ok_bind; [apply ok_outer|]. intros s1. cbv zeta.
  destruct (otruthy (p_tol P) || otruthy (p_abs_tol P) || p_return_errors P); [|apply IH]. apply ok_bind; [apply ok_refl|]. intros g.
  match goal with |- context [if ?x then ao_loop _ _ _ _ _ _ _ else _] => destruct x end; [apply IH|]. apply ok_bind; [apply ok_refl|]. intros l.
  destruct (p_tol P) as [tol|]; [|apply IH]. destruct (ntruthy tol); [|apply IH]. destruct (p_abs_tol P) as [ab|]; [|apply ok_refl].
  match goal with |- context [if ?x then Ok _ else _] => destruct x end; [apply ok_refl|]. match goal with |- context [if ?x then Ok _ else _] => destruct x end; [apply ok_refl|apply IH].
Qed.
Lemma ok_run m s : ok_le (run Ec P Xs m s) (run E P Xs m s).
Proof. unfold run. apply ok_bind; [apply ok_refl|]. intros h. apply ok_bind; [apply ok_loop|]. intros [[[s1 h1] it] ms]. apply ok_refl. Qed.
End Refuse.

(** ** Before the loop nothing is refused *)
Section Setup.
Variables (V Vc : envR) (rank : nat).
Hypothesis HV : refuses_dependent V Vc rank.
Lemma refuses_or M k : x_svd (e_ext Vc) M k = x_svd (e_ext V) M k \/ refused (x_svd (e_ext Vc) M k).
Proof.
  destruct HV as (_ & _ & _ & H). destruct (classic (mc M = rank -> independent M)) as [HI|HI]; [left; now apply H|right]. apply H; tauto.
Qed.
Lemma parse_mode_refusing kw ai di : (forall M, k_gl2 kw = Some (GMat M) -> mc M = rank -> independent M) -> parse_mode Vc kw ai di = parse_mode V kw ai di.
Proof.
  intros H. destruct HV as (H1 & H2 & _ & H3). unfold parse_mode. cbv zeta. rewrite H2. destruct (k_gl2 kw) as [[|M|]|]; try reflexivity.
  assert (EM : mk_GenL2 (e_ext Vc) (e_eigvals Vc) M true = mk_GenL2 (e_ext V) (e_eigvals V) M true) by (unfold mk_GenL2; rewrite H1; rewrite (proj2 (H3 M (mr M)) (H M eq_refl)); reflexivity).
  now rewrite EM.
Qed.
Lemma parse_all_refusing a : norms_independent a rank -> parse_all Vc (f_kw a) (f_regs a) (f_aux a) (f_dual a) = parse_all V (f_kw a) (f_regs a) (f_aux a) (f_dual a).
Proof.
  intros HN. unfold parse_all. destruct (check_regs (f_regs a)) as [user|]; [|reflexivity]. cbn [bind].
  destruct (listify (a_nn (f_kw a))) as [[[nn0 nn1] nn2]|]; [|reflexivity]. cbn [bind]. destruct (listify (a_upper (f_kw a))) as [[[up0 up1] up2]|]; [|reflexivity]. cbn [bind].
  destruct (listify (a_lower (f_kw a))) as [[[lo0 lo1] lo2]|]; [|reflexivity]. cbn [bind]. destruct (listify (a_norm (f_kw a))) as [[[nb0 nb1] nb2]|]; [|reflexivity]. cbn [bind].
  destruct (listify (a_uni (f_kw a))) as [[[un0 un1] un2]|]; [|reflexivity]. cbn [bind]. destruct (listify (a_l1 (f_kw a))) as [[[l10 l11] l12]|]; [|reflexivity]. cbn [bind].
  destruct (listify (a_gl2 (f_kw a))) as [[[gl0 gl1] gl2]|] eqn:EG; [|reflexivity]. cbn [bind]. apply listify_iff in EG as (G0 & G1 & G2).
  destruct (listify (a_tv (f_kw a))) as [[[tv0 tv1] tv2]|]; [|reflexivity]. cbn [bind].
  rewrite !parse_mode_refusing; cbn [k_gl2]; [reflexivity| | |]; intros M EM; [apply (HN 2%nat M ltac:(lia))|apply (HN 1%nat M ltac:(lia))|apply (HN 0%nat M ltac:(lia))]; rewrite <- EM; assumption.
Qed.
Lemma setup_refusing IE rnd a : norms_independent a rank -> start_without_svd a -> setup Vc IE rnd a = setup V IE rnd a.
Proof.
  intros HN (S1 & S2). unfold setup. cbv zeta. rewrite (parse_all_refusing a HN). destruct (negb (f_svd a)); [reflexivity|].
  replace (initialize_cmf (e_ext Vc) IE rnd (f_data a) (f_rank a) (f_init a) 0) with (initialize_cmf (e_ext V) IE rnd (f_data a) (f_rank a) (f_init a) 0); [reflexivity|].
  destruct (f_init a) as [l|[]]; try reflexivity; congruence.
Qed.
End Setup.
