(** The fit with user-written classes and the fit with the built-in penalties: on built-in
    penalties the two models of the code coincide. *)
From Coq Require Import List Arith Bool ZArith Lia.
From Verif Require Import Num Numpy Unimodal Penalties CoupledMatrices Decomp InitVars Parse Fit Custom.
Import ListNotations.
Local Open Scope num_scope.

Definition rmap {A B} (f : A -> B) (r : res A) : res B := match r with Ok x => Ok (f x) | Err e => Err e end.

Lemma mapM_rmap {A B C D} (f : C -> res D) (f' : A -> res B) (g : A -> C) (h : B -> D) l :
  (forall x, In x l -> f (g x) = rmap h (f' x)) -> mapM f (map g l) = rmap (map h) (mapM f' l).
Proof.
  induction l as [|x l IH]; intros H; [reflexivity|]. cbn. rewrite (H x) by now left. destruct (f' x); [|reflexivity]. cbn.
  rewrite IH by (intros y K; apply H; now right). destruct (mapM f' l); reflexivity.
Qed.
Lemma mapM_same {A B C} (f : C -> res B) (f' : A -> res B) (g : A -> C) l :
  (forall x, In x l -> f (g x) = f' x) -> mapM f (map g l) = mapM f' l.
Proof.
  induction l as [|x l IH]; intros H; [reflexivity|]. cbn. rewrite (H x) by now left.
  rewrite IH by (intros y K; apply H; now right). reflexivity.
Qed.
Lemma inner_loop_rmap {S T} (f : S -> T) step step' conv conv' n s :
  (forall s, step' (f s) = rmap f (step s)) -> (forall s t, conv' (f s) (f t) = conv s t) ->
  inner_loop step' conv' n (f s) = rmap f (inner_loop step conv n s).
Proof.
  intros H1 H2. revert s. induction n as [|n IH]; intros s; [reflexivity|]. cbn. rewrite H1. destruct (step s) as [s'|e]; [|reflexivity]. cbn.
  rewrite H2. destruct (conv s s') as [b|e]; [|reflexivity]. cbn. destruct b; [reflexivity|apply IH].
Qed.

Section Base.
Context {N : Num} {X : Type}.
Variables (E : ext (N:=N)) (rnd : rand (N:=N)).
Notation cls := (cls (N:=N) X).
Notation uaux := (uaux (N:=N) X).

Definition emb_reg (g : mreg) : ureg X := UReg (builtin E rnd (g_pen g)) (UMat (g_aux g)) (g_dual g).
Definition emb_regs (g : breg) : uregs X := URegs (builtin E rnd (b_pen g)) (lift_aux (b_aux g)) (b_dual g).
Definition emb (s : state) : ustate X :=
  USt (st_cmf s) (map emb_reg (st_rA s)) (map emb_regs (st_rB s)) (map emb_reg (st_rC s)) (st_inter s).

Lemma sub_builtin (p : penalty) (A d : mat) : sub_method (builtin (X:=X) E rnd p) (UMat A) d = subtract_from_aux p A d.
Proof. destruct p; reflexivity. Qed.
Lemma by_pairs_arrays c l ds : u_sub (c : cls) = None -> by_pairs (sub_method c) (map UMat l) ds = Ok (map2 msub l ds).
Proof.
  intros H. revert ds. induction l as [|A l IH]; intros [|d ds]; try reflexivity. cbn. unfold sub_method in *. rewrite H in *. cbn. rewrite IH. reflexivity.
Qed.
Lemma subs_builtin (p : penalty) a ds : subs_method (builtin (X:=X) E rnd p) (lift_aux a) ds = subtract_from_auxes p a ds.
Proof. destruct p, a; try reflexivity; apply by_pairs_arrays; reflexivity. Qed.
Lemma mat_builtin (p : penalty) V rho (A : uaux) : mat_method (builtin E rnd p) V rho A = rmap UMat (factor_matrix_update E p V rho).
Proof. destruct p; reflexivity. Qed.
Lemma by_matrices_arrays c p fms rhos l :
  (forall V rho A, mat_method (c : cls) V rho A = rmap UMat (factor_matrix_update E p V rho)) ->
  by_matrices (mat_method c) fms rhos (map UMat l) = rmap (map UMat) (matrices_update_list E p fms rhos (length l)).
Proof.
  intros H. revert fms rhos. induction l as [|A l IH]; intros [|V fms] [|rho rhos]; try reflexivity. cbn. rewrite H.
  destruct (factor_matrix_update E p V rho); [|reflexivity]. cbn. rewrite IH. destruct (matrices_update_list E p fms rhos (length l)); reflexivity.
Qed.
Lemma mats_builtin (p : penalty) fms rhos a :
  mats_method (builtin (X:=X) E rnd p) fms rhos (lift_aux a) = rmap lift_aux (factor_matrices_update E p fms rhos a).
Proof.
  assert (H : forall l, u_mats (builtin (X:=X) E rnd p) = None -> u_base (builtin (X:=X) E rnd p) <> BMatrices ->
    mats_method (builtin (X:=X) E rnd p) fms rhos (UList (map UMat l)) = rmap lift_aux (let* r := matrices_update_list E p fms rhos (length l) in Ok (AList r))).
  { intros l H1 H2. unfold mats_method. rewrite H1. pose proof (by_matrices_arrays _ p fms rhos l (mat_builtin p)) as K.
    destruct (u_base _); [now destruct H2| |]; cbv beta iota; rewrite K; destruct (matrices_update_list _ _ _ _ _); reflexivity. }
  destruct p, a; try reflexivity; try (apply H; [reflexivity|discriminate]).
  unfold mats_method. cbn [builtin u_mats lift_aux factor_matrices_update pf2_mats]. match goal with |- context [pf2_loop ?a ?b ?c ?d ?e ?f ?g ?h] => destruct (pf2_loop a b c d e f g h) as [(b', c')|e'] end; reflexivity.
Qed.
Lemma rows_builtin (p : penalty) V fps A : urows_update (builtin (X:=X) E rnd p) V fps (UMat A) = rmap UMat (rows_update p V fps).
Proof.
  unfold urows_update, rows_update.
  assert (H : forall i, row_method (builtin (X:=X) E rnd p) (mrow V i) (nth i fps n0) (mrow A i) = row_update p (mrow V i) (nth i fps n0)) by (intros i; destruct p; reflexivity).
  rewrite <- (map_id (seq 0 (length fps))). rewrite (mapM_same _ (fun i => row_update p (mrow V i) (nth i fps n0)) (fun i => i)) by (intros; apply H). rewrite map_id.
  destruct (mapM _ _); reflexivity.
Qed.
Lemma pen_builtin (p : penalty) (M : mat) : pen_method (builtin (X:=X) E rnd p) (inl M) = penalty_mat p M.
Proof. destruct p; reflexivity. Qed.
Lemma pens_builtin (p : penalty) (l : list mat) : pen_method (builtin (X:=X) E rnd p) (inr l) = penalty_list p l.
Proof. destruct p; reflexivity. Qed.

(** ** Gaps and penalties *)
Lemma ugap_emb M g : ugap M (emb_reg g) = gap_mat M g.
Proof. unfold ugap, gap_mat. cbn. now rewrite sub_builtin. Qed.
Lemma ugaps_emb Bs g : ugaps Bs (emb_regs g) = gap_list Bs g.
Proof. unfold ugaps, gap_list. cbn. now rewrite subs_builtin. Qed.
Lemma compute_gaps_emb c rA rB rC : ucompute_gaps c (map emb_reg rA) (map emb_regs rB) (map emb_reg rC) = compute_gaps c rA rB rC.
Proof.
  unfold ucompute_gaps, compute_gaps. rewrite (mapM_same (ugap (cA c)) (gap_mat (cA c)) emb_reg) by (intros; apply ugap_emb).
  rewrite (mapM_same (ugaps (cBs c)) (gap_list (cBs c)) emb_regs) by (intros; apply ugaps_emb).
  rewrite (mapM_same (ugap (cC c)) (gap_mat (cC c)) emb_reg) by (intros; apply ugap_emb). reflexivity.
Qed.
Lemma reg_penalty_emb c rA rB rC : ureg_penalty c (map emb_reg rA) (map emb_regs rB) (map emb_reg rC) = reg_penalty c rA rB rC.
Proof.
  unfold ureg_penalty, reg_penalty.
  rewrite (mapM_same (fun g => pen_method (ug_cls g) (inl (cA c))) (fun g => penalty_mat (g_pen g) (cA c)) emb_reg) by (intros; apply pen_builtin).
  rewrite (mapM_same (fun g => pen_method (ub_cls g) (inr (cBs c))) (fun g => penalty_list (b_pen g) (cBs c)) emb_regs) by (intros; apply pens_builtin).
  rewrite (mapM_same (fun g => pen_method (ug_cls g) (inl (cC c))) (fun g => penalty_mat (g_pen g) (cC c)) emb_reg) by (intros; apply pen_builtin). reflexivity.
Qed.

(** ** The updates *)
Definition embA (s : mat * list mreg) : mat * list (ureg X) := (fst s, map emb_reg (snd s)).
Definition embB (s : list mat * list breg) : list mat * list (uregs X) := (fst s, map emb_regs (snd s)).
Lemma conv_emb t s s' : uconv t (embA s) (embA s') = conv_mat t s s'.
Proof. unfold uconv, conv_mat, embA. cbn. rewrite (mapM_same _ (gap_mat (fst s')) emb_reg) by (intros; apply ugap_emb). reflexivity. Qed.
Lemma convs_emb t s s' : uconvs t (embB s) (embB s') = conv_list t s s'.
Proof. unfold uconvs, conv_list, embB. cbn. rewrite (mapM_same _ (gap_list (fst s')) emb_regs) by (intros; apply ugaps_emb). reflexivity. Qed.
Lemma shifted_emb rs : ushifted (map emb_reg rs) = shifted_mats rs.
Proof. apply mapM_same. intros g _. apply sub_builtin. Qed.
Lemma shifteds_emb rs : ushifteds (map emb_regs rs) = shifted_lists rs.
Proof. apply mapM_same. intros g _. apply subs_builtin. Qed.

Lemma A_reg_emb k fps A g : uA_reg_step k fps A (emb_reg g) = rmap emb_reg (A_reg_step E k fps A g).
Proof.
  unfold uA_reg_step, A_reg_step, emb_reg. cbn [ug_cls ug_aux ug_dual]. destruct k.
  - rewrite mat_builtin. destruct (factor_matrix_update _ _ _ _); [|reflexivity]. cbn. rewrite sub_builtin. destruct (subtract_from_aux _ _ _); reflexivity.
  - rewrite rows_builtin. destruct (rows_update _ _ _); [|reflexivity]. cbn. rewrite sub_builtin. destruct (subtract_from_aux _ _ _); reflexivity.
Qed.
Lemma A_step_emb k svds fps rhses s : uA_step k svds fps rhses (embA s) = rmap embA (A_step E k svds fps rhses s).
Proof.
  destruct s as (A, rs). unfold uA_step, A_step, embA. cbn [fst snd]. rewrite shifted_emb. destruct (shifted_mats rs) as [sh|]; [|reflexivity]. cbn [bind].
  destruct (mapM _ (seq 0 (mr A))) as [rows|]; [|reflexivity]. cbn [bind]. rewrite (mapM_rmap _ (A_reg_step E k fps (Mat (mr A) (mc A) rows)) emb_reg emb_reg) by (intros; apply A_reg_emb).
  destruct (mapM (A_reg_step _ _ _ _) rs); reflexivity.
Qed.
Lemma update_A_emb Xs c rs l2 n t sc k :
  uupdate_A E Xs c (map emb_reg rs) l2 n t sc k = rmap (fun r => let '(c, l, i) := r in (c, map emb_reg l, i)) (admm_update_A E Xs c rs l2 n t sc k).
Proof.
  unfold uupdate_A, admm_update_A. destruct (feas_penalties _ _ _) as [fps|]; [|reflexivity]. cbn [bind]. rewrite map_length.
  change (cA c, map emb_reg rs) with (embA (cA c, rs)).
  rewrite (inner_loop_rmap embA (A_step E k (lhs_svds E (A_cross (cBs c) (cC c) Xs) fps (length rs) l2) fps (A_rhses (cBs c) (cC c) Xs)) _ (conv_mat t))
    by (intros; first [apply A_step_emb|apply conv_emb]).
  destruct (inner_loop _ _ _ _) as [(A, rs')|]; reflexivity.
Qed.

Lemma B_reg_emb fps Bs g : uB_reg_step fps Bs (emb_regs g) = rmap emb_regs (B_reg_step E fps Bs g).
Proof.
  unfold uB_reg_step, B_reg_step. cbn. rewrite mats_builtin. destruct (factor_matrices_update _ _ _ _ _); [|reflexivity]. cbn. rewrite subs_builtin. destruct (subtract_from_auxes _ _ _); reflexivity.
Qed.
Lemma B_step_emb svds fps rhses s : uB_step svds fps rhses (embB s) = rmap embB (B_step E svds fps rhses s).
Proof.
  destruct s as (Bs, rs). unfold uB_step, B_step, embB. cbn [fst snd]. rewrite shifteds_emb. destruct (shifted_lists rs) as [sh|]; [|reflexivity]. cbn [bind].
  destruct (mapM _ (seq 0 (length Bs))) as [Bs'|]; [|reflexivity]. cbn [bind]. rewrite (mapM_rmap _ (B_reg_step E fps Bs') emb_regs emb_regs) by (intros; apply B_reg_emb).
  destruct (mapM (B_reg_step _ _ _) rs); reflexivity.
Qed.
Lemma update_B_emb Xs c rs l2 n t sc k :
  uupdate_B E Xs c (map emb_regs rs) l2 n t sc k = rmap (fun r => (fst r, map emb_regs (snd r))) (admm_update_B E Xs c rs l2 n t sc k).
Proof.
  unfold uupdate_B, admm_update_B. destruct (feas_penalties _ _ _) as [fps|]; [|reflexivity]. cbn [bind]. rewrite map_length.
  change (cBs c, map emb_regs rs) with (embB (cBs c, rs)).
  match goal with |- context [inner_loop (uB_step ?a ?b ?d) _ _ _] => rewrite (inner_loop_rmap embB (B_step E a b d) _ (conv_list t)) by (intros; first [apply B_step_emb|apply convs_emb]) end.
  destruct (inner_loop _ _ _ _) as [(Bs, rs')|]; reflexivity.
Qed.

Lemma C_reg_emb fp C g : uC_reg_step fp C (emb_reg g) = rmap emb_reg (C_reg_step E fp C g).
Proof.
  unfold uC_reg_step, C_reg_step. cbn. rewrite mat_builtin. destruct (factor_matrix_update _ _ _ _); [|reflexivity]. cbn. rewrite sub_builtin. destruct (subtract_from_aux _ _ _); reflexivity.
Qed.
Lemma C_step_emb d fp rhs s : uC_step d fp rhs (embA s) = rmap embA (C_step E d fp rhs s).
Proof.
  destruct s as (C, rs). unfold uC_step, C_step, embA. cbn [fst snd]. rewrite shifted_emb. destruct (shifted_mats rs) as [sh|]; [|reflexivity]. cbn [bind].
  destruct (solve_mat _ _) as [C'|]; [|reflexivity]. cbn [bind]. rewrite (mapM_rmap _ (C_reg_step E fp C') emb_reg emb_reg) by (intros; apply C_reg_emb).
  destruct (mapM (C_reg_step _ _ _) rs); reflexivity.
Qed.
Lemma update_C_emb Xs c rs l2 n t sc :
  uupdate_C E Xs c (map emb_reg rs) l2 n t sc = rmap (fun r => (fst r, map emb_reg (snd r))) (admm_update_C E Xs c rs l2 n t sc).
Proof.
  unfold uupdate_C, admm_update_C. destruct (msum_list _) as [lhs|]; [|reflexivity]. destruct (msum_list _) as [rhs|]; [|reflexivity]. rewrite map_length.
  change (cC c, map emb_reg rs) with (embA (cC c, rs)).
  match goal with |- context [inner_loop (uC_step ?a ?b ?d) _ _ _] => rewrite (inner_loop_rmap embA (C_step E a b d) _ (conv_mat t)) by (intros; first [apply C_step_emb|apply conv_emb]) end.
  destruct (inner_loop _ _ _ _) as [(C, rs')|]; reflexivity.
Qed.

(** ** The outer loop *)
Lemma outer_emb P Xs s : uouter_step E P Xs (emb s) = rmap emb (outer_step E P Xs s).
Proof.
  unfold uouter_step, outer_step.
  assert (HB : uupd_B E P Xs (emb s) = rmap emb (upd_B E P Xs s)).
  { unfold uupd_B, upd_B. destruct (p_updB P); [|reflexivity]. cbn. rewrite update_B_emb. destruct (admm_update_B _ _ _ _ _ _ _ _ _) as [(c, r)|]; reflexivity. }
  rewrite HB. destruct (upd_B E P Xs s) as [s1|]; [|reflexivity]. cbn [rmap bind].
  assert (HC : uupd_C E P Xs (emb s1) = rmap emb (upd_C E P Xs s1)).
  { unfold uupd_C, upd_C. destruct (p_updC P); [|reflexivity]. cbn. rewrite update_C_emb. destruct (admm_update_C _ _ _ _ _ _ _ _) as [(c, r)|]; reflexivity. }
  rewrite HC. destruct (upd_C E P Xs s1) as [s2|]; [|reflexivity]. cbn [rmap bind].
  unfold uupd_A, upd_A. destruct (p_updA P); [|reflexivity]. cbn. rewrite update_A_emb. destruct (admm_update_A _ _ _ _ _ _ _ _ _) as [((c, r), i)|]; reflexivity.
Qed.
Lemma gaps_emb s : ustate_gaps (emb s) = state_gaps s.
Proof. apply compute_gaps_emb. Qed.
Lemma loss_emb P Xs s : ustate_loss P Xs (emb s) = state_loss P Xs s.
Proof. unfold ustate_loss, state_loss. cbn. rewrite reg_penalty_emb. reflexivity. Qed.
Lemma hist_emb P Xs s : uinit_hist P Xs (emb s) = init_hist P Xs s.
Proof. unfold uinit_hist, init_hist. rewrite loss_emb, gaps_emb. reflexivity. Qed.
Definition emb4 (r : state * hist * nat * message) : ustate X * hist * nat * message := let '(s, h, it, m) := r in (emb s, h, it, m).
Lemma loop_emb P Xs n it s h : uloop E P Xs n it (emb s) h = rmap emb4 (ao_loop E P Xs n it s h).
Proof.
  revert it s h. induction n as [|n IH]; intros it s h; [reflexivity|]. cbn [uloop ao_loop]. rewrite outer_emb. destruct (outer_step E P Xs s) as [s'|]; [|reflexivity]. cbn [rmap bind].
  destruct (_ || p_return_errors P); [|apply IH]. rewrite gaps_emb. destruct (state_gaps s') as [g|]; [|reflexivity]. cbn [bind].
  destruct (_ && negb (p_return_errors P)); [apply IH|]. rewrite loss_emb. destruct (state_loss P Xs s') as [l|]; [|reflexivity]. cbn [bind].
  change (ustate_error Xs (emb s')) with (state_error Xs s').
  destruct (p_tol P) as [tol|]; [|apply IH]. destruct (ntruthy tol); [|apply IH]. destruct (p_abs_tol P) as [ab|]; [|reflexivity].
  destruct (_ && rel_crit _ _ _); [reflexivity|]. destruct (_ && xlt l ab); [reflexivity|]. apply IH.
Qed.
Theorem run_emb P Xs n s : urun E P Xs n (emb s) = rmap (fun r => (emb (fst r), snd r)) (run E P Xs n s).
Proof.
  unfold urun, run. rewrite hist_emb. destruct (init_hist P Xs s) as [h|]; [|reflexivity]. cbn [bind]. rewrite loop_emb.
  destruct (ao_loop _ _ _ _ _ _ _) as [(((s', h'), it), m)|]; [|reflexivity]. cbn [rmap bind emb4]. rewrite gaps_emb.
  destruct (match p_feas_tol P with Some _ => _ | None => _ end) as [f|]; [|reflexivity]. cbn [bind]. change (us_cmf (emb s')) with (st_cmf s').
  destruct (revalidate _) as [c|]; [|reflexivity]. cbn [bind]. destruct (p_return_errors P); reflexivity.
Qed.
End Base.
