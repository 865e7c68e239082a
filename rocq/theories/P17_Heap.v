(** C42, C57: which of the caller's arrays a fit changes, and what it computes when arrays are shared. *)
From Coq Require Import List Arith Bool ZArith QArith Lia Reals Lra.
From Verif Require Import Num Numpy RFacts Spec MatFacts SvdFacts ModelSpec Penalties PenaltySpec CoupledMatrices Decomp DecompSpec DecompExamples InitVars Parse Fit
  Heap HeapSpec HeapFrame HeapRefine HeapBuffer.
Import ListNotations.
Local Open Scope nat_scope.

(** ** What a call may change *)
(** Of the arrays that exist before a call, it changes at most
    - A of [init], when A is updated, inner_n_iter_max is at least 2 and [init] has no weights, and
    - the auxiliary arrays of mode 0, when A is updated and constant_feasibility_penalty is not set for A;
    of the lists, at most the list of the B_i of [init], when the B_i are updated and inner_n_iter_max is at least 2.
    This holds for calls that fail too, and whatever is shared. *)
Theorem C42_frame_partial {N : Num} (E : ext) (P : params) (Xs : list mat) (n : Z) (s : hstate N) (h : heap N) :
  exists_in h s ->
  only_changes (fun x => p_updA P = true /\
                  ((2 <= p_inner P /\ s_w s = None /\ x = s_A s) \/ (1 <= p_inner P /\ p_constA P = false /\ In x (map r_aux (s_rA s)))))
               (fun x => p_updB P = true /\ 2 <= p_inner P /\ x = s_Bs s)
               h (snd (hfit E P Xs n s h)).
Proof. intros [HA [HB _]]. apply (hfit_writes E P Xs n s h). split; assumption. Qed.

(** No array or list at all is changed by calls with one inner iteration that either do not update A, or have no
    penalties on it, or keep the feasibility penalty constant. *)
Theorem C42_harmless_partial {N : Num} (E : ext) (P : params) (Xs : list mat) (n : Z) (s : hstate N) (h : heap N) :
  exists_in h s -> p_inner P <= 1 -> (p_updA P = false \/ s_rA s = [] \/ p_constA P = true) ->
  only_changes (fun _ => False) (fun _ => False) h (snd (hfit E P Xs n s h)).
Proof.
  intros Hex Hi Hc. destruct (C42_frame_partial E P Xs n s h Hex) as [HA HL]. split; intros x Hx _.
  - apply HA; [exact Hx|]. intros [Hu [[Hn _]|[_ [Hf Hin]]]]; [lia|]. destruct Hc as [Hc|[Hc|Hc]]; [congruence| |congruence].
    rewrite Hc in Hin. exact Hin.
  - apply HL; [exact Hx|]. intros [_ [Hn _]]. lia.
Qed.

(** The dual arrays are never changed, unless one is also A or an auxiliary array. *)
Theorem C42_duals_partial {N : Num} (E : ext) (P : params) (Xs : list mat) (n : Z) (s : hstate N) (h : heap N) :
  exists_in h s -> separate s -> Forall (fun g => h_arr (snd (hfit E P Xs n s h)) (r_dual g) = h_arr h (r_dual g)) (s_rA s).
Proof.
  intros Hex [_ Hsep]. destruct (C42_frame_partial E P Xs n s h Hex) as [HA _]. destruct Hex as [_ [_ Hr]]. rewrite Forall_forall in *.
  intros g Hg. apply HA; [apply (Hr g Hg)|]. intros [_ [[_ [_ Hq]]|[_ [_ Hq]]]]; apply (Hsep g Hg); [left; congruence|right; exact Hq].
Qed.

(** ** What a call returns *)
Lemma separate_good {N : Num} P Xs (h : heap N) (s : hstate N) : exists_in h s -> separate s -> fits Xs h s ->
  good P Xs (mr (h_arr h (s_A s))) (mc (h_arr h (s_A s))) h s.
Proof.
  intros [HA [HB Hr]] [Hnd Hd] [F1 [F2 [F3 F4]]]. inversion Hnd as [|? ? Hni Hnd']; subst. rewrite Forall_forall in Hr.
  split; [|split; [exact HB|split; assumption]]. split; [exact HA|]. split; [repeat split; exact F1|]. split.
  - apply Forall_forall. intros g Hg. destruct (Hr g Hg) as [R1 R2]. split; [exact R1|]. split; [exact R2|]. split.
    + intros Hq. apply Hni. rewrite <- Hq. apply in_map. exact Hg.
    + intros Hq. apply (Hd g Hg). left. congruence.
  - intros _. split; [exact Hnd'|]. apply Forall_forall. intros g Hg. destruct (F4 g Hg) as [S1 [S2 S3]]. split; [repeat split; congruence|].
    intros Hq. apply (Hd g Hg). right. exact Hq.
Qed.

(** If A, the auxiliary arrays and the dual arrays of mode 0 are different objects, the call returns what the model with values
    says, and raises what it says: buffers and writes in place are not visible in the result. *)
Theorem C57_values_partial {N : Num} (E : ext) (P : params) (Xs : list mat) (n : Z) (s : hstate N) (h : heap N) :
  exists_in h s -> separate s -> fits Xs h s ->
  let start := St (Cmf None (match s_w s with None => h_arr h (s_A s) | Some w => mcolscale (h_arr h (s_A s)) w end) (h_lst h (s_Bs s)) (s_C s))
                  (map (fun g => MReg (r_pen g) (h_arr h (r_aux g)) (h_arr h (r_dual g))) (s_rA s)) (s_rB s) (s_rC s) (s_inter s) in
  match fst (hfit E P Xs n s h), run E P Xs n start with
  | Ok (s', c, d), Ok (st, d') => c = st_cmf st /\ d = d' /\ s_rB s' = st_rB st /\ s_rC s' = st_rC st /\
      map (fun g => MReg (r_pen g) (h_arr (snd (hfit E P Xs n s h)) (r_aux g)) (h_arr (snd (hfit E P Xs n s h)) (r_dual g))) (s_rA s') = st_rA st
  | Err e, Err e' => e = e'
  | _, _ => False
  end.
Proof.
  intros H1 H2 H3 start. pose proof (hfit_agree E P Xs n s h _ _ (separate_good P Xs h s H1 H2 H3)) as Hag.
  change (started (view_state h s)) with start in Hag. destruct (hfit E P Xs n s h) as [[[[s' c] d]|e] h'], (run E P Xs n start) as [[st d']|e']; cbn in *; auto.
  injection Hag as -> ->. cbn. repeat split.
Qed.

(** The same for [cmf_aoadmm] as a whole, when [init] is a factorization: [setup] turns the arguments into the starting point. *)
Theorem C57_call_partial {N : Num} (V : env) (IE : initext) (rnd : rand) (a : fitargs) l2 flags (s : hstate N) (h : heap N) :
  exists_in h s -> separate s -> fits (f_data a) h s ->
  setup V IE rnd a = Ok (St (Cmf None (match s_w s with None => h_arr h (s_A s) | Some w => mcolscale (h_arr h (s_A s)) w end) (h_lst h (s_Bs s)) (s_C s))
                  (map (fun g => MReg (r_pen g) (h_arr h (r_aux g)) (h_arr h (r_dual g))) (s_rA s)) (s_rB s) (s_rC s) (s_inter s), l2) ->
  const_flags (f_const a) = Ok flags ->
  match fst (hfit (e_ext V) (fit_params a l2 flags) (f_data a) (f_n_iter a) s h), cmf_aoadmm V IE rnd a with
  | Ok (_, c, d), Ok out => out_cmf out = c /\ out_diag out = d
  | Err e, Err e' => e = e'
  | _, _ => False
  end.
Proof.
  intros H1 H2 H3 Hset Hfl. pose proof (C57_values_partial (e_ext V) (fit_params a l2 flags) (f_data a) (f_n_iter a) s h H1 H2 H3) as Hv. cbv zeta in Hv.
  unfold cmf_aoadmm. rewrite Hset. cbn [bind]. rewrite Hfl. set (st := St _ _ _ _ _) in *.
  assert (init_hist (fit_params a l2 (false, false)) (f_data a) st = init_hist (fit_params a l2 flags) (f_data a) st) as ->.
  { destruct l2 as [[x y] z]. reflexivity. }
  destruct (init_hist _ (f_data a) st) as [h0|e0] eqn:E0; cbn [bind].
  - destruct (run _ _ _ _ st) as [[s1 d1]|e1]; cbn [bind]; destruct (fst (hfit _ _ _ _ _ _)) as [[[s' c] d]|e]; try contradiction.
    + destruct Hv as [-> [-> _]]. split; reflexivity.
    + exact Hv.
  - unfold run in Hv. rewrite E0 in Hv. cbn [bind] in Hv. destruct (fst (hfit _ _ _ _ _ _)) as [[[s' c] d]|e]; [contradiction|exact Hv].
Qed.

(** ** What the caller's A and list hold after one update *)
(** The result of the last inner iteration with an even number: with inner_n_iter_max = 5, the default, the fourth.  (Without inner_tol,
    the default, so that all iterations are made.) *)
Theorem C42_A_holds {N : Num} (E : ext) (P : params) (Xs : list mat) (s : hstate N) (h : heap N) out h' :
  exists_in h s -> separate s -> fits Xs h s -> p_inner_tol P = None ->
  hadmm_update_A E Xs (s_A s) (h_lst h (s_Bs s)) (s_C s) (s_rA s) (p_l2A P) (p_inner P) None (p_scale P) (p_constA P) h = (Ok out, h') ->
  exists y, admm_update_A E Xs (view_cmf h s) (map (view h) (s_rA s)) (p_l2A P) (2 * (p_inner P / 2)) None (p_scale P) (p_constA P) = Ok y /\
    h_arr h' (s_A s) = cA (fst (fst y)).
Proof.
  intros H1 H2 H3 Ht H. destruct (separate_good P Xs h s H1 H2 H3) as [[Ha [HA [Haw Hs]]] [_ [HX HB]]].
  unfold hadmm_update_A in H. apply thenc_ok in H. destruct H as [fps [h1 [Hfp H]]]. unfold lift in Hfp. injection Hfp as Hfp <-.
  apply thenc_ok in H. destruct H as [h1 [h2 [Hlk H]]]. injection Hlk as <- <-. rewrite alloc_then in H. set (hc := Heap _ _ _) in H.
  apply thenc_ok in H. destruct H as [y [h3 [Hloop H]]]. injection H as <- <-.
  destruct (copy_sep (p_constA P) h (s_A s) (s_rA s) _ _ (conj Ha (conj HA (conj Haw Hs)))) as [Hv [Ha1 Hl]].
  change hc with (copied h (s_A s)) in Hloop. cbn [fst snd].
  assert (p_constA P = false -> length fps = mr (h_arr h (s_A s))) as Hf.
  { intros _. rewrite (feas_length _ _ _ _ Hfp). unfold A_cross. rewrite length_map2'; congruence. }
  destruct (hA_loop_holds E (p_constA P) _ fps _ _ _ Hf (p_inner P) _ _ _ _ _ _ Hl Hloop) as [ms Hms].
  unfold admm_update_A, view_cmf. cbn [cA cBs cC]. rewrite Hfp. cbn [bind]. rewrite loop_iterate_A, map_length, <- Hv, <- Ha1, Hms. cbn [bind].
  eexists. split; [reflexivity|]. reflexivity.
Qed.
Theorem C42_Bs_hold {N : Num} (E : ext) (P : params) (Xs : list mat) (s : hstate N) (h : heap N) out h' :
  exists_in h s -> p_inner_tol P = None ->
  hadmm_update_B E Xs (h_arr h (s_A s)) (s_Bs s) (s_C s) (s_rB s) (p_l2B P) (p_inner P) None (p_scale P) (p_constB P) h = (Ok out, h') ->
  exists y, admm_update_B E Xs (view_cmf h s) (s_rB s) (p_l2B P) (2 * (p_inner P / 2)) None (p_scale P) (p_constB P) = Ok y /\
    h_lst h' (s_Bs s) = cBs (fst y).
Proof.
  intros [_ [Hb _]] Ht H. unfold hadmm_update_B in H. apply thenc_ok in H. destruct H as [fps [h1 [Hfp H]]]. unfold lift in Hfp. injection Hfp as Hfp <-.
  apply thenc_ok in H. destruct H as [h1 [h2 [Hlk H]]]. injection Hlk as <- <-.
  apply thenc_ok in H. destruct H as [old [h2 [Hal Hloop]]]. injection Hal as <- <-. set (hc := Heap _ _ _) in Hloop.
  assert (h_lst hc (s_Bs s) = h_lst h (s_Bs s)) as Hb1. { subst hc. cbn. replace (s_Bs s =? h_next h) with false by (symmetry; apply Nat.eqb_neq; lia). reflexivity. }
  assert (h_lst hc (h_next h) = h_lst h (s_Bs s)) as Hb2. { subst hc. cbn. rewrite Nat.eqb_refl. reflexivity. }
  destruct (hB_loop_holds E _ fps _ (p_inner P) (s_Bs s) (h_next h) _ hc _ _ ltac:(lia) ltac:(congruence) Hloop) as [ms Hms].
  unfold admm_update_B, view_cmf. cbn [cA cBs cC]. rewrite Hfp. cbn [bind]. rewrite loop_iterate_B, <- Hb1, Hms. cbn [bind].
  eexists. split; [reflexivity|]. reflexivity.
Qed.

(** ** Refutations *)
(** One matrix with the single entry 2; A, B and C are 1; only A is updated, without penalties, with five inner iterations. *)
Definition exP (n : nat) : params (N:=RNum) := Params (N:=RNum) 0%R 0%R 0%R 1%R false false n None true false false None None None false.
Definition exh : heap RNum := Heap (N:=RNum) (fun _ => m11 1) (fun _ => [m11 1]) 2.
Definition exs : hstate RNum := HSt (N:=RNum) None 0 1 (m11 1) [] [] [] None.
Lemma ex_case : exists_in exh exs /\ separate exs /\ fits [m11 2] exh exs.
Proof.
  split; [|split].
  - split; [cbn; lia|]. split; [cbn; lia|]. constructor.
  - split; [cbn; repeat constructor; intros []|]. intros g [].
  - repeat split; intros g [].
Qed.
Definition ex_svds E : list svd3 := [lhs_svd (N:=RNum) E (m11 1)].
Lemma ex_step E a h : svd_correct E 1 -> h_arr h a = m11 1 \/ h_arr h a = m11 2 ->
  hA_step E false (ex_svds E) [feas_penalty (N:=RNum) 1%R (m11 1)] [[2%R]] a [] h =
  (Ok [], Heap (N:=RNum) (fun x => if (x =? a)%nat then m11 2 else h_arr h x) (h_lst h) (h_next h)).
Proof.
  intros HE Ha. unfold hA_step, thenc, look, lift. cbn [map shifted_mats mapM bind]. unfold hA_rows, thenc, look, lift.
  assert (mr (h_arr h a) = 1 /\ mc (h_arr h a) = 1 /\ mset_row (N:=RNum) (h_arr h a) 0 [2%R] = m11 2) as [-> [-> Hm]] by (destruct Ha as [-> | ->]; repeat split).
  set (fp := feas_penalty (N:=RNum) 1%R (m11 1)).
  assert (vadd (N:=RNum) (vscale fp (sum_rows (N:=RNum) 1 [] 0)) [2%R] = [2%R]) as Hv.
  { change ([(fp * 0 + 2)%R] = [2%R]). f_equal. ring. }
  assert (solve_row (lhs_svd (N:=RNum) E (m11 1)) [2%R] = Ok [2%R]) as Hsolve.
  { rewrite solve_row1 by (auto; lra). do 2 f_equal. field. }
  unfold ex_svds. cbn [seq for_each]. unfold thenc at 1. cbn [nth]. rewrite Hv, Hsolve. cbn [write_row]. rewrite Hm. reflexivity.
Qed.
Lemma ex_loop E n a old h : svd_correct E 1 -> a <> old -> h_arr h a = m11 1 \/ h_arr h a = m11 2 -> h_arr h old = m11 1 \/ h_arr h old = m11 2 ->
  exists h1, hA_loop E false (ex_svds E) [feas_penalty (N:=RNum) 1%R (m11 1)] [[2%R]] None (S n) a old [] h =
    hA_loop E false (ex_svds E) [feas_penalty (N:=RNum) 1%R (m11 1)] [[2%R]] None n old a [] h1 /\
    h_arr h1 old = m11 2 /\ h_arr h1 a = h_arr h a /\ h_lst h1 = h_lst h.
Proof.
  intros HE Hao Ha Ho. cbn [hA_loop]. unfold thenc at 1. rewrite ex_step by assumption. set (h1 := Heap _ _ _). exists h1. split; [reflexivity|].
  split; [subst h1; cbn; rewrite Nat.eqb_refl; reflexivity|]. split; [|reflexivity].
  subst h1. cbn. replace (a =? old) with false by (symmetry; apply Nat.eqb_neq; congruence). reflexivity.
Qed.
Lemma ex_update E : svd_correct E 1 ->
  exists s1 h1, houter_step E (exP 5) [m11 2] (HSt None 0 1 (m11 1) [] [] [] None) exh = (Ok s1, h1) /\ h_arr h1 0 = m11 2 /\
    view_cmf h1 s1 = Cmf (N:=RNum) None (m11 2) [m11 1] (m11 1).
Proof.
  intros HE. unfold houter_step, hupd_B, hupd_C, hupd_A. cbn [exP p_updA p_updB p_updC]. unfold thenc at 1, ret at 1. unfold thenc at 1, ret at 1.
  unfold thenc at 1, look at 1. cbn [s_A s_Bs s_C s_rA s_w s_rB s_rC p_l2A p_inner p_inner_tol p_scale p_constA].
  assert (A_cross (N:=RNum) [m11 1] (m11 1) [m11 2] = [m11 1]) as Hc by (cbn; f_equal; meq; ring).
  assert (A_rhses (N:=RNum) [m11 1] (m11 1) [m11 2] = [[2%R]]) as Hr by (meq; ring).
  unfold thenc at 1. unfold hadmm_update_A. cbn [h_lst exh]. rewrite Hc, Hr. cbn [feas_penalties map length].
  unfold thenc at 1, lift at 1. unfold thenc at 1, look at 1. unfold thenc at 1, alloc at 1. cbn [h_next exh]. set (h0 := Heap _ _ _).
  assert (lhs_svds E [m11 1] [feas_penalty (N:=RNum) 1%R (m11 1)] 0 0%R = ex_svds E) as Hs.
  { unfold lhs_svds, ex_svds. cbn [map2]. do 2 f_equal. meq. field. }
  change (feas_penalties (p_scale (exP 5)) (p_constA (exP 5)) [m11 1]) with (Ok [feas_penalty (N:=RNum) 1%R (m11 1)]). cbn iota beta.
  change (p_l2A (exP 5)) with 0%R. rewrite Hs. change (p_constA (exP 5)) with false. change (p_inner_tol (exP 5)) with (@None (@num RNum)). change (p_inner (exP 5)) with 5.
  unfold thenc at 1.
  destruct (ex_loop E 4 0 2 h0 HE) as [h1 [-> [Ho1 [Ha1 Hl1]]]]; [lia|left; reflexivity|left; reflexivity|].
  destruct (ex_loop E 3 2 0 h1 HE) as [h2 [-> [Ho2 [Ha2 Hl2]]]]; [lia|auto|left; rewrite Ha1; reflexivity|].
  destruct (ex_loop E 2 0 2 h2 HE) as [h3 [-> [Ho3 [Ha3 Hl3]]]]; [lia|auto|right; congruence|].
  destruct (ex_loop E 1 2 0 h3 HE) as [h4 [-> [Ho4 [Ha4 Hl4]]]]; [lia|auto|right; congruence|].
  destruct (ex_loop E 0 0 2 h4 HE) as [h5 [-> [Ho5 [Ha5 Hl5]]]]; [lia|auto|right; congruence|].
  cbn. eexists. eexists. split; [reflexivity|]. split; [congruence|]. unfold view_cmf. cbn. rewrite Ho5, Hl5, Hl4, Hl3, Hl2, Hl1. reflexivity.
Qed.
(** [init] is overwritten: the caller's A was 1 and is 2 after the call. *)
Theorem C42_init_refuted (E : ext (N:=RNum)) : svd_correct E 1 ->
  exists out h', hfit E (exP 5) [m11 2] 1 exs exh = (Ok out, h') /\ h_arr exh (s_A exs) = m11 1 /\ h_arr h' (s_A exs) = m11 2.
Proof.
  intros HE. destruct (ex_update E HE) as [s1 [h1 [Hst [HA Hv]]]].
  assert (exists h0, init_hist (exP 5) [m11 2] (view_state exh exs) = Ok h0) as [h0 Hh0].
  { unfold init_hist, state_loss. cbn. destruct (state_error _ _); cbn; eauto. }
  unfold hfit, hstart. cbn [exs s_w]. unfold thenc at 1, ret at 1. unfold hrun, thenc at 1, look at 1. unfold thenc at 1, lift at 1.
  fold exs. rewrite Hh0. change (Z.to_nat 1) with 1. cbn [hao_loop]. unfold thenc at 1. unfold thenc at 1. change exs with (HSt (N:=RNum) None 0 1 (m11 1) [] [] [] None). rewrite Hst.
  cbn [exP p_tol p_abs_tol p_return_errors p_feas_tol otruthy orb]. unfold thenc, look, ret, lift. rewrite Hv. cbn.
  eexists. eexists. split; [reflexivity|]. split; [reflexivity|exact HA].
Qed.

(** Exact rational arithmetic, with the SVD of one number. *)
Definition q11 (x : Q) : mat (N:=QNum) := Mat (N:=QNum) 1 1 [[x]].
Definition q_ext : ext (N:=QNum) := Ext (N:=QNum) (fun M _ => (q11 1, [mget (N:=QNum) M 0 0], q11 1)) (fun v _ => v).
Definition qP : params (N:=QNum) := Params (N:=QNum) 0%Q 0%Q 0%Q 1%Q false false 1 None true false false None None None false.
(** A, then the auxiliary arrays of two penalties on A: values at least 0, and values at least 2 *)
Definition q_heap : heap QNum := Heap (N:=QNum) (fun _ => q11 1) (fun _ => [q11 1]) 8.
Definition q_state (aux1 aux2 : nat) : hstate QNum :=
  HSt (N:=QNum) None 0 1 (q11 1) [HReg (N:=QNum) NonNegativity aux1 4; HReg (N:=QNum) (Box (N:=QNum) (Some 2%Q) None) aux2 5] [] [] None.
Definition q_fitted (aux1 aux2 : nat) : option Q :=
  match fst (hfit q_ext qP [q11 1] 2 (q_state aux1 aux2) q_heap) with Ok (_, c, _) => Some (mget (N:=QNum) (cA c) 0 0) | Err _ => None end.
(** [aux_init] is overwritten, also with a single inner iteration: the array given for the second penalty held 1. *)
Theorem C42_aux_refuted : exists out h', hfit q_ext qP [q11 1] 2 (q_state 2 3) q_heap = (Ok out, h') /\
  h_arr q_heap 3 = q11 1 /\ mget (N:=QNum) (h_arr h' 3) 0 0 = 2%Q.
Proof. eexists. eexists. split; [vm_compute; reflexivity|]. split; vm_compute; reflexivity. Qed.
(** The list of the B_i is overwritten with two inner iterations. *)
Definition qPB : params (N:=QNum) := Params (N:=QNum) 0%Q 0%Q 0%Q 1%Q false false 2 None false true false None None None false.
Theorem C42_list_refuted : exists out h', hfit q_ext qPB [q11 5] 1 (HSt (N:=QNum) None 0 1 (q11 1) [] [] [] None) q_heap = (Ok out, h') /\
  h_lst q_heap 1 = [q11 1] /\ map (fun B => mget (N:=QNum) B 0 0) (h_lst h' 1) = [5%Q].
Proof. eexists. eexists. split; [vm_compute; reflexivity|]. split; vm_compute; reflexivity. Qed.
(** One array passed as [aux_init] of two penalties gives another factorization than two arrays with the same contents:
    the penalties overwrite each other's variables. *)
Theorem C57_shared_aux_refuted : h_arr q_heap 2 = h_arr q_heap 3 /\ q_fitted 2 3 = Some (3 # 2)%Q /\ q_fitted 2 2 = Some (13 # 8)%Q.
Proof. repeat split; vm_compute; reflexivity. Qed.

(** The hypotheses are met, with penalties: separate arrays of matching shapes. *)
Example ex_separate : exists_in q_heap (q_state 2 3) /\ separate (q_state 2 3) /\ fits [q11 1] q_heap (q_state 2 3).
Proof.
  split; [|split].
  - split; [cbn; lia|]. split; [cbn; lia|]. repeat constructor.
  - split; [cbn; repeat constructor; cbn; lia|]. intros g [<-|[<-|[]]]; cbn; lia.
  - split; [reflexivity|]. split; [reflexivity|]. split; [reflexivity|]. intros g [<-|[<-|[]]]; repeat split.
Qed.
(** an update with two inner iterations succeeds *)
Example ex_update_A : exists out h', hadmm_update_A q_ext [q11 1] 0 [q11 1] (q11 1) (s_rA (q_state 2 3)) 0%Q 2 None 1%Q false q_heap = (Ok out, h').
Proof. eexists. eexists. vm_compute. reflexivity. Qed.
(** and one of the B_i *)
Example ex_update_B : exists out h', hadmm_update_B q_ext [q11 5] (q11 1) 1 (q11 1) [] 0%Q 3 None 1%Q false q_heap = (Ok out, h').
Proof. eexists. eexists. vm_compute. reflexivity. Qed.

Print Assumptions C42_frame_partial.
Print Assumptions C42_harmless_partial.
Print Assumptions C42_duals_partial.
Print Assumptions C57_values_partial.
Print Assumptions C57_call_partial.
Print Assumptions C42_A_holds.
Print Assumptions C42_Bs_hold.
Print Assumptions C42_init_refuted.
Print Assumptions C42_aux_refuted.
Print Assumptions C42_list_refuted.
Print Assumptions C57_shared_aux_refuted.
