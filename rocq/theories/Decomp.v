(** Model of the AO-ADMM algorithm, src/matcouply/decomposition.py: the factor
    updates, feasibility gaps, reconstruction error, and the outer loop.

    Simplifications, throughout the file.
    - The data matrices and factor matrices are assumed to have matching counts
      and shapes (numpy's own broadcasting and shape errors are not modelled).
    - [reg], [aux_list] and [dual_list] are kept together as one list of
      (penalty, auxiliary, dual) records: the code builds the latter two by list
      comprehensions over the first and only ever assigns their elements.
    - Values are copied, not shared; see Heap.v for sharing.
    - A zero singular value makes the code continue with nan or infinite factors;
      the model stops with [NonFinite]. *)
From Coq Require Import List Arith Bool ZArith.
From Verif Require Import Num Numpy Unimodal Penalties CoupledMatrices.
Import ListNotations.
Local Open Scope num_scope.

Section Decomp.
Context {N : Num}.

(** ** Floats that may be infinite or nan: gaps, errors and losses *)
Inductive xnum := Fin (x : num) | PInf | NaN.
(** numpy division of a non-negative number by a non-negative number *)
Definition xdiv (x y : num) : xnum :=
  if neqb y n0 then (if neqb x n0 then NaN else PInf) else Fin (x / y).
(** [x > y] *)
Definition xgt (x y : xnum) : bool :=
  match x, y with
  | Fin a, Fin b => b <? a
  | PInf, Fin _ => true
  | _, _ => false
  end.
(** [x < t] for a finite t *)
Definition xlt (x : xnum) (t : num) : bool := match x with Fin a => a <? t | _ => false end.
(** Python's [max] of a non-empty sequence: a later element wins only if it is greater *)
Definition xmax_list (l : list xnum) : option xnum :=
  match l with [] => None | x :: t => Some (fold_left (fun m y => if xgt y m then y else m) t x) end.

(** ** Penalties with their auxiliary and dual variables *)
(** modes 0 and 2 *)
Record mreg := MReg { g_pen : penalty; g_aux : mat; g_dual : mat }.
(** mode 1 *)
Record breg := BReg { b_pen : penalty; b_aux : auxes; b_dual : list mat }.

(** ** Norms and gaps *)
(** [_root_sum_squared_list], decomposition.py:347-348 *)
Definition root_sum_squared (l : list mat) : num := nsqrt (lsum (map msumsq l)).

(** [compute_feasibility_gaps] for one penalty, decomposition.py:410 and 415 *)
Definition gap_mat (M : mat) (g : mreg) : res xnum :=
  let* d := subtract_from_aux (g_pen g) (g_aux g) M in Ok (xdiv (mnorm d) (mnorm M)).
(** decomposition.py:411-414 *)
Definition gap_list (Bs : list mat) (g : breg) : res xnum :=
  let* d := subtract_from_auxes (b_pen g) (b_aux g) Bs in
  Ok (xdiv (root_sum_squared d) (root_sum_squared Bs)).
Definition gaps := (list xnum * list xnum * list xnum)%type.
(** [compute_feasibility_gaps], decomposition.py:351-417 *)
Definition compute_gaps (c : cmf) (rA : list mreg) (rB : list breg) (rC : list mreg) : res gaps :=
  let* gA := mapM (gap_mat (cA c)) rA in
  let* gB := mapM (gap_list (cBs c)) rB in
  let* gC := mapM (gap_mat (cC c)) rC in
  Ok (gA, gB, gC).

(** [_check_feasibility], decomposition.py:630-640; [None] is -inf *)
Definition feas_acc (l : list xnum) (m : option xnum) : option xnum :=
  match xmax_list l with
  | None => m
  | Some x => match m with None => Some x | Some y => Some (if xgt y x then y else x) end
  end.
Definition check_feasibility (g : gaps) (tol : num) : bool :=
  let '(gA, gB, gC) := g in
  match feas_acc gC (feas_acc gB (feas_acc gA None)) with
  | None => true
  | Some x => xlt x tol
  end.

(** ** Inner convergence *)
(** [not x] for an optional number *)
Definition otruthy (t : option num) : bool := match t with Some x => ntruthy x | None => false end.
(** [_check_inner_convergence], decomposition.py:92-116, given the norm, the
    change and the gaps of the mode ([max] of an empty list cannot occur) *)
Definition inner_conv (inner_tol : option num) (norm change : num) (gs : res (list xnum)) : res bool :=
  match inner_tol with
  | None => Ok false
  | Some t =>
      if negb (ntruthy t) || (t <? n0) then Ok false
      else if t * norm <? change then Ok false
      else let* g := gs in
           match xmax_list g with
           | None => Ok true
           | Some m => Ok (xlt m t)
           end
  end.
(** modes 0 and 2 *)
Definition conv_mat (inner_tol : option num) (old new : mat * list mreg) : res bool :=
  inner_conv inner_tol (mnorm (fst new)) (mnorm (msub (fst new) (fst old)))
             (mapM (gap_mat (fst new)) (snd new)).
(** mode 1 *)
Definition conv_list (inner_tol : option num) (old new : list mat * list breg) : res bool :=
  inner_conv inner_tol (root_sum_squared (fst new)) (root_sum_squared (map2 msub (fst new) (fst old)))
             (mapM (gap_list (fst new)) (snd new)).

(** The shape of the three inner loops (decomposition.py:176-217, 253-290,
    325-342): repeat a step until convergence, at most [n] times. *)
Fixpoint inner_loop {S} (step : S -> res S) (conv : S -> S -> res bool) (n : nat) (s : S) : res S :=
  match n with
  | O => Ok s
  | Datatypes.S k =>
      let* s' := step s in
      let* b := conv s s' in
      if (b : bool) then Ok s' else inner_loop step conv k s'
  end.

(** ** Solving with a precomputed SVD *)
Definition svd3 := (mat * list num * mat)%type.
Definition finite_svd (d : svd3) : bool := let '(_, s, _) := d in forallb ntruthy s.
(** [tl.dot(tl.dot(b, U / s), Uh)] for a row vector, decomposition.py:191-195 *)
Definition solve_row (d : svd3) (b : list num) : res (list num) :=
  let '(U, s, Vh) := d in
  if finite_svd d then Ok (vmat (vmat b (mcoldiv U s)) Vh) else Err NonFinite.
(** the same for a matrix, decomposition.py:269 and 331 *)
Definition solve_mat (d : svd3) (b : mat) : res mat :=
  let '(U, s, Vh) := d in
  if finite_svd d then Ok (mmul (mmul b (mcoldiv U s)) Vh) else Err NonFinite.

(** [lhs + tl.eye(R) * (fp * len(reg) + l2)], decomposition.py:169, 250, 320 *)
Definition ridge (lhs : mat) (fp : num) (nreg : nat) (l2 : num) : mat :=
  madd lhs (mscale (fp * nlit (Z.of_nat nreg) 1 + l2) (meye (mc lhs))).
(** [0.5 * tl.trace(lhs) * scale], decomposition.py:162, 244, 319 *)
Definition feas_penalty (scale : num) (lhs : mat) : num := nhalf * mtrace lhs * scale.
(** decomposition.py:162-165, 244-247; [max] of an empty list raises *)
Definition feas_penalties (scale : num) (constant : bool) (lhses : list mat) : res (list num) :=
  let fps := map (feas_penalty scale) lhses in
  if constant then
    match fps with
    | [] => Err ValueError
    | _ => Ok (map (fun _ => lmax fps) fps)
    end
  else Ok fps.
(** SVDs of the regularised left-hand sides, decomposition.py:168-172, 249-253;
    [svd_fun(lhs)] without [n_eigenvecs] computes the full SVD *)
Definition lhs_svd (E : ext) (lhs : mat) : svd3 := x_svd E lhs (mr lhs).
Definition lhs_svds (E : ext) (lhses : list mat) (fps : list num) (nreg : nat) (l2 : num) : list svd3 :=
  map2 (fun lhs fp => lhs_svd E (ridge lhs fp nreg l2)) lhses fps.

(** ** Update of A, decomposition.py:120-219 *)
(** BtXC_i in the order chosen by size, lines 147-152 *)
Definition btxc (X B C : mat) : mat :=
  if (mr C <? mr B)%nat then mmul (mmul (mtrans B) X) C
  else mmul (mtrans B) (mmul X C).
(** lines 138, 155 *)
Definition cross_product (C B : mat) : mat := mhad (mmul (mtrans B) B) (mmul (mtrans C) C).
Definition A_cross (Bs : list mat) (C : mat) (Xs : list mat) : list mat :=
  map2 (fun _ B => cross_product C B) Xs Bs.
(** line 158 *)
Definition A_rhses (Bs : list mat) (C : mat) (Xs : list mat) : list (list num) :=
  map2 (fun X B => mdiag (btxc X B C)) Xs Bs.

(** sum of the i-th rows of the shifted auxiliaries, lines 187-189; the sum
    starts from 0 *)
Definition sum_rows (R : nat) (shifted : list mat) (i : nat) : list num :=
  fold_left (fun acc M => vadd acc (mrow M i)) shifted (repeat n0 R).
Definition shifted_mats (regs : list mreg) : res (list mat) :=
  mapM (fun g => subtract_from_aux (g_pen g) (g_aux g) (g_dual g)) regs.

(** auxiliary update for one penalty, lines 197-213.  With a constant
    feasibility penalty the whole matrix is updated with it (its value is any
    element of [fps]); otherwise row by row. *)
Definition rows_update (p : penalty) (V : mat) (fps : list num) : res mat :=
  let* rows := mapM (fun i => row_update p (mrow V i) (nth i fps n0)) (seq 0 (length fps)) in
  Ok (Mat (mr V) (mc V) rows).
Definition A_reg_step (E : ext) (constant : bool) (fps : list num) (A : mat) (g : mreg) : res mreg :=
  let V := madd A (g_dual g) in
  let* aux := if constant then factor_matrix_update E (g_pen g) V (nth 0 fps n0)
              else rows_update (g_pen g) V fps in
  let* sh := subtract_from_aux (g_pen g) aux (g_dual g) in
  Ok (MReg (g_pen g) aux (msub A sh)).
(** one inner iteration, lines 177-213 *)
Definition A_step (E : ext) (constant : bool) (svds : list svd3) (fps : list num)
  (rhses : list (list num)) (s : mat * list mreg) : res (mat * list mreg) :=
  let '(A, regs) := s in
  let* shifted := shifted_mats regs in
  let* rows := mapM (fun i =>
      solve_row (nth i svds (Mat 0 0 [], [], Mat 0 0 []))
        (vadd (vscale (nth i fps n0) (sum_rows (mc A) shifted i)) (nth i rhses [])))
    (seq 0 (mr A)) in
  let A' := Mat (mr A) (mc A) rows in
  let* regs' := mapM (A_reg_step E constant fps A') regs in
  Ok (A', regs').
(** [admm_update_A] *)
Definition admm_update_A (E : ext) (Xs : list mat) (c : cmf) (regs : list mreg) (l2 : num)
  (n : nat) (inner_tol : option num) (scale : num) (constant : bool)
  : res (cmf * list mreg * (list (list num) * list mat)) :=
  let cross := A_cross (cBs c) (cC c) Xs in
  let rhses := A_rhses (cBs c) (cC c) Xs in
  let* fps := feas_penalties scale constant cross in
  let svds := lhs_svds E cross fps (length regs) l2 in
  let* (A, regs') := inner_loop (A_step E constant svds fps rhses) (conv_mat inner_tol) n (cA c, regs) in
  Ok (Cmf None A (cBs c) (cC c), regs', (rhses, cross)).

(** ** Update of the B_i, decomposition.py:222-292 *)
(** line 240: [matrix @ (C * a_row)] *)
Definition B_rhs (X C : mat) (a : list num) : mat := mmul X (mcolscale C a).
(** line 241 *)
Definition B_lhs (C : mat) (a : list num) : mat :=
  mtrans (mcolscale (mtrans (mcolscale (mmul (mtrans C) C) a)) a).
(** sum of the i-th shifted auxiliaries, lines 264-266 *)
Definition sum_mats (r c : nat) (l : list mat) : mat := fold_left madd l (mzeros r c).
Definition shifted_lists (regs : list breg) : res (list (list mat)) :=
  mapM (fun g => subtract_from_auxes (b_pen g) (b_aux g) (b_dual g)) regs.
(** lines 271-284 *)
Definition B_reg_step (E : ext) (fps : list num) (Bs : list mat) (g : breg) : res breg :=
  let V := map2 madd Bs (b_dual g) in
  let* aux := factor_matrices_update E (b_pen g) V fps (b_aux g) in
  let* sh := subtract_from_auxes (b_pen g) aux (b_dual g) in
  Ok (BReg (b_pen g) aux (map2 msub Bs sh)).
(** one inner iteration, lines 254-284 *)
Definition B_step (E : ext) (svds : list svd3) (fps : list num) (rhses : list mat)
  (s : list mat * list breg) : res (list mat * list breg) :=
  let '(Bs, regs) := s in
  let* shifted := shifted_lists regs in
  let* Bs' := mapM (fun i =>
      let H := nth i rhses (Mat 0 0 []) in
      solve_mat (nth i svds (Mat 0 0 [], [], Mat 0 0 []))
        (madd (mscale (nth i fps n0)
                 (sum_mats (mr H) (mc H) (map (fun l => nth i l (Mat 0 0 [])) shifted))) H))
    (seq 0 (length Bs)) in
  let* regs' := mapM (B_reg_step E fps Bs') regs in
  Ok (Bs', regs').
(** [admm_update_B] *)
Definition admm_update_B (E : ext) (Xs : list mat) (c : cmf) (regs : list breg) (l2 : num)
  (n : nat) (inner_tol : option num) (scale : num) (constant : bool)
  : res (cmf * list breg) :=
  let rhses := map2 (fun X a => B_rhs X (cC c) a) Xs (me (cA c)) in
  let lhses := map2 (fun _ a => B_lhs (cC c) a) Xs (me (cA c)) in
  let* fps := feas_penalties scale constant lhses in
  let svds := lhs_svds E lhses fps (length regs) l2 in
  let* (Bs, regs') := inner_loop (B_step E svds fps rhses) (conv_list inner_tol) n (cBs c, regs) in
  Ok (Cmf None (cA c) Bs (cC c), regs').

(** ** Update of C, decomposition.py:295-344 *)
(** lines 310-315: B_i * A_i with the row of A broadcast *)
Definition BA (Bs : list mat) (A : mat) : list mat := map2 mcolscale Bs (me A).
Definition C_lhs_terms (Xs Bs : list mat) (A : mat) : list mat :=
  map2 (fun _ D => mmul (mtrans D) D) Xs (BA Bs A).
Definition C_rhs_terms (Xs Bs : list mat) (A : mat) : list mat :=
  map2 (fun X D => mmul (mtrans X) D) Xs (BA Bs A).
(** lines 333-338 *)
Definition C_reg_step (E : ext) (fp : num) (C : mat) (g : mreg) : res mreg :=
  let* aux := factor_matrix_update E (g_pen g) (madd C (g_dual g)) fp in
  let* sh := subtract_from_aux (g_pen g) aux (g_dual g) in
  Ok (MReg (g_pen g) aux (msub C sh)).
(** one inner iteration, lines 325-338 *)
Definition C_step (E : ext) (d : svd3) (fp : num) (rhs : mat) (s : mat * list mreg) : res (mat * list mreg) :=
  let '(C, regs) := s in
  let* shifted := shifted_mats regs in
  let* C' := solve_mat d (madd (mscale fp (sum_mats (mr rhs) (mc rhs) shifted)) rhs) in
  let* regs' := mapM (C_reg_step E fp C') regs in
  Ok (C', regs').
(** [admm_update_C]; the trace of an empty sum raises *)
Definition admm_update_C (E : ext) (Xs : list mat) (c : cmf) (regs : list mreg) (l2 : num)
  (n : nat) (inner_tol : option num) (scale : num) : res (cmf * list mreg) :=
  match msum_list (C_lhs_terms Xs (cBs c) (cA c)), msum_list (C_rhs_terms Xs (cBs c) (cA c)) with
  | Some lhs, Some rhs =>
      let fp := feas_penalty scale lhs in
      let d := lhs_svd E (ridge lhs fp (length regs) l2) in
      let* (C, regs') := inner_loop (C_step E d fp rhs) (conv_mat inner_tol) n (cC c, regs) in
      Ok (Cmf None (cA c) (cBs c) C, regs')
  | _, _ => Err ValueError
  end.

(** ** Reconstruction error and losses *)
(** [_cmf_reconstruction_error], decomposition.py:420-452.  The square of
    [norm_matrices] is passed as [norm_X]. *)
Definition scaled_A (c : cmf) : mat :=
  match cw c with None => cA c | Some w => mcolscale (cA c) w end.
(** lines 436-444, one matrix: inner product with the data *)
Definition rec_inner (X B C : mat) : num :=
  if (mr C <? mr B)%nat then mtrace (mmul (mmul (mtrans B) X) C)
  else mtrace (mmul (mtrans B) (mmul X C)).
(** line 446: squared norm of one represented matrix *)
Definition rec_sq (B C : mat) : num := msum (mhad (mmul (mtrans B) B) (mmul (mtrans C) C)).
Definition rec_error (Xs : list mat) (c : cmf) (norm_X : num)
  (inter : option (list (list num) * list mat)) : num :=
  let A := scaled_A c in
  let '(ip, sq) :=
    match inter with
    | None =>
        let Bs := BA (cBs c) A in
        (lsum (map2 (fun X B => rec_inner X B (cC c)) Xs Bs), lsum (map (fun B => rec_sq B (cC c)) Bs))
    | Some (rhses, cross) =>
        (lsum (map2 (fun h a => lsum (vmul h a)) rhses (me A)),
         lsum (map2 (fun cp a => msum (mmul (mmul (mdiagm a) cp) (mdiagm a))) cross (me A)))
    end in
  nsqrt (nmax n0 (norm_X * norm_X - nlit 2 1 * ip + sq)).

(** [_compute_l2_penalty], decomposition.py:617-627 *)
Definition l2_reg (c : cmf) (l2A l2B l2C : num) : num :=
  let a := if ntruthy l2A then nhalf * l2A * msumsq (cA c) else n0 in
  let b := if ntruthy l2B then nhalf * l2B * lsum (map msumsq (cBs c)) else n0 in
  let d := if ntruthy l2C then nhalf * l2C * msumsq (cC c) else n0 in
  a + b + d.
(** sum of the penalties of the factors, decomposition.py:915-919, 1016-1020 *)
Definition reg_penalty (c : cmf) (rA : list mreg) (rB : list breg) (rC : list mreg) : res num :=
  let* a := mapM (fun g => penalty_mat (g_pen g) (cA c)) rA in
  let* b := mapM (fun g => penalty_list (b_pen g) (cBs c)) rB in
  let* d := mapM (fun g => penalty_mat (g_pen g) (cC c)) rC in
  Ok (lsum a + lsum b + lsum d).

(** ** The outer loop, decomposition.py:903-1100 *)
(** Arguments of [cmf_aoadmm] used by the loop; [None] for an optional
    tolerance is Python's None. *)
Record params := Params {
  p_l2A : num; p_l2B : num; p_l2C : num;          (* line 876-877 *)
  p_scale : num;                                   (* feasibility_penalty_scale *)
  p_constA : bool; p_constB : bool;                (* lines 937-942 *)
  p_inner : nat; p_inner_tol : option num;         (* inner_n_iter_max, inner_tol *)
  p_updA : bool; p_updB : bool; p_updC : bool;
  p_tol : option num; p_abs_tol : option num; p_feas_tol : option num;
  p_return_errors : bool
}.
(** The factorization with all auxiliary and dual variables *)
Record state := St {
  st_cmf : cmf; st_rA : list mreg; st_rB : list breg; st_rC : list mreg;
  st_inter : option (list (list num) * list mat)   (* intermediate_A_calculations *)
}.

(** One outer iteration: B, then C, then A; lines 945-988 *)
Definition upd_B (E : ext) (P : params) (Xs : list mat) (s : state) : res state :=
  if p_updB P then
    let* (c, r) := admm_update_B E Xs (st_cmf s) (st_rB s) (p_l2B P) (p_inner P) (p_inner_tol P)
                                 (p_scale P) (p_constB P) in
    Ok (St c (st_rA s) r (st_rC s) None)
  else Ok (St (st_cmf s) (st_rA s) (st_rB s) (st_rC s) None).
Definition upd_C (E : ext) (P : params) (Xs : list mat) (s : state) : res state :=
  if p_updC P then
    let* (c, r) := admm_update_C E Xs (st_cmf s) (st_rC s) (p_l2C P) (p_inner P) (p_inner_tol P)
                                 (p_scale P) in
    Ok (St c (st_rA s) (st_rB s) r (st_inter s))
  else Ok s.
Definition upd_A (E : ext) (P : params) (Xs : list mat) (s : state) : res state :=
  if p_updA P then
    let* (c, r, i) := admm_update_A E Xs (st_cmf s) (st_rA s) (p_l2A P) (p_inner P) (p_inner_tol P)
                                    (p_scale P) (p_constA P) in
    Ok (St c r (st_rB s) (st_rC s) (Some i))
  else Ok s.
Definition outer_step (E : ext) (P : params) (Xs : list mat) (s : state) : res state :=
  let* s := upd_B E P Xs s in
  let* s := upd_C E P Xs s in
  upd_A E P Xs s.

Definition state_gaps (s : state) : res gaps :=
  compute_gaps (st_cmf s) (st_rA s) (st_rB s) (st_rC s).
(** relative reconstruction error, lines 911-912, 1013-1014 *)
Definition state_error (Xs : list mat) (s : state) : xnum :=
  let n := root_sum_squared Xs in xdiv (rec_error Xs (st_cmf s) n (st_inter s)) n.
(** regularised loss, lines 915-921, 1016-1023 *)
Definition state_loss (P : params) (Xs : list mat) (s : state) : res xnum :=
  let* pen := reg_penalty (st_cmf s) (st_rA s) (st_rB s) (st_rC s) in
  match state_error Xs s with
  | Fin e => Ok (Fin (nhalf * (e * e) + l2_reg (st_cmf s) (p_l2A P) (p_l2B P) (p_l2C P) + pen))
  | x => Ok x
  end.

Record hist := Hist { h_errors : list xnum; h_gaps : list gaps; h_losses : list xnum }.
(** initial diagnostics, lines 907-924 *)
Definition init_hist (P : params) (Xs : list mat) (s : state) : res hist :=
  let e := state_error Xs s in
  let* l := state_loss P Xs s in
  let* g := state_gaps s in
  Ok (Hist [e] [g] [l]).

Inductive message := MaxIter | RelLoss | AbsLoss.

(** [abs(losses[-2] - losses[-1]) < tol * losses[-2]], line 1039 *)
Definition rel_crit (tol : num) (prev cur : xnum) : bool :=
  match prev, cur with Fin a, Fin b => nabs (a - b) <? tol * a | _, _ => false end.
Definition last_x (l : list xnum) : xnum := last l NaN.

(** the loop over the iterations, lines 945-1059: [n] iterations left, [it] done *)
Fixpoint ao_loop (E : ext) (P : params) (Xs : list mat) (n it : nat) (s : state) (h : hist)
  : res (state * hist * nat * message) :=
  match n with
  | O => Ok (s, h, it, MaxIter)
  | S k =>
      let* s' := outer_step E P Xs s in
      let tols := otruthy (p_tol P) || otruthy (p_abs_tol P) in
      if tols || p_return_errors P then
        let* g := state_gaps s' in
        let h1 := Hist (h_errors h) (h_gaps h ++ [g]) (h_losses h) in
        let feasible := match p_feas_tol P with
                        | Some t => ntruthy t && check_feasibility g t
                        | None => false
                        end in
        if tols && negb feasible && negb (p_return_errors P)
        then ao_loop E P Xs k (S it) s' h1
        else
          let* l := state_loss P Xs s' in
          let h2 := Hist (h_errors h ++ [state_error Xs s']) (h_gaps h1) (h_losses h ++ [l]) in
          match p_tol P with
          | Some tol =>
              if ntruthy tol then
                match p_abs_tol P with
                | None => Err TypeError
                | Some ab =>
                    if feasible && rel_crit tol (last_x (h_losses h)) l then Ok (s', h2, S it, RelLoss)
                    else if feasible && xlt l ab then Ok (s', h2, S it, AbsLoss)
                    else ao_loop E P Xs k (S it) s' h2
                end
              else ao_loop E P Xs k (S it) s' h2
          | None => ao_loop E P Xs k (S it) s' h2
          end
      else ao_loop E P Xs k (S it) s' h
  end.

(** [DiagnosticMetrics], lines 648-659 *)
Record diagnostics := Diag {
  d_errors : list xnum; d_gaps : list gaps; d_losses : list xnum;
  d_stopped : option bool;          (* satisfied_stopping_condition *)
  d_feasible : option bool;         (* satisfied_feasibility_condition *)
  d_n_iter : nat; d_message : message
}.
(** The part of [cmf_aoadmm] after initialisation, lines 906-1100.  The result
    holds the validated factorization, the final auxiliary and dual variables
    (returned on request, lines 1074-1079) and the diagnostics, if requested. *)
Definition run (E : ext) (P : params) (Xs : list mat) (n_iter_max : Z) (s : state)
  : res (state * option diagnostics) :=
  let* h0 := init_hist P Xs s in
  let* (s', h, it, msg) := ao_loop E P Xs (Z.to_nat n_iter_max) 0 s h0 in
  let stopped := match msg with MaxIter => false | _ => true end in
  let* feas :=
    match p_feas_tol P with
    | Some t =>
        if ntruthy t && p_return_errors P
        then let* g := state_gaps s' in Ok (Some (check_feasibility g t))
        else Ok None
    | None => Ok None
    end in
  let* c := revalidate (st_cmf s') in
  let s'' := St c (st_rA s') (st_rB s') (st_rC s') (st_inter s') in
  if p_return_errors P then
    let stop := if negb stopped && negb (otruthy (p_tol P) || otruthy (p_abs_tol P))
                then None else Some stopped in
    Ok (s'', Some (Diag (h_errors h) (h_gaps h) (h_losses h) stop feas it msg))
  else Ok (s'', None).

End Decomp.
