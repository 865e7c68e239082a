(** The fit with arrays updated in place: decomposition.py:120-292 and 945-1100 once more, with references.

    [Decomp.v] computes with values.  The code overwrites objects instead: the rows of two arrays that take
    turns holding A (lines 175-177, 191-195), the auxiliary arrays of mode 0 (lines 207-211, unless
    constant_feasibility_penalty) and two lists that take turns holding the B_i (lines 256-258, 273).
    One of the two arrays and one of the two lists are those the caller passed as [init]; the auxiliary
    arrays are those passed as [aux_init].  Here these objects live in a heap and are named by addresses, so
    that a write is seen through every name of the object.  C, the data, the auxiliary and dual variables
    of modes 1 and 2 and the arrays inside the lists are never written; they stay values, which means that
    they are taken not to share memory with A, the lists or the arrays of mode 0.  All arrays of one mode
    have the same shape (checked by [init_aux], penalties.py:86-106), so writing a row outside an array, which
    would raise, does not occur. *)
From Coq Require Import List ZArith Bool Arith.
From Verif Require Import Num Numpy Penalties CoupledMatrices Decomp.
Import ListNotations.

Section Heap.
Context {N : Num}.
Local Open Scope num_scope.

Record heap := Heap { h_arr : nat -> mat; h_lst : nat -> list mat; h_next : nat }.
(** Commands: the heap is kept when an exception is raised. *)
Definition cmd (A : Type) := heap -> res A * heap.
Definition ret {A} (x : A) : cmd A := fun h => (Ok x, h).
Definition lift {A} (r : res A) : cmd A := fun h => (r, h).
Definition thenc {A B} (c : cmd A) (k : A -> cmd B) : cmd B := fun h =>
  match c h with (Ok x, h') => k x h' | (Err e, h') => (Err e, h') end.
Definition look : cmd heap := fun h => (Ok h, h).
Definition alloc (M : mat) : cmd nat := fun h =>
  (Ok (h_next h), Heap (fun x => if (x =? h_next h)%nat then M else h_arr h x) (h_lst h) (S (h_next h))).
Definition alloc_list (l : list mat) : cmd nat := fun h =>
  (Ok (h_next h), Heap (h_arr h) (fun x => if (x =? h_next h)%nat then l else h_lst h x) (S (h_next h))).
(** [tl.index_update(a, tl.index[i, :], row)] *)
Definition write_row (a i : nat) (row : list num) : cmd unit := fun h =>
  (Ok tt, Heap (fun x => if (x =? a)%nat then mset_row (h_arr h a) i row else h_arr h x) (h_lst h) (h_next h)).
(** [l[i] = M] *)
Definition set_item (b i : nat) (M : mat) : cmd unit := fun h =>
  (Ok tt, Heap (h_arr h) (fun x => if (x =? b)%nat then upd (h_lst h b) i M else h_lst h x) (h_next h)).
Fixpoint for_each {A} (f : A -> cmd unit) (l : list A) : cmd unit :=
  match l with [] => ret tt | x :: l => thenc (f x) (fun _ => for_each f l) end.
Fixpoint map_each {A B} (f : A -> cmd B) (l : list A) : cmd (list B) :=
  match l with [] => ret [] | x :: l => thenc (f x) (fun y => thenc (map_each f l) (fun ys => ret (y :: ys))) end.

(** ** Update of A *)
Record hreg := HReg { r_pen : penalty; r_aux : nat; r_dual : nat }.
Definition view (h : heap) (g : hreg) : mreg := MReg (r_pen g) (h_arr h (r_aux g)) (h_arr h (r_dual g)).
(** lines 184-195 *)
Definition hA_rows (svds : list svd3) (fps : list num) (rhses : list (list num)) (a : nat) (shifted : list mat) : cmd unit :=
  thenc look (fun h =>
  for_each (fun i =>
    thenc (lift (solve_row (nth i svds (Mat 0 0 [], [], Mat 0 0 []))
                   (vadd (vscale (nth i fps n0) (sum_rows (mc (h_arr h a)) shifted i)) (nth i rhses []))))
          (fun row => write_row a i row)) (seq 0 (mr (h_arr h a)))).
(** lines 197-213; the arrays are read again where the code reads them again *)
Definition hA_reg_step (E : ext) (constant : bool) (fps : list num) (a : nat) (g : hreg) : cmd hreg :=
  thenc look (fun h =>
  let V := madd (h_arr h a) (h_arr h (r_dual g)) in (* line 200 *)
  thenc (if constant then thenc (lift (factor_matrix_update E (r_pen g) V (nth 0 fps n0))) alloc (* line 203 *)
         else thenc (for_each (fun i => thenc (lift (row_update (r_pen g) (mrow V i) (nth i fps n0))) (fun row => write_row (r_aux g) i row))
                       (seq 0 (length fps))) (fun _ => ret (r_aux g))) (fun x => (* lines 206-211 *)
  thenc look (fun h' =>
  thenc (lift (subtract_from_aux (r_pen g) (h_arr h' x) (h_arr h' (r_dual g)))) (fun sh => (* line 212 *)
  thenc (alloc (msub (h_arr h' a) sh)) (fun d => (* line 213 *)
  ret (HReg (r_pen g) x d)))))).
(** lines 179-213 *)
Definition hA_step (E : ext) (constant : bool) (svds : list svd3) (fps : list num) (rhses : list (list num)) (a : nat) (regs : list hreg)
  : cmd (list hreg) :=
  thenc look (fun h =>
  thenc (lift (shifted_mats (map (view h) regs))) (fun shifted =>
  thenc (hA_rows svds fps rhses a shifted) (fun _ =>
  map_each (hA_reg_step E constant fps a) regs))).
(** lines 176-217: A and its predecessor change places before every iteration *)
Fixpoint hA_loop (E : ext) (constant : bool) (svds : list svd3) (fps : list num) (rhses : list (list num)) (inner_tol : option num)
    (n : nat) (a old : nat) (regs : list hreg) : cmd (nat * list hreg) :=
  match n with
  | O => ret (a, regs)
  | S k =>
      thenc (hA_step E constant svds fps rhses old regs) (fun regs' =>
      thenc look (fun h =>
      thenc (lift (conv_mat inner_tol (h_arr h a, []) (h_arr h old, map (view h) regs'))) (fun b =>
      if (b : bool) then ret (old, regs') else hA_loop E constant svds fps rhses inner_tol k old a regs')))
  end.
(** lines 134-219; [Bs] and [C] are the values of the other factors *)
Definition hadmm_update_A (E : ext) (Xs : list mat) (a : nat) (Bs : list mat) (C : mat) (regs : list hreg) (l2 : num)
  (n : nat) (inner_tol : option num) (scale : num) (constant : bool)
  : cmd (nat * list hreg * (list (list num) * list mat)) :=
  let cross := A_cross Bs C Xs in
  let rhses := A_rhses Bs C Xs in
  thenc (lift (feas_penalties scale constant cross)) (fun fps =>
  let svds := lhs_svds E cross fps (length regs) l2 in
  thenc look (fun h =>
  thenc (alloc (h_arr h a)) (fun old => (* line 175: tl.copy *)
  thenc (hA_loop E constant svds fps rhses inner_tol n a old regs) (fun out =>
  ret (fst out, snd out, (rhses, cross)))))).

(** ** Update of the B_i *)
(** lines 259-287 *)
Definition hB_step (E : ext) (svds : list svd3) (fps : list num) (rhses : list mat) (b : nat) (regs : list breg) : cmd (list breg) :=
  thenc (lift (shifted_lists regs)) (fun shifted =>
  thenc look (fun h =>
  thenc (for_each (fun i =>
      let H := nth i rhses (Mat 0 0 []) in
      thenc (lift (solve_mat (nth i svds (Mat 0 0 [], [], Mat 0 0 []))
        (madd (mscale (nth i fps n0) (sum_mats (mr H) (mc H) (map (fun l => nth i l (Mat 0 0 [])) shifted))) H)))
        (fun M => set_item b i M)) (seq 0 (length (h_lst h b)))) (fun _ =>
  thenc look (fun h' =>
  lift (mapM (B_reg_step E fps (h_lst h' b)) regs))))).
(** lines 257-290 *)
Fixpoint hB_loop (E : ext) (svds : list svd3) (fps : list num) (rhses : list mat) (inner_tol : option num)
    (n : nat) (b old : nat) (regs : list breg) : cmd (nat * list breg) :=
  match n with
  | O => ret (b, regs)
  | S k =>
      thenc (hB_step E svds fps rhses old regs) (fun regs' =>
      thenc look (fun h =>
      thenc (lift (conv_list inner_tol (h_lst h b, []) (h_lst h old, regs'))) (fun stop =>
      if (stop : bool) then ret (old, regs') else hB_loop E svds fps rhses inner_tol k old b regs')))
  end.
(** lines 235-292 *)
Definition hadmm_update_B (E : ext) (Xs : list mat) (A : mat) (b : nat) (C : mat) (regs : list breg) (l2 : num)
  (n : nat) (inner_tol : option num) (scale : num) (constant : bool) : cmd (nat * list breg) :=
  let rhses := map2 (fun X a => B_rhs X C a) Xs (me A) in
  let lhses := map2 (fun _ a => B_lhs C a) Xs (me A) in
  thenc (lift (feas_penalties scale constant lhses)) (fun fps =>
  let svds := lhs_svds E lhses fps (length regs) l2 in
  thenc look (fun h =>
  thenc (alloc_list (h_lst h b)) (fun old => (* line 256 *)
  hB_loop E svds fps rhses inner_tol n b old regs))).

(** ** The outer loop *)
Record hstate := HSt { s_w : option (list num); s_A : nat; s_Bs : nat; s_C : mat; s_rA : list hreg; s_rB : list breg; s_rC : list mreg;
  s_inter : option (list (list num) * list mat) }.
Definition view_cmf (h : heap) (s : hstate) : cmf := Cmf (s_w s) (h_arr h (s_A s)) (h_lst h (s_Bs s)) (s_C s).
Definition view_state (h : heap) (s : hstate) : state := St (view_cmf h s) (map (view h) (s_rA s)) (s_rB s) (s_rC s) (s_inter s).
(** lines 948-961 *)
Definition hupd_B (E : ext) (P : params) (Xs : list mat) (s : hstate) : cmd hstate :=
  if p_updB P then
    thenc look (fun h =>
    thenc (hadmm_update_B E Xs (h_arr h (s_A s)) (s_Bs s) (s_C s) (s_rB s) (p_l2B P) (p_inner P) (p_inner_tol P) (p_scale P) (p_constB P)) (fun out =>
    ret (HSt None (s_A s) (fst out) (s_C s) (s_rA s) (snd out) (s_rC s) None)))
  else ret (HSt (s_w s) (s_A s) (s_Bs s) (s_C s) (s_rA s) (s_rB s) (s_rC s) None).
(** lines 962-974; C and its variables are rebound, not overwritten (lines 331-338) *)
Definition hupd_C (E : ext) (P : params) (Xs : list mat) (s : hstate) : cmd hstate :=
  if p_updC P then
    thenc look (fun h =>
    thenc (lift (admm_update_C E Xs (view_cmf h s) (s_rC s) (p_l2C P) (p_inner P) (p_inner_tol P) (p_scale P))) (fun out =>
    ret (HSt None (s_A s) (s_Bs s) (cC (fst out)) (s_rA s) (s_rB s) (snd out) (s_inter s))))
  else ret s.
(** lines 975-988 *)
Definition hupd_A (E : ext) (P : params) (Xs : list mat) (s : hstate) : cmd hstate :=
  if p_updA P then
    thenc look (fun h =>
    thenc (hadmm_update_A E Xs (s_A s) (h_lst h (s_Bs s)) (s_C s) (s_rA s) (p_l2A P) (p_inner P) (p_inner_tol P) (p_scale P) (p_constA P)) (fun out =>
    ret (HSt None (fst (fst out)) (s_Bs s) (s_C s) (snd (fst out)) (s_rB s) (s_rC s) (Some (snd out)))))
  else ret s.
Definition houter_step (E : ext) (P : params) (Xs : list mat) (s : hstate) : cmd hstate :=
  thenc (hupd_B E P Xs s) (fun s => thenc (hupd_C E P Xs s) (fun s => hupd_A E P Xs s)).
(** lines 945-1059; the diagnostics only read *)
Fixpoint hao_loop (E : ext) (P : params) (Xs : list mat) (n it : nat) (s : hstate) (hs : hist) : cmd (hstate * hist * nat * message) :=
  match n with
  | O => ret (s, hs, it, MaxIter)
  | S k =>
      thenc (houter_step E P Xs s) (fun s' =>
      thenc look (fun h =>
      let tols := otruthy (p_tol P) || otruthy (p_abs_tol P) in
      if tols || p_return_errors P then
        thenc (lift (state_gaps (view_state h s'))) (fun g =>
        let h1 := Hist (h_errors hs) (h_gaps hs ++ [g]) (h_losses hs) in
        let feasible := match p_feas_tol P with
                        | Some t => ntruthy t && check_feasibility g t
                        | None => false
                        end in
        if tols && negb feasible && negb (p_return_errors P)
        then hao_loop E P Xs k (S it) s' h1
        else
          thenc (lift (state_loss P Xs (view_state h s'))) (fun l =>
          let h2 := Hist (h_errors hs ++ [state_error Xs (view_state h s')]) (h_gaps h1) (h_losses hs ++ [l]) in
          match p_tol P with
          | Some tol =>
              if ntruthy tol then
                match p_abs_tol P with
                | None => lift (Err TypeError)
                | Some ab =>
                    if feasible && rel_crit tol (last_x (h_losses hs)) l then ret (s', h2, S it, RelLoss)
                    else if feasible && xlt l ab then ret (s', h2, S it, AbsLoss)
                    else hao_loop E P Xs k (S it) s' h2
                end
              else hao_loop E P Xs k (S it) s' h2
          | None => hao_loop E P Xs k (S it) s' h2
          end))
      else hao_loop E P Xs k (S it) s' hs))
  end.
(** lines 906-1100; the returned factorization is given by value *)
Definition hrun (E : ext) (P : params) (Xs : list mat) (n_iter_max : Z) (s : hstate) : cmd (hstate * cmf * option diagnostics) :=
  thenc look (fun h =>
  thenc (lift (init_hist P Xs (view_state h s))) (fun h0 =>
  thenc (hao_loop E P Xs (Z.to_nat n_iter_max) 0 s h0) (fun '(s', hs, it, msg) =>
  thenc look (fun h' =>
  let stopped := match msg with MaxIter => false | _ => true end in
  thenc (match p_feas_tol P with
         | Some t =>
             if ntruthy t && p_return_errors P
             then thenc (lift (state_gaps (view_state h' s'))) (fun g => ret (Some (check_feasibility g t)))
             else ret None
         | None => ret None
         end) (fun feas =>
  thenc (lift (revalidate (view_cmf h' s'))) (fun c =>
  if p_return_errors P then
    let stop := if negb stopped && negb (otruthy (p_tol P) || otruthy (p_abs_tol P)) then None else Some stopped in
    ret (s', c, Some (Diag (h_errors hs) (h_gaps hs) (h_losses hs) stop feas it msg))
  else ret (s', c, None))))))).

(** lines 22-28, for [init] given as a factorization: without weights the object itself is used, with weights
    A is a new array; the list of the B_i is the caller's in both cases *)
Definition hstart (s : hstate) : cmd hstate :=
  match s_w s with
  | None => ret s
  | Some w =>
      thenc look (fun h =>
      thenc (alloc (mcolscale (h_arr h (s_A s)) w)) (fun a =>
      ret (HSt None a (s_Bs s) (s_C s) (s_rA s) (s_rB s) (s_rC s) (s_inter s))))
  end.
(** the call: [s] names the arguments [init] (with its weights), [aux_init] and [dual_init] *)
Definition hfit (E : ext) (P : params) (Xs : list mat) (n_iter_max : Z) (s : hstate) : cmd (hstate * cmf * option diagnostics) :=
  thenc (hstart s) (hrun E P Xs n_iter_max).

End Heap.
Arguments heap : clear implicits. Arguments hreg : clear implicits. Arguments hstate : clear implicits.
