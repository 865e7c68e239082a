(** Model of what [cmf_aoadmm] prints, src/matcouply/decomposition.py:538-545, 925-928, 995-1008, 1025-1034,
    1045-1059.  [verbose] is an int (False and True are 0 and 1); other values are not modelled.  A printed line,
    or group of lines printed together, is a value that carries what is formatted into it; the text itself is
    not modelled.  A computation yields the lines printed so far and its result, so that lines printed before an
    exception are kept. *)
From Coq Require Import List Arith Bool ZArith.
From Verif Require Import Num Numpy Penalties CoupledMatrices Decomp InitVars Parse Fit.
Import ListNotations.
Local Open Scope num_scope.

Section Verbose.
Context {N : Num}.

Inductive line :=
| Penalties (regs : three (list pobj))                     (* lines 539-545 *)
| InitialGaps (g : gaps)                                   (* lines 926-928 *)
| NotComputed (it : nat) (g : gaps)                        (* lines 1001-1008 *)
| Report (it : nat) (error loss variation : xnum) (g : gaps) (* lines 1027-1034 *)
| Iteration (it : nat)                                     (* line 1056 *)
| ConvergedIn (it : nat) (m : message)                     (* lines 1046, 1052 *)
| Reached.                                                 (* line 1059 *)

Definition out (A : Type) := (list line * res A)%type.
Definition lift {A} (x : res A) : out A := ([], x).
Definition print (l : line) : out unit := ([l], Ok tt).
Definition obind {A B} (x : out A) (f : A -> out B) : out B :=
  match snd x with Ok a => let y := f a in ((fst x ++ fst y)%list, snd y) | Err e => (fst x, Err e) end.
Notation "'do' x '<-' e ';' k" := (obind e (fun x => k)) (at level 200, x pattern, e at level 100, k at level 200, right associativity).
(** [if c: print(..)] *)
Definition print_if (c : bool) (l : line) : out unit := if c then print l else lift (Ok tt).

(** [verbose and it % verbose == 0 and verbose > 0], lines 1000, 1025, 1055 *)
Definition due (v : Z) (it : nat) : bool := negb (v =? 0)%Z && (Z.of_nat it mod v =? 0)%Z && (0 <? v)%Z.
(** [abs(losses[-2] - losses[-1]) / losses[-2]], line 1030 *)
Definition variation (prev cur : xnum) : xnum :=
  match prev, cur with Fin a, Fin b => xdiv (nabs (a - b)) a | _, _ => NaN end.

(** the loop, lines 945-1059, as [ao_loop] in Decomp.v but with the print statements *)
Fixpoint ao_loop_v (v : Z) (E : ext) (P : params) (Xs : list mat) (n it : nat) (s : state) (h : hist)
  : out (state * hist * nat * message) :=
  match n with
  | O => do _ <- print_if (negb (v =? 0)%Z) Reached; lift (Ok (s, h, it, MaxIter)) (* lines 1057-1059 *)
  | S k =>
      do s' <- lift (outer_step E P Xs s);
      let tols := otruthy (p_tol P) || otruthy (p_abs_tol P) in
      if tols || p_return_errors P then
        do g <- lift (state_gaps s');
        let h1 := Hist (h_errors h) (h_gaps h ++ [g]) (h_losses h) in
        let feasible := match p_feas_tol P with
                        | Some t => ntruthy t && check_feasibility g t
                        | None => false
                        end in
        if tols && negb feasible && negb (p_return_errors P)
        then
          do _ <- print_if (due v it) (NotComputed it g);
          ao_loop_v v E P Xs k (S it) s' h1
        else
          do l <- lift (state_loss P Xs s');
          let h2 := Hist (h_errors h ++ [state_error Xs s']) (h_gaps h1) (h_losses h ++ [l]) in
          do _ <- print_if (due v it) (Report it (state_error Xs s') l (variation (last_x (h_losses h)) l) g);
          match p_tol P with
          | Some tol =>
              if ntruthy tol then
                match p_abs_tol P with
                | None => lift (Err TypeError)
                | Some ab =>
                    if feasible && rel_crit tol (last_x (h_losses h)) l
                    then do _ <- print_if (negb (v =? 0)%Z) (ConvergedIn it RelLoss); lift (Ok (s', h2, S it, RelLoss))
                    else if feasible && xlt l ab
                    then do _ <- print_if (negb (v =? 0)%Z) (ConvergedIn it AbsLoss); lift (Ok (s', h2, S it, AbsLoss))
                    else ao_loop_v v E P Xs k (S it) s' h2
                end
              else ao_loop_v v E P Xs k (S it) s' h2
          | None => ao_loop_v v E P Xs k (S it) s' h2
          end
      else
        do _ <- print_if (due v it) (Iteration it);
        ao_loop_v v E P Xs k (S it) s' h
  end.
(** lines 945-1100, as the part of [run] after the initial diagnostics *)
Definition run_v (v : Z) (E : ext) (P : params) (Xs : list mat) (n_iter_max : Z) (s : state) (h0 : hist)
  : out (state * option diagnostics) :=
  do (s', h, it, msg) <- ao_loop_v v E P Xs (Z.to_nat n_iter_max) 0 s h0;
  let stopped := match msg with MaxIter => false | _ => true end in
  do feas <-
    match p_feas_tol P with
    | Some t =>
        if ntruthy t && p_return_errors P
        then lift (let* g := state_gaps s' in Ok (Some (check_feasibility g t)))
        else lift (Ok None)
    | None => lift (Ok None)
    end;
  do c <- lift (revalidate (st_cmf s'));
  let s'' := St c (st_rA s') (st_rB s') (st_rC s') (st_inter s') in
  if p_return_errors P then
    let stop := if negb stopped && negb (otruthy (p_tol P) || otruthy (p_abs_tol P))
                then None else Some stopped in
    lift (Ok (s'', Some (Diag (h_errors h) (h_gaps h) (h_losses h) stop feas it msg)))
  else lift (Ok (s'', None)).
(** lines 871-906, as [setup] in Fit.v; the penalties are printed at the end of [_parse_all_penalties], before
    those of modes that are not updated are dropped *)
Definition setup_v (v : Z) (V : env) (IE : initext) (rnd : rand) (a : fitargs) : out (state * three (option num)) :=
  let Xs := f_data a in
  if negb (f_svd a) then lift (Err ValueError) else
  do (c, pos) <- lift (initialize_cmf (e_ext V) IE rnd Xs (f_rank a) (f_init a) 0);
  do l2 <- lift (listify (f_l2 a));
  do (rA, rB, rC) <- lift (parse_all V (f_kw a) (f_regs a) (f_aux a) (f_dual a));
  do _ <- print_if (negb (v =? 0)%Z) (Penalties (rA, rB, rC));
  let rA := if f_updA a then rA else [] in
  let rB := if f_updB a then rB else [] in
  let rC := if f_updC a then rC else [] in
  do (aA, aB, aC, pos) <- lift (initialize_aux rnd Xs (f_rank a) (rA, rB, rC) pos);
  do (dA, dB, dC, _) <- lift (initialize_dual rnd Xs (f_rank a) (rA, rB, rC) pos);
  if negb (shapes_match Xs c (f_rank a) (negb (is_nil rA && is_nil rB && is_nil rC)))
  then lift (Err (mismatch Xs c (f_rank a) rA rB rC)) else
  do gA <- lift (make_mregs rA aA dA);
  do gB <- lift (make_bregs rB aB dB);
  do gC <- lift (make_mregs rC aC dC);
  lift (Ok (St c gA gB gC None, l2)).
(** [cmf_aoadmm], lines 662-1100 *)
Definition cmf_aoadmm_v (v : Z) (V : env) (IE : initext) (rnd : rand) (a : fitargs) : out output :=
  do (s, l2) <- setup_v v V IE rnd a;
  do h0 <- lift (init_hist (fit_params a l2 (false, false)) (f_data a) s);
  do _ <- match h_gaps h0 with g :: _ => print_if (negb (v =? 0)%Z && (0 <? v)%Z) (InitialGaps g) | [] => lift (Ok tt) end;
  do flags <- lift (const_flags (f_const a));
  do (s', d) <- run_v v (e_ext V) (fit_params a l2 flags) (f_data a) (f_n_iter a) s h0;
  lift (Ok (Output (st_cmf s') (if f_return_vars a then Some (vars_of s') else None) d)).
End Verbose.
