(** Starts with fewer factor matrices than data matrices, decomposition.py:871-1100.

    [zip] (lines 139, 239, 310, 451) and [enumerate(B_is)] (line 434) stop at the shorter sequence, so nothing
    raises as long as A and the B_i are not updated.  The inner loops of [admm_update_A] and [admm_update_B]
    run over all data matrices (lines 183 and 261) but there are only as many SVDs as factor matrices.
    Otherwise this is [cmf_aoadmm] of Fit.v without the condition that the counts agree; the penalties of the modes
    that are not updated are dropped (lines 894-899). *)
From Coq Require Import List Arith Bool ZArith.
From Verif Require Import Num Numpy Penalties CoupledMatrices Decomp InitVars Parse Fit.
Import ListNotations.

Section ShortStart.
Context {N : Num}.

(** lines 871-906, then the shape errors of lines 910-923 as in [mismatch].  The auxiliary variables have the
    size of the data (line 905): with too few rows of A the gaps of A (line 410) subtract arrays with different numbers of
    rows, which raises ValueError unless A has one row and numpy broadcasts. *)
Definition setup_short (V : env) (IE : initext) (rnd : rand) (a : fitargs) : res (state * three (option num)) :=
  let Xs := f_data a in
  if negb (f_svd a) then Err ValueError else
  let* (c, pos) := initialize_cmf (e_ext V) IE rnd Xs (f_rank a) (f_init a) 0 in
  let* l2 := listify (f_l2 a) in
  let* (rA, rB, rC) := parse_all V (f_kw a) (f_regs a) (f_aux a) (f_dual a) in
  let rA := if f_updA a then rA else [] in
  let rB := if f_updB a then rB else [] in
  let rC := if f_updC a then rC else [] in
  let* (aA, aB, aC, pos) := initialize_aux rnd Xs (f_rank a) (rA, rB, rC) pos in
  let* (dA, dB, dC, _) := initialize_dual rnd Xs (f_rank a) (rA, rB, rC) pos in
  match first_products Xs (cBs c) (cC c) with
  | Some e => Err e
  | None =>
      if is_nil (cBs c) then Err NotModelled else
      if negb (is_nil rA && is_nil rB && is_nil rC) && negb (match f_rank a with PyInt r => (Z.of_nat (mc (cA c)) =? r)%Z | PyNotInt => false end)
      then Err (match f_rank a with
                | PyNotInt => NotModelled
                | PyInt r => if (r =? 1)%Z || (mc (cA c) =? 1)%nat then NotModelled
                             else match start_penalty c rA rB rC with Err e => e | Ok _ => ValueError end
                end)
      else if (length (cBs c) <? length Xs)%nat && negb (is_nil rA) && negb (mr (cA c) =? 1)%nat
      then Err (match start_penalty c rA rB rC with Err e => e | Ok _ => ValueError end)
      else let* gA := make_mregs rA aA dA in
           let* gB := make_bregs rB aB dB in
           let* gC := make_mregs rC aC dC in
           Ok (St c gA gB gC None, l2)
  end.
(** The first iteration with too few factor matrices when A or the B_i are updated and there is an inner iteration: the loop
    of line 261, or after the update of C (lines 962-974) that of line 183, looks up an SVD that is not there. *)
Definition first_iteration_short (E : ext) (P : params) (Xs : list mat) (s : state) : res output :=
  if p_updB P then Err IndexError else
  let* _ := upd_C E P Xs s in
  Err IndexError.
(** The rest as in [cmf_aoadmm].  If A has penalties and one row, its broadcast gaps are followed only as far as to say that
    they raise nothing. *)
Definition cmf_aoadmm_short (V : env) (IE : initext) (rnd : rand) (a : fitargs) : res output :=
  let* (s, l2) := setup_short V IE rnd a in
  let* _ := init_hist (fit_params a l2 (false, false)) (f_data a) s in
  let* flags := const_flags (f_const a) in
  let few := (length (cBs (st_cmf s)) <? length (f_data a))%nat in
  if few && (f_updA a || f_updB a) && (0 <? f_n_iter a)%Z && (0 <? f_inner a)%Z
  then first_iteration_short (e_ext V) (fit_params a l2 flags) (f_data a) s
  else if few && negb (is_nil (st_rA s)) then Err NotModelled else
  let* (s', d) := run (e_ext V) (fit_params a l2 flags) (f_data a) (f_n_iter a) s in
  Ok (Output (st_cmf s') (if f_return_vars a then Some (vars_of s') else None) d).

End ShortStart.
