(** The scripts of the example gallery (examples/*.py) that do more than call the library and plot:
    choosing one of several random starts, simulating data, and rearranging the factors.

    Simplifications: printing and plotting are left out; a name that a script uses before it is bound
    (NameError) is [None]; numpy's [argsort] is a parameter. *)
From Coq Require Import List Arith Bool ZArith.
From Verif Require Import Num Numpy Penalties CoupledMatrices Decomp InitVars Parse Fit RandomGen DataSim.
Import ListNotations.
Local Open Scope num_scope.

Section Gallery.
Context {N : Num}.

(** ** Choosing one of several starts *)
(** What a call with return_errors=True returns: the factorization and the diagnostics. *)
Definition fitted := (cmf * diagnostics)%type.
(** [cmf, diagnostics = parafac2_aoadmm(.., return_errors=True, random_state=init)],
    plot_bikesharing.py:44-53, plot_examining_different_number_of_components.py:67-74,
    plot_simulated_nonnegative.py:89-91, plot_custom_penalty.py:124-132 *)
Definition start_fit (V : env) (IE : initext) (rnd : nat -> rand) (a : fitargs) (init : nat) : res fitted :=
  let* out := parafac2_aoadmm V IE (rnd init) a in
  match out_vars out, out_diag out with None, Some d => Ok (out_cmf out, d) | _, _ => Err ValueError end.
(** The arguments of these calls: the matrices, [rank], [n_iter_max], [tol] and [non_negative], or penalty objects in
    [regs]; return_errors=True.  Everything else has its default value. *)
Definition script_call (matrices : list mat) (rank : nat) (n_iter_max : Z) (tol : num) (non_negative : arg bool) (regs : regsarg) : fitargs :=
  FitArgs matrices (PyInt (Z.of_nat rank)) (InitName MRandom) n_iter_max (AOne (Some n0))
    (KwArgs non_negative (AOne None) (AOne None) (AOne None) (AOne None) false (AOne None) (AOne None) (AOne None))
    regs n1 (CBool false) (IStr RandomUniform) (IStr RandomUniform) true
    (Some tol) (Some (nlit 1 10000000000)) (Some (nlit 1 10000)) None 5 true true true false true.
(** plot_bikesharing.py:44-53 *)
Definition bike_call (matrices : list mat) : fitargs := script_call matrices 4 1000 (nlit 1 100000000) (AOne (Some true)) RNone.
(** plot_examining_different_number_of_components.py:67-74 *)
Definition scree_call (noisy_matrices : list mat) (num_components : nat) : fitargs :=
  script_call noisy_matrices num_components 1000 (nlit 1 100000000) (AIter [Some true; Some false; Some false]) RNone.
(** plot_simulated_nonnegative.py:89-91 *)
Definition nonnegative_call (noisy_matrices : list mat) (rank : nat) : fitargs :=
  script_call noisy_matrices rank 1000 (nlit 1 100000000) (AOne (Some true)) RNone.
(** [l[-1]] *)
Definition last_item {A} (l : list A) : res A := match l with [] => Err IndexError | x :: t => Ok (last t x) end.
(** [x < y] for floats; [lowest_error] starts as infinity *)
Definition xless (x y : xnum) : bool :=
  match x, y with Fin a, Fin b => a <? b | Fin _, PInf => true | _, _ => false end.
(** [for x in l], the variables of the loop body being the state *)
Fixpoint for_in {A S} (body : S -> A -> res S) (l : list A) (s : S) : res S :=
  match l with [] => Ok s | x :: l => let* s := body s x in for_in body l s end.

(** plot_bikesharing.py:37-60: all models with their diagnostics, [selected_init], [lowest_error] *)
Definition bike_step (start : nat -> res fitted) (s : list fitted * option nat * xnum) (init : nat) : res (list fitted * option nat * xnum) :=
  let '(all_models, selected_init, lowest_error) := s in
  let* (c, d) := start init in
  let* l := last_item (d_losses d) in
  Ok ((all_models ++ [(c, d)])%list, if xless l lowest_error then Some init else selected_init, if xless l lowest_error then l else lowest_error).
Definition bike_starts (start : nat -> res fitted) (n : nat) : res (list fitted * option nat * xnum) :=
  for_in (bike_step start) (seq 0 n) ([], None, PInf).
(** line 89: [all_models[selected_init]] *)
Definition bike_model (start : nat -> res fitted) (n : nat) : res (option fitted) :=
  let* (all, sel, _) := bike_starts start n in
  match sel with None => Ok None | Some i => match nth_error all i with Some m => Ok (Some m) | None => Err IndexError end end.

(** plot_examining_different_number_of_components.py:65-78: the selected model, which is kept from the
    previous number of components until a better one is found, and [lowest_error] *)
Definition scree_step (start : nat -> res fitted) (s : option fitted * xnum) (init : nat) : res (option fitted * xnum) :=
  let '(selected, lowest_error) := s in
  let* (c, d) := start init in
  let* l := last_item (d_losses d) in
  Ok (if xless l lowest_error then (Some (c, d), l) else (selected, lowest_error)).
(** [1 - lowest_error], line 80; None is minus infinity *)
Definition fit_score (lowest_error : xnum) : option num := match lowest_error with Fin l => Some (n1 - l) | _ => None end.
(** lines 59-83: for every number of components the score and the model whose gaps are recorded *)
Definition scree_rank (start : nat -> nat -> res fitted) (n : nat) (s : list (option num * option fitted) * option fitted) (num_components : nat)
  : res (list (option num * option fitted) * option fitted) :=
  let '(scores, selected) := s in
  let* (selected, lowest_error) := for_in (scree_step (start num_components)) (seq 0 n) (selected, PInf) in
  Ok ((scores ++ [(fit_score lowest_error, selected)])%list, selected).
Definition scree (start : nat -> nat -> res fitted) (n : nat) (ranks : list nat) : res (list (option num * option fitted)) :=
  let* (scores, _) := for_in (scree_rank start n) ranks ([], None) in Ok scores.

(** plot_simulated_nonnegative.py:86-94 and plot_custom_penalty.py:121-135, 239-253: the kept model and
    [lowest_error], which is set to the reconstruction error but compared with the loss *)
Definition nonnegative_step (start : nat -> res fitted) (s : option fitted * xnum) (init : nat) : res (option fitted * xnum) :=
  let '(kept, lowest_error) := s in
  let* (c, d) := start init in
  let* l := last_item (d_losses d) in
  if xless l lowest_error && match d_stopped d with Some b => b | None => false end
  then let* e := last_item (d_errors d) in Ok (Some (c, d), e)
  else Ok (kept, lowest_error).
Definition nonnegative_starts (start : nat -> res fitted) (n : nat) : res (option fitted * xnum) :=
  for_in (nonnegative_step start) (seq 0 n) (None, PInf).

(** ** Simulated data *)
(** [truncated_normal], plot_simulated_nonnegative.py:24-27, plot_examining_different_number_of_components.py:22-25 *)
Definition truncated_normal (rnd : rand) (r c pos : nat) : res (mat * nat) :=
  let* (M, p) := draw_mat rnd StdNormal r (Z.of_nat c) pos in Ok (mmap (fun x => if x <? n0 then n0 else x) M, p).
(** [M + N * noise_level * tl.norm(M) / tl.norm(N)], plot_simulated_nonnegative.py:80,
    plot_custom_penalty.py:104, plot_examining_different_number_of_components.py:53: every matrix by itself *)
Definition add_noise (noise_level : num) (M W : mat) : res mat :=
  if ntruthy (mnorm W) then Ok (madd M (mmap (fun x => x * noise_level * mnorm M / mnorm W) W)) else Err NonFinite.
(** plot_simulated_nonnegative.py:37-46, 76-80 and plot_examining_different_number_of_components.py:35-53
    ([truncate_C]: C is a truncated normal matrix, as in the first script, or a normal matrix, as in the second):
    the factorization, its matrices with noise *)
Definition gallery_data (truncate_C : bool) (nI J K rank : nat) (noise_level : num) (rnd : rand) (pos : nat) : res (cmf * list mat * nat) :=
  let* (U, p) := draw_mat rnd Uniform nI (Z.of_nat rank) pos in
  let A := mmap (fun x => x + nlit 1 10) U in
  let* (blueprint, p) := truncated_normal rnd J rank p in
  let Bs := map (roll_rows blueprint) (seq 0 nI) in
  let* (C, p) := if truncate_C then truncated_normal rnd K rank p else draw_mat rnd StdNormal K (Z.of_nat rank) p in
  let* c := revalidate (Cmf None A Bs C) in
  let* Ms := cmf_to_matrices c true in
  let* (noise, p) := mapS (fun M => draw_mat rnd Uniform (mr M) (Z.of_nat (mc M))) Ms p in
  let* Xs := mapM (fun MW => add_noise noise_level (fst MW) (snd MW)) (combine Ms noise) in
  Ok (c, Xs, p).

(** ** Preprocessing and rearranging *)
(** plot_semiconductor_etch_analysis.py:50-53: columns of the stacked matrices are centred and scaled; a constant
    column gives a division by zero *)
Definition col_means (M : mat) : list num := vbuild (mc M) (fun j => nsum (mr M) (fun i => mget M i j) / nlit (Z.of_nat (mr M)) 1).
Definition col_stds (M : mat) : list num :=
  vbuild (mc M) (fun j => nsqrt (nsum (mr M) (fun i => (mget M i j - vget (col_means M) j) * (mget M i j - vget (col_means M) j)) / nlit (Z.of_nat (mr M)) 1)).
Definition standardise (matrices : list mat) : res (list mat) :=
  let* stacked := concatenate matrices in
  let mean := col_means stacked in
  let std := col_stds stacked in
  mapM (fun M => div_columns (mbuild (mr M) (mc M) (fun i j => mget M i j - vget mean j)) std) matrices.

(** [M[:, order]] *)
Definition take_cols (M : mat) (order : list nat) : mat := mbuild (mr M) (length order) (fun i j => mget M i (nth j order 0%nat)).

(** plot_semiconductor_etch_analysis.py:97-109, of a PARAFAC2 tensor: the normalised factors (the weights are not
    changed) and the order of the components in the two plots *)
Definition etch_components (argsort : list num -> list nat) (t : pf2t) : res (cmf * list nat) :=
  let Bs := map (fun P => mmul P (pfB t)) (pfP t) in
  let A_norm := col_norms (pfA t) in
  let C_norm := col_norms (pfC t) in
  let* A := div_columns (pfA t) A_norm in
  let Bs := map (fun B => mcolscale (mcolscale B A_norm) C_norm) Bs in
  let* C := div_columns (pfC t) C_norm in
  let B_norm := col_norms (pfB t) in
  Ok (Cmf (Some (pfw t)) A Bs C, argsort (vmul (vmul (vmul (pfw t) A_norm) B_norm) C_norm)).

(** plot_semiconductor_etch_analysis.py:207-210, of the regularised model: the order of the components *)
Definition etch_tv_order (argsort : list num -> list nat) (c : cmf) : list nat := argsort (col_norms (nth 0 (cBs c) (Mat 0 0 []))).

(** plot_bikesharing.py:98-111: the components by size, negative entries set to zero *)
Definition component_sizes (c : cmf) : list num :=
  vmul (vmul (col_norms (cA c)) (col_norms (nth 0 (cBs c) (Mat 0 0 [])))) (col_norms (cC c)).
Definition bike_order (argsort : list num -> list nat) (c : cmf) : list nat :=
  argsort (match cw c with None => map (fun x => nopp n1 * x) (component_sizes c) | Some w => vmul (map nopp w) (component_sizes c) end).
Definition clip_cols (order : list nat) (M : mat) : mat := mmap (nmax n0) (take_cols M order).
Definition bike_components (argsort : list num -> list nat) (c : cmf) : mat * list mat * mat :=
  let order := bike_order argsort c in
  (clip_cols order (cA c), map (clip_cols order) (cBs c), clip_cols order (cC c)).

(** [get_stacked_CP_tensor], plot_bikesharing.py:69-74, plot_simulated_nonnegative.py:107-112, plot_custom_penalty.py:148-153 *)
Definition get_stacked_CP_tensor (c : cmf) : res (option (list num) * (mat * mat * mat)) :=
  let* B := concatenate (cBs c) in Ok (cw c, (cA c, B, cC c)).

End Gallery.
