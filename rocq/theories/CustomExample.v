(** Two classes that users may write. *)
From Coq Require Import List Arith Bool ZArith.
From Verif Require Import Num Numpy Unimodal Penalties CoupledMatrices Decomp InitVars Parse Fit Custom.
Import ListNotations.
Local Open Scope num_scope.

Section CustomExample.
Context {N : Num}.

(** ** [UnimodalAllExceptLast], examples/plot_custom_penalty.py:220-231 *)
(** [factor_matrix[:, :-1]] *)
Definition but_last (M : mat) : mat := mbuild (mr M) (mc M - 1) (mget M).
(** [unimodal_regression(Y, non_negativity)] of a matrix: the update of Unimodality
    (penalties.py:1014-1015) is this call and nothing else *)
Definition unimodal_regression_mat (E : ext) (Y : mat) (nn : bool) : res mat :=
  factor_matrix_update E (Unimodality nn) Y n0.
(** [factor_matrix_update]: a copy whose columns but the last are overwritten; with
    [non_negativity] all entries are then clipped at 0 *)
Definition except_last_update (E : ext) (nn : bool) (fm : mat) : res mat :=
  let* U := unimodal_regression_mat E (but_last fm) nn in
  let new := mbuild (mr fm) (mc fm) (fun i j => if (j <? mc fm - 1)%nat then mget U i j else mget fm i j) in
  Ok (if nn then mmap (clip1 (Some n0) None) new else new).
Definition except_last {X} (E : ext) (nn : bool) : cls X :=
  Cls BMatrix true None (Some (on_array (fun fm _ => except_last_update E nn fm))) None None None None None None None None.

(** ** Non-negativity whose auxiliary variables are kept transposed
    An example of another parametrisation of the auxiliary variables: a MatrixPenalty with
    HardConstraintMixin that overrides subtract_from_aux, aux_as_matrix and init_aux and
    stores the transpose of every auxiliary matrix. *)
Definition turned := mat (N:=N).
Definition turn (M : mat) : uaux turned := UOther (mtrans M).
Definition turn_val (v : auxval) : res (uauxval turned) :=
  match v with
  | VMat M => Ok (WMat (turn M))
  | VMats (AList l) => Ok (WMats (UList (map turn l)))
  | VMats (APf2 _ _) => Err TypeError
  end.
Definition transposed (rnd : rand) : cls turned :=
  Cls BMatrix true None
    (Some (fun fm _ _ => Ok (turn (mmap relu fm)))) None None
    (Some (fun a d => match a with UOther T => Ok (msub (mtrans T) d) | UMat _ => Err TypeError end)) None
    (Some (fun a => match a with UOther T => Ok (mtrans T) | UMat _ => Err TypeError end)) None
    (Some (fun i Xs rank mode pos => let* (v, p) := init_common rnd i Xs rank mode pos in let* w := turn_val v in Ok (w, p))) None.
End CustomExample.
