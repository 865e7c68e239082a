(** Properties C01-C05: unimodal_regression and prefix_isotonic_regression.

    [unimodal_regression_vec store y nn] is the model of
    [unimodal_regression(y, non_negativity=nn)] on a vector; a Python NaN is
    [None], an exception is [Err].  [store_float] is a floating-point array,
    [store_int] an integer array. *)
From Coq Require Import Reals Lra Lia List ZArith.
From Verif Require Import Num Numpy Unimodal Spec UnimodalMain.
Import ListNotations.
Local Open Scope R_scope.

(** C01 *)
Theorem C01_unimodal_output (y : list R) (nn : bool) :
  y <> [] ->
  exists u, unimodal_regression_vec (N:=RNum) store_float y nn = Ok (map Some u) /\
    length u = length y /\ unimodal u.
Proof. exact (C01_vec y nn). Qed.
Print Assumptions C01_unimodal_output.

(** C01, matrices: every column *)
Theorem C01_unimodal_output_columns (Y : mat (N:=RNum)) (nn : bool) :
  mwf Y -> (0 < mr Y)%nat -> (0 < mc Y)%nat ->
  exists cols, unimodal_regression_cols (N:=RNum) store_float Y nn = Ok (map (map Some) cols) /\
    length cols = mc Y /\
    forall j, (j < mc Y)%nat ->
      let u := nth j cols [] in let y := mcol Y j in
      length u = mr Y /\ unimodal u /\ (nn = true -> nonneg u) /\
      (forall z, length z = mr Y -> unimodal z -> (nn = true -> nonneg z) ->
         sqdist y u <= sqdist y z).
Proof. exact (unimodal_cols_spec Y nn). Qed.
Print Assumptions C01_unimodal_output_columns.

(** C02: nearest unimodal vector; the reported error is the squared distance *)
Theorem C02_unimodal_projection (y : list R) :
  y <> [] ->
  exists u err, unimodal_regression_1d (N:=RNum) store_float y false = Ok (map Some u, err) /\
    unimodal_regression_vec (N:=RNum) store_float y false = Ok (map Some u) /\
    length u = length y /\ unimodal u /\ err = sqdist y u /\
    (forall z, length z = length y -> unimodal z -> sqdist y u <= sqdist y z).
Proof. exact (C02_vec y). Qed.
Print Assumptions C02_unimodal_projection.

(** C02/C03: (non-negative) unimodal vectors are returned unchanged *)
Theorem C02_unimodal_fixed (y : list R) (nn : bool) :
  y <> [] -> unimodal y -> (nn = true -> nonneg y) ->
  unimodal_regression_vec (N:=RNum) store_float y nn = Ok (map Some y).
Proof. exact (unimodal_fixed y nn). Qed.
Print Assumptions C02_unimodal_fixed.

(** C03: non-negative variant *)
Theorem C03_nonneg_unimodal_projection (y : list R) :
  y <> [] ->
  exists u err, unimodal_regression_1d (N:=RNum) store_float y true = Ok (map Some u, err) /\
    unimodal_regression_vec (N:=RNum) store_float y true = Ok (map Some u) /\
    length u = length y /\ unimodal u /\ nonneg u /\ err = sqdist y u /\
    (forall z, length z = length y -> unimodal z -> nonneg z -> sqdist y u <= sqdist y z).
Proof. exact (C03_vec y). Qed.
Print Assumptions C03_nonneg_unimodal_projection.

(** C04: every prefix.  The fit is the unique minimiser: the excess over it is
    at least the squared distance to it. *)
Theorem C04_prefix_isotonic (y w : list R) (wo : option (list R)) (nn : bool) :
  y <> [] ->
  (wo = Some w \/ (wo = None /\ w = map (fun _ => 1) y)) ->
  length w = length y -> Forall (fun x => 0 < x) w ->
  exists r, prefix_isotonic_regression (N:=RNum) store_float y wo nn = Ok r /\
    length (snd r) = S (length y) /\
    forall k, (k <= length y)%nat ->
      exists x, compute_isotonic_from_index (N:=RNum) k (fst (fst r)) (snd (fst r)) = Ok (map Some x) /\
        length x = k /\
        nondecreasing x /\ (nn = true -> nonneg x) /\
        at_ (snd r) k = wsqdist w y x /\
        (forall z, length z = k -> nondecreasing z -> (nn = true -> nonneg z) ->
           wsqdist w y x + wsqdist w x z <= wsqdist w y z).
Proof. exact (prefix_spec y w wo nn). Qed.
Print Assumptions C04_prefix_isotonic.

(** The empty vector is rejected. *)
Theorem C01_empty_rejected (nn : bool) :
  unimodal_regression_vec (N:=RNum) store_float [] nn = Err IndexError.
Proof. exact (C01_empty nn). Qed.
Print Assumptions C01_empty_rejected.

(** C05 is false: on an integer array the fitted levels are truncated, and the
    result is not the nearest unimodal vector. *)
Theorem C05_integer_arrays_refuted :
  exists (k : list Z) (y u z : list R),
    y = map IZR k /\
    unimodal_regression_vec (N:=RNum) store_int y false = Ok (map Some u) /\
    length z = length y /\ unimodal z /\ sqdist y z < sqdist y u.
Proof. exact int_refuted. Qed.
Print Assumptions C05_integer_arrays_refuted.

(** Non-vacuity: a vector with several merges that is not unimodal, and
    admissible weights for it. *)
Example C04_hyps :
  [3; 1; 2; 0] <> [] /\ length [1; 2; 1/2; 3] = length [3; 1; 2; 0] /\
  Forall (fun x => 0 < x) [1; 2; 1/2; 3].
Proof. repeat split; try congruence; repeat constructor; lra. Qed.
Example C02_hyps : [0; 1; 5; 2] <> [] /\ unimodal [0; 1; 5; 2] /\ nonneg [0; 1; 5; 2].
Proof. exact C02_example. Qed.
Example C01_columns_hyps :
  let Y := mbuild (N:=RNum) 4 2 (fun i j => INR (i * j)) in mwf Y /\ (0 < mr Y)%nat /\ (0 < mc Y)%nat.
Proof. cbn. unfold mwf; cbn. repeat split; try lia; repeat constructor. Qed.
