(** Fixed-point numbers: integers that count thousandths, with products, quotients and roots
    rounded down.  An arithmetic that is far from exact, to run the model in and to meet the
    hypotheses of the theorems of P18 (the model itself does not use this file). *)
From Coq Require Import Lia List Arith Bool ZArith.
From Verif Require Import Num Numpy Penalties CoupledMatrices Decomp InitVars Parse ParseSpec Fit OrderSpec.
Import ListNotations.

Definition FNum : Num := {|
  num := Z; n0 := 0%Z; n1 := 1000%Z;
  nadd := Z.add; nsub := Z.sub; nmul := fun x y => (x * y / 1000)%Z; ndiv := fun x y => (x * 1000 / y)%Z;
  nopp := Z.opp; nleb := Z.leb; nsqrt := fun x => Z.sqrt (x * 1000); nlit := fun p q => (p * 1000 / Zpos q)%Z
|}.
Lemma fixed_ordered : ordered (N:=FNum).
Proof. split; unfold le; cbn; intros; rewrite !Z.leb_le in *; lia. Qed.
Lemma fixed_signs : product_signs (N:=FNum).
Proof.
  split; unfold lt, le; cbn; intros x y; rewrite !Z.leb_le; intros H1 H2.
  - apply Z.div_pos; nia.
  - apply Z.div_pos; lia.
Qed.
(** The singular value decomposition of a 1 x 1 matrix (and factors of the right size otherwise). *)
Definition fixed_ext : ext (N:=FNum) :=
  Ext (N:=FNum) (fun M r => (meye2 (N:=FNum) (mr M) r, map (fun i => mget (N:=FNum) M i i) (seq 0 r), meye2 (N:=FNum) r (mc M))) (fun v _ => v).
Lemma fixed_widths : svd_widths fixed_ext.
Proof. intros M _. reflexivity. Qed.

(** Two matrices, three and two rows, rank 1: A non-negative, the B_i unimodal and
    non-negative, C between 1/2 and 3/2 (as a penalty object also non-negative). *)
Definition fixed_kw : kwargs (N:=FNum) :=
  KwArgs (N:=FNum) (AIter [Some true; Some true; None]) (ADict (fun m => if m =? 2 then Some (Some 500%Z) else None)) (ADict (fun m => if m =? 2 then Some (Some 1500%Z) else None))
    (AOne None) (AIter [None; Some true; None]) false (AOne None) (AOne None) (AOne None).
Definition fixed_regs : list (pobj (N:=FNum)) := [PObj (N:=FNum) (L2Ball (N:=FNum) 2000%Z true) (IStr Zeros) (IStr RandomStandardNormal)].
Definition fixed_data : list (mat (N:=FNum)) :=
  [Mat (N:=FNum) 3 2 [[1000; 2000]; [2500; -300]; [700; 1300]]%Z; Mat (N:=FNum) 2 2 [[1500; 250]; [-800; 3100]]%Z].
Definition fixed_args (n : Z) : fitargs (N:=FNum) :=
  FitArgs (N:=FNum) fixed_data (PyInt 1) (InitName MRandom) n (AOne (Some 100%Z)) fixed_kw
    (RList [EList []; EList []; EList (map (RPen (N:=FNum)) fixed_regs)]) 1000%Z (CBool false) (IStr RandomUniform) (IStr RandomUniform) true
    (Some 10%Z) (Some 1%Z) (Some 300%Z) None 4 true true true true true.
Definition fixed_env : env (N:=FNum) := Env (N:=FNum) fixed_ext (fun _ => []) true.
Definition fixed_init : initext (N:=FNum) := InitExt (N:=FNum) (fun _ _ _ => Err ValueError) (fun _ _ _ => Err ValueError) (fun _ _ _ => Err ValueError).
Definition fixed_rnd : rand (N:=FNum) := fun _ i => (137 + 211 * Z.of_nat (i mod 4))%Z.
