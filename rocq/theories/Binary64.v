(** IEEE double precision as an instance of [Num]: the operations of Coq.Floats.SpecFloat (the
    specification of binary64 in the standard library, without axioms), rounding to nearest even, with
    infinities and nan.  The one difference to IEEE: [<=] places nan above all numbers, so that any two values
    can be compared; on numbers it is IEEE's comparison ([compare_numbers]).  numpy is free to add in another
    order, and its linear algebra routines round differently; the theorems of P18 do not depend on that. *)
From Coq Require Import Lia List Arith Bool ZArith SpecFloat.
From Verif Require Import Num Numpy Penalties CoupledMatrices Decomp InitVars Parse ParseSpec Fit OrderSpec.
Import ListNotations.

Definition double := spec_float.
Definition of_Z (z : Z) : double := binary_normalize 53 1024 z 0 false.
Definition double_leb (x y : double) : bool :=
  match y with S754_nan => true | _ => SFleb x y end.
Definition DNum : Num := {|
  num := double; n0 := S754_zero false; n1 := of_Z 1;
  nadd := SFadd 53 1024; nsub := SFsub 53 1024; nmul := SFmul 53 1024; ndiv := SFdiv 53 1024;
  nopp := SFopp; nleb := double_leb; nsqrt := SFsqrt 53 1024; nlit := fun p q => SFdiv 53 1024 (of_Z p) (of_Z (Zpos q))
|}.
Lemma compare_numbers x y : y <> S754_nan -> nleb (Num:=DNum) x y = SFleb x y.
Proof. destruct y; try reflexivity. congruence. Qed.

(** The comparison of positions in a list of classes and, within finite numbers, of exponent and significand. *)
Definition key (x : double) : Z * Z * Z :=
  match x with
  | S754_infinity true => (-2, 0, 0)%Z
  | S754_finite true m e => (-1, - e, - Zpos m)%Z
  | S754_zero _ => (0, 0, 0)%Z
  | S754_finite false m e => (1, e, Zpos m)%Z
  | S754_infinity false => (2, 0, 0)%Z
  | S754_nan => (3, 0, 0)%Z
  end.
Definition key_le (a b : Z * Z * Z) : Prop :=
  let '(a1, a2, a3) := a in let '(b1, b2, b3) := b in (a1 < b1 \/ a1 = b1 /\ (a2 < b2 \/ a2 = b2 /\ a3 <= b3))%Z.
Lemma double_leb_key x y : double_leb x y = true <-> key_le (key x) (key y).
Proof.
  destruct x as [sx|sx| |sx mx ex], y as [sy|sy| |sy my ey]; try (destruct sx); try (destruct sy); cbn;
    try (split; [intros _; lia|reflexivity]); try (split; [discriminate|intros; exfalso; lia]).
  - unfold SFleb. cbn. destruct (Z.compare_spec ex ey) as [->|H|H]; [|split; [discriminate|lia]|split; [lia|reflexivity]].
    change (Pos.compare_cont Eq mx my) with (Pos.compare mx my). destruct (Pos.compare_spec mx my) as [->|H|H]; cbn; (split; [intros; try discriminate; lia|intros; try reflexivity; lia]).
  - unfold SFleb. cbn. destruct (Z.compare_spec ex ey) as [->|H|H]; [|split; [lia|reflexivity]|split; [discriminate|lia]].
    change (Pos.compare_cont Eq mx my) with (Pos.compare mx my). destruct (Pos.compare_spec mx my) as [->|H|H]; cbn; (split; [intros; try discriminate; lia|intros; try reflexivity; lia]).
Qed.
Lemma double_ordered : ordered (N:=DNum).
Proof.
  split; unfold le; cbn [DNum nleb]; intros; rewrite !double_leb_key in *.
  - destruct (key x) as ((? & ?) & ?), (key y) as ((? & ?) & ?). cbn. lia.
  - destruct (key x) as ((? & ?) & ?), (key y) as ((? & ?) & ?), (key z) as ((? & ?) & ?). cbn in *. lia.
Qed.
Lemma round_sign m e l : le (N:=DNum) (S754_zero false) (binary_round_aux 53 1024 false m e l).
Proof.
  unfold binary_round_aux. destruct (shr_fexp 53 1024 m e l) as (mrs & e'). destruct (shr_fexp 53 1024 _ e' loc_Exact) as (mrs' & e'').
  destruct (shr_m mrs') as [|p|p]; [reflexivity| |reflexivity]. destruct (Zle_bool e'' (1024 - 53)); reflexivity.
Qed.
Lemma double_signs : product_signs (N:=DNum).
Proof.
  split; unfold lt; intros x y Hx Hy; cbn [DNum nmul ndiv n0].
  - destruct x as [[|]|[|]| |[|] mx ex], y as [[|]|[|]| |[|] my ey]; try discriminate Hx; try discriminate Hy; try reflexivity. apply round_sign.
  - destruct x as [[|]|[|]| |[|] mx ex], y as [[|]|[|]| |[|] my ey]; try discriminate Hx; try (exfalso; apply Hy; reflexivity); try reflexivity.
    unfold SFdiv. destruct (SFdiv_core_binary 53 1024 (Zpos mx) ex (Zpos my) ey) as ((q & e') & l). apply round_sign.
Qed.
(** What [le n0 x] means for a double. *)
Lemma double_nonneg x : le (N:=DNum) n0 x <-> x = S754_nan \/ SFleb (S754_zero false) x = true.
Proof. unfold le. cbn [DNum nleb n0]. destruct x; cbn; intuition discriminate. Qed.

(** ** A fit in double precision *)
(** The singular value decomposition of a 1 x 1 matrix (and factors of the right size otherwise). *)
Definition double_ext : ext (N:=DNum) :=
  Ext (N:=DNum) (fun M r => (meye2 (N:=DNum) (mr M) r, map (fun i => mget (N:=DNum) M i i) (seq 0 r), meye2 (N:=DNum) r (mc M))) (fun v _ => v).
Lemma double_widths : svd_widths double_ext.
Proof. intros M _. reflexivity. Qed.
Definition lit (p : Z) (q : positive) : double := nlit (Num:=DNum) p q.
(** Two matrices, three and two rows, rank 1: A non-negative, the B_i unimodal and non-negative, C between 1/2 and
    3/2 (as a penalty object also non-negative and in a ball). *)
Definition double_kw : kwargs (N:=DNum) :=
  KwArgs (N:=DNum) (AIter [Some true; Some true; None]) (ADict (fun m => if m =? 2 then Some (Some (lit 1 2)) else None)) (ADict (fun m => if m =? 2 then Some (Some (lit 3 2)) else None))
    (AOne None) (AIter [None; Some true; None]) false (AOne None) (AOne None) (AOne None).
Definition double_regs : list (pobj (N:=DNum)) := [PObj (N:=DNum) (L2Ball (N:=DNum) (lit 2 1) true) (IStr Zeros) (IStr RandomStandardNormal)].
Definition double_data : list (mat (N:=DNum)) :=
  [Mat (N:=DNum) 3 2 [[lit 1 1; lit 2 1]; [lit 25 10; lit (-3) 10]; [lit 7 10; lit 13 10]]; Mat (N:=DNum) 2 2 [[lit 15 10; lit 1 4]; [lit (-8) 10; lit 31 10]]].
Definition double_args (n : Z) : fitargs (N:=DNum) :=
  FitArgs (N:=DNum) double_data (PyInt 1) (InitName MRandom) n (AOne (Some (lit 1 10))) double_kw
    (RList [EList []; EList []; EList (map (RPen (N:=DNum)) double_regs)]) (lit 1 1) (CBool false) (IStr RandomUniform) (IStr RandomUniform) true
    (Some (lit 1 1000)) (Some (lit 1 1000000)) (Some (lit 1 1000)) None 4 true true true true true.
Definition double_env : env (N:=DNum) := Env (N:=DNum) double_ext (fun _ => []) true.
Definition double_init : initext (N:=DNum) := InitExt (N:=DNum) (fun _ _ _ => Err ValueError) (fun _ _ _ => Err ValueError) (fun _ _ _ => Err ValueError).
Definition double_rnd : rand (N:=DNum) := fun _ i => lit (137 + 211 * Z.of_nat (i mod 4)) 1000.
