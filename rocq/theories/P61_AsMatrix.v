(** C77, continued: auxiliary variables as matrices ([aux_as_matrix] and [auxes_as_matrices], penalties.py:311-343 and 1283-1303). *)
From Coq Require Import List Arith Bool ZArith Lia.
From Verif Require Import Num Numpy Penalties CoupledMatrices Decomp InitVars Parse Fit Custom.
Import ListNotations.
Local Open Scope nat_scope.

Section AsMatrix.
Context {N : Num} {X : Type}.

(** What a class inherits: an array stands for itself, a list of variables for the list of their matrices, in order, with the class's own
    [aux_as_matrix] if it has one; and subtracting is subtracting from these matrices. *)
Theorem C77_inherited_matrices (c : cls (N:=N) X) : u_ass c = None ->
  (u_as c = None -> forall A l, as_method c (UMat A) = Ok A /\ ass_method c (UList (map UMat l)) = Ok l) /\
  (forall f, u_as c = Some f -> forall l Ms, ass_method c (UList l) = Ok Ms <-> Forall2 (fun a M => f a = Ok M) l Ms) /\
  (u_as c = None -> u_sub c = None -> u_subs c = None ->
     (forall a M d, as_method c a = Ok M -> sub_method c a d = Ok (msub M d)) /\
     (forall a Ms ds, ass_method c a = Ok Ms -> subs_method c a ds = Ok (map2 msub Ms ds))).
Proof.
  intros HS. unfold ass_method, subs_method. rewrite HS. split; [|split].
  - intros HA A l. split; [unfold as_method; now rewrite HA|]. induction l as [|B l IH]; cbn; [reflexivity|]. replace (as_method c (UMat B)) with (@Ok (mat (N:=N)) B) by (unfold as_method; now rewrite HA). cbn. now rewrite IH.
  - intros f HA l. assert (EA : as_method c = f) by (unfold as_method; now rewrite HA). rewrite EA.
    induction l as [|a l IH]; intros Ms; cbn.
    + split; [intros E; injection E as <-; constructor|intros E; now inversion E].
    + destruct (f a) as [M|e] eqn:Ef; cbn.
      * destruct (mapM f l) as [Ms'|e] eqn:El; cbn.
        -- split; [intros E; injection E as <-; constructor; [exact Ef|now apply IH]|].
           intros E; inversion E as [|a' M' l' Ms'' E1 E2]; subst. assert (M = M') by congruence. apply IH in E2. injection E2 as ->. now subst.
        -- split; [discriminate|]. intros E; inversion E as [|a' M' l' Ms'' E1 E2]; subst. apply IH in E2. discriminate.
      * split; [discriminate|]. intros E; inversion E as [|a' M' l' Ms'' E1 E2]; subst. congruence.
  - intros HA HB HC. rewrite HC.
    assert (S1 : forall a M d, as_method c a = Ok M -> sub_method c a d = Ok (msub M d)).
    { intros a M d. unfold as_method, sub_method. rewrite HA, HB. destruct a; [|discriminate]. intros E; now injection E as ->. }
    split; [exact S1|]. intros [l| |] Ms ds E; try discriminate. revert Ms ds E.
    induction l as [|a l IH]; intros Ms ds E; cbn in E.
    + injection E as <-. now destruct ds.
    + destruct (as_method c a) as [M|] eqn:EM; [|discriminate]. cbn in E. destruct (mapM (as_method c) l) as [Ms'|] eqn:El; [|discriminate]. cbn in E. injection E as <-.
      destruct ds as [|d ds]; [reflexivity|]. cbn. rewrite (S1 a M d EM). cbn. now rewrite (IH Ms' ds eq_refl).
Qed.

(** The built-in classes: [Parafac2]'s pair of orthonormal bases and coordinates stands for the products; for all of them the feasibility
    gap is the distance of the factor matrices from these matrices, relative to the factor matrices. *)
Theorem C77_builtin_matrices (E : ext (N:=N)) rnd (p : penalty) : let c := builtin (X:=X) E rnd p in
  (forall n ub uc, p = Parafac2 n ub uc -> forall bases coord, ass_method c (UPair bases coord) = Ok (map (fun P => mmul P coord) bases) /\ forall a, as_method c a = Err TypeError) /\
  ((forall n ub uc, p <> Parafac2 n ub uc) -> forall A l, as_method c (UMat A) = Ok A /\ ass_method c (UList (map UMat l)) = Ok l) /\
  (forall a M dual F, as_method c a = Ok M -> ugap F (UReg c a dual) = Ok (xdiv (mnorm (msub M F)) (mnorm F))) /\
  (forall a Ms dual Fs, ass_method c a = Ok Ms -> ugaps Fs (URegs c a dual) = Ok (xdiv (root_sum_squared (map2 msub Ms Fs)) (root_sum_squared Fs))).
Proof.
  intros c.
  assert (PF : (exists n ub uc, p = Parafac2 n ub uc) \/ ((forall n ub uc, p <> Parafac2 n ub uc) /\ u_as c = None /\ u_ass c = None /\ u_sub c = None /\ u_subs c = None)).
  { subst c. destruct p; try (right; split; [discriminate|]; repeat split; reflexivity). left. eexists _, _, _. reflexivity. }
  assert (G : forall a M dual F, as_method c a = Ok M -> ugap F (UReg c a dual) = Ok (xdiv (mnorm (msub M F)) (mnorm F))).
  { intros a M dual F EM. unfold ugap. cbn [ug_cls ug_aux]. destruct PF as [(n & ub & uc & ->)|(_ & H1 & H2 & H3 & H4)]; [discriminate EM|].
    destruct (C77_inherited_matrices c H2) as (_ & _ & K). destruct (K H1 H3 H4) as (K1 & _). now rewrite (K1 a M F EM). }
  split; [|split; [|split; [exact G|]]].
  - intros n ub uc -> bases coord. now split.
  - intros NP. destruct PF as [(n & ub & uc & ->)|(_ & H1 & H2 & H3 & H4)]; [now destruct (NP n ub uc)|]. destruct (C77_inherited_matrices c H2) as (K & _). exact (K H1).
  - intros a Ms dual Fs EM. unfold ugaps. cbn [ub_cls ub_aux]. destruct PF as [(n & ub & uc & ->)|(_ & H1 & H2 & H3 & H4)].
    + destruct a as [l|bases coord|x]; try discriminate EM. change (Ok (map (fun P => mmul P coord) bases) = Ok Ms) in EM. injection EM as <-. cbn.
      f_equal. f_equal. f_equal. clear. revert Fs. induction bases as [|P bases IH]; intros [|F Fs]; cbn; try reflexivity. now rewrite IH.
    + destruct (C77_inherited_matrices c H2) as (_ & _ & K). destruct (K H1 H3 H4) as (_ & K2). now rewrite (K2 a Ms Fs EM).
Qed.
End AsMatrix.
Print Assumptions C77_inherited_matrices.
Print Assumptions C77_builtin_matrices.

(** Concrete cases: a list of two arrays of different sizes, a PARAFAC2 pair, and a class that stores its variables transposed. *)
From Coq Require Import QArith.
Local Open Scope Q_scope.
Definition mq (r c : nat) (l : list (list Q)) : mat (N:=QNum) := Mat (N:=QNum) r c l.
Definition q_ext61 : ext (N:=QNum) := Ext (N:=QNum) (fun M _ => (M, [], M)) (fun v _ => v).
Definition transposed61 : cls (N:=QNum) (mat (N:=QNum)) :=
  Cls (N:=QNum) BMatrix true None (Some (fun V _ _ => Ok (UOther (mtrans V)))) None None None None
    (Some (fun a => match a with UOther M => Ok (mtrans M) | UMat _ => Err TypeError end)) None None None.
Example C77_matrices_nonvacuous :
  ass_method (builtin (X:=unit) q_ext61 (fun _ _ => 0) NonNegativity) (UList [UMat (mq 1 2 [[1; 2]]); UMat (mq 2 2 [[1; 2]; [3; 4]])]) = Ok [mq 1 2 [[1; 2]]; mq 2 2 [[1; 2]; [3; 4]]] /\
  ass_method (builtin (X:=unit) q_ext61 (fun _ _ => 0) (Parafac2 1 true true)) (UPair [mq 2 1 [[1]; [0]]] (mq 1 1 [[3]])) = Ok [mq 2 1 [[3]; [0]]] /\
  u_ass transposed61 = None /\ ass_method transposed61 (UList [UOther (mq 1 2 [[1; 2]])]) = Ok [mq 2 1 [[1]; [2]]].
Proof. repeat split; vm_compute; reflexivity. Qed.
