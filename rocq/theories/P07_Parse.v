(** Properties of the regularisation arguments of [cmf_aoadmm]. *)
From Coq Require Import Reals Lra Lia List Arith Bool ZArith.
From Verif Require Import Num Numpy RFacts Spec SpecFacts MatFacts ModelSpec Penalties PenaltySpec CoupledMatrices CmfSpec Decomp DecompSpec
  DecompFacts InitVars Parse ParseSpec ParseProofs.
Import ListNotations.
Local Open Scope R_scope.

(** The penalties of each mode are exactly those requested: with the values the
    documentation gives to the arguments for that mode, the penalties built from the
    keywords impose the requested constraints, all of them and no others, on factor
    matrices of every shape; their penalty functions add up to the requested one; there
    is a PARAFAC2 penalty exactly when it was requested and the mode is 1, and it comes
    first; they carry the requested initialisations; the user's own penalties follow
    them, unchanged and in order. *)
Theorem C38_penalties_are_those_requested : forall V k regs aux_init dual_init t,
  parse_all V k regs aux_init dual_init = Ok t -> forall m, (m < 3)%nat ->
  exists kw parsed user, mode_values k m kw /\ user_penalties regs m user /\ pick t m = parsed ++ user /\
    (forall r c X, imposed parsed r c X <-> requested_domain kw r c X) /\
    (forall r c X, total_penalty parsed r c X = requested_penalty kw r c X) /\
    (parafac2_count parsed = if k_pf2 kw then 1%nat else 0%nat) /\
    (k_pf2 kw = true -> exists n b1 b2 tail, parsed = PObj (Parafac2 n b1 b2) aux_init dual_init :: tail) /\
    Forall (fun o => o_aux o = aux_init /\ o_dual o = dual_init) parsed.
Proof.
  intros V k regs ai di t H m Hm. destruct (parse_all_ok V k regs ai di t H m Hm) as (kw & parsed & u & MV & PM & U & E).
  exists kw, parsed, u. split; [exact MV|]. split; [exact U|]. split; [exact E|].
  apply parse_mode_iff in PM. destruct PM as (PO & gl & GL & ->).
  split; [intros r c X; now apply (imposed_requested V kw ai di)|].
  split; [intros r c X; now apply (penalty_requested V kw ai di)|].
  split; [now apply (count_parsed V kw ai di)|].
  split; [intros K; unfold s_pf2; rewrite K; do 4 eexists; reflexivity|].
  now apply (inits_parsed V kw ai di).
Qed.

(** With consistent bounds and a positive semi-definite norm matrix of the size of the
    mode, every penalty built has the parameters its proximal operator needs. *)
Theorem C38_built_penalties_valid : forall V k regs aux_init dual_init t m r,
  parse_all V k regs aux_init dual_init = Ok t -> (m < 3)%nat ->
  (forall kw, mode_values k m kw -> bounds_consistent kw /\ gl2_sound V kw r) ->
  (forall u, user_penalties regs m u -> Forall (fun o => valid_penalty (o_pen o) r) u) ->
  Forall (fun o => valid_penalty (o_pen o) r) (pick t m).
Proof.
  intros V k regs ai di t m r H Hm HK HU. destruct (parse_all_ok V k regs ai di t H m Hm) as (kw & parsed & u & MV & PM & U & ->).
  destruct (HK kw MV) as (B & G). apply Forall_app. split; [now apply (parsed_valid V kw ai di)|auto].
Qed.

(** The values acceptable to the penalties' constructors, and only those, are accepted;
    nothing else can go wrong. *)
Theorem C38_accepts_iff : forall V k regs aux_init dual_init, good_regs regs -> all_well_formed k ->
  ((exists t, parse_all V k regs aux_init dual_init = Ok t) <-> forall m kw, (m < 3)%nat -> mode_values k m kw -> acceptable V kw).
Proof.
  intros V k regs ai di GR WF. split; [|now apply parse_all_total]. intros (t & H) m kw Hm MV.
  destruct (parse_all_ok V k regs ai di t H m Hm) as (kw' & parsed & u & MV' & PM & _).
  assert (kw = kw').
  { destruct MV as (M1 & M2 & M3 & M4 & M5 & M6 & M7 & M8 & M9), MV' as (N1 & N2 & N3 & N4 & N5 & N6 & N7 & N8 & N9). destruct kw, kw'. cbn in *.
    pose proof (means_fun _ _ _ _ M1 N1). pose proof (means_fun _ _ _ _ M2 N2). pose proof (means_fun _ _ _ _ M3 N3). pose proof (means_fun _ _ _ _ M4 N4).
    pose proof (means_fun _ _ _ _ M5 N5). pose proof (means_fun _ _ _ _ M6 N6). pose proof (means_fun _ _ _ _ M7 N7). pose proof (means_fun _ _ _ _ M8 N8). congruence. }
  subst kw'. apply (parse_mode_accepts V kw ai di). eauto.
Qed.

(** A single value, a dictionary and an iterable are read as documented: three values
    come back exactly when an iterable has length three, and each is the documented
    value of its mode. *)
Theorem C39_broadcast : forall (A : Type) (a : arg A) x0 x1 x2,
  listify a = Ok (x0, x1, x2) <-> means a 0 x0 /\ means a 1 x1 /\ means a 2 x2.
Proof. intros A a x0 x1 x2. apply listify_iff. Qed.

(** Writing the same three values as a list, as a dictionary with all three keys, or,
    when they are equal, as a single value makes no difference. *)
Theorem C39_forms_agree : forall (A : Type) (x0 x1 x2 : option A),
  listify (AIter [x0; x1; x2]) = listify (ADict (fun i => match i with 0 => Some x0 | 1 => Some x1 | 2 => Some x2 | _ => None end)%nat) /\
  (x0 = x1 -> x1 = x2 -> listify (AIter [x0; x1; x2]) = listify (AOne x0)) /\
  (x1 = None -> x2 = None -> listify (AIter [x0; x1; x2]) = listify (ADict (fun i => match i with 0 => Some x0 | _ => None end)%nat)).
Proof. intros A x0 x1 x2. repeat split; intros; subst; reflexivity. Qed.

(** An iterable argument of another length is a ValueError, whatever the other
    arguments are. *)
Theorem C39_wrong_length : forall V k regs aux_init dual_init, good_regs regs -> ~ all_well_formed k ->
  parse_all V k regs aux_init dual_init = Err ValueError.
Proof. exact parse_all_bad. Qed.

(** Badly typed [regs] are a TypeError before anything else; a list of fewer than three
    modes is never accepted. *)
Theorem C39_bad_regs : forall V k aux_init dual_init,
  parse_all V k RNotIter aux_init dual_init = Err TypeError /\
  (forall es, (exists e, In e es /\ (e = ENotIter \/ exists l, (e = EList l \/ e = ETuple l) /\ In RNotPen l)) ->
     parse_all V k (RList es) aux_init dual_init = Err TypeError) /\
  (forall es t, parse_all V k (RList es) aux_init dual_init = Ok t -> (3 <= length es)%nat).
Proof.
  intros V k ai di. split; [reflexivity|]. split.
  - intros es (e & He & HB). unfold parse_all, check_regs.
    assert (F : forallb (ent_ok (N:=RNum)) es = false).
    { rewrite <- not_true_iff_false. intros K. rewrite forallb_forall in K. specialize (K e He). destruct HB as [->|(l & [-> | ->] & HN)]; [discriminate| |];
        cbn in K; apply all_pens_map in K; destruct K as (os & ->); apply in_map_iff in HN; destruct HN as (o & E & _); discriminate. }
    rewrite F. reflexivity.
  - intros es t H. destruct (parse_all_ok V k _ ai di t H 2%nat ltac:(lia)) as (kw & p & u & _ & _ & U & _). unfold user_penalties in U.
    assert (K := proj1 (nth_error_Some es 2) ltac:(rewrite U; discriminate)). lia.
Qed.

Print Assumptions C38_penalties_are_those_requested.
Print Assumptions C38_built_penalties_valid.
Print Assumptions C38_accepts_iff.
Print Assumptions C39_broadcast.
Print Assumptions C39_forms_agree.
Print Assumptions C39_wrong_length.
Print Assumptions C39_bad_regs.

(** Non-vacuity: non-negativity in every mode, an upper bound in mode 0, a norm bound in
    mode 2, a sparse and smooth mode 1 under PARAFAC2, a graph Laplacian in mode 2, and
    a penalty of the user's in mode 0. *)
Definition parse_lap : matR := Mat (N:=RNum) 2 2 [[1; -1]; [-1; 1]].
Definition parse_env (E : ext (N:=RNum)) : env := Env E (fun _ => [0; 2]) true.
Definition parse_kw : kwargs (N:=RNum) :=
  KwArgs (AOne (Some true)) (AOne None) (ADict (fun i => match i with 0%nat => Some (Some (5 : R)) | _ => None end))
    (AIter [None; None; Some (3 : R)]) (AOne None) true (AIter [None; Some (2 : R); None])
    (ADict (fun i => match i with 1%nat => Some (Some (1 : R)) | _ => None end)) (ADict (fun i => match i with 2%nat => Some (Some (GMat (N:=RNum) parse_lap)) | _ => None end)).
Definition parse_regs : regsarg (N:=RNum) := RList [EList [RPen (PObj (Unimodality false) (IStr RandomUniform) (IStr Zeros))]; EList []; EList []].
Example parse_nonvacuous : forall E ai di, good_regs parse_regs /\ all_well_formed parse_kw /\
  exists r0 r1 r2, parse_all (parse_env E) parse_kw parse_regs ai di = Ok (r0, r1, r2) /\ r0 <> [] /\ r1 <> [] /\ r2 <> [].
Proof.
  intros E ai di.
  assert (GR : good_regs parse_regs).
  { split.
    - intros e [<-|[<-|[<-|[]]]]; [eexists [_]; left; reflexivity|exists []; left; reflexivity|exists []; left; reflexivity].
    - intros [|[|[|m]]] Hm; [eexists [_]; reflexivity|exists []; reflexivity|exists []; reflexivity|lia]. }
  assert (WF : all_well_formed parse_kw) by (repeat split).
  split; [exact GR|]. split; [exact WF|].
  destruct (proj2 (C38_accepts_iff (parse_env E) parse_kw parse_regs ai di GR WF)) as ([[r0 r1] r2] & K).
  { intros [|[|[|m]]] [nn lo up nb un pf l1 tv gl] Hm MV; [| | |lia]; destruct MV as (M1 & M2 & M3 & M4 & M5 & M6 & M7 & M8 & M9);
      cbn in *; repeat match goal with
        | H : (_ = Some _) \/ _ |- _ => destruct H as [H|[H ?]]; try discriminate
        | H : _ /\ _ |- _ => destruct H
        end;
      repeat match goal with H : Some _ = Some _ |- _ => injection H as <- end; subst; unfold acceptable; cbn;
      try (repeat split; try lra; exact Logic.I).
    split; [lra|]. split; [lra|]. split; [intros; reflexivity|]. split; [lra|]. split; [reflexivity|]. split.
    - intros [|[|i]] [|[|j]] Hi Hj; cbn in *; try lia; reflexivity.
    - repeat constructor; lra. }
  exists r0, r1, r2. split; [exact K|].
  assert (C := C38_penalties_are_those_requested _ _ _ _ _ _ K).
  destruct (C 0%nat ltac:(lia)) as (kw0 & p0 & u0 & _ & U0 & E0 & _). destruct (C 1%nat ltac:(lia)) as (kw1 & p1 & u1 & MV1 & U1 & E1 & _ & _ & _ & F1 & _).
  destruct (C 2%nat ltac:(lia)) as (kw2 & p2 & u2 & MV2 & U2 & E2 & D2 & _). cbn [pick] in *.
  split; [|split].
  - intros ->. cbn in U0. destruct u0; [discriminate|]. destruct p0; discriminate.
  - intros ->. assert (P : k_pf2 kw1 = true) by (destruct MV1 as (_ & _ & _ & _ & _ & _ & _ & _ & K1); exact K1).
    destruct (F1 P) as (? & ? & ? & ? & ->). discriminate.
  - intros ->. destruct p2; [|discriminate].
    assert (D := proj1 (D2 1%nat 1%nat (fun _ _ => -1)) ltac:(constructor)). destruct D as (D & _).
    destruct MV2 as (N2 & _). cbn in N2. specialize (D N2 0%nat 0%nat ltac:(lia) ltac:(lia)). cbn in D. lra.
Qed.
