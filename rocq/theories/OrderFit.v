(** Whole calls of [cmf_aoadmm] under any arithmetic: proofs. *)
From Coq Require Import Lia List Arith Bool ZArith.
From Verif Require Import Num Numpy RFacts Unimodal Penalties CoupledMatrices Decomp InitVars Parse ParseSpec ParseProofs Fit AoPrefix OrderSpec OrderUni OrderProofs OrderSizes.
From Verif Require CmfProofs.
Import ListNotations.
Local Open Scope nat_scope.

Section OrderFit.
Context {N : Num}.
Notation M0 := (Mat 0 0 []).

(** ** Construction of a factorization *)
Definition shaped (c : cmf) (R : nat) : Prop :=
  sized (cA c) (length (cBs c)) R /\ (forall B, In B (cBs c) -> sized B (mr B) R) /\ sized (cC c) (mr (cC c)) R.
Lemma matrix_shape_arr (o : pyobj) r c : matrix_shape o = Ok (r, c) -> sized (arr_mat o) r c.
Proof.
  destruct o as [| |[|r0 [|c0 [|x sh]]] d|l]; cbn [matrix_shape]; intros H; try discriminate. injection H as <- <-. apply sized_mbuild.
Qed.
Lemma validate_Bs_arr R K Bs sh : validate_Bs R K Bs = Ok sh -> forall o, In o Bs -> exists J, sized (arr_mat o) J R.
Proof.
  revert sh. induction Bs as [|B Bs IH]; intros sh H o Ho; [destruct Ho|]. cbn [validate_Bs] in H.
  destruct (matrix_shape B) as [[J c]|] eqn:EB; [|discriminate]. cbn [bind] in H. destruct (c =? R) eqn:ER; [|discriminate]. apply Nat.eqb_eq in ER. subst c. cbn [negb] in H.
  destruct (validate_Bs R K Bs) as [rest|] eqn:EV; [|discriminate]. destruct Ho as [<-|Ho]; [|eapply IH; eauto]. exists J. now apply matrix_shape_arr.
Qed.
Lemma py_iter_len (o : pyobj) l n : py_iter o = Ok l -> py_len o = Ok n -> length l = n.
Proof.
  destruct o as [| |sh d|l0]; try discriminate.
  - destruct sh as [|k [|k2 rest]]; try discriminate; cbn; intros H1 H2; injection H1 as <-; injection H2 as <-.
    + apply repeat_length.
    + now rewrite map_length, seq_length.
  - cbn. intros H1 H2. injection H1 as <-. now injection H2.
Qed.
Lemma cmf_init_shaped o sh k c : cmf_init o = Ok (sh, k, c) -> shaped c k.
Proof.
  intros H. unfold cmf_init, validate_cmf in H. destruct (unpack2 o) as [[w fs]|]; [|discriminate]. cbn [bind] in H.
  destruct (unpack3 fs) as [[[A B] C]|]; [|discriminate]. cbn [bind] in H.
  destruct (weights_shape w) as [wn|]; [|discriminate]. cbn [bind] in H.
  destruct (matrix_shape A) as [[nI r]|] eqn:EA; [|discriminate]. cbn [bind] in H.
  destruct (matrix_shape C) as [[K rC]|] eqn:EC; [|discriminate]. cbn [bind] in H.
  destruct (rC =? r) eqn:ER; [|discriminate]. cbn [negb] in H. apply Nat.eqb_eq in ER. subst rC.
  destruct (py_iter B) as [Bs|] eqn:EB; [|discriminate]. cbn [bind] in H.
  destruct (validate_Bs r K Bs) as [shp|] eqn:EV; [|discriminate]. cbn [bind] in H.
  destruct (match wn with Some n => negb (n =? r) | None => false end); [discriminate|].
  destruct (py_len B) as [nB|] eqn:EL; [|discriminate]. cbn [bind] in H.
  destruct (nI =? nB) eqn:EI; [|discriminate]. cbn [negb bind] in H. apply Nat.eqb_eq in EI. subst nB.
  injection H as <- <- <-. cbn [cA cBs cC].
  pose proof (py_iter_len _ _ _ EB EL) as LB. apply matrix_shape_arr in EA, EC. split; [cbn [cA cBs]; rewrite map_length, LB; exact EA|]. split.
  - cbn [cBs]. intros X HX. apply in_map_iff in HX as (b & <- & Hb). destruct (validate_Bs_arr _ _ _ _ EV b Hb) as (J & S). destruct S as (<- & S). now split.
  - cbn [cC]. destruct EC as (<- & S). now split.
Qed.
Lemma revalidate_shaped c c' : revalidate c = Ok c' -> exists R, shaped c' R.
Proof. unfold revalidate. destruct (cmf_init _) as [[[sh k] c0]|] eqn:E; [|discriminate]. cbn [bind]. intros H. injection H as <-. apply cmf_init_shaped in E. eauto. Qed.
Lemma initialize_shaped E IE rnd Xs rank init pos c p : initialize_cmf E IE rnd Xs rank init pos = Ok (c, p) -> exists R, shaped c R.
Proof.
  assert (RV : forall c0 p0, (let* c := revalidate c0 in Ok (c, p0)) = Ok (c, p) -> exists R, shaped c R).
  { intros c0 p0 H. destruct (revalidate c0) as [c1|] eqn:ER; [|discriminate]. cbn [bind] in H. injection H as <- _. eapply revalidate_shaped. exact ER. }
  assert (CI : forall o p0, (let* (_, _, c) := cmf_init o in Ok (c, p0)) = Ok (c, p) -> exists R, shaped c R).
  { intros o p0 H. destruct (cmf_init o) as [[[sh k] c1]|] eqn:ER; [|discriminate]. cbn [bind] in H. injection H as <- _. exists k. eapply cmf_init_shaped. exact ER. }
  intros H. destruct init as [l|m]; unfold initialize_cmf in H.
  - destruct (unpack2 _) as [[w fs]|]; [|discriminate]. cbn [bind] in H. destruct (unpack3 fs) as [[[A B] C]|]; [|discriminate]. cbn [bind] in H.
    destruct w; [now apply CI in H| | |]; (destruct (times_weights _ A) as [A'|]; [|discriminate]; cbn [bind] in H; now apply CI in H).
  - assert (CP : forall g T, (let* (t, p0) := (g : ten -> pyint -> nat -> res (cpt * nat)) T rank pos in let* c0 := from_CPTensor t (Some (get_shapes Xs)) in Ok (c0, p0)) = Ok (c, p) -> exists R, shaped c R).
    { intros g T X. destruct (g T rank pos) as [[t p0]|]; [|discriminate]. cbn [bind] in X.
      destruct (from_CPTensor t _) as [c0|] eqn:EF; [|discriminate]. cbn [bind] in X. injection X as <- _. unfold from_CPTensor in EF. destruct (negb (cp_check t)); [discriminate|].
      destruct (cpf t) as [|A [|B [|C [|D l]]]]; try discriminate.
      match type of EF with (let* Bs := ?e in _) = _ => destruct e as [Bs|]; [|discriminate] end. cbn [bind] in EF. now apply revalidate_shaped in EF. }
    destruct m.
    + destruct (first_cols Xs) as [K|]; [|discriminate]. cbn [bind] in H. destruct (as_rank rank) as [r|]; [|discriminate]. cbn [bind] in H.
      destruct (draw_mat rnd Uniform (length Xs) (Z.of_nat r) pos) as [[A q1]|]; [|discriminate]. cbn [bind] in H.
      destruct (draw_mat rnd Uniform K (Z.of_nat r) q1) as [[C q2]|]; [|discriminate]. cbn [bind] in H.
      destruct (mapS _ _ q2) as [[Bs q3]|]; [|discriminate]. cbn [bind] in H. now apply RV in H.
    + destruct (as_rank rank) as [r|]; [|discriminate]. cbn [bind] in H. destruct Xs as [|X Xs]; [discriminate|]. cbn [bind] in H.
      match type of H with (if ?b then _ else _) = _ => destruct b; [discriminate H|] end. now apply RV in H.
    + destruct (as_rank rank) as [r|]; [|discriminate]. cbn [bind] in H. destruct Xs as [|X Xs]; [discriminate|]. cbn [bind] in H.
      match type of H with (if ?b then _ else _) = _ => destruct b; [discriminate H|] end. now apply RV in H.
    + destruct (i_parafac2 IE Xs rank pos) as [[t p0]|]; [|discriminate]. cbn [bind] in H. unfold from_Parafac2Tensor in H. now apply RV in H.
    + destruct (create_padded_tensor Xs) as [T|]; [|discriminate]. cbn [bind] in H. now apply CP in H.
    + destruct (create_padded_tensor Xs) as [T|]; [|discriminate]. cbn [bind] in H. now apply CP in H.
    + destruct (create_padded_tensor Xs) as [T|]; [|discriminate]. discriminate H.
Qed.
(** A matrix survives the conversion to a Python array and back. *)
Lemma arr_of_mat (M : mat) r c : sized M r c -> arr_mat (py_of_mat M) = M.
Proof.
  destruct M as [mr0 mc0 rws]. intros (<- & <- & L & F). cbn [mr mc me] in *. unfold py_of_mat, arr_mat. cbn [mr mc me]. unfold mbuild. f_equal.
  apply nth_ext with (d := []) (d' := []); [now rewrite map_length, seq_length|]. intros i Hi. rewrite map_length, seq_length in Hi. rewrite nth_map_seq by exact Hi.
  assert (LI : length (nth i rws []) = mc0) by (rewrite Forall_forall in F; apply F, nth_In; lia).
  apply nth_ext with (d := n0) (d' := n0); [rewrite map_length, seq_length; congruence|]. intros j Hj. rewrite map_length, seq_length in Hj. rewrite nth_map_seq by exact Hj.
  unfold vget. apply (CmfProofs.nth_concat_const rws mc0 i j n0 []); [exact F|lia|exact Hj].
Qed.
Lemma revalidate_same c c' R : shaped c R -> revalidate c = Ok c' -> cA c' = cA c /\ cBs c' = cBs c /\ cC c' = cC c.
Proof.
  intros (SA & SB & SC) H. unfold revalidate, cmf_init in H. destruct (validate_cmf _) as [[sh k]|]; [|discriminate]. unfold py_of_cmf in H. cbn [bind unpack2 unpack3 py_iter] in H.
  injection H as <-. change (arr_mat (py_of_mat (cA c)) = cA c /\ map arr_mat (map py_of_mat (cBs c)) = cBs c /\ arr_mat (py_of_mat (cC c)) = cC c).
  split; [exact (arr_of_mat _ _ _ SA)|]. split; [|exact (arr_of_mat _ _ _ SC)].
  rewrite map_map. transitivity (map (fun B => B) (cBs c)); [|apply map_id]. apply map_ext_in. intros B HB. exact (arr_of_mat _ _ _ (SB B HB)).
Qed.

(** ** The state before the first iteration *)
Lemma mapS_Forall {A B} (f : A -> nat -> res (B * nat)) (P : B -> Prop) : (forall x p y q, f x p = Ok (y, q) -> P y) ->
  forall l p r q, mapS f l p = Ok (r, q) -> Forall P r /\ length r = length l.
Proof.
  intros HP. induction l as [|x l IH]; intros p r q H; cbn [mapS] in H.
  - injection H as <- _. auto.
  - destruct (f x p) as [[y p1]|] eqn:EF; [|discriminate]. cbn [bind] in H. destruct (mapS f l p1) as [[ys p2]|] eqn:EM; [|discriminate]. cbn [bind] in H.
    injection H as <- _. destruct (IH _ _ _ EM) as (F & L). split; [constructor; eauto|cbn; lia].
Qed.
Section Count.
Variable Xs : list mat.
Notation n := (length Xs).
Definition cnt (v : auxval) : Prop := match v with VMats (AList l) => length l = n | VMats (APf2 b _) => length b = n | VMat _ => True end.
Lemma init_common_cnt rnd i rank mode p v q : init_common rnd i Xs rank mode p = Ok (v, q) -> cnt v.
Proof.
  unfold init_common. destruct rank as [rank|]; [|discriminate]. destruct mode as [mode|]; [|discriminate].
  destruct (negb _); [discriminate|]. destruct i as [nm|sh data|l|l|]; try discriminate.
  - assert (RND : forall d, (if (mode =? 0)%Z then let* (M, p0) := draw_mat rnd d n rank p in Ok (VMat M, p0)
      else if (mode =? 1)%Z then let* (l, p0) := mapS (fun X => draw_mat rnd d (mr X) rank) Xs p in Ok (VMats (AList l), p0)
      else let* K := first_cols Xs in let* (M, p0) := draw_mat rnd d K rank p in Ok (VMat M, p0)) = Ok (v, q) -> cnt v).
    { intros d H. destruct (mode =? 0)%Z.
      { destruct (draw_mat _ _ _ _ _) as [[M p0]|]; [|discriminate]. cbn [bind] in H. injection H as <- _. exact Logic.I. }
      destruct (mode =? 1)%Z.
      { destruct (mapS _ _ _) as [[l p0]|] eqn:EM; [|discriminate]. cbn [bind] in H. injection H as <- _. cbn. now apply (mapS_Forall _ (fun _ => True)) in EM. }
      destruct (first_cols Xs) as [K|]; [|discriminate]. cbn [bind] in H. destruct (draw_mat _ _ _ _ _) as [[M p0]|]; [|discriminate]. cbn [bind] in H. injection H as <- _. exact Logic.I. }
    destruct nm; [apply RND|apply RND| |discriminate]. intros H.
    destruct (mode =? 0)%Z.
    { destruct (zeros _ _) as [M|]; [|discriminate]. cbn [bind] in H. injection H as <- _. exact Logic.I. }
    destruct (mode =? 1)%Z.
    { destruct (mapM _ Xs) as [l|] eqn:EM; [|discriminate]. cbn [bind] in H. injection H as <- _. cbn. now apply mapM_length in EM. }
    destruct (first_cols Xs) as [K|]; [|discriminate]. cbn [bind] in H. destruct (zeros _ _) as [M|]; [|discriminate]. cbn [bind] in H. injection H as <- _. exact Logic.I.
  - destruct (mode =? 1)%Z; [discriminate|]. destruct sh as [|len [|r [|x sh]]]; try discriminate. cbv zeta. destruct (first_cols Xs) as [K|]; [|discriminate]. cbn [bind].
    destruct (_ || _)%bool; [discriminate|]. destruct (_ || _)%bool; [discriminate|]. intros H. injection H as <- _. exact Logic.I.
  - destruct (negb (mode =? 1)%Z); [discriminate|]. destruct (any_mismatch _ _ _) as [[]|]; try discriminate. cbn [bind].
    destruct (length l =? n) eqn:EL; [|discriminate]. cbn [negb]. intros H. injection H as <- _. cbn. rewrite map_length. now apply Nat.eqb_eq.
Qed.
Lemma pf2_init_cnt rnd given i rank mode p v q : pf2_init_aux rnd given i Xs rank mode p = Ok (v, q) -> cnt v.
Proof.
  unfold pf2_init_aux. destruct i as [nm|sh data|l|l|]; try discriminate.
  - destruct rank as [rank|]; [|discriminate]. destruct mode as [mode|]; [|discriminate]. destruct (negb (mode =? 1)%Z); [discriminate|].
    destruct nm; try discriminate; intros H.
    1,2: destruct given; cbn [negb] in H; [|discriminate]; destruct (draw_mat _ _ _ _ _) as [[c p0]|]; [|discriminate]; cbn [bind] in H;
      destruct (mapM _ Xs) as [l|] eqn:EM; [|discriminate]; cbn [bind] in H; injection H as <- _; cbn; now apply mapM_length in EM.
    destruct (zeros _ _) as [c|]; [|discriminate]. cbn [bind] in H. destruct (mapM _ Xs) as [l|] eqn:EM; [|discriminate]. cbn [bind] in H. injection H as <- _. cbn. now apply mapM_length in EM.
  - destruct rank as [rank|]; [|discriminate]. destruct mode as [mode|]; [|discriminate]. destruct (negb (mode =? 1)%Z); [discriminate|].
    destruct l as [|b [|c [|x l]]]; try discriminate. destruct b as [| |sb db|basis]; try discriminate. destruct c as [| |sh data|lc]; try discriminate.
    destruct sh as [|r [|s0 [|x sh]]]; try discriminate. destruct (_ || _)%bool; [discriminate|]. destruct (check_bases _ _ _); [|discriminate]. cbn [bind].
    destruct (length basis =? n) eqn:EL; [|discriminate]. cbn [negb]. intros H. injection H as <- _. cbn. rewrite map_length. now apply Nat.eqb_eq.
Qed.
Lemma init_aux_cnt rnd given o rank mode p v q : init_aux rnd given o Xs rank mode p = Ok (v, q) -> cnt v.
Proof. unfold init_aux. destruct (o_pen o); try apply init_common_cnt. apply pf2_init_cnt. Qed.
Lemma make_mregs_pens l : forall a d gs, make_mregs l a d = Ok gs -> map g_pen gs = map o_pen l.
Proof.
  induction l as [|o l IH]; intros a d gs H; cbn [make_mregs] in H.
  - destruct a, d; try discriminate. now injection H as <-.
  - destruct a as [|[M|] a]; try discriminate. destruct d as [|[D|] d]; try discriminate. destruct (make_mregs l a d) as [r|] eqn:E; [|discriminate]. cbn [bind] in H.
    injection H as <-. cbn. now rewrite (IH _ _ _ E).
Qed.
Lemma make_bregs_pens l : forall a d gs, Forall cnt a -> Forall cnt d -> make_bregs l a d = Ok gs -> map b_pen gs = map o_pen l /\ Forall (counted Xs) gs.
Proof.
  induction l as [|o l IH]; intros a d gs FA FD H; cbn [make_bregs] in H.
  - destruct a, d; try discriminate. injection H as <-. auto.
  - destruct a as [|[|M] a]; try discriminate. destruct d as [|[|[D|]] d]; try discriminate. destruct (make_bregs l a d) as [r|] eqn:E; [|discriminate]. cbn [bind] in H.
    injection H as <-. inversion FA; subst. inversion FD; subst. destruct (IH a d r) as (K1 & K2); auto. split; [cbn; now rewrite K1|]. constructor; [|exact K2]. split; cbn; auto.
Qed.
End Count.
Lemma nth_In_combine {A B} (l : list A) (m : list B) i da db : length l = length m -> i < length l -> In (nth i l da, nth i m db) (combine l m).
Proof. intros L Hi. rewrite <- combine_nth by exact L. apply nth_In. rewrite combine_length. lia. Qed.

Definition used (a : fitargs) (t : three (list pobj)) (m : nat) : list penalty := map o_pen (if mode_updated a m then pick t m else []).
Lemma setup_pieces V IE rnd a s l2 : setup V IE rnd a = Ok (s, l2) ->
  exists pos t R K, initialize_cmf (e_ext V) IE rnd (f_data a) (f_rank a) (f_init a) 0 = Ok (st_cmf s, pos) /\
    parse_all V (f_kw a) (f_regs a) (f_aux a) (f_dual a) = Ok t /\
    mpens (st_rA s) = used a t 0 /\ bpens (st_rB s) = used a t 1 /\ mpens (st_rC s) = used a t 2 /\
    shaped (st_cmf s) R /\ state_sized (f_data a) R K s /\ (forall X, In X (f_data a) -> mc X = K) /\
    ((exists m, used a t m <> []) -> f_rank a = PyInt (Z.of_nat R)).
Proof.
  intros H. unfold setup in H. destruct (negb (f_svd a)); [discriminate|].
  destruct (initialize_cmf _ _ _ _ _ _ _) as [[c pos]|] eqn:EI; [|discriminate]. cbn [bind] in H.
  destruct (listify (f_l2 a)) as [l2'|]; [|discriminate]. cbn [bind] in H.
  destruct (parse_all _ _ _ _ _) as [[[rA rB] rC]|] eqn:EP; [|discriminate]. cbn [bind] in H. cbv zeta in H.
  set (uA := if f_updA a then rA else []) in *. set (uB := if f_updB a then rB else []) in *. set (uC := if f_updC a then rC else []) in *.
  destruct (initialize_aux rnd (f_data a) _ (uA, uB, uC) pos) as [[[[aA aB] aC] pos1]|] eqn:EX; [|discriminate]. cbn [bind] in H.
  destruct (initialize_dual rnd (f_data a) _ (uA, uB, uC) pos1) as [[[[dA dB] dC] pos2]|] eqn:ED; [|discriminate]. cbn [bind] in H.
  match type of H with (if negb ?b then _ else _) = _ => destruct b eqn:ES; [|discriminate H] end. cbn [negb] in H.
  destruct (make_mregs uA aA dA) as [gA|] eqn:GA; [|discriminate]. cbn [bind] in H.
  destruct (make_bregs uB aB dB) as [gB|] eqn:GB; [|discriminate]. cbn [bind] in H.
  destruct (make_mregs uC aC dC) as [gC|] eqn:GC; [|discriminate]. cbn [bind] in H. injection H as <- <-. cbn [st_cmf st_rA st_rB st_rC].
  destruct (initialize_shaped _ _ _ _ _ _ _ _ _ EI) as (R & SH).
  assert (CB : Forall (cnt (f_data a)) aB /\ Forall (cnt (f_data a)) dB).
  { split.
    - unfold initialize_aux, initialize in EX. destruct (mapS _ uA pos) as [[x1 q1]|]; [|discriminate]. cbn [bind] in EX. destruct (mapS _ uB q1) as [[x2 q2]|] eqn:E2; [|discriminate]. cbn [bind] in EX.
      destruct (mapS _ uC q2) as [[x3 q3]|]; [|discriminate]. cbn [bind] in EX. injection EX as <- <- <- <-. apply (mapS_Forall _ (cnt (f_data a))) in E2; [apply E2|]. intros o q0 y q4. apply init_aux_cnt.
    - unfold initialize_dual, initialize in ED. destruct (mapS _ uA pos1) as [[x1 q1]|]; [|discriminate]. cbn [bind] in ED. destruct (mapS _ uB q1) as [[x2 q2]|] eqn:E2; [|discriminate]. cbn [bind] in ED.
      destruct (mapS _ uC q2) as [[x3 q3]|]; [|discriminate]. cbn [bind] in ED. injection ED as <- <- <- <-. apply (mapS_Forall _ (cnt (f_data a))) in E2; [apply E2|]. intros o q0 y q4. apply init_common_cnt. }
  destruct CB as (CA & CD). apply make_mregs_pens in GA, GC. destruct (make_bregs_pens _ _ _ _ _ CA CD GB) as (PB & CB).
  unfold shapes_match in ES. apply andb_prop in ES as (ES & ER). apply andb_prop in ES as (EL & EF). apply Nat.eqb_eq in EL. rewrite forallb_forall in EF.
  assert (DIM : forall i, i < length (f_data a) -> mr (nth i (f_data a) M0) = mr (nth i (cBs c) M0) /\ mc (nth i (f_data a) M0) = mr (cC c)).
  { intros i Hi. specialize (EF _ (nth_In_combine (f_data a) (cBs c) i M0 M0 EL Hi)). cbn [fst snd] in EF. apply andb_prop in EF as (E1 & E2). apply Nat.eqb_eq in E1, E2. auto. }
  pose proof SH as (SA & SB & SC).
  exists pos, (rA, rB, rC), R, (mr (cC c)). split; [reflexivity|]. split; [reflexivity|].
  unfold mpens, bpens, used. cbn [mode_updated pick]. fold uA uB uC. split; [exact GA|]. split; [exact PB|]. split; [exact GC|]. split; [exact SH|]. split; [|split].
  - split; [|exact CB]. split; [now rewrite EL|]. split; [auto|]. split; [|exact SC]. intros i Hi. destruct (DIM i Hi) as (-> & _). apply SB. apply nth_In. cbn [st_cmf]. lia.
  - intros X HX. apply (In_nth _ _ M0) in HX as (i & Hi & <-). now apply DIM.
  - intros (m & Hm). assert (NE : negb (is_nil uA && is_nil uB && is_nil uC) = true).
    { destruct m as [|[|m]]; cbn [mode_updated pick] in Hm; fold uA uB uC in Hm;
        [destruct uA; [contradiction|reflexivity]|destruct uB; [contradiction|now destruct uA]|destruct uC; [contradiction|now destruct uA, uB]]. }
    rewrite NE in ER. cbn [negb orb] in ER. destruct (f_rank a) as [r|]; [|discriminate]. apply Z.eqb_eq in ER. destruct SA as (_ & <- & _). now rewrite ER.
Qed.

(** ** Frozen modes *)
Definition same_frozen (P : params) (c c' : cmf) : Prop :=
  (p_updA P = false -> cA c' = cA c) /\ (p_updB P = false -> cBs c' = cBs c) /\ (p_updC P = false -> cC c' = cC c).
Lemma outer_frozen E P Xs s s' : outer_step E P Xs s = Ok s' -> same_frozen P (st_cmf s) (st_cmf s').
Proof.
  intros H. unfold outer_step in H.
  destruct (upd_B E P Xs s) as [s1|] eqn:E1; [|discriminate]. cbn [bind] in H. destruct (upd_C E P Xs s1) as [s2|] eqn:E2; [|discriminate]. cbn [bind] in H.
  assert (K1 : cA (st_cmf s1) = cA (st_cmf s) /\ cC (st_cmf s1) = cC (st_cmf s) /\ (p_updB P = false -> cBs (st_cmf s1) = cBs (st_cmf s))).
  { unfold upd_B in E1. destruct (p_updB P); [|injection E1 as <-; cbn; auto].
    destruct (admm_update_B _ _ _ _ _ _ _ _ _) as [[c r]|] eqn:EU; [|discriminate]. cbn [bind] in E1. injection E1 as <-. cbn [st_cmf].
    unfold admm_update_B in EU. cbv zeta in EU. destruct (feas_penalties _ _ _) as [f|]; [|discriminate]. cbn [bind] in EU. destruct (inner_loop _ _ _ _) as [[B g]|]; [|discriminate]. cbn [bind] in EU.
    injection EU as <- _. cbn. repeat split. discriminate. }
  assert (K2 : cA (st_cmf s2) = cA (st_cmf s1) /\ cBs (st_cmf s2) = cBs (st_cmf s1) /\ (p_updC P = false -> cC (st_cmf s2) = cC (st_cmf s1))).
  { unfold upd_C in E2. destruct (p_updC P); [|injection E2 as <-; auto].
    destruct (admm_update_C _ _ _ _ _ _ _ _) as [[c r]|] eqn:EU; [|discriminate]. cbn [bind] in E2. injection E2 as <-. cbn [st_cmf].
    unfold admm_update_C in EU. destruct (msum_list _); [|discriminate]. destruct (msum_list _); [|discriminate]. cbv zeta in EU. destruct (inner_loop _ _ _ _) as [[B g]|]; [|discriminate]. cbn [bind] in EU.
    injection EU as <- _. cbn. repeat split. discriminate. }
  assert (K3 : cBs (st_cmf s') = cBs (st_cmf s2) /\ cC (st_cmf s') = cC (st_cmf s2) /\ (p_updA P = false -> cA (st_cmf s') = cA (st_cmf s2))).
  { unfold upd_A in H. destruct (p_updA P); [|injection H as <-; auto].
    destruct (admm_update_A _ _ _ _ _ _ _ _ _) as [[[c r] i]|] eqn:EU; [|discriminate]. cbn [bind] in H. injection H as <-. cbn [st_cmf].
    unfold admm_update_A in EU. cbv zeta in EU. destruct (feas_penalties _ _ _) as [f|]; [|discriminate]. cbn [bind] in EU. destruct (inner_loop _ _ _ _) as [[B g]|]; [|discriminate]. cbn [bind] in EU.
    injection EU as <- _ _. cbn. repeat split. discriminate. }
  destruct K1 as (A1 & A2 & A3), K2 as (B1 & B2 & B3), K3 as (C1 & C2 & C3). split; [|split]; intros X; [rewrite C3, B1|rewrite C1, B2, A3|rewrite C2, B3]; auto.
Qed.
Lemma frozen_trans P c c1 c2 : same_frozen P c c1 -> same_frozen P c1 c2 -> same_frozen P c c2.
Proof. intros (A1 & A2 & A3) (B1 & B2 & B3). split; [|split]; intros X; [rewrite B1, A1|rewrite B2, A2|rewrite B3, A3]; auto. Qed.
Lemma loop_frozen E P Xs : forall k it s h s' h' it' msg, ao_loop E P Xs k it s h = Ok (s', h', it', msg) -> same_frozen P (st_cmf s) (st_cmf s').
Proof.
  induction k as [|k IH]; intros it s h s' h' it' msg H; cbn [ao_loop] in H.
  - injection H as <- <- <- <-. repeat split.
  - destruct (outer_step E P Xs s) as [s1|] eqn:E1; [|discriminate]. cbn [bind] in H. cbv zeta in H. apply outer_frozen in E1.
    assert (REC : forall h1, ao_loop E P Xs k (S it) s1 h1 = Ok (s', h', it', msg) -> same_frozen P (st_cmf s) (st_cmf s')).
    { intros h1 H1. eapply frozen_trans; [exact E1|]. eapply IH. exact H1. }
    assert (STOP : s' = s1 -> same_frozen P (st_cmf s) (st_cmf s')) by (intros ->; exact E1).
    destruct (otruthy (p_tol P) || otruthy (p_abs_tol P) || p_return_errors P); [|now apply REC in H].
    destruct (state_gaps s1) as [g|]; [|discriminate]. cbn [bind h_errors h_gaps h_losses] in H.
    match type of H with context[if ?b then ao_loop _ _ _ _ _ _ _ else _] => destruct b end; [now apply REC in H|].
    destruct (state_loss P Xs s1) as [l|]; [|discriminate]. cbn [bind] in H.
    destruct (p_tol P) as [t|]; [|now apply REC in H]. destruct (ntruthy t); [|now apply REC in H].
    destruct (p_abs_tol P) as [ab|]; [|discriminate].
    match type of H with context[if ?b then _ else _] => destruct b end; [injection H as <- <- <- <-; now apply STOP|].
    match type of H with context[if ?b then _ else _] => destruct b end; [injection H as <- <- <- <-; now apply STOP|]. now apply REC in H.
Qed.

(** ** Reports *)
Section Reports.
Variables (E : ext) (P : params) (Xs : list mat).
Definition feasible_code (g : gaps) : bool := match p_feas_tol P with Some t => ntruthy t && check_feasibility g t | None => false end.
Definition stop_code (g : gaps) (prev cur : xnum) : option message :=
  match p_tol P with
  | Some tol => if ntruthy tol then
      match p_abs_tol P with
      | None => None
      | Some ab => if feasible_code g && rel_crit tol prev cur then Some RelLoss else if feasible_code g && xlt cur ab then Some AbsLoss else None
      end else None
  | None => None
  end.
Definition g0 : gaps := ([], [], []).
Notation stop_at h j := (stop_code (nth j (h_gaps h) g0) (nth (j - 1) (h_losses h) NaN) (nth j (h_losses h) NaN)).
Definition lengths (h : hist) (k : nat) : Prop := length (h_errors h) = k /\ length (h_gaps h) = k /\ length (h_losses h) = k.
Lemma nth_extends {A} (l l' : list A) j d : extends l l' -> j < length l -> nth j l' d = nth j l d.
Proof. intros (m & ->) H. now rewrite app_nth1. Qed.
Lemma last_nth {A} (l : list A) d : l <> [] -> last l d = nth (length l - 1) l d.
Proof.
  induction l as [|x l IH]; [now intros []|]. intros _. destruct l as [|y l]; [reflexivity|]. change (last (x :: y :: l) d) with (last (y :: l) d). rewrite IH by discriminate.
  cbn [length]. replace (S (S (length l)) - 1) with (S (S (length l) - 1)) by lia. reflexivity.
Qed.
Lemma loop_report : p_return_errors P = true -> forall n it s h s' h' it' msg, lengths h (S it) -> state_gaps s = Ok (nth it (h_gaps h) g0) ->
  ao_loop E P Xs n it s h = Ok (s', h', it', msg) ->
  lengths h' (S it') /\ it <= it' <= it + n /\ h_extends h h' /\ state_gaps s' = Ok (nth it' (h_gaps h') g0) /\
  (it < it' -> otruthy (p_tol P) = true -> p_abs_tol P <> None) /\
  (forall j, it < j < it' -> stop_at h' j = None) /\
  match msg with MaxIter => it' = it + n /\ (it < it' -> stop_at h' it' = None) | _ => it < it' /\ stop_at h' it' = Some msg end.
Proof.
  intros RE. induction n as [|n IH]; intros it s h s' h' it' msg (L1 & L2 & L3) HG H; cbn [ao_loop] in H.
  - injection H as <- <- <- <-. split; [now split|]. split; [lia|]. split; [split; [|split]; apply extends_refl|]. split; [exact HG|]. split; [lia|]. split; [lia|]. split; [lia|lia].
  - destruct (outer_step E P Xs s) as [s1|]; [|discriminate]. cbn [bind] in H. cbv zeta in H. rewrite RE in H. rewrite orb_true_r in H.
    destruct (state_gaps s1) as [g|] eqn:EG; [|discriminate]. cbn [bind h_errors h_gaps h_losses] in H. cbn [negb] in H. rewrite andb_false_r in H.
    destruct (state_loss P Xs s1) as [l|]; [|discriminate]. cbn [bind] in H. set (h2 := Hist _ _ _) in H.
    assert (LH2 : lengths h2 (S (S it))). { unfold h2, lengths. cbn. rewrite !app_length. cbn. lia. }
    assert (XH2 : h_extends h h2). { split; [|split]; cbn; apply extends_app. }
    assert (NG : nth (S it) (h_gaps h2) g0 = g). { cbn. rewrite app_nth2 by lia. now rewrite L2, Nat.sub_diag. }
    assert (NL : nth (S it) (h_losses h2) NaN = l). { cbn. rewrite app_nth2 by lia. now rewrite L3, Nat.sub_diag. }
    assert (NP : nth it (h_losses h2) NaN = last_x (h_losses h)).
    { cbn. rewrite app_nth1 by lia. unfold last_x. rewrite last_nth by (destruct (h_losses h); [discriminate L3|discriminate]). rewrite L3. f_equal. lia. }
    assert (SC : stop_at h2 (S it) = stop_code g (last_x (h_losses h)) l).
    { rewrite NG, NL. replace (S it - 1) with it by lia. now rewrite NP. }
    assert (GS : state_gaps s1 = Ok (nth (S it) (h_gaps h2) g0)) by now rewrite NG.
    assert (REC : stop_code g (last_x (h_losses h)) l = None -> (otruthy (p_tol P) = true -> p_abs_tol P <> None) -> ao_loop E P Xs n (S it) s1 h2 = Ok (s', h', it', msg) ->
      lengths h' (S it') /\ it <= it' <= it + S n /\ h_extends h h' /\ state_gaps s' = Ok (nth it' (h_gaps h') g0) /\
      (it < it' -> otruthy (p_tol P) = true -> p_abs_tol P <> None) /\
      (forall j, it < j < it' -> stop_at h' j = None) /\
      match msg with MaxIter => it' = it + S n /\ (it < it' -> stop_at h' it' = None) | _ => it < it' /\ stop_at h' it' = Some msg end).
    { intros NS NA HL. destruct (IH _ _ _ _ _ _ _ LH2 GS HL) as (K1 & K2 & K3 & K4 & K5 & K6 & K7).
      assert (SI : stop_at h' (S it) = None).
      { rewrite <- NS, <- SC. destruct K3 as (_ & X2 & X3). destruct LH2 as (_ & Y2 & Y3).
        rewrite (nth_extends _ _ (S it) g0 X2) by lia. rewrite (nth_extends _ _ (S it) NaN X3) by lia. rewrite (nth_extends _ _ (S it - 1) NaN X3) by lia. reflexivity. }
      split; [exact K1|]. split; [lia|]. split; [eapply h_extends_trans; eassumption|]. split; [exact K4|]. split; [auto|]. split.
      - intros j Hj. destruct (Nat.eq_dec j (S it)) as [->|NE]; [exact SI|]. apply K6. lia.
      - destruct msg; [|split; [lia|apply K7]..]. destruct K7 as (K7 & K8). split; [lia|]. intros _. destruct (Nat.eq_dec it' (S it)) as [->|NE]; [exact SI|apply K8; lia]. }
    assert (STOP : forall m, m <> MaxIter -> stop_code g (last_x (h_losses h)) l = Some m -> p_abs_tol P <> None -> Ok (s1, h2, S it, m) = Ok (s', h', it', msg) ->
      lengths h' (S it') /\ it <= it' <= it + S n /\ h_extends h h' /\ state_gaps s' = Ok (nth it' (h_gaps h') g0) /\
      (it < it' -> otruthy (p_tol P) = true -> p_abs_tol P <> None) /\
      (forall j, it < j < it' -> stop_at h' j = None) /\
      match msg with MaxIter => it' = it + S n /\ (it < it' -> stop_at h' it' = None) | _ => it < it' /\ stop_at h' it' = Some msg end).
    { intros m NM SM NA EQ. injection EQ as <- <- <- <-. split; [exact LH2|]. split; [lia|]. split; [exact XH2|]. split; [exact GS|]. split; [auto|]. split; [lia|].
      destruct m; [contradiction|split; [lia|now rewrite SC]..]. }
    match goal with |- ?G => set (GOAL := G) in * end. clearbody GOAL. clear SC.
    unfold stop_code, feasible_code in REC, STOP. destruct (p_tol P) as [t|]; [|apply REC; [reflexivity|discriminate|exact H]]. cbn [otruthy] in REC, STOP.
    destruct (ntruthy t); [|apply REC; [reflexivity|discriminate|exact H]]. destruct (p_abs_tol P) as [ab|]; [|discriminate].
    match type of H with context[if ?b then _ else _] => destruct b end; [eapply STOP; [| | |exact H]; [discriminate|reflexivity|discriminate]|].
    match type of H with context[if ?b then _ else _] => destruct b end; [eapply STOP; [| | |exact H]; [discriminate|reflexivity|discriminate]|].
    apply REC; [reflexivity|discriminate|exact H].
Qed.
End Reports.

(** The code's tests and the reported values *)
Lemma truthy_set (t : num) : ntruthy t = true <-> ~ (le t n0 /\ le n0 t).
Proof.
  unfold ntruthy, neqb, le. destruct (nleb t n0), (nleb n0 t); cbn; split; intros H; try discriminate; try reflexivity; try (intros (X & Y); discriminate). exfalso. now apply H.
Qed.
Lemma ltb_lt (x y : num) : nltb x y = true <-> lt x y.
Proof. unfold nltb, lt, le. destruct (nleb y x); cbn; split; congruence. Qed.
Lemma otruthy_set (o : option num) : otruthy o = true <-> exists t, is_set o t.
Proof.
  destruct o as [t|]; cbn [otruthy]; unfold is_set.
  - rewrite truthy_set. split; [eauto|intros (t' & E & H); now injection E as <-].
  - split; [discriminate|intros (t' & E & _); discriminate].
Qed.
Definition not_nan (x : xnum) : Prop := x <> NaN.
Lemma xlt_smaller (x : xnum) t : xlt x t = true <-> smaller t x.
Proof.
  destruct x as [v| |]; cbn [xlt]; unfold smaller; [rewrite ltb_lt|..]; (split; [intros H|intros (w & E & H)]); try discriminate; [eauto|]. now injection E as <-.
Qed.
Hypothesis HO : ordered.
Lemma lt_le_trans x y z : le x y -> lt y z -> lt x z.
Proof. intros H1 H2 H3. apply H2. destruct HO as (_ & T). now apply (T z x y). Qed.
(** [x] is at most [m] *)
Definition xle (x m : xnum) : Prop := match x, m with Fin a, Fin b => le a b | Fin _, PInf => True | PInf, PInf => True | _, _ => False end.
Lemma xle_refl x : not_nan x -> xle x x.
Proof.
  destruct x as [v| |]; cbn; intros H; [|exact Logic.I|exact (H eq_refl)]. destruct HO as (T & _). now destruct (T v v).
Qed.
Lemma xle_trans x y z : xle x y -> xle y z -> xle x z.
Proof. destruct x, y, z; cbn; auto; try contradiction. apply HO. Qed.
Lemma xgt_step m y : not_nan m -> not_nan y -> let r := if xgt y m then y else m in not_nan r /\ xle m r /\ xle y r.
Proof.
  intros H1 H2. cbv zeta. destruct (xgt y m) eqn:E.
  - split; [exact H2|]. split; [|now apply xle_refl]. destruct m, y; cbn in *; auto; try discriminate. unfold nltb in E. apply negb_true_iff in E.
    destruct HO as (T & _). destruct (T x x0) as [K|K]; [exact K|]. unfold le in K. congruence.
  - split; [exact H1|]. split; [now apply xle_refl|]. destruct m, y; cbn in *; auto; try discriminate; try (now apply H1); try (now apply H2).
    unfold nltb in E. now apply negb_false_iff in E.
Qed.
(** [m] is an upper bound that satisfies whatever all elements satisfy *)
Definition is_max (l : list xnum) (m : xnum) : Prop := not_nan m /\ Forall (fun x => xle x m) l /\ forall Q : xnum -> Prop, Forall Q l -> Q m.
Lemma fold_max l : forall m, not_nan m -> Forall not_nan l -> is_max (m :: l) (fold_left (fun m y => if xgt y m then y else m) l m).
Proof.
  induction l as [|y l IH]; intros m H F; cbn [fold_left].
  - split; [exact H|]. split; [constructor; [now apply xle_refl|constructor]|]. intros Q FQ. now inversion FQ.
  - inversion F as [|? ? Hy F']; subst. destruct (xgt_step m y H Hy) as (K1 & K2 & K3). cbv zeta in *. destruct (IH _ K1 F') as (M1 & M2 & M3). inversion M2 as [|? ? B1 B2]; subst.
    split; [exact M1|]. split; [constructor; [eapply xle_trans; eassumption|constructor; [eapply xle_trans; eassumption|exact B2]]|].
    intros Q FQ. inversion FQ as [|? ? Q1 FQ1]; subst. inversion FQ1 as [|? ? Q2 FQ2]; subst. apply M3. constructor; [now destruct (xgt y m)|exact FQ2].
Qed.
Definition acc_ok (l : list xnum) (m : option xnum) : Prop := match m with None => l = [] | Some m => is_max l m end.
Lemma feas_acc_ok l0 m l : acc_ok l0 m -> Forall not_nan l -> acc_ok (l0 ++ l) (feas_acc l m).
Proof.
  intros A F. unfold feas_acc, xmax_list. destruct l as [|x l]; [now rewrite app_nil_r|]. inversion F as [|? ? Hx F']; subst. pose proof (fold_max l x Hx F') as (M1 & M2 & M3).
  set (y := fold_left _ l x) in *. destruct m as [m|]; cbn [acc_ok] in A.
  - destruct A as (A1 & A2 & A3). cbn [acc_ok]. destruct (xgt_step y m M1 A1) as (K1 & K2 & K3). cbv zeta in *. split; [exact K1|]. split.
    + apply Forall_app. split; [refine (Forall_impl _ _ A2)|refine (Forall_impl _ _ M2)]; intros z Hz; [exact (xle_trans _ _ _ Hz K3)|exact (xle_trans _ _ _ Hz K2)].
    + intros Q FQ. apply Forall_app in FQ as (Q1 & Q2). destruct (xgt m y); [exact (A3 Q Q1)|exact (M3 Q Q2)].
  - subst l0. cbn [app acc_ok]. split; [exact M1|]. now split.
Qed.
Lemma feasibility_smaller g t : every_gap not_nan g -> (check_feasibility g t = true <-> every_gap (smaller t) g).
Proof.
  destruct g as [[x y] z]. intros (F1 & F2 & F3). unfold check_feasibility, every_gap.
  assert (A : acc_ok (((([] : list xnum) ++ x) ++ y) ++ z) (feas_acc z (feas_acc y (feas_acc x None)))) by (do 3 (apply feas_acc_ok; [|assumption]); reflexivity).
  cbn [app] in A. destruct (feas_acc z _) as [m|]; cbn [acc_ok] in A.
  - destruct A as (A1 & A2 & A3). rewrite xlt_smaller. split.
    + intros (v & -> & Hv). assert (K : Forall (smaller t) ((x ++ y) ++ z)).
      { eapply Forall_impl; [|exact A2]. intros w Hw. destruct w as [w| |]; cbn in Hw; try contradiction. exists w. split; [reflexivity|]. eapply lt_le_trans; eassumption. }
      rewrite !Forall_app in K. tauto.
    + intros K. apply A3. rewrite !Forall_app. tauto.
  - apply app_eq_nil in A as (A & ->). apply app_eq_nil in A as (-> & ->). split; auto.
Qed.

(** ** Whole calls *)
Lemma fit_pieces V IE rnd a out : cmf_aoadmm V IE rnd a = Ok out ->
  exists s l2 flags s' od, setup V IE rnd a = Ok (s, l2) /\ run (e_ext V) (fit_params a l2 flags) (f_data a) (f_n_iter a) s = Ok (s', od) /\
    out = Output (st_cmf s') (if f_return_vars a then Some (vars_of s') else None) od.
Proof.
  intros H. unfold cmf_aoadmm in H. destruct (setup V IE rnd a) as [[s l2]|]; [|discriminate]. cbn [bind] in H.
  destruct (init_hist _ _ _); [|discriminate]. cbn [bind] in H. destruct (const_flags (f_const a)) as [fl|]; [|discriminate]. cbn [bind] in H.
  destruct (run _ _ _ _ _) as [[s' od]|] eqn:ER; [|discriminate]. cbn [bind] in H. injection H as <-. exists s, l2, fl, s', od. auto.
Qed.
Lemma fit_fields a l2 flags : let P := fit_params a l2 flags in
  p_inner P = Z.to_nat (f_inner a) /\ p_updA P = f_updA a /\ p_updB P = f_updB a /\ p_updC P = f_updC a /\
  p_tol P = f_tol a /\ p_abs_tol P = f_abs_tol a /\ p_feas_tol P = f_feas_tol a /\ p_return_errors P = f_return_errors a.
Proof. destruct l2 as [[x y] z]. cbn. repeat split. Qed.
Lemma run_pieces E P Xs M s s' od : run E P Xs M s = Ok (s', od) ->
  exists h0 s1 h it msg c feas, init_hist P Xs s = Ok h0 /\ ao_loop E P Xs (Z.to_nat M) 0 s h0 = Ok (s1, h, it, msg) /\ revalidate (st_cmf s1) = Ok c /\
    s' = St c (st_rA s1) (st_rB s1) (st_rC s1) (st_inter s1) /\
    match p_feas_tol P with Some t => if ntruthy t && p_return_errors P then let* g := state_gaps s1 in Ok (Some (check_feasibility g t)) else Ok None | None => Ok None end = Ok feas /\
    od = if p_return_errors P then Some (Diag (h_errors h) (h_gaps h) (h_losses h)
      (if negb (match msg with MaxIter => false | _ => true end) && negb (otruthy (p_tol P) || otruthy (p_abs_tol P)) then None else Some (match msg with MaxIter => false | _ => true end)) feas it msg) else None.
Proof.
  intros H. unfold run in H. destruct (init_hist P Xs s) as [h0|]; [|discriminate]. cbn [bind] in H.
  destruct (ao_loop E P Xs (Z.to_nat M) 0 s h0) as [[[[s1 h] it] msg]|] eqn:EL; [|discriminate]. cbn [bind] in H.
  match type of H with (let* feas := ?e in _) = _ => destruct e as [fe|] eqn:EF; [|discriminate] end. cbn [bind] in H.
  destruct (revalidate _) as [c|] eqn:ER; [|discriminate]. cbn [bind] in H.
  exists h0, s1, h, it, msg, c, fe. split; [reflexivity|]. split; [exact EL|]. split; [exact ER|]. destruct (p_return_errors P); injection H as <- <-; split; auto.
Qed.
Lemma factors_fits Xs R K c : (forall X, In X Xs -> mc X = K) -> factors_sized Xs R K c -> fits Xs R c.
Proof.
  intros HK (SA & LB & SB & SC). split; [exact SA|]. split; [exact LB|]. split.
  - intros i X B HX HB. assert (Hi : i < length Xs) by (apply nth_error_Some; congruence). specialize (SB i Hi).
    now rewrite (nth_error_nth _ _ M0 HX), (nth_error_nth _ _ M0 HB) in SB.
  - intros X HX. now rewrite (HK X HX).
Qed.
Lemma sized_self X r c : sized X r c -> sized X (mr X) c.
Proof. intros (E & S). rewrite E. now split. Qed.
Lemma factors_shaped Xs R K c : factors_sized Xs R K c -> shaped c R.
Proof.
  intros (SA & LB & SB & SC). split; [now rewrite LB|]. split.
  - intros B HB. apply (In_nth _ _ M0) in HB as (i & Hi & <-). rewrite LB in Hi. exact (sized_self _ _ _ (SB i Hi)).
  - exact (sized_self _ _ _ SC).
Qed.
(** Everything about the final state at once. *)
Lemma fit_final V IE rnd a out : svd_widths (e_ext V) -> cmf_aoadmm V IE rnd a = Ok out ->
  exists t pos c0 R K s' , parse_all V (f_kw a) (f_regs a) (f_aux a) (f_dual a) = Ok t /\
    initialize_cmf (e_ext V) IE rnd (f_data a) (f_rank a) (f_init a) 0 = Ok (c0, pos) /\
    (forall X, In X (f_data a) -> mc X = K) /\ ((exists m, used a t m <> []) -> f_rank a = PyInt (Z.of_nat R)) /\
    out_cmf out = st_cmf s' /\ (forall v, out_vars out = Some v -> v = vars_of s') /\
    factors_sized (f_data a) R K c0 /\ factors_sized (f_data a) R K (st_cmf s') /\
    (f_updA a = false -> cA (st_cmf s') = cA c0) /\ (f_updB a = false -> cBs (st_cmf s') = cBs c0) /\ (f_updC a = false -> cC (st_cmf s') = cC c0) /\
    ((0 < f_n_iter a)%Z -> (0 < f_inner a)%Z ->
       mpens (st_rA s') = used a t 0 /\ bpens (st_rB s') = used a t 1 /\ mpens (st_rC s') = used a t 2 /\
       (f_updA a = true -> Forall m_meets (st_rA s') /\ Forall (a_sized (f_data a) R) (st_rA s')) /\
       (f_updB a = true -> Forall b_meets (st_rB s') /\ Forall (b_sized (f_data a) R) (st_rB s')) /\
       (f_updC a = true -> Forall m_meets (st_rC s') /\ Forall (c_sized R K) (st_rC s'))).
Proof.
  intros HE H. destruct (fit_pieces _ _ _ _ _ H) as (s & l2 & flags & s' & od & ES & ER & EO). pose proof (fit_fields a l2 flags) as FF. set (P := fit_params a l2 flags) in *.
  cbv zeta in FF. destruct FF as (F1 & F2 & F3 & F4 & _).
  destruct (setup_pieces _ _ _ _ _ _ ES) as (pos & t & R & K & EI & EP & PA & PB & PC & SH & SS & HK & RK).
  destruct (run_pieces _ _ _ _ _ _ _ ER) as (h0 & s1 & h & it & msg & c & fe & EH & EL & EV & -> & _).
  destruct (loop_sizes _ HE _ _ _ HK P _ _ _ _ _ _ _ _ SS EL) as ((S1 & C1) & V1).
  destruct (revalidate_same _ _ _ (factors_shaped _ _ _ _ S1) EV) as (RA & RB & RC).
  destruct (loop_frozen _ _ _ _ _ _ _ _ _ _ _ EL) as (Z1 & Z2 & Z3). rewrite F2, F3, F4 in *.
  exists t, pos, (st_cmf s), R, K, (St c (st_rA s1) (st_rB s1) (st_rC s1) (st_inter s1)). subst out. cbn [out_cmf out_vars st_cmf st_rA st_rB st_rC].
  split; [exact EP|]. split; [exact EI|]. split; [exact HK|]. split; [exact RK|]. split; [reflexivity|]. split.
  { intros v. destruct (f_return_vars a); [|discriminate]. intros X. now injection X as <-. }
  split; [apply SS|]. split. { destruct S1 as (Y1 & Y2 & Y3 & Y4). unfold factors_sized. rewrite RA, RB, RC. auto. }
  rewrite RA, RB, RC. split; [exact Z1|]. split; [exact Z2|]. split; [exact Z3|]. intros HN HI.
  assert (Hi : 0 < p_inner P) by (rewrite F1; lia).
  destruct (loop_meets HO _ _ _ Hi _ _ _ _ _ _ _ _ EL) as ((Q1 & Q2 & Q3) & M1). specialize (M1 ltac:(lia)). specialize (V1 ltac:(lia) Hi).
  destruct M1 as (M1 & M2 & M3), V1 as (V1 & V2 & V3). rewrite F2, F3, F4 in *. rewrite Q1, Q2, Q3.
  split; [exact PA|]. split; [exact PB|]. split; [exact PC|]. split; [|split]; auto.
Qed.

(** ** Which penalties a mode has *)
Definition box_of (k : modekw) : penalty :=
  Box (if btruthy (k_nn k) then Some (match k_lower k with None => n0 | Some x => nmax x n0 end) else k_lower k) (k_upper k).
Lemma parse_mode_has V k ai di l : parse_mode V k ai di = Ok l -> let ps := map o_pen l in
  (btruthy (k_uni k) = true -> In (Unimodality (btruthy (k_nn k))) ps) /\
  (k_lower k <> None \/ k_upper k <> None -> In (box_of k) ps) /\
  (btruthy (k_nn k) = true -> In (Unimodality true) ps \/ (exists b, lt n0 b /\ In (L2Ball b true) ps) \/ (exists r, In (L1Penalty r true) ps) \/
     ((k_lower k <> None \/ k_upper k <> None) /\ In (box_of k) ps) \/ In NonNegativity ps).
Proof.
  intros H. unfold parse_mode in H. cbv zeta in H. set (nn := btruthy (k_nn k)) in *.
  match type of H with (let* gl := ?e in _) = _ => destruct e as [gl|]; [|discriminate] end. cbn [bind] in H.
  match type of H with (let* ball := ?e in _) = _ => destruct e as [ball|] eqn:EB; [|discriminate] end. cbn [bind] in H.
  match type of H with (let* tv := ?e in _) = _ => destruct e as [tv|]; [|discriminate] end. cbn [bind] in H.
  set (l1 := if otruthy (k_tv k) then n0 else _) in *.
  match type of H with (let* lone := ?e in _) = _ => destruct e as [lone|] eqn:E1; [|discriminate] end. cbn [bind] in H.
  match type of H with context[match k_lower k with Some _ => _ | None => _ end] => idtac | _ => idtac end.
  set (box := match k_lower k, k_upper k with None, None => [] | lo, hi => _ end) in H.
  assert (BX : match k_lower k, k_upper k with None, None => box = [] | _, _ => box = [PObj (box_of k) ai di] end).
  { unfold box, box_of. fold nn. destruct (k_lower k), (k_upper k); reflexivity. }
  clearbody box. injection H as <-. cbv zeta. rewrite !map_app.
  assert (BB : k_lower k <> None \/ k_upper k <> None -> box = [PObj (box_of k) ai di]).
  { destruct (k_lower k), (k_upper k); auto. intros [X|X]; now destruct X. }
  split; [|split].
  - intros U. rewrite U. apply in_or_app; right. apply in_or_app; left. now left.
  - intros X. rewrite (BB X). do 6 (apply in_or_app; right). apply in_or_app; left. now left.
  - intros NN. rewrite NN. destruct (btruthy (k_uni k)) eqn:EU.
    { left. apply in_or_app; right. apply in_or_app; left. now left. }
    destruct (match k_norm k with Some b => ntruthy b | None => false end) eqn:EN.
    { right; left. destruct (k_norm k) as [b|]; [|discriminate]. rewrite EN in EB. unfold mk_L2Ball in EB. destruct (nleb b n0) eqn:EL; [discriminate|]. cbn [bind] in EB.
      injection EB as <-. exists b. split; [unfold lt, le; congruence|]. rewrite NN. do 3 (apply in_or_app; right). apply in_or_app; left. now left. }
    destruct (ntruthy l1) eqn:EL.
    { right; right; left. unfold mk_L1 in E1. destruct (nltb l1 n0); [discriminate|]. cbn [bind] in E1. injection E1 as <-. exists l1. rewrite NN.
      do 5 (apply in_or_app; right). apply in_or_app; left. now left. }
    destruct (k_lower k) as [lo|] eqn:KL.
    { right; right; right; left. split; [left; discriminate|]. rewrite BB by (left; discriminate). do 6 (apply in_or_app; right). apply in_or_app; left. now left. }
    destruct (k_upper k) as [hi|] eqn:KU.
    { right; right; right; left. split; [right; discriminate|]. rewrite BB by (right; discriminate). do 6 (apply in_or_app; right). apply in_or_app; left. now left. }
    subst box. right; right; right; right. do 7 (apply in_or_app; right). now left.
Qed.
End OrderFit.
