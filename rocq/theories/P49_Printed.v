(** Properties of the printed form of penalties: C93. *)
From Coq Require Import List Arith Bool String Ascii Lia ZArith QArith.
From Verif Require Import Num Numpy Penalties InitVars Parse Repr ReprSpec.
Import ListNotations.
Local Open Scope nat_scope.
Local Open Scope string_scope.

(** ** Strings *)
Lemma app_assoc_s (a b c : string) : (a ++ b) ++ c = a ++ (b ++ c). Proof. induction a as [|x a IH]; [reflexivity|]. cbn. now rewrite IH. Qed.
Lemma app_nil_s (a : string) : a ++ "" = a. Proof. induction a as [|x a IH]; [reflexivity|]. cbn. now rewrite IH. Qed.
Lemma app_cancel (a b c : string) : a ++ b = a ++ c -> b = c. Proof. induction a as [|x a IH]; [auto|]. cbn. intros H. injection H as H. auto. Qed.
Lemma free_app c a b : free_of c (a ++ b) <-> free_of c a /\ free_of c b.
Proof. induction a as [|x a IH]; cbn; [tauto|]. rewrite IH. tauto. Qed.
Lemma cut c : forall a b s t, free_of c a -> free_of c b -> a ++ String c s = b ++ String c t -> a = b /\ s = t.
Proof.
  induction a as [|x a IH]; intros [|y b] s t FA FB E; cbn in *; injection E; intros; subst; try (exfalso; tauto); [auto|].
  destruct (IH b s t) as (-> & ->); tauto.
Qed.
Lemma length_app_s a b : String.length (a ++ b) = String.length a + String.length b. Proof. induction a as [|x a IH]; cbn; [reflexivity|]. now rewrite IH. Qed.
Lemma cancel_right : forall a b c : string, a ++ c = b ++ c -> a = b.
Proof.
  induction a as [|x a IH]; intros [|y b] c E; cbn in E; [reflexivity| | |].
  - exfalso. apply (f_equal String.length) in E. cbn in E. rewrite length_app_s in E. lia.
  - exfalso. apply (f_equal String.length) in E. cbn in E. rewrite length_app_s in E. lia.
  - injection E as -> E. f_equal. eapply IH. exact E.
Qed.

Section Any.
Context {N : Num}.
Lemma concat_listed : forall (l : list (string * string)) (x y : string),
  String.concat ", " (map (fun kv : string * string => (fst kv ++ "=" ++ snd kv)%string) l ++ [x] ++ [y])%list = listed l ++ x ++ ", " ++ y.
Proof.
  induction l as [|(k & v) l IH]; intros x y; [reflexivity|]. cbn [map app listed fst snd]. rewrite !app_assoc_s. rewrite <- IH.
  destruct l as [|(k' & v') l]; cbn [map app String.concat]; rewrite !app_assoc_s; reflexivity.
Qed.

(** Property C93.  The printed form of a penalty has its class and all parameters of its constructor with their values,
    and nothing else. *)
Theorem C93_text (S : shows) (o : printable) :
  repr S o = "<'matcouply.penalties." ++ class_name (o_pen (r_obj o)) ++ "' with " ++ listed (parameters S o) ++
             init_param S "aux_init" (o_aux (r_obj o)) ++ ", " ++ init_param S "dual_init" (o_dual (r_obj o)) ++ ")>".
Proof.
  assert (E : filter (fun kv => auto_add (fst kv)) (attributes S o) = parameters S o) by (unfold attributes, parameters; destruct (o_pen (r_obj o)); reflexivity).
  unfold repr. rewrite E, concat_listed. rewrite !app_assoc_s. reflexivity.
Qed.

(** ** Reading it back *)
Lemma free_bool b : free_of "," (show_bool b). Proof. destruct b; repeat split; discriminate. Qed.
Lemma free_option S x : (forall x, free_of "," (s_num S x)) -> free_of "," (show_option S x). Proof. intros H. destruct x; [apply H|]. repeat split; discriminate. Qed.
Lemma free_str s : free_of "," s -> free_of "," (show_str s). Proof. intros H. unfold show_str. rewrite !free_app. split; [split; [discriminate|exact Logic.I]|]. split; [exact H|]. split; [discriminate|exact Logic.I]. Qed.
Lemma bool_inj a b : show_bool a = show_bool b -> a = b. Proof. destruct a, b; (reflexivity || discriminate). Qed.
Lemma str_inj a b : show_str a = show_str b -> a = b. Proof. unfold show_str. intros E. cbn in E. injection E as E. exact (cancel_right _ _ _ E). Qed.
Lemma option_inj S T x y : readable S T -> show_option S x = show_option T y -> x = y.
Proof.
  intros R E. destruct x as [x|], y as [y|]; cbn in E; [f_equal; now apply (rd_num _ _ R)| | |reflexivity].
  - exfalso. exact (proj1 (rd_num_None _ _ R) x E).
  - exfalso. exact (proj2 (rd_num_None _ _ R) y (eq_sym E)).
Qed.
Lemma value_cut (k v w s t : string) : free_of "," v -> free_of "," w -> k ++ "=" ++ v ++ ", " ++ s = k ++ "=" ++ w ++ ", " ++ t -> v = w /\ s = t.
Proof.
  intros FV FW E. apply app_cancel in E. cbn in E. injection E as E. apply (cut "," v w (String " " s) (String " " t)) in E; [|assumption|assumption]. destruct E as (-> & E). injection E as ->. auto.
Qed.
Lemma free_init S k v : free_of "," k -> free_of "," (s_unknown S) -> free_of "," (init_param S k v).
Proof.
  intros FK FU. destruct v as [n| | | |]; cbn [init_param]; rewrite !free_app; (split; [exact FK|]); try (repeat split; discriminate).
  split; [repeat split; discriminate|]. split; [destruct n; [repeat split; discriminate..|exact FU]|repeat split; discriminate].
Qed.
Lemma init_inj S T k a b : readable S T -> init_param S k a = init_param T k b -> same_init a b.
Proof.
  intros R E. pose proof (rd_unknown _ _ R) as U. cbn in U.
  destruct a as [s| | | |], b as [t| | | |]; cbn [init_param same_init] in *; try exact Logic.I; apply app_cancel in E; cbn in E; try discriminate.
  injection E as E. apply cancel_right in E. destruct s, t; cbn [init_name] in E; try reflexivity; try discriminate; exfalso;
    first [eapply (proj2 (U _ (or_introl eq_refl))); exact E | eapply (proj2 (U _ (or_intror (or_introl eq_refl)))); exact E | eapply (proj2 (U _ (or_intror (or_intror (or_introl eq_refl))))); exact E
          | eapply (proj1 (U _ (or_introl eq_refl))); exact (eq_sym E) | eapply (proj1 (U _ (or_intror (or_introl eq_refl)))); exact (eq_sym E) | eapply (proj1 (U _ (or_intror (or_intror (or_introl eq_refl))))); exact (eq_sym E)].
Qed.
Lemma inits_inj S T (o p : printable) : readable S T ->
  init_param S "aux_init" (o_aux (r_obj o)) ++ ", " ++ init_param S "dual_init" (o_dual (r_obj o)) ++ ")>" =
  init_param T "aux_init" (o_aux (r_obj p)) ++ ", " ++ init_param T "dual_init" (o_dual (r_obj p)) ++ ")>" ->
  same_init (o_aux (r_obj o)) (o_aux (r_obj p)) /\ same_init (o_dual (r_obj o)) (o_dual (r_obj p)).
Proof.
  intros R E. destruct (rd_unknown_comma _ _ R) as (U1 & U2).
  apply (cut "," _ _ (String " " _) (String " " _)) in E; [|apply free_init; [repeat split; discriminate|assumption]..]. destruct E as (E1 & E2). injection E2 as E2. apply cancel_right in E2.
  split; eapply init_inj; eassumption.
Qed.
Lemma class_free p : free_of "'" (class_name p). Proof. destruct p; repeat split; discriminate. Qed.

(** Two penalties with the same printed form are the same penalty. *)
Theorem C93_determined (S T : shows) (o p : printable) : readable S T -> free_of "," (r_svd o) -> free_of "," (r_svd p) -> repr S o = repr T p -> same_penalty o p.
Proof.
  intros R FO FP E. rewrite !C93_text in E. apply app_cancel in E.
  apply (cut "'" _ _ (" with " ++ _) (" with " ++ _)) in E; [|apply class_free..]. destruct E as (EC & E). apply app_cancel in E.
  destruct (rd_num_comma _ _ R) as (N1 & N2), (rd_int_comma _ _ R) as (I1 & I2).
  unfold same_penalty. unfold parameters in E. destruct (o_pen (r_obj o)), (o_pen (r_obj p)); cbn [class_name] in EC; try discriminate EC; try exact Logic.I; clear EC; cbn [listed] in E; rewrite ?app_assoc_s in E;
    repeat match type of E with ?k ++ "=" ++ ?v ++ ", " ++ ?s = ?k ++ "=" ++ ?w ++ ", " ++ ?t =>
      let Q := fresh "Q" in apply value_cut in E; [|solve [apply free_bool | apply N1 | apply N2 | apply I1 | apply I2 | apply free_str; assumption | apply free_option; assumption]..]; destruct E as (Q & E); rewrite ?app_assoc_s in E end;
    cbn [append] in E; destruct (inits_inj S T o p R E) as (A & B);
    repeat match goal with
    | Q : show_bool _ = show_bool _ |- _ => apply bool_inj in Q; subst
    | Q : s_num S _ = s_num T _ |- _ => apply (rd_num _ _ R) in Q; subst
    | Q : s_int S _ = s_int T _ |- _ => apply (rd_int _ _ R) in Q; subst
    | Q : show_option S _ = show_option T _ |- _ => apply (option_inj S T _ _ R) in Q; subst
    | Q : show_str _ = show_str _ |- _ => apply str_inj in Q
    end; split; try reflexivity; auto.
Qed.

(** ** The list of penalties *)
Lemma cut_list {A} (h : A) : forall a b s t, ~ In h a -> ~ In h b -> (a ++ h :: s = b ++ h :: t)%list -> a = b /\ s = t.
Proof.
  induction a as [|x a IH]; intros [|y b] s t FA FB E; cbn in *; injection E; intros; subst; try (exfalso; tauto); [auto|].
  destruct (IH b s t) as (-> & ->); tauto.
Qed.
Definition body (S : shows) (reg : list printable) : list string :=
  ((if (List.length reg =? 0)%nat then ["   - (no regularization added)"] else []) ++ map (fun r => "   - " ++ repr S r)%string reg)%list.
Lemma body_no_header S reg m : ~ In ("* Mode " ++ m ++ ":")%string (body S reg).
Proof.
  unfold body. rewrite in_app_iff, in_map_iff. intros [H|(r & E & _)]; [destruct (List.length reg =? 0)%nat; [destruct H as [E|[]]; discriminate|destruct H]|discriminate].
Qed.
Lemma body_inj S T : readable S T -> forall a b, plain_names a -> plain_names b -> body S a = body T b -> Forall2 same_penalty a b.
Proof.
  intros R a b FA FB E. unfold body in E.
  assert (NE : forall (U : shows) o, ("   - (no regularization added)" <> "   - " ++ repr U o)%string) by (intros U o H; rewrite C93_text in H; discriminate).
  assert (ML : forall a b, plain_names a -> plain_names b -> map (fun r => "   - " ++ repr S r)%string a = map (fun r => "   - " ++ repr T r)%string b -> Forall2 same_penalty a b).
  { clear a b FA FB E. induction a as [|x a IH]; intros [|y b] FA FB E; cbn [map] in E; try discriminate; [constructor|]. pose proof (f_equal (hd ""%string) E) as E1. pose proof (f_equal (@tl string) E) as E2. cbn [hd tl] in E1, E2. apply app_cancel in E1. inversion FA; subst. inversion FB; subst.
    constructor; [|now apply IH]. now apply (C93_determined S T). }
  destruct a as [|x a], b as [|y b]; [constructor| | |]; cbn [List.length Nat.eqb app] in E; [| |now apply ML].
  - apply (f_equal (hd ""%string)) in E. exfalso. exact (NE _ _ E).
  - apply (f_equal (hd ""%string)) in E. exfalso. exact (NE _ _ (eq_sym E)).
Qed.
(** What a fit prints about its penalties says which they are, mode by mode and in order. *)
Theorem C93_listing (S T : shows) (a b : three (list printable)) : readable S T ->
  (let '(a0, a1, a2) := a in plain_names a0 /\ plain_names a1 /\ plain_names a2) -> (let '(b0, b1, b2) := b in plain_names b0 /\ plain_names b1 /\ plain_names b2) ->
  penalty_lines S a = penalty_lines T b ->
  let '(a0, a1, a2) := a in let '(b0, b1, b2) := b in Forall2 same_penalty a0 b0 /\ Forall2 same_penalty a1 b1 /\ Forall2 same_penalty a2 b2.
Proof.
  destruct a as ((a0 & a1) & a2), b as ((b0 & b1) & b2). intros R (A0 & A1 & A2) (B0 & B1 & B2) E.
  assert (E' : (body S a0 ++ ("* Mode " ++ "1" ++ ":")%string :: body S a1 ++ ("* Mode " ++ "2" ++ ":")%string :: body S a2 =
                body T b0 ++ ("* Mode " ++ "1" ++ ":")%string :: body T b1 ++ ("* Mode " ++ "2" ++ ":")%string :: body T b2)%list).
  { unfold penalty_lines, mode_lines in E. cbn [app] in E. injection E as E. unfold body. rewrite <- !app_assoc. cbn [app append]. rewrite <- !app_assoc in E. exact E. }
  apply cut_list in E' as (E0 & E'); [|apply body_no_header..]. apply cut_list in E' as (E1 & E2); [|apply body_no_header..].
  split; [|split]; eapply body_inj; eassumption.
Qed.
(** One heading, a heading for each mode, and below it one line for each penalty or a line that says there is none. *)
Theorem C93_lines (S : shows) (a0 a1 a2 : list printable) :
  let below l := match l with [] => ["   - (no regularization added)"] | _ => map (fun o => "   - " ++ repr S o)%string l end in
  penalty_lines S (a0, a1, a2) = ("All regularization penalties (including regs list):" :: "* Mode 0:" :: below a0 ++ "* Mode 1:" :: below a1 ++ "* Mode 2:" :: below a2)%list.
Proof.
  cbv zeta. unfold penalty_lines, mode_lines. destruct a0, a1, a2; cbn [List.length Nat.eqb app map]; rewrite <- ?app_assoc; reflexivity.
Qed.
(** The output shown in README.rst has the parameters in another order. *)
Theorem C93_readme_differs (S : shows) (o : printable) (one : num) : s_num S one = "1" -> r_obj o = PObj (L2Ball one true) (IStr RandomUniform) (IStr RandomUniform) ->
  repr S o = "<'matcouply.penalties.L2Ball' with norm_bound=1, non_negativity=True, aux_init='random_uniform', dual_init='random_uniform')>" /\
  repr S o <> "<'matcouply.penalties.L2Ball' with aux_init='random_uniform', dual_init='random_uniform', norm_bound=1, non_negativity=True)>".
Proof.
  intros E1 EO. assert (E : repr S o = "<'matcouply.penalties.L2Ball' with norm_bound=1, non_negativity=True, aux_init='random_uniform', dual_init='random_uniform')>").
  { rewrite C93_text. unfold parameters. rewrite EO. cbn [o_pen o_aux o_dual class_name listed init_param init_name show_bool]. rewrite E1. reflexivity. }
  split; [exact E|]. rewrite E. discriminate.
Qed.
End Any.
Print Assumptions C93_text.
Print Assumptions C93_determined.
Print Assumptions C93_listing.
Print Assumptions C93_lines.
Print Assumptions C93_readme_differs.

(** Fractions written with as many ones as their numerator and denominator say can be told apart; the penalties of the
    README are printed, and with another bound they are printed differently. *)
Fixpoint ones (n : nat) : string := match n with O => "" | S n => String "1" (ones n) end.
Definition fraction (q : Q) : string :=
  (match Qnum q with Z0 => "0" | Zpos p => "+" ++ ones (Pos.to_nat p) | Zneg p => "-" ++ ones (Pos.to_nat p) end ++ "/" ++ ones (Pos.to_nat (Qden q)))%string.
Definition fractions : shows (N:=QNum) := Shows (N:=QNum) fraction (fun _ => "array") (fun _ => "array") ones "other".
Lemma ones_free c n : c <> "1"%char -> free_of c (ones n). Proof. intros H. induction n as [|n IH]; cbn; [exact Logic.I|]. split; [congruence|exact IH]. Qed.
Lemma ones_inj : forall m n, ones m = ones n -> m = n. Proof. induction m as [|m IH]; intros [|n] E; cbn in E; try discriminate; [reflexivity|]. injection E as E. f_equal. auto. Qed.
Example C93_nonvacuous : readable (N:=QNum) fractions fractions /\
  let ex (bound : Q) : three (list printable) :=
    ([Printable (N:=QNum) (PObj (N:=QNum) (L2Ball (N:=QNum) bound true) (IStr RandomUniform) (IStr RandomUniform)) "truncated_svd" true],
     [Printable (N:=QNum) (PObj (N:=QNum) (Parafac2 1 true true) (IStr RandomUniform) (IStr Zeros)) "truncated_svd" true], []) in
  penalty_lines fractions (ex (1 # 1)%Q) <> penalty_lines fractions (ex (2 # 1)%Q) /\ plain_names (snd (fst (ex (1 # 1)%Q))).
Proof.
  split; [|split; [discriminate|constructor; [repeat split; discriminate|constructor]]].
  assert (FN : forall x, free_of "," (fraction x)).
  { intros x. unfold fraction. rewrite !free_app. split; [|split; [repeat split; discriminate|apply ones_free; discriminate]].
    destruct (Qnum x); [repeat split; discriminate| |]; rewrite free_app; (split; [repeat split; discriminate|apply ones_free; discriminate]). }
  assert (FI : forall x, free_of "," (ones x)) by (intros x; apply ones_free; discriminate).
  constructor; cbn [s_num s_int s_unknown fractions]; try (split; assumption).
  - intros [n d] [m e] E. unfold fraction in E. cbn [Qnum Qden] in E. apply (cut "/") in E.
    + destruct E as (E1 & E2). apply ones_inj in E2. apply Pos2Nat.inj in E2. subst e. f_equal.
      destruct n, m; cbn in E1; try discriminate; try reflexivity; try (injection E1 as E1; apply ones_inj, Pos2Nat.inj in E1; now subst).
    + destruct n; [repeat split; discriminate| |]; rewrite free_app; (split; [repeat split; discriminate|apply ones_free; discriminate]).
    + destruct m; [repeat split; discriminate| |]; rewrite free_app; (split; [repeat split; discriminate|apply ones_free; discriminate]).
  - apply ones_inj.
  - assert (K : forall x, fraction x <> "None"%string) by (intros x; unfold fraction; destruct (Qnum x); discriminate). split; exact K.
  - intros n [<-|[<-|[<-|[]]]]; split; discriminate.
  - split; repeat split; discriminate.
Qed.
