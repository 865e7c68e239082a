(** The dictionary [init_params]: C42 (it is changed) and C53 (what the decompositions receive). *)
From Coq Require Import List Arith Bool ZArith String Lia.
From Verif Require Import Num Numpy Penalties CoupledMatrices Decomp InitVars Parse Fit InitParams.
Import ListNotations.

Section Params.
Context {N : Num}.
Implicit Types (E : ext) (IE : dict -> initext) (rnd : rand) (Xs : list mat).

Lemma dict_set_same d k v : dict_get (dict_set d k v) k = Some v.
Proof. induction d as [|[k' v'] d IH]; cbn; [now rewrite String.eqb_refl|]. destruct (String.eqb k k') eqn:H; cbn; rewrite H; auto. Qed.
Lemma dict_set_other d k v j : j <> k -> dict_get (dict_set d k v) j = dict_get d j.
Proof.
  intros H. induction d as [|[k' v'] d IH]; cbn.
  - destruct (String.eqb_spec j k); congruence.
  - destruct (String.eqb_spec k k') as [<-|K]; cbn; destruct (String.eqb_spec j k) as [J|J]; try contradiction; auto.
    destruct (String.eqb j k'); auto.
Qed.
Definition keyed (p : option dict) (k : string) : option pyval := match p with None => None | Some d => dict_get d k end.

(** C53: the decomposition behind a name is called with the caller's keywords, with [n_iter_max = 50] if it is
    not among them; a second call with the same dictionary receives the same keywords. *)
Theorem C53_init_params E IE rnd Xs rank m pos p : ~ In m [MRandom; MSvd; MThresholdSvd] ->
  exists d, fst (initialize_cmf_params E IE rnd Xs rank (InitName m) pos p) = initialize_cmf E (IE d) rnd Xs rank (InitName m) pos /\
    (forall k, k <> "n_iter_max"%string -> dict_get d k = keyed p k) /\
    (dict_get d "n_iter_max" = match keyed p "n_iter_max" with Some v => Some v | None => Some (VInt 50) end) /\
    forall rnd' Xs' pos', fst (initialize_cmf_params E IE rnd' Xs' rank (InitName m) pos' (snd (initialize_cmf_params E IE rnd Xs rank (InitName m) pos p))) =
      initialize_cmf E (IE d) rnd' Xs' rank (InitName m) pos'.
Proof.
  intros H.
  assert (K : initialize_cmf_params E IE rnd Xs rank (InitName m) pos p =
    (initialize_cmf E (IE (fill_params p)) rnd Xs rank (InitName m) pos, match p with None => None | Some _ => Some (fill_params p) end)).
  { destruct m; try reflexivity; destruct H; cbn; auto. }
  assert (KK : forall rnd' Xs' pos' q, fst (initialize_cmf_params E IE rnd' Xs' rank (InitName m) pos' q) = initialize_cmf E (IE (fill_params q)) rnd' Xs' rank (InitName m) pos').
  { intros. destruct m; try reflexivity; destruct H; cbn; auto. }
  exists (fill_params p). rewrite K. cbn [fst snd]. split; [reflexivity|].
  assert (F : forall d, dict_get (fill_params (Some d)) "n_iter_max" = match dict_get d "n_iter_max" with Some v => Some v | None => Some (VInt 50) end).
  { intros d. unfold fill_params. destruct (dict_get d "n_iter_max") eqn:G; [exact G|apply dict_set_same]. }
  split; [|split].
  - intros k Hk. unfold fill_params. destruct p as [d|]; [|cbn; destruct (String.eqb_spec k "n_iter_max"); [contradiction|reflexivity]]. cbn [keyed].
    destruct (dict_get d "n_iter_max"); [reflexivity|]. now apply dict_set_other.
  - destruct p as [d|]; [apply F|reflexivity].
  - intros rnd' Xs' pos'. rewrite KK. destruct p as [d|]; [|reflexivity]. f_equal. f_equal. unfold fill_params at 1. rewrite F. destruct (dict_get d "n_iter_max"); reflexivity.
Qed.

(** C42: what the caller's dictionary holds afterwards.  Only the key n_iter_max can change, and only when
    it was missing: starts by 'parafac', 'parafac2' and the like add it, also an unknown name, which then raises. *)
Theorem C42_init_params_partial E IE rnd Xs rank init pos d :
  exists d', snd (initialize_cmf_params E IE rnd Xs rank init pos (Some d)) = Some d' /\
    (forall k, k <> "n_iter_max"%string -> dict_get d' k = dict_get d k) /\
    (forall v, dict_get d "n_iter_max" = Some v -> d' = d).
Proof.
  assert (F : exists d', Some (fill_params (Some d)) = Some d' /\ (forall k, k <> "n_iter_max"%string -> dict_get d' k = dict_get d k) /\
    (forall v, dict_get d "n_iter_max" = Some v -> d' = d)).
  { exists (fill_params (Some d)). split; [reflexivity|]. unfold fill_params. destruct (dict_get d "n_iter_max") eqn:G.
    - split; auto.
    - split; [|discriminate]. intros k Hk. now apply dict_set_other. }
  destruct init as [l|[]]; cbn [initialize_cmf_params snd]; eauto 6.
Qed.
Theorem C42_init_params_refuted E IE rnd Xs rank m pos d : ~ In m [MRandom; MSvd; MThresholdSvd] -> dict_get d "n_iter_max" = None ->
  exists d', snd (initialize_cmf_params E IE rnd Xs rank (InitName m) pos (Some d)) = Some d' /\ dict_get d' "n_iter_max" = Some (VInt 50) /\ d' <> d.
Proof.
  intros H G. exists (fill_params (Some d)).
  assert (F : dict_get (fill_params (Some d)) "n_iter_max" = Some (VInt 50)) by (unfold fill_params; rewrite G; apply dict_set_same).
  split; [destruct m; try reflexivity; destruct H; cbn; auto|]. split; [exact F|]. intros K. rewrite K in F. congruence.
Qed.
(** an unknown name raises ValueError and has changed the dictionary *)
Example C42_init_params_unknown E IE rnd (X : mat) rank :
  initialize_cmf_params E IE rnd [X] rank (InitName MUnknown) 0 (Some [("tol"%string, VOther 0)]) =
    (Err ValueError, Some [("tol"%string, VOther 0); ("n_iter_max"%string, VInt 50)]).
Proof.
  unfold initialize_cmf_params. f_equal. unfold initialize_cmf.
  destruct (create_padded_tensor [X]) eqn:K; [reflexivity|]. unfold create_padded_tensor in K. cbn in K. rewrite Nat.eqb_refl in K. discriminate.
Qed.
End Params.
Print Assumptions C53_init_params.
Print Assumptions C42_init_params_partial.
Print Assumptions C42_init_params_refuted.
