(** One external record that does its job for all sizes, so that the hypotheses
    [svd_correct] and [tv_correct] of the theorems can always be met.  The only
    use of the library axiom [constructive_indefinite_description]. *)
From Coq Require Import Reals Lra Lia List Arith Bool IndefiniteDescription Classical_Prop.
From Verif Require Import Num Numpy RFacts Spec ModelSpec Penalties PenaltySpec Exist.
Import ListNotations.
Local Open Scope R_scope.

Lemma ideal_exists : exists E : ext (N:=RNum), (forall k, svd_correct E k) /\ (forall r, tv_correct E r).
Proof.
  assert (S : forall p : mat (N:=RNum) * nat, exists t, mwf (fst p) -> mc (fst p) = snd p -> (snd p <= mr (fst p))%nat -> has_svd (fst p) (snd p) t).
  { intros [M k]. cbn [fst snd]. destruct (classic (mwf M /\ mc M = k /\ (k <= mr M)%nat)) as [(W & C & K)|N].
    - destruct (svd_exists M k W C K) as (t & H). now exists t.
    - exists (M, [], M). intros W C K. exfalso. apply N. auto. }
  assert (T : forall p : list R * R, exists x, 0 < snd p -> tv_minimiser (fst p) (snd p) x).
  { intros [v lam]. cbn [fst snd]. destruct (Rlt_dec 0 lam) as [L|L]; [|exists v; intros; contradiction].
    destruct (tv_exists v lam L) as (x & H). now exists x. }
  apply functional_choice in S. destruct S as (f & Hf). apply functional_choice in T. destruct T as (g & Hg).
  exists (Ext (N:=RNum) (fun M k => f (M, k)) (fun v lam => g (v, lam))). split.
  - intros k M W C K. exact (Hf (M, k) W C K).
  - intros r v lam L H. exact (Hg (v, lam) H).
Qed.
