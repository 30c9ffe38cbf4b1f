(** * Clones are equal to what they were cloned from; optional values *)
From Verif Require Import Machine Spec Prims SparseModel SparseSpec SparseProofs SparseProofs2 KeySpec KeyProofs.

Section clones.
Context {A : Type} (cl : nat -> A -> option A) (eqA : A -> A -> bool).
Hypothesis same : forall k a a', cl k a = Some a' -> eqA a' a = true.
Lemma clones_eq : forall l k, length (clones cl k l) = length l -> slice_eq eqA (clones cl k l) l = true.
Proof.
  induction l as [|a l IH]; intros k Hl; cbn [clones] in *; [reflexivity|].
  destruct (cl k a) as [a'|] eqn:E; cbn [length] in Hl; [|lia]. cbn [slice_eq]. rewrite (same k a a' E). apply IH. lia.
Qed.
Lemma refill_eq : forall s vs, length vs = length (values s) -> slice_eq eqA vs (values s) = true ->
  slice_eq (opt_eqb eqA) (refill s vs) s = true.
Proof.
  unfold values, entries. intros s. generalize 0 as k.
  induction s as [|[a|] s IH]; intros k vs Hl HE; [reflexivity| |]; cbn [entries_from map snd refill slice_eq opt_eqb] in *.
  - destruct vs as [|v vs]; cbn [length slice_eq] in *; [discriminate|]. apply andb_true_iff in HE as [H1 H2].
    injection Hl as Hl. cbn. rewrite H1. apply (IH (S k)); assumption.
  - cbn. apply (IH (S k)); assumption.
Qed.
End clones.

Section options.
Context {A : Type} (eqA : A -> A -> bool).
Lemma opt_peq : peq_laws anything (elt2 eqA) -> peq_laws anything (elt2 (opt_eqb eqA)).
Proof.
  intros [_ S T]. unfold elt2, anything in *. split; [eauto| |].
  - intros [x|] [y|] _ _; cbn; try discriminate; [|reflexivity]. intros HE. apply S; auto.
  - intros [x|] [y|] [z|] _ _ _; cbn; try discriminate; try reflexivity. intros H1 H2. eapply T; eauto.
Qed.
Lemma opt_refl : eq_refl_law anything (elt2 eqA) -> eq_refl_law anything (elt2 (opt_eqb eqA)).
Proof. intros R [x|] _; [exact (R x I)|reflexivity]. Qed.
End options.
