(** * Sparse chunks: closed forms, and destructors that panic. *)
From Verif Require Import Machine Spec Prims SpecProps RingProofs SparseModel SparseSpec SparseProofs SparseProofs2.

Section proofs.
Context {A : Type} (e : env A) (N : nat).
Implicit Types (s t xs pre : list (option A)).
Notation SHolds := (SHolds (A:=A) N).
Notation SMade := (SMade (A:=A) N).

(** The array of [N] cells that starts with [xs], cut or padded with empty cells. *)
Definition padded xs : list (option A) := take N xs ++ no_cells (N - length xs).
(** No value of [xs] has a position beyond the capacity. *)
Definition fits xs : Prop := forall i v, xs !! i = Some (Some v) -> i < N.
Lemma padded_length xs : length (padded xs) = N.
Proof. unfold padded, no_cells. rewrite app_length, take_length, replicate_length. lia. Qed.
Lemma padded_lookup xs i : i < N -> padded xs !! i = Some (mjoin (xs !! i)).
Proof.
  intros Hi. unfold padded. destruct (decide (i < length xs)).
  - rewrite lookup_app_l by (rewrite take_length; lia). rewrite lookup_take by lia.
    destruct (lookup_lt_is_Some_2 xs i ltac:(lia)) as [x Hx]. rewrite Hx. reflexivity.
  - rewrite lookup_app_r by (rewrite take_length; lia). rewrite take_length.
    unfold no_cells. rewrite lookup_replicate_2 by lia. rewrite (lookup_ge_None_2 xs i) by lia. reflexivity.
Qed.
Lemma padded_snoc_none xs : padded (xs ++ [None]) = padded xs.
Proof.
  apply list_eq. intros i. destruct (decide (i < N)).
  - rewrite !padded_lookup by lia. f_equal. destruct (decide (i < length xs)).
    + rewrite lookup_app_l by lia. reflexivity.
    + rewrite lookup_app_r by lia. rewrite (lookup_ge_None_2 xs i) by lia. destruct (i - length xs); reflexivity.
  - rewrite !lookup_ge_None_2 by (rewrite padded_length; lia). reflexivity.
Qed.
Lemma padded_snoc_some xs v : length xs < N -> padded (xs ++ [Some v]) = <[length xs := Some v]> (padded xs).
Proof.
  intros Hl. apply list_eq. intros i. rewrite insert_if, padded_length. destruct (decide (i < N)).
  - rewrite !padded_lookup by lia. destruct (i =? length xs) eqn:E; cbn [andb].
    + rewrite if_true by lia. rewrite lookup_app_r by lia. replace (i - length xs) with 0 by lia. reflexivity.
    + f_equal. destruct (decide (i < length xs)).
      * rewrite lookup_app_l by lia. reflexivity.
      * rewrite !lookup_ge_None_2 by (rewrite ?app_length; cbn; lia). reflexivity.
  - replace (i =? length xs) with false by lia. cbn. rewrite !lookup_ge_None_2 by (rewrite padded_length; lia). reflexivity.
Qed.
Lemma ar_fill_prefix xs : forall pre rest, fits (pre ++ xs) ->
  ar_fill (map Yield xs ++ rest) (length pre) (padded pre) = ar_fill rest (length (pre ++ xs)) (padded (pre ++ xs)).
Proof.
  induction xs as [|x xs IH]; intros pre rest Hf.
  - rewrite app_nil_r. reflexivity.
  - specialize (IH (pre ++ [x]) rest). rewrite <- app_assoc in IH. cbn [app] in IH. specialize (IH Hf).
    rewrite app_length in IH. cbn [length] in IH. rewrite Nat.add_1_r in IH. rewrite <- IH.
    destruct x as [v|]; cbn [map app ar_fill].
    + assert (length pre < N). { apply (Hf (length pre) v). rewrite lookup_app_r by lia. rewrite Nat.sub_diag. reflexivity. }
      rewrite padded_length, if_true by lia. rewrite padded_snoc_some by assumption. reflexivity.
    + rewrite padded_snoc_none. reflexivity.
Qed.
Lemma padded_nil : padded [] = no_cells N.
Proof. unfold padded. rewrite take_nil. cbn. rewrite Nat.sub_0_r. reflexivity. Qed.
Lemma ar_from_iter_fits xs : fits xs -> ar_from_iter N (map Yield xs) = SRet tt (padded xs) [].
Proof.
  intros Hf. unfold ar_from_iter. pose proof (ar_fill_prefix xs [] [] Hf) as P. rewrite app_nil_r, padded_nil in P.
  cbn [app length] in P. rewrite P. reflexivity.
Qed.
Lemma fits_values xs : fits xs -> values (padded xs) = omap (fun x => x) xs.
Proof.
  intros Hf. rewrite values_omap. unfold padded. rewrite omap_app.
  assert (E : omap (fun x => x) (no_cells (A:=A) (N - length xs)) = []).
  { rewrite <- values_omap. apply values_no_cells. }
  rewrite E, app_nil_r. rewrite <- (take_drop N xs) at 2. rewrite omap_app.
  assert (E2 : omap (fun x => x) (drop N xs) = []).
  { assert (H : forall i v, drop N xs !! i = Some (Some v) -> False).
    { intros i v Hi. rewrite lookup_drop in Hi. apply Hf in Hi. lia. }
    induction (drop N xs) as [|[v|] l IH]; [reflexivity| |].
    - destruct (H 0 v eq_refl).
    - cbn. apply IH. intros i v Hi. apply (H (S i) v). exact Hi. }
  rewrite E2, app_nil_r. reflexivity.
Qed.
Lemma ar_from_iter_beyond pre v rest : fits pre -> N <= length pre ->
  ar_from_iter N (map Yield pre ++ Yield (Some v) :: rest) = SPanic tt ([v] ++ omap (fun x => x) pre) [].
Proof.
  intros Hf Hl. unfold ar_from_iter. pose proof (ar_fill_prefix pre [] (Yield (Some v) :: rest) Hf) as P. rewrite padded_nil in P.
  cbn [app length] in P. rewrite P. cbn [ar_fill]. rewrite padded_length, if_false by lia. rewrite fits_values by exact Hf. reflexivity.
Qed.
Lemma ar_from_iter_boom pre rest : fits pre ->
  ar_from_iter N (map Yield pre ++ Boom :: rest) = SPanic tt (omap (fun x => x) pre) [].
Proof.
  intros Hf. unfold ar_from_iter. pose proof (ar_fill_prefix pre [] (Boom :: rest) Hf) as P. rewrite padded_nil in P.
  cbn [app length] in P. rewrite P. cbn [ar_fill]. rewrite fits_values by exact Hf. reflexivity.
Qed.

(** Assigning through a reference when the destructor of the old value panics: the new value is stored. *)
Lemma sp_assign_bomb c s g i v a : SHolds c s -> s !! i = Some (Some a) -> bomb e a = true ->
  exists c' g', sp_assign e N i v c g = Panic c' g' /\ SHolds c' (<[i := Some v]> s) /\
    dropped g' = dropped g ++ [a] /\ leaked g' = leaked g.
Proof.
  intros H Hi Hb. unfold sp_assign. erewrite bind_Ret by (apply sp_get_eq; exact H). rewrite Hi. cbn [mjoin option_join].
  destruct (overwrite N c s i a v H Hi g) as (c' & Hc' & Hl & E1 & E2).
  erewrite bind_Ret by exact E1. erewrite bind_Ret by exact E2.
  eexists c', _. split; [|split; [exact Hc'|]].
  - unfold drop_values. cbn [List.filter]. rewrite Hb. reflexivity.
  - cbn. auto.
Qed.
End proofs.
