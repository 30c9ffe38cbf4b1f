(** * The fuzz targets of [SparseChunk] and [InlineArray] always succeed. *)
From Verif Require Import Machine Spec Prims IterSpec SparseModel SparseSpec SparseProofs SparseProofs2 SparseProofs3
  SparseLaws2 InlineModel InlineSpec InlineProofs InlineProofs2 InlineProofs3 FuzzModel FuzzSpec FuzzProofs.
From stdpp Require Import gmap.

Section sparse.
Context (e : env nat) (N : nat).
Hypothesis Hcalm : calm e.
Hypothesis HN : 0 < N.
Hypothesis HW : N < word e.

(** The chunk holds the entries of the map. *)
Definition Maps (c : sparse nat) (m : gmap nat nat) : Prop :=
  exists s, SHolds N c s /\ forall i, mjoin (s !! i) = m !! i.

Lemma maps_below c m i v : Maps c m -> m !! i = Some v -> i < N.
Proof.
  intros (s & H & Hm) Hi. rewrite <- Hm in Hi. destruct (s !! i) as [x|] eqn:E; [|discriminate].
  apply lookup_lt_Some in E. destruct H as [<- _]. exact E.
Qed.
Lemma maps_size c m : Maps c m -> size m <= N.
Proof.
  intros H. replace (size m) with (length (fst <$> map_to_list m)) by (rewrite fmap_length; reflexivity).
  rewrite <- (seq_length N 0). apply submseteq_length. apply NoDup_submseteq; [apply NoDup_fst_map_to_list|].
  intros i Hi. apply elem_of_list_fmap in Hi as ([j v] & -> & Hj). apply elem_of_map_to_list in Hj.
  apply elem_of_seq. cbn. pose proof (maps_below c m j v H Hj). lia.
Qed.
Lemma wp_sparse_is c m (Q : unit -> Prop) : Maps c m -> Q tt -> wp (sparse_is N c m) Q.
Proof.
  intros (s & H & Hm) HQ. unfold sparse_is.
  eapply wp_bind; [apply wp_reads; intros g; apply sp_eq_map_ok; exact H|]. intros ? ->.
  apply wp_assert; [|exact HQ].
  replace (size m) with (length (map fst (map_to_list m))) by (rewrite map_length; reflexivity).
  apply (cells_eq_map_iff N Nat.eqb).
  - intros a b. apply Nat.eqb_eq.
  - apply NoDup_fst_map_to_list.
  - intros i. rewrite in_map_iff. split.
    + intros ([j v] & <- & Hj). apply elem_of_list_In, elem_of_map_to_list in Hj. cbn. rewrite Hj. reflexivity.
    + destruct (m !! i) as [v|] eqn:E; cbn; [|discriminate]. intros _. exists (i, v). split; [reflexivity|].
      apply elem_of_list_In, elem_of_map_to_list. exact E.
  - intros i. symmetry. apply Hm.
Qed.
Lemma wp_sparse_end c m (Q : unit -> Prop) : Maps c m -> Q tt -> wp (sparse_end e N c) Q.
Proof.
  intros (s & H & _) HQ. unfold sparse_end.
  eapply wp_bind; [eapply wp_call; [intros g; apply sp_destroy_ok; eassumption|reflexivity]|].
  intros ? _. apply wp_pass. exact HQ.
Qed.
Lemma maps_put s (m : gmap nat nat) i x : length s = N -> i < N -> (forall j, mjoin (s !! j) = m !! j) ->
  forall j, mjoin (<[i := x]> s !! j) = match x with Some v => <[i := v]> m !! j | None => delete i m !! j end.
Proof.
  intros Hl Hi Hm j. rewrite insert_if. destruct (j =? i) eqn:E.
  - replace (i <? length s) with true by lia. cbn [andb]. apply Nat.eqb_eq in E. subst j.
    destruct x; cbn; [rewrite lookup_insert|rewrite lookup_delete]; reflexivity.
  - cbn [andb]. rewrite Hm. destruct x; [rewrite lookup_insert_ne by lia|rewrite lookup_delete_ne by lia]; reflexivity.
Qed.
Lemma no_cells_empty j : mjoin (no_cells (A:=nat) N !! j) = (∅ : gmap nat nat) !! j.
Proof.
  rewrite lookup_empty. destruct (decide (j < N)); [rewrite no_cells_lookup by assumption|rewrite no_cells_beyond by lia]; reflexivity.
Qed.
Theorem wp_sparse_make k : wp (sparse_make e N k) (fun c => exists m, Maps c m).
Proof.
  destruct k as [|i v|i1 v1 i2 v2]; cbn [sparse_make].
  - eapply wp_bind; [apply wp_reads; intros g; reflexivity|]. intros ? ->.
    pose proof (sparse0_holds (A:=nat) N) as H0.
    eapply wp_bind; [apply wp_reads; intros g|]. 2: intros ? ->.
    { unfold sp_is_empty. erewrite (bind_Ret get) by reflexivity. reflexivity. }
    eapply (wp_bind _ _ (fun _ => True)); [apply wp_assert; [|exact I]|intros _ _].
    { rewrite (sholds_len N _ _ H0), values_no_cells. reflexivity. }
    apply wp_pass. exists ∅, (no_cells N). split; [exact H0|]. apply no_cells_empty.
  - assert (Hi : i mod N < N) by (apply Nat.mod_upper_bound; lia). cbv zeta. set (k := i mod N) in *. clearbody k.
    eapply wp_bind; [eapply wp_call; [intros g; apply sp_unit_ok; auto|]|].
    { unfold ar_unit. replace (k <? N) with true by lia. reflexivity. }
    intros [u r] [_ Hr]. unfold SMade in Hr. cbn [fst snd] in *.
    assert (HM : Maps (fst r) (<[k := v]> ∅)).
    { eexists. split; [exact Hr|]. apply (maps_put _ _ k (Some v)); [apply replicate_length|exact Hi|apply no_cells_empty]. }
    eapply (wp_bind _ _ (fun _ => True)); [eapply wp_sparse_is; [exact HM|exact I]|intros _ _]. apply wp_pass. eauto.
  - assert (Hi1 : i1 mod N < N) by (apply Nat.mod_upper_bound; lia).
    assert (Hi2 : i2 mod N < N) by (apply Nat.mod_upper_bound; lia). cbv zeta.
    set (k1 := i1 mod N) in *. set (k2 := i2 mod N) in *. clearbody k1 k2.
    eapply wp_bind; [eapply wp_call; [intros g; apply sp_pair_ok; auto|]|].
    { unfold ar_pair. replace (k1 <? N) with true by lia. replace (k2 <? N) with true by lia. reflexivity. }
    intros [u r] [_ Hr]. unfold SMade in Hr. cbn [fst snd] in *.
    assert (HM : Maps (fst r) (<[k2 := v2]> (<[k1 := v1]> ∅))).
    { eexists. split; [exact Hr|].
      apply (maps_put _ _ k2 (Some v2)); [rewrite insert_length; apply replicate_length|exact Hi2|].
      apply (maps_put _ _ k1 (Some v1)); [apply replicate_length|exact Hi1|apply no_cells_empty]. }
    eapply (wp_bind _ _ (fun _ => True)); [eapply wp_sparse_is; [exact HM|exact I]|intros _ _]. apply wp_pass. eauto.
Qed.
Theorem wp_sparse_action a c m : Maps c m -> wp (sparse_action e N a c m) (fun x => Maps (fst x) (snd x)).
Proof.
  intros (s & H & Hm). pose proof H as (Hl & _).
  assert (HM : Maps c m) by (exists s; auto).
  destruct a as [i v|i|]; cbn [sparse_action].
  - destruct (N <=? i) eqn:E.
    + eapply wp_bind; [eapply wp_panic; [intros g; apply sp_insert_ok; eassumption|]|].
      { unfold ar_insert. rewrite lookup_ge_None_2 by lia. reflexivity. }
      intros c' H'. apply wp_pass. exists s. auto.
    + destruct (lookup_lt_is_Some_2 s i ltac:(lia)) as [x Hx].
      eapply wp_bind; [eapply wp_call; [intros g; apply sp_insert_ok; eassumption|]|].
      { unfold ar_insert. rewrite Hx. reflexivity. }
      intros [c' r] [H' Hr]. cbn [fst snd] in *. subst r.
      eapply (wp_bind _ _ (fun _ => True)); [apply wp_assert; [|exact I]|intros _ _].
      { rewrite <- Hm, Hx. apply opt_eq_refl. }
      apply wp_pass. eexists. split; [exact H'|]. apply (maps_put s m i (Some v)); [exact Hl|lia|exact Hm].
  - destruct (N <=? i) eqn:E.
    + eapply wp_bind; [eapply wp_panic; [intros g; apply sp_remove_ok; eassumption|]|].
      { unfold ar_remove. rewrite lookup_ge_None_2 by lia. reflexivity. }
      intros c' H'. apply wp_pass. exists s. auto.
    + destruct (lookup_lt_is_Some_2 s i ltac:(lia)) as [x Hx].
      eapply wp_bind; [eapply wp_call; [intros g; apply sp_remove_ok; eassumption|]|].
      { unfold ar_remove. rewrite Hx. reflexivity. }
      intros [c' r] [H' Hr]. cbn [fst snd] in *. subst r.
      eapply (wp_bind _ _ (fun _ => True)); [apply wp_assert; [|exact I]|intros _ _].
      { rewrite <- Hm, Hx. apply opt_eq_refl. }
      apply wp_pass. eexists. split; [exact H'|]. apply (maps_put s m i None); [exact Hl|lia|exact Hm].
  - eapply wp_bind; [apply wp_reads; intros g|]. 2: intros ? ->.
    { unfold sp_first_index. erewrite (bind_Ret get) by reflexivity. rewrite (sholds_first N c s H). reflexivity. }
    unfold occupied. destruct (entries s) as [|[i a] es] eqn:Es; cbn [map fst head].
    + eapply wp_bind; [eapply wp_call; [intros g; apply sp_pop_ok; eassumption|]|].
      { unfold ar_pop. rewrite Es. reflexivity. }
      intros [c' r] [H' Hr]. cbn [fst snd] in *. subst r.
      eapply (wp_bind _ _ (fun _ => True)); [apply wp_assert; [reflexivity|exact I]|intros _ _].
      apply wp_pass. exists s. auto.
    + assert (Hi : s !! i = Some (Some a)) by (apply entries_in; rewrite Es; left; reflexivity).
      pose proof (lookup_lt_Some _ _ _ Hi).
      eapply wp_bind; [eapply wp_call; [intros g; apply sp_pop_ok; eassumption|]|].
      { unfold ar_pop. rewrite Es. reflexivity. }
      intros [c' r] [H' Hr]. cbn [fst snd] in *. subst r.
      eapply (wp_bind _ _ (fun _ => True)); [apply wp_assert; [|exact I]|intros _ _].
      { rewrite <- Hm, Hi. apply opt_eq_refl. }
      apply wp_pass. eexists. split; [exact H'|]. apply (maps_put s m i None); [exact Hl|lia|exact Hm].
Qed.
Theorem wp_sparse_actions al : forall c m, Maps c m -> wp (sparse_actions e N al c m) (fun x => Maps (fst x) (snd x)).
Proof.
  induction al as [|a al IH]; intros c m H; cbn [sparse_actions]; [apply wp_pass; exact H|].
  eapply wp_bind; [apply wp_sparse_action; exact H|]. intros [c' m'] H'. cbn [fst snd] in *.
  eapply (wp_bind _ _ (fun _ => True)); [eapply wp_sparse_is; [exact H'|exact I]|intros _ _].
  pose proof (maps_size _ _ H').
  eapply (wp_bind _ _ (fun _ => True)); [apply wp_assert; [lia|exact I]|intros _ _].
  apply IH. exact H'.
Qed.
Lemma entries_guide (s : list (option nat)) i : mjoin (s !! i) = (list_to_map (rev (entries s)) : gmap nat nat) !! i.
Proof.
  assert (Hnd : NoDup (map fst (rev (entries s)))).
  { rewrite map_rev. apply NoDup_ListNoDup, List.NoDup_rev, NoDup_ListNoDup.
    destruct (entries_sorted s) as [Hs _]. unfold occupied in Hs. induction Hs as [|j l Hs IH Hf]; constructor; auto.
    rewrite elem_of_list_In. intros Hin. rewrite List.Forall_forall in Hf. specialize (Hf j Hin). lia. }
  destruct (mjoin (s !! i)) as [a|] eqn:E.
  - symmetry. apply elem_of_list_to_map; [exact Hnd|]. rewrite elem_of_list_In, <- in_rev. apply entries_in.
    destruct (s !! i) as [[x|]|]; cbn in E; congruence.
  - symmetry. apply not_elem_of_list_to_map. intros Hin. apply elem_of_list_fmap in Hin as ([j a] & Ej & Hj). cbn in Ej. subst j.
    rewrite elem_of_list_In, <- in_rev in Hj. apply entries_in in Hj. rewrite Hj in E. discriminate.
Qed.
Theorem fuzz_sparse_chunk_ok input : succeeds (fuzz_sparse_chunk e N input).
Proof.
  assert (W : wp (fuzz_sparse_chunk e N input) (fun _ => True)).
  { unfold fuzz_sparse_chunk. eapply wp_bind; [apply wp_sparse_make|]. intros c (m & s & H & Hm).
    eapply (wp_bind _ _ (fun x => fst (fst x) = c /\ snd x = entries s)).
    { eapply wp_mono; [eapply (wp_collect (fun o l => en_rep N s o l /\ fst o = c)) with (l := entries s)|].
      - intros o l [R Ec] g. destruct (en_next_ok e N HW s o l g R) as (ks & E & R'). exists ((fst o, ks), head l), g.
        unfold call. rewrite E. cbn [fst snd]. auto.
      - split; [|reflexivity]. assert (it_rep N s (c, 0) (entries s)).
        { split; [exact H|]. cbn. split; [lia|]. rewrite drop_0. reflexivity. }
        split; assumption.
      - pose proof (values_length s) as Hv. unfold values in Hv. rewrite map_length in Hv. destruct H as [<- _]. lia.
      - intros x [[_ Hx] Hl]. auto. }
    intros [o es] [Ho Hes]. cbn [fst snd] in *. subst es. rewrite Ho.
    eapply wp_bind; [apply wp_sparse_actions; exists s; split; [exact H|apply entries_guide]|].
    intros [c' m'] H'. eapply wp_sparse_end; [exact H'|exact I]. }
  intros g. destruct (W g) as ([] & g' & E & _). eauto.
Qed.
End sparse.

Section inline.
Context (e : env nat) (L : layout) (b b2 : nat).
Hypothesis WF : wf_layout e L.
Hypothesis HOST : host_ok e L.
Hypothesis Hcalm : calm e.
Hypothesis Hb : placed L b.
Hypothesis Hb2 : placed L b2.
Notation Holds := (IHolds e L).

Lemma wp_inline_is a c l l' (Q : unit -> Prop) : placed L a -> Holds c l -> l = l' -> Q tt -> wp (inline_is e L a c l') Q.
Proof.
  intros Ha H <- HQ. unfold inline_is.
  eapply wp_bind; [eapply wp_call; [intros g; eapply eq_ok; eassumption|reflexivity]|].
  intros [c' x] [H' Hx]. cbn [fst snd] in *. subst x. apply wp_assert; [apply slice_eq_refl|exact HQ].
Qed.
Lemma wp_inline_end a c l : placed L a -> Holds c l -> wp (call (ia_destroy e L a) c) (fun _ => True).
Proof.
  intros Ha H g. destruct (destroy_ok e L WF HOST Hcalm a c l g Ha H) as [c' E]. unfold call. rewrite E. eauto.
Qed.
Tactic Notation "doing" uconstr(L) := cbv beta in *; eapply wp_bind; [eapply wp_call; [intros ?g; eapply L; try eassumption; auto|try spec_eq]
  |let x := fresh "x" in intros x; destruct x as [? ?]; intros [? ?]; cbv beta iota; cbn [fst snd] in *; subst].
Tactic Notation "panicking" uconstr(L) := cbv beta in *; eapply wp_bind; [eapply wp_panic; [intros ?g; eapply L; try eassumption; auto|try spec_eq]
  |intros ? ?; cbv beta iota; cbn [fst snd] in *; subst].
Ltac finish := apply wp_pass; cbn [fst snd]; auto.

Theorem wp_inline_action a c l : Holds c l -> wp (inline_action e L b b2 a c l) (fun x => Holds (fst x) (snd x)).
Proof.
  intros H. pose proof (iholds_length e L c l H) as Hl.
  destruct a as [v| |i v|i v|i|i| |]; cbn [inline_action].
  - doing is_full_ok. destruct (length l =? capacity e L) eqn:E.
    + panicking push_ok. finish.
    + doing push_ok. finish.
  - eapply (wp_bind _ _ (fun x => Holds (fst x) (take (length l - 1) l) /\ snd x = l !! (length l - 1))).
    { destruct (l !! (length l - 1)) as [a|] eqn:E.
      - eapply wp_call; [intros g; eapply pop_ok; eauto|]. unfold bl_try_pop_back. rewrite E. reflexivity.
      - replace (take (length l - 1) l) with l by (apply lookup_ge_None in E; destruct l; [reflexivity|cbn in E; lia]).
        eapply wp_call; [intros g; eapply pop_ok; eauto|]. unfold bl_try_pop_back. rewrite E. reflexivity. }
    intros [c' x] [Hc Hx]. cbn [fst snd] in *. subst x. rewrite pop_last.
    eapply (wp_bind _ _ (fun _ => True)); [apply wp_assert; [apply opt_eq_refl|exact I]|intros _ _]. finish.
  - doing ia_len_ok. destruct (length l <=? i) eqn:E.
    + panicking assign_ok. { unfold bl_assign. rewrite lookup_ge_None_2 by lia. reflexivity. } finish.
    + destruct (lookup_lt_is_Some_2 l i ltac:(lia)) as [a Hi].
      doing assign_ok. { unfold bl_assign. rewrite Hi. reflexivity. }
      eapply wp_bind; [apply (wp_vec_set _ _ _ (fun x => x = take i l ++ v :: drop (S i) l)); [lia|reflexivity]|].
      intros ? ->. finish.
  - doing ia_len_ok. doing is_full_ok. destruct ((length l <? i) || (length l =? capacity e L)) eqn:E.
    + panicking insert_ok. finish.
    + doing insert_ok.
      eapply wp_bind; [apply (wp_vec_insert _ _ _ (fun x => x = take i l ++ v :: drop i l)); [lia|reflexivity]|].
      intros ? ->. finish.
  - doing ia_len_ok. destruct (length l <=? i) eqn:E.
    + doing remove_ok. { unfold bl_try_remove. rewrite lookup_ge_None_2 by lia. reflexivity. }
      eapply (wp_bind _ _ (fun _ => True)); [apply wp_assert; [reflexivity|exact I]|intros _ _]. finish.
    + destruct (lookup_lt_is_Some_2 l i ltac:(lia)) as [a Hi].
      doing remove_ok. { unfold bl_try_remove. rewrite Hi. reflexivity. }
      eapply wp_bind; [apply (wp_vec_remove i a _ (fun x => x = (take i l ++ drop (S i) l, a))); [exact Hi|reflexivity]|].
      intros ? ->.
      eapply (wp_bind _ _ (fun _ => True)); [apply wp_assert; [apply opt_eq_refl|exact I]|intros _ _]. finish.
  - doing ia_len_ok. destruct (length l <? i) eqn:E.
    + panicking split_off_ok. finish.
    + doing split_off_ok.
      eapply wp_bind; [apply (wp_vec_drain_from _ _ (fun x => x = (take i l, drop i l))); [lia|reflexivity]|].
      intros ? ->. match goal with HM : IMade _ _ _ _ |- _ => unfold IMade in HM end.
      eapply (wp_bind _ _ (fun _ => True)); [eapply wp_inline_is; [exact Hb2|eassumption|reflexivity|exact I]|intros _ _].
      eapply wp_bind; [eapply wp_inline_end; [exact Hb2|eassumption]|]. intros _ _. finish.
  - eapply wp_bind.
    + eapply (wp_collect Holds); [|exact H|lia]. intros o l' Ho.
      destruct l'; (eapply wp_call; [intros g; eapply next_ok; eauto|reflexivity]).
    + intros [c' x] [Hc Hx]. cbn [fst snd] in *. subst x.
      eapply (wp_bind _ _ (fun _ => True)); [apply wp_assert; [apply slice_eq_refl|exact I]|intros _ _]. finish.
  - doing clear_ok. finish.
Qed.
Theorem wp_inline_actions al : forall c l, Holds c l -> wp (inline_actions e L b b2 al c l) (fun x => Holds (fst x) (snd x)).
Proof.
  induction al as [|a al IH]; intros c l H; cbn [inline_actions]; [apply wp_pass; exact H|].
  eapply wp_bind; [apply wp_inline_action; exact H|]. intros [c' l'] H'. cbn [fst snd] in *.
  eapply (wp_bind _ _ (fun _ => True)); [eapply wp_inline_is; [exact Hb|eassumption|reflexivity|exact I]|intros _ _].
  pose proof (iholds_length e L _ _ H').
  eapply (wp_bind _ _ (fun _ => True)); [apply wp_assert; [lia|exact I]|intros _ _].
  apply IH. exact H'.
Qed.
Theorem fuzz_inline_array_ok actions : succeeds (fuzz_inline_array e L b b2 actions).
Proof.
  assert (W : wp (fuzz_inline_array e L b b2 actions) (fun _ => True)).
  { unfold fuzz_inline_array.
    eapply (wp_bind _ _ (fun x => Holds (snd x) [])).
    { intros g. destruct (new_ok e L WF HOST b tt g Hb) as (c & E & H). exists (tt, c), g. unfold call. rewrite E. auto. }
    intros [u c] H. cbn [fst snd] in *.
    eapply wp_bind; [apply wp_reads; intros g; eapply deref_ok; eassumption|]. intros ? ->.
    eapply wp_bind; [apply wp_inline_actions; exact H|]. intros [c' l'] H'. cbn [fst snd] in *.
    eapply wp_bind; [eapply wp_inline_end; [exact Hb|exact H']|]. intros _ _. apply wp_pass. exact I. }
  intros g. destruct (W g) as ([] & g' & E & _). eauto.
Qed.
End inline.
