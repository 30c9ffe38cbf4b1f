(** * The fuzz target of [RingBuffer] always succeeds. *)
From Verif Require Import Machine Spec Prims IterSpec RingModel RingProofs RingProofs2 RingProofs3 RingProofs4
  RingProofs5 ChunkLaws FuzzModel FuzzSpec FuzzProofs.
From Coq Require Import Sorting.Sorted.
From stdpp Require Import sorting.

(** ** [Chunk] *)
Lemma is_sorted_le l : is_sorted l = true -> StronglySorted le l.
Proof.
  intros H. apply Sorted_StronglySorted; [intros x y z; lia|].
  induction l as [|a l IH]; constructor.
  - apply IH. destruct l as [|b l]; [reflexivity|]. cbn [is_sorted] in H. apply andb_true_iff in H. tauto.
  - destruct l as [|b l]; constructor. cbn [is_sorted] in H. apply andb_true_iff in H. lia.
Qed.
(** Inserting at two places that keep a sorted list sorted gives the same list. *)
Lemma sorted_insert_unique (l : list nat) v i j :
  StronglySorted le (take i l ++ v :: drop i l) -> StronglySorted le (take j l ++ v :: drop j l) ->
  take i l ++ v :: drop i l = take j l ++ v :: drop j l.
Proof.
  intros H1 H2. eapply (StronglySorted_unique le); [exact H1|exact H2|].
  rewrite <- !Permutation_middle, !take_drop. reflexivity.
Qed.

Section ring.
Context (e : env nat) (N : nat) (bs vbs : list nat -> nat -> option nat).
Hypothesis HW : N + N < word e.
Hypothesis Hcalm : calm e.
Hypothesis HN : 2 <= N.
Hypothesis Hbs : search_ok le bs.
Hypothesis Hvbs : search_ok le vbs.
Notation Holds := (RHolds (A:=nat) N).
Lemma HN0 : 0 < N. Proof. lia. Qed.
Hint Resolve HN0 : core.

Lemma wp_ring_is c l l' (Q : unit -> Prop) : Holds c l -> l = l' -> Q tt -> wp (ring_is e N c l') Q.
Proof.
  intros H <- HQ. unfold ring_is. eapply wp_bind; [apply wp_reads; intros g; eapply rb_eq_list_ok; eauto|].
  intros ? ->. apply wp_assert; [apply slice_eq_refl|exact HQ].
Qed.
Lemma wp_ring_same c c' l (Q : unit -> Prop) : Holds c l -> Holds c' l -> Q tt -> wp (ring_same e N c c') Q.
Proof.
  intros H H' HQ. unfold ring_same.
  eapply wp_bind; [apply wp_reads; intros g; eapply rb_eq_ok; eauto|].
  intros ? ->. apply wp_assert; [apply slice_eq_refl|exact HQ].
Qed.
Lemma wp_ring_items c l (Q : list nat -> Prop) : Holds c l -> Q l -> wp (ring_items e N c) Q.
Proof.
  intros H HQ. unfold ring_items. eapply wp_bind; [apply wp_reads; intros g; eapply rb_contents_eq; eauto|].
  intros ? ->. apply wp_pass. exact HQ.
Qed.
Lemma wp_ring_len c l (Q : nat -> Prop) : Holds c l -> Q (length l) -> wp (ring_len c) Q.
Proof.
  intros H HQ. unfold ring_len. eapply wp_bind; [apply wp_reads; intros g; unfold rb_len; cbn; reflexivity|].
  intros ? ->. apply wp_pass. replace (rlen c) with (length l); [exact HQ|symmetry; apply H].
Qed.
Lemma wp_ring_items_eq c l : Holds c l -> wp (ring_items e N c) (fun x => x = l).
Proof. intros H. eapply wp_ring_items; [exact H|reflexivity]. Qed.
Lemma wp_ring_len_eq c l : Holds c l -> wp (ring_len c) (fun x => x = length l).
Proof. intros H. eapply wp_ring_len; [exact H|reflexivity]. Qed.
Lemma wp_ring_of l : length l <= N -> wp (ring_of e N l) (fun c => Holds c l).
Proof.
  intros Hl. unfold ring_of. eapply wp_bind.
  - eapply wp_call; [intros g; apply rb_from_iter_unit; auto|apply from_iter_map; exact Hl].
  - intros [u r] [_ Hr]. apply wp_pass. exact Hr.
Qed.
Lemma wp_ring_input l : wp (ring_input e N l) (fun c => Holds c (take N l)).
Proof. apply wp_ring_of. rewrite take_length. lia. Qed.
Lemma wp_ring_end c l (Q : unit -> Prop) : Holds c l -> Q tt -> wp (ring_end e N c) Q.
Proof.
  intros H HQ. unfold ring_end. eapply wp_bind; [|intros ? _; apply wp_pass; exact HQ].
  instantiate (1 := fun _ => True). intros g. destruct (rb_destroy_ret e N HW HN0 Hcalm c l g H) as [c' E].
  unfold call. rewrite E. eauto.
Qed.

(** A call with the lemma [L], to be followed by the rest. *)
Tactic Notation "doing" uconstr(L) := cbv beta in *; eapply wp_bind; [eapply wp_call; [intros ?g; eapply L; try eassumption; auto|try spec_eq]
  |let x := fresh "x" in intros x; destruct x as [? ?]; intros [? ?]; cbv beta iota; cbn [fst snd] in *; subst].
Tactic Notation "panicking" uconstr(L) := cbv beta in *; eapply wp_bind; [eapply wp_panic; [intros ?g; eapply L; try eassumption; auto|try spec_eq]
  |intros ? ?; cbv beta iota; cbn [fst snd] in *; subst].
Ltac ending := cbv beta in *; eapply (wp_bind _ _ (fun _ => True)); [eapply wp_ring_end; [eassumption|exact I]|intros _ _; cbv beta].

Lemma wp_ring_new : wp (ring_new e N) (fun c => Holds c []).
Proof.
  unfold ring_new. eapply wp_bind; [apply wp_reads; intros g; apply rb_new_eq; auto|]. intros ? ->. apply wp_pass.
  apply (ring0_holds N HN0).
Qed.
Theorem wp_ring_make_like k : wp (ring_make_like e N k) (fun c => exists l, Holds c l).
Proof.
  destruct k as [|v|v1 v2|v|v n|v n|v n]; cbn [ring_make_like].
  - eapply wp_bind; [apply wp_ring_new|]. intros c Hc. cbv beta in *.
    eapply (wp_bind _ _ (fun _ => True)); [apply wp_assert; [|exact I]|intros _ _].
    + rewrite (rb_is_empty_ok N _ _ Hc). reflexivity.
    + apply wp_pass. eauto.
  - doing rb_unit_ok. eapply (wp_bind _ _ (fun _ => True)); [eapply wp_ring_is; [eassumption|reflexivity|exact I]|intros _ _].
    apply wp_pass. eauto.
  - doing rb_pair_ok. eapply (wp_bind _ _ (fun _ => True)); [eapply wp_ring_is; [eassumption|reflexivity|exact I]|intros _ _].
    apply wp_pass. eauto.
  - eapply wp_bind; [apply wp_ring_input|]. intros vec Hv.
    eapply wp_bind; [eapply wp_ring_items_eq; exact Hv|]. intros ? ->.
    eapply wp_bind; [apply wp_ring_of; rewrite take_length; lia|]. intros source Hs.
    doing rb_drain_from_ok.
    eapply (wp_bind _ _ (fun _ => True)); [apply wp_assert; [|exact I]|intros _ _].
    { match goal with H : RHolds _ _ [] |- _ => rewrite (rb_is_empty_ok N _ _ H); reflexivity end. }
    eapply (wp_bind _ _ (fun _ => True)); [eapply wp_ring_same; [eassumption|exact Hv|exact I]|intros _ _].
    ending. ending. apply wp_pass. eauto.
  - eapply wp_bind; [apply wp_ring_input|]. intros vec Hv.
    rewrite (rb_is_empty_ok N _ _ Hv). destruct (length (take N v) =? 0) eqn:E0.
    { ending. eapply wp_mono; [apply wp_ring_new|]. intros c Hc. exists []. exact Hc. }
    eapply wp_bind; [eapply wp_ring_len_eq; exact Hv|]. intros ? ->.
    set (w := take N v) in *. assert (Hw : length w <= N) by (subst w; rewrite take_length; lia).
    assert (Hk : n mod length w < length w) by (apply Nat.mod_upper_bound; lia). set (k := n mod length w) in *.
    clearbody w k. cbv zeta. cbv beta in *.
    doing rb_clone_ok. { apply clone_id. }
    eapply wp_bind; [eapply wp_ring_items_eq; eassumption|]. intros ? ->.
    doing rb_collect_from_ok. { apply (collect_map N w k []); cbn; lia. }
    doing rb_split_off_ok.
    eapply (wp_bind _ _ (fun _ => True)); [eapply wp_ring_is; [eassumption| |exact I]|intros _ _].
    { symmetry. apply omap_yield. }
    eapply (wp_bind _ _ (fun _ => True)); [eapply wp_ring_same; [eassumption|eassumption|exact I]|intros _ _].
    ending. ending. apply wp_pass. eauto.
  - eapply wp_bind; [apply wp_ring_input|]. intros vec Hv.
    rewrite (rb_is_empty_ok N _ _ Hv). destruct (length (take N v) =? 0) eqn:E0.
    { ending. eapply wp_mono; [apply wp_ring_new|]. intros c Hc. exists []. exact Hc. }
    eapply wp_bind; [eapply wp_ring_len_eq; exact Hv|]. intros ? ->.
    set (w := take N v) in *. assert (Hw : length w <= N) by (subst w; rewrite take_length; lia).
    assert (Hk : n mod length w < length w) by (apply Nat.mod_upper_bound; lia). set (k := n mod length w) in *.
    clearbody w k. cbv zeta. cbv beta in *.
    eapply wp_bind; [eapply wp_ring_items_eq; eassumption|]. intros ? ->.
    eapply wp_bind; [apply wp_ring_of; lia|]. intros source Hs.
    doing rb_from_front_ok. { lia. }
    doing rb_split_off_ok.
    eapply (wp_bind _ _ (fun _ => True)); [eapply wp_ring_same; [eassumption|eassumption|exact I]|intros _ _].
    eapply (wp_bind _ _ (fun _ => True)); [eapply wp_ring_same; [eassumption|eassumption|exact I]|intros _ _].
    ending. ending. ending. apply wp_pass. eauto.
  - eapply wp_bind; [apply wp_ring_input|]. intros vec Hv.
    rewrite (rb_is_empty_ok N _ _ Hv). destruct (length (take N v) =? 0) eqn:E0.
    { ending. eapply wp_mono; [apply wp_ring_new|]. intros c Hc. exists []. exact Hc. }
    eapply wp_bind; [eapply wp_ring_len_eq; exact Hv|]. intros ? ->.
    set (w := take N v) in *. assert (Hw : length w <= N) by (subst w; rewrite take_length; lia).
    assert (Hk : n mod length w < length w) by (apply Nat.mod_upper_bound; lia). set (k := n mod length w) in *.
    clearbody w k. cbv zeta. cbv beta in *.
    eapply wp_bind; [eapply wp_ring_items_eq; eassumption|]. intros ? ->.
    eapply wp_bind; [apply wp_ring_of; lia|]. intros source Hs.
    doing rb_from_back_ok. { lia. }
    eapply wp_bind; [eapply wp_ring_len_eq; exact Hv|]. intros ? ->.
    doing rb_split_off_ok.
    eapply (wp_bind _ _ (fun _ => True)); [eapply wp_ring_same; [eassumption|eassumption|exact I]|intros _ _].
    eapply (wp_bind _ _ (fun _ => True)); [eapply wp_ring_same; [eassumption|eassumption|exact I]|intros _ _].
    ending. ending. ending. apply wp_pass. eauto.
Qed.

Theorem wp_ring_make k : wp (ring_make e N k) (fun c => exists l, Holds c l).
Proof.
  destruct k as [k|v]; cbn [ring_make]; [apply wp_ring_make_like|].
  eapply wp_bind; [apply wp_ring_input|]. intros vec Hv. cbv beta in *.
  doing rb_clone_ok. { apply clone_id. }
  eapply wp_bind; [eapply wp_ring_items_eq; eassumption|]. intros ? ->.
  eapply wp_bind; [apply wp_ring_of; rewrite take_length; lia|]. intros out Ho. cbv beta in *.
  eapply (wp_bind _ _ (fun _ => True)); [eapply wp_ring_same; [eassumption|eassumption|exact I]|intros _ _].
  ending. apply wp_pass. eauto.
Qed.
Lemma wp_ring_set i v c l : Holds c l ->
  wp (ring_set e N i v c) (fun x => snd x = l !! i /\
    Holds (fst x) (if i <? length l then take i l ++ v :: drop (S i) l else l)).
Proof.
  intros H. unfold ring_set. doing rb_get_ok. destruct (l !! i) as [a|] eqn:E.
  - doing rb_assign_ok. { unfold bl_assign. rewrite E. reflexivity. }
    apply wp_pass. split; [reflexivity|]. apply lookup_lt_Some in E. replace (i <? length l) with true by lia. assumption.
  - apply wp_pass. split; [reflexivity|]. apply lookup_ge_None in E. replace (i <? length l) with false by lia. assumption.
Qed.

Ltac two_of := match goal with Hb : both _ _ ?p _ |- _ =>
  is_var p; destruct p as [?c' ?o']; destruct Hb as [?H3 ?H4]; cbn [fst snd] in * end.
Ltac finish := apply wp_pass; cbn [fst snd]; auto.

Theorem wp_ring_action a c l : action_fits e (ring_construct_fits e) a -> Holds c l ->
  wp (ring_action e N bs vbs a c l) (fun x => Holds (fst x) (snd x)).
Proof.
  intros Ha H. pose proof (rholds_length N c l H) as Hl.
  pose proof (rb_is_full_ok N c l H) as Hfull. pose proof (rb_is_empty_ok N c l H) as Hempty.
  destruct a; cbn [ring_action action_fits] in *; rewrite ?Hfull, ?Hempty;
    try (eapply wp_bind; [eapply wp_ring_len_eq; exact H|]; intros ? ->).
  - destruct (length l =? N) eqn:E.
    + panicking rb_push_front_ok. finish.
    + doing rb_push_front_ok.
      eapply wp_bind; [apply (wp_vec_insert _ _ _ (fun x => x = v :: l)); [lia|rewrite take_0, drop_0; reflexivity]|].
      intros ? ->. finish.
  - destruct (length l =? N) eqn:E.
    + panicking rb_push_back_ok. finish.
    + doing rb_push_back_ok. finish.
  - destruct l as [|a l].
    + doing rb_pop_front_ok.
      eapply wp_bind; [apply (wp_pass _ (fun x => x = ([], None))); reflexivity|]. intros ? ->.
      eapply (wp_bind _ _ (fun _ => True)); [apply wp_assert; [reflexivity|exact I]|intros _ _]. finish.
    + doing rb_pop_front_ok.
      eapply (wp_bind _ _ (fun x => x = (l, Some a))).
      { eapply wp_bind; [apply (wp_vec_remove 0 a _ (fun x => x = (l, a))); reflexivity|]. intros ? ->.
        apply wp_pass. reflexivity. }
      intros ? ->.
      eapply (wp_bind _ _ (fun _ => True)); [apply wp_assert; [apply opt_eq_refl|exact I]|intros _ _]. finish.
  - eapply (wp_bind _ _ (fun x => Holds (fst x) (take (length l - 1) l) /\ snd x = l !! (length l - 1))).
    { destruct (l !! (length l - 1)) as [a|] eqn:E.
      - eapply wp_call; [intros g; eapply rb_pop_back_ok; auto; exact H|]. unfold bl_try_pop_back. rewrite E. reflexivity.
      - replace (take (length l - 1) l) with l by (apply lookup_ge_None in E; destruct l; [reflexivity|cbn in E; lia]).
        eapply wp_call; [intros g; eapply rb_pop_back_ok; auto; exact H|]. unfold bl_try_pop_back. rewrite E. reflexivity. }
    intros [c' x] [Hc Hx]. cbn [fst snd] in *. subst x. rewrite pop_last.
    eapply (wp_bind _ _ (fun _ => True)); [apply wp_assert; [apply opt_eq_refl|exact I]|intros _ _]. finish.
  - destruct (length l <? i) eqn:E.
    + panicking rb_drop_left_ok. finish.
    + doing rb_drop_left_ok.
      eapply wp_bind; [apply (wp_vec_drain_to _ _ (fun x => x = (drop i l, take i l))); [lia|reflexivity]|].
      intros ? ->. finish.
  - destruct (length l <? i) eqn:E.
    + panicking rb_drop_right_ok. finish.
    + doing rb_drop_right_ok.
      eapply wp_bind; [apply (wp_vec_drain_from _ _ (fun x => x = (take i l, drop i l))); [lia|reflexivity]|].
      intros ? ->. finish.
  - destruct (length l <? i) eqn:E.
    + panicking rb_split_off_ok. finish.
    + doing rb_split_off_ok.
      eapply wp_bind; [apply (wp_vec_drain_from _ _ (fun x => x = (take i l, drop i l))); [lia|reflexivity]|].
      intros ? ->.
      eapply (wp_bind _ _ (fun _ => True)); [eapply wp_ring_is; [eassumption|reflexivity|exact I]|intros _ _].
      ending. finish.
  - eapply wp_bind; [apply wp_ring_make|]. intros oth [l2 H2]. pose proof (rholds_length N _ _ H2) as Hl2.
    eapply wp_bind; [eapply wp_ring_items_eq; exact H2|]. intros ? ->.
    eapply wp_bind; [eapply wp_ring_len_eq; exact H2|]. intros ? ->.
    eapply wp_bind; [eapply wp_ring_len_eq; exact H|]. intros ? ->.
    eapply wp_bind; [apply (wp_plus _ _ _ (fun x => x = length l2 + length l)); [lia|reflexivity]|]. intros ? ->.
    assert (HH : both Holds Holds (c, oth) (l, l2)) by (split; assumption).
    destruct (N <? length l2 + length l) eqn:E.
    + panicking rb_append_ok. two_of.
      ending. finish.
    + doing rb_append_ok. two_of.
      ending. finish.
  - destruct Ha as [_ Hn].
    eapply wp_bind; [apply wp_ring_make|]. intros oth [l2 H2]. pose proof (rholds_length N _ _ H2) as Hl2.
    eapply wp_bind; [eapply wp_ring_items_eq; exact H2|]. intros ? ->.
    eapply wp_bind; [eapply wp_ring_len_eq; exact H2|]. intros ? ->.
    eapply wp_bind; [eapply wp_ring_len_eq; exact H|]. intros ? ->.
    assert (HH : both Holds Holds (c, oth) (l, l2)) by (split; assumption).
    eapply (wp_bind _ _ (fun b => b = (length l2 <? count) || (N <? length l + count))).
    { destruct (length l2 <? count) eqn:E; [apply wp_pass; reflexivity|].
      eapply wp_bind; [apply (wp_plus _ _ _ (fun x => x = length l + count)); [lia|reflexivity]|]. intros ? ->.
      apply wp_pass. reflexivity. }
    intros ? ->. destruct ((length l2 <? count) || (N <? length l + count)) eqn:E.
    + panicking rb_drain_from_front_ok. two_of.
      ending. finish.
    + doing rb_drain_from_front_ok. two_of.
      eapply wp_bind; [apply (wp_vec_drain_to _ _ (fun x => x = (drop count l2, take count l2))); [lia|reflexivity]|].
      intros ? ->.
      eapply (wp_bind _ _ (fun _ => True)); [eapply wp_ring_is; [eassumption|reflexivity|exact I]|intros _ _].
      ending. finish.
  - destruct Ha as [_ Hn].
    eapply wp_bind; [apply wp_ring_make|]. intros oth [l2 H2]. pose proof (rholds_length N _ _ H2) as Hl2.
    eapply wp_bind; [eapply wp_ring_items_eq; exact H2|]. intros ? ->.
    eapply wp_bind; [eapply wp_ring_len_eq; exact H2|]. intros ? ->.
    eapply wp_bind; [eapply wp_ring_len_eq; exact H|]. intros ? ->.
    assert (HH : both Holds Holds (c, oth) (l, l2)) by (split; assumption).
    eapply (wp_bind _ _ (fun b => b = (length l2 <? count) || (N <? length l + count))).
    { destruct (length l2 <? count) eqn:E; [apply wp_pass; reflexivity|].
      eapply wp_bind; [apply (wp_plus _ _ _ (fun x => x = length l + count)); [lia|reflexivity]|]. intros ? ->.
      apply wp_pass. reflexivity. }
    intros ? ->. destruct ((length l2 <? count) || (N <? length l + count)) eqn:E.
    + panicking rb_drain_from_back_ok. two_of.
      ending. finish.
    + doing rb_drain_from_back_ok. two_of.
      eapply wp_bind; [apply (wp_vec_drain_from _ _ (fun x => x = (take (length l2 - count) l2, drop (length l2 - count) l2))); [lia|reflexivity]|].
      intros ? ->.
      eapply (wp_bind _ _ (fun _ => True)); [eapply wp_ring_is; [eassumption|reflexivity|exact I]|intros _ _].
      ending. finish.
  - destruct (length l <=? i) eqn:E.
    + eapply wp_bind; [apply wp_ring_set; exact H|]. intros [c' x] [Hx Hc]. cbn [fst snd] in *. subst x.
      rewrite lookup_ge_None_2 by lia.
      eapply (wp_bind _ _ (fun _ => True)); [apply wp_assert; [reflexivity|exact I]|intros _ _].
      replace (i <? length l) with false in Hc by lia. finish.
    + eapply wp_bind; [apply wp_ring_set; exact H|]. intros [c' x] [Hx Hc]. cbn [fst snd] in *. subst x.
      replace (i <? length l) with true in Hc by lia.
      eapply wp_bind; [apply (wp_vec_set _ _ _ (fun x => x = take i l ++ v :: drop (S i) l)); [lia|reflexivity]|].
      intros ? ->. finish.
  - destruct ((length l <? i) || (length l =? N)) eqn:E.
    + panicking rb_insert_ok. finish.
    + doing rb_insert_ok.
      eapply wp_bind; [apply (wp_vec_insert _ _ _ (fun x => x = take i l ++ v :: drop i l)); [lia|reflexivity]|].
      intros ? ->. finish.
  - destruct Ha as [Hv Hi]. unfold vec_fits, usize in *.
    eapply (wp_bind _ _ (fun b => b = (length l <? i) || (N <? length l + length values))).
    { destruct (length l <? i) eqn:E; [apply wp_pass; reflexivity|].
      eapply wp_bind; [apply (wp_plus _ _ _ (fun x => x = length l + length values)); [lia|reflexivity]|]. intros ? ->.
      apply wp_pass. reflexivity. }
    intros ? ->. cbv zeta.
    assert (Hy : yields (length values) (map Yield values) = values) by (apply yields_map; lia).
    destruct ((length l <? i) || (N <? length l + length values)) eqn:E.
    + panicking rb_insert_from_ok; [lia| |].
      { unfold bl_insert_from_tail, bl_insert_from_any. rewrite Hy. spec_eq. } finish.
    + doing rb_insert_from_ok; [lia| |].
      { instantiate (1 := []). instantiate (1 := tt). instantiate (1 := take i l ++ values ++ drop i l).
        unfold bl_insert_from_tail, bl_insert_from_any. rewrite Hy, Nat.eqb_refl.
        destruct ((length l + length values <=? N) && (i =? length l)) eqn:E1; [|spec_eq].
        rewrite extend_map by lia. rewrite take_ge, drop_ge, app_nil_r by lia. reflexivity. }
      eapply wp_bind; [apply (wp_vec_insert_each _ _ _ (fun x => x = take i l ++ values ++ drop i l)); [lia|]|].
      { rewrite rev_involutive. reflexivity. }
      intros ? ->. finish.
  - eapply wp_bind; [eapply wp_ring_items_eq; exact H|]. intros ? ->.
    destruct (is_sorted l) eqn:Es; [|finish]. apply is_sorted_le in Es.
    destruct (Hbs l v Es) as (i & Ei & Hi & Hi1 & Hi2). destruct (Hvbs l v Es) as (j & Ej & Hj & Hj1 & Hj2).
    destruct (length l =? N) eqn:E.
    + panicking rb_insert_ordered_ok. finish.
    + doing rb_insert_ordered_ok.
      { replace (length l <? N) with true by lia. rewrite Ei. spec_eq. }
      unfold vec_insert_ordered. rewrite Ej.
      eapply wp_bind; [apply (wp_vec_insert _ _ _ (fun x => x = take i l ++ v :: drop i l)); [lia|]|].
      { apply sorted_insert_unique; apply (ChunkProofs5.StronglySorted_insert e N HW); assumption. }
      intros ? ->. finish.
  - destruct (length l <=? i) eqn:E.
    + panicking rb_remove_ok.
      { unfold bl_remove. rewrite lookup_ge_None_2 by lia. reflexivity. } finish.
    + destruct (lookup_lt_is_Some_2 l i) as [a Hi]; [lia|].
      doing rb_remove_ok. { unfold bl_remove. rewrite Hi. reflexivity. }
      eapply wp_bind; [apply (wp_vec_remove i a _ (fun x => x = (take i l ++ drop (S i) l, a))); [exact Hi|reflexivity]|].
      intros ? ->.
      eapply (wp_bind _ _ (fun _ => True)); [apply wp_assert; [apply Nat.eqb_refl|exact I]|intros _ _]. finish.
  - eapply wp_bind.
    + eapply (wp_collect Holds); [|exact H|lia]. intros o l' Ho.
      destruct l'; (eapply wp_call; [intros g; eapply rb_pop_front_ok; auto; exact Ho|reflexivity]).
    + intros [c' x] [Hc Hx]. cbn [fst snd] in *. subst x.
      eapply (wp_bind _ _ (fun _ => True)); [apply wp_assert; [apply slice_eq_refl|exact I]|intros _ _]. finish.
  - doing rb_clear_ok. finish.
Qed.

Theorem wp_ring_actions al : forall c l, Forall (action_fits e (ring_construct_fits e)) al -> Holds c l ->
  wp (ring_actions e N bs vbs al c l) (fun x => Holds (fst x) (snd x)).
Proof.
  induction al as [|a al IH]; intros c l Ha H; cbn [ring_actions]; [apply wp_pass; exact H|].
  inversion_clear Ha. eapply wp_bind; [apply wp_ring_action; eassumption|]. intros [c' l'] H'. cbn [fst snd] in *.
  eapply (wp_bind _ _ (fun _ => True)); [eapply wp_ring_is; [eassumption|reflexivity|exact I]|intros _ _].
  pose proof (rholds_length N _ _ H').
  eapply (wp_bind _ _ (fun _ => True)); [apply wp_assert; [lia|exact I]|intros _ _].
  apply IH; assumption.
Qed.
Theorem fuzz_ring_buffer_ok input : Forall (action_fits e (ring_construct_fits e)) (snd input) ->
  succeeds (fuzz_ring_buffer e N bs vbs input).
Proof.
  intros Ha. assert (W : wp (fuzz_ring_buffer e N bs vbs input) (fun _ => True)).
  { unfold fuzz_ring_buffer. eapply wp_bind; [apply wp_ring_make|]. intros c [l H].
    eapply wp_bind; [eapply wp_ring_items_eq; exact H|]. intros ? ->.
    eapply wp_bind; [apply wp_ring_actions; eassumption|]. intros [c' l'] H'. cbn [fst snd] in *.
    eapply wp_ring_end; [exact H'|exact I]. }
  intros g. destruct (W g) as ([] & g' & E & _). eauto.
Qed.
End ring.
