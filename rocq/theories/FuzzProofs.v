(** * The fuzz target of [Chunk] always succeeds. *)
From Verif Require Import Machine Spec Prims IterSpec ChunkModel ChunkProofs ChunkProofs2 ChunkProofs3
  ChunkProofs4 ChunkLaws FuzzModel FuzzSpec.

(** ** Reasoning about targets *)
Definition wp {X} (m : fz X) (Q : X -> Prop) : Prop := forall g, exists x g', m g = Some (x, g') /\ Q x.
Lemma wp_pass {X} (x : X) (Q : X -> Prop) : Q x -> wp (pass x) Q.
Proof. intros H g. exists x, g. auto. Qed.
Lemma wp_bind {X Y} (m : fz X) (k : X -> fz Y) (P : X -> Prop) (Q : Y -> Prop) :
  wp m P -> (forall x, P x -> wp (k x) Q) -> wp (fbind m k) Q.
Proof.
  intros Hm Hk g. destruct (Hm g) as (x & g' & E & HP). unfold fbind. rewrite E. apply Hk. exact HP.
Qed.
Lemma wp_mono {X} (m : fz X) (P Q : X -> Prop) : wp m P -> (forall x, P x -> Q x) -> wp m Q.
Proof. intros Hm HPQ g. destruct (Hm g) as (x & g' & E & HP). eauto. Qed.
Lemma wp_assert (b : bool) (Q : unit -> Prop) : b = true -> Q tt -> wp (assert_ b) Q.
Proof. intros -> H. apply wp_pass. exact H. Qed.
Lemma wp_call {O S R R'} (H : O -> S -> Prop) (RR : R -> R' -> Prop) (m : M nat O R) o x s r d :
  (forall g, agrees H RR g (m o g) x) -> x = SRet s r d ->
  wp (call m o) (fun y => H (fst y) s /\ RR (snd y) r).
Proof.
  intros Ha -> g. destruct (Ha g) as (o' & g' & r' & E & Ho & Hr & _). exists (o', r'), g'.
  unfold call. rewrite E. auto.
Qed.
Lemma wp_panic {O S R R'} (H : O -> S -> Prop) (RR : R -> R' -> Prop) (m : M nat O R) o x s d k :
  (forall g, agrees H RR g (m o g) x) -> x = SPanic s d k ->
  wp (assert_panic m o) (fun o' => H o' s).
Proof.
  intros Ha -> g. destruct (Ha g) as (o' & g' & k' & E & Ho & _). exists o', g'.
  unfold assert_panic. rewrite E. auto.
Qed.
Lemma wp_reads {O R} (m : M nat O R) o (r : R) : (forall g, m o g = Ret o g r) ->
  wp (call m o) (fun y => y = (o, r)).
Proof. intros Ha g. exists (o, r), g. unfold call. rewrite Ha. auto. Qed.
Lemma wp_collect {O I} (H : O -> list I -> Prop) (next : M nat O (option I)) :
  (forall o l, H o l -> wp (call next o) (fun y => H (fst y) (tail l) /\ snd y = head l)) ->
  forall fuel o l, H o l -> length l < fuel ->
  wp (collect_ next fuel o) (fun y => H (fst y) [] /\ snd y = l).
Proof.
  intros Hn. induction fuel as [|fuel IH]; intros o l Ho Hl; [lia|]. cbn [collect_].
  eapply wp_bind; [apply Hn; exact Ho|]. intros [o' x] [H1 H2]. cbn [fst snd] in *. subst x.
  destruct l as [|i l]; cbn [head tail] in *; [apply wp_pass; auto|].
  eapply wp_bind; [apply IH; [exact H1|cbn in Hl; lia]|]. intros [o'' l'] [H3 H4]. cbn [fst snd] in *. subst l'.
  apply wp_pass. auto.
Qed.
Lemma slice_eq_refl (l : list nat) : slice_eq Nat.eqb l l = true.
Proof. induction l as [|a l IH]; cbn; [reflexivity|]. rewrite Nat.eqb_refl. exact IH. Qed.

Ltac spec_eq :=
  unfold bl_push_front, bl_push_back, bl_pop_front, bl_pop_back, bl_try_pop_front, bl_try_pop_back,
    bl_drop_left, bl_drop_right, bl_clear, bl_split_off, bl_from_front, bl_from_back, bl_drain_all, bl_append,
    bl_drain_from_front, bl_drain_from_back, bl_set, bl_insert, bl_remove, bl_try_remove, bl_assign, bl_len,
    bl_unit, bl_pair, bl_slice, bl_get;
  cbn [fst snd];
  repeat match goal with
  | |- context [if ?b then _ else _] => let E := fresh "E" in destruct b eqn:E; try (exfalso; lia)
  end; reflexivity.

(** ** The guide *)
Lemma wp_vec_insert i v l (Q : list nat -> Prop) : i <= length l -> Q (take i l ++ v :: drop i l) -> wp (vec_insert i v l) Q.
Proof. intros Hi HQ. unfold vec_insert. replace (i <=? length l) with true by lia. apply wp_pass. exact HQ. Qed.
Lemma wp_vec_drain_to i l (Q : list nat * list nat -> Prop) : i <= length l -> Q (drop i l, take i l) -> wp (vec_drain_to i l) Q.
Proof. intros Hi HQ. unfold vec_drain_to. replace (i <=? length l) with true by lia. apply wp_pass. exact HQ. Qed.
Lemma wp_vec_drain_from i l (Q : list nat * list nat -> Prop) : i <= length l -> Q (take i l, drop i l) -> wp (vec_drain_from i l) Q.
Proof. intros Hi HQ. unfold vec_drain_from. replace (i <=? length l) with true by lia. apply wp_pass. exact HQ. Qed.
Lemma wp_vec_set i v l (Q : list nat -> Prop) : i < length l -> Q (take i l ++ v :: drop (S i) l) -> wp (vec_set i v l) Q.
Proof. intros Hi HQ. unfold vec_set. replace (i <? length l) with true by lia. apply wp_pass. exact HQ. Qed.
Lemma wp_vec_remove i a l (Q : list nat * nat -> Prop) : l !! i = Some a -> Q (take i l ++ drop (S i) l, a) -> wp (vec_remove i l) Q.
Proof. intros Hi HQ. unfold vec_remove. rewrite Hi. apply wp_pass. exact HQ. Qed.
Lemma wp_vec_insert_each i vs : forall l (Q : list nat -> Prop), i <= length l ->
  Q (take i l ++ rev vs ++ drop i l) -> wp (vec_insert_each i vs l) Q.
Proof.
  induction vs as [|v vs IH]; intros l Q Hi HQ; cbn [vec_insert_each rev] in *.
  - apply wp_pass. cbn in HQ. rewrite take_drop in HQ. exact HQ.
  - eapply wp_bind; [apply (wp_vec_insert _ _ _ (fun l' => l' = take i l ++ v :: drop i l)); [exact Hi|reflexivity]|].
    intros l' ->. apply IH.
    + rewrite app_length, take_length. cbn. lia.
    + rewrite take_app_alt by (rewrite take_length; lia).
      rewrite drop_app_alt by (rewrite take_length; lia).
      rewrite <- app_assoc in HQ. exact HQ.
Qed.
Lemma pop_last (l : list nat) : vec_pop l = (take (length l - 1) l, l !! (length l - 1)).
Proof.
  unfold vec_pop. rewrite last_lookup. f_equal; [|f_equal; lia].
  rewrite removelast_firstn_len. f_equal. lia.
Qed.
Lemma wp_plus e a b (Q : nat -> Prop) : a + b < word e -> Q (a + b) -> wp (plus_ e a b) Q.
Proof. intros Hi HQ. unfold plus_. replace (a + b <? word e) with true by lia. apply wp_pass. exact HQ. Qed.
Lemma opt_eq_refl x : opt_eq x x = true.
Proof. destruct x; cbn; [apply Nat.eqb_refl|reflexivity]. Qed.

Lemma yields_map (l : list nat) : forall n, length l <= n -> yields n (map Yield l) = l.
Proof. induction l as [|a l IH]; intros [|n] H; cbn in *; try reflexivity; [lia|]. f_equal. apply IH. lia. Qed.
Lemma extend_map N (xs : list nat) : forall l, length l + length xs <= N ->
  bl_extend N (map Yield xs) l = SRet (l ++ xs) tt [].
Proof.
  induction xs as [|a xs IH]; intros l H; cbn [map bl_extend length] in *; [rewrite app_nil_r; reflexivity|].
  replace (length l <? N) with true by lia. rewrite IH by (rewrite app_length; cbn; lia). rewrite <- app_assoc. reflexivity.
Qed.
Lemma from_iter_map N (l : list nat) : length l <= N -> bl_from_iter N (map Yield l) = SRet tt l [].
Proof. intros H. unfold bl_from_iter. rewrite extend_map by (cbn; lia). reflexivity. Qed.
Lemma clones_id (l : list nat) : forall k, clones (fun _ a => Some a) k l = l.
Proof. induction l as [|a l IH]; intros k; cbn; [reflexivity|]. rewrite IH. reflexivity. Qed.
Lemma clone_id (l : list nat) : bl_clone (fun _ a => Some a) l = SRet l l [].
Proof. unfold bl_clone. rewrite clones_id, Nat.eqb_refl. reflexivity. Qed.
Lemma collect_map N (xs : list nat) : forall k l, k <= length xs -> length l + k <= N ->
  bl_collect N k (map Yield xs) l = SRet (map Yield (drop k xs)) (l ++ take k xs) [].
Proof.
  induction xs as [|a xs IH]; intros k l H1 H2; cbn [length map] in *.
  - replace k with 0 by lia. cbn. rewrite app_nil_r. reflexivity.
  - destruct k as [|k]; cbn [bl_collect take drop]; [rewrite app_nil_r; reflexivity|].
    replace (length l <? N) with true by lia. rewrite IH by (rewrite ?app_length; cbn; lia).
    rewrite <- app_assoc. reflexivity.
Qed.
Lemma omap_yield (l : list nat) :
  omap (fun x => match x with Yield a => Some a | Boom => None end) (map Yield l) = l.
Proof. induction l as [|a l IH]; cbn; [reflexivity|]. f_equal. exact IH. Qed.

(** ** [Chunk] *)
Section chunk.
Context (e : env nat) (N : nat) (bs : list nat -> nat -> option nat).
Hypothesis HW : N + N < word e.
Hypothesis Hcalm : calm e.
Hypothesis HN : 2 <= N.
Hypothesis Hbs : search_in_range bs.
Notation Holds := (Holds N).

Lemma wp_chunk_is c l l' (Q : unit -> Prop) : Holds c l -> l = l' -> Q tt -> wp (chunk_is e N c l') Q.
Proof.
  intros H <- HQ. unfold chunk_is. eapply wp_bind; [apply wp_reads; intros g; apply (as_slice_eq e N HW); exact H|].
  intros ? ->. apply wp_assert; [apply slice_eq_refl|exact HQ].
Qed.
Lemma wp_chunk_same c c' l (Q : unit -> Prop) : Holds c l -> Holds c' l -> Q tt -> wp (chunk_same e N c c') Q.
Proof.
  intros H H' HQ. unfold chunk_same.
  eapply wp_bind; [apply wp_reads; intros g; apply (ChunkLaws.eq_ok e N HW); [exact H|exact H']|].
  intros ? ->. apply wp_assert; [apply slice_eq_refl|exact HQ].
Qed.
Lemma wp_chunk_items c l (Q : list nat -> Prop) : Holds c l -> Q l -> wp (chunk_items e N c) Q.
Proof.
  intros H HQ. unfold chunk_items. eapply wp_bind; [apply wp_reads; intros g; apply (as_slice_eq e N HW); exact H|].
  intros ? ->. apply wp_pass. exact HQ.
Qed.
Lemma wp_chunk_len c l (Q : nat -> Prop) : Holds c l -> Q (length l) -> wp (chunk_len e c) Q.
Proof.
  intros H HQ. unfold chunk_len. eapply wp_bind; [apply wp_reads; intros g; apply (len_eq e N HW); exact H|].
  intros ? ->. apply wp_pass. exact HQ.
Qed.
Lemma wp_chunk_items_eq c l : Holds c l -> wp (chunk_items e N c) (fun x => x = l).
Proof. intros H. eapply wp_chunk_items; [exact H|reflexivity]. Qed.
Lemma wp_chunk_len_eq c l : Holds c l -> wp (chunk_len e c) (fun x => x = length l).
Proof. intros H. eapply wp_chunk_len; [exact H|reflexivity]. Qed.
Lemma wp_chunk_of l : length l <= N -> wp (chunk_of e N l) (fun c => Holds c l).
Proof.
  intros Hl. unfold chunk_of. eapply wp_bind.
  - eapply wp_call; [intros g; apply (from_iter_ok e N HW Hcalm)|apply from_iter_map; exact Hl].
  - intros [u r] [_ Hr]. apply wp_pass. exact Hr.
Qed.
Lemma wp_chunk_input l : wp (chunk_input e N l) (fun c => Holds c (take N l)).
Proof. apply wp_chunk_of. rewrite take_length. lia. Qed.
Lemma wp_chunk_end c l (Q : unit -> Prop) : Holds c l -> Q tt -> wp (chunk_end e N c) Q.
Proof.
  intros H HQ. unfold chunk_end. eapply wp_bind; [|intros ? _; apply wp_pass; exact HQ].
  instantiate (1 := fun _ => True). intros g. destruct (destroy_ret e N HW Hcalm c l g H) as [c' E].
  unfold call. rewrite E. eauto.
Qed.

(** A call with the lemma [L], to be followed by the rest. *)
Ltac doing L := cbv beta in *; eapply wp_bind; [eapply wp_call; [intros ?g; eapply L; try eassumption|try spec_eq]
  |let x := fresh "x" in intros x; destruct x as [? ?]; intros [? ?]; cbv beta iota; cbn [fst snd] in *; subst].
Ltac panicking L := cbv beta in *; eapply wp_bind; [eapply wp_panic; [intros ?g; eapply L; try eassumption|try spec_eq]
  |intros ? ?; cbv beta iota; cbn [fst snd] in *; subst].
Ltac ending := cbv beta in *; eapply (wp_bind _ _ (fun _ => True)); [eapply wp_chunk_end; [eassumption|exact I]|intros _ _; cbv beta].

Theorem wp_chunk_make k : wp (chunk_make e N k) (fun c => exists l, Holds c l).
Proof.
  destruct k as [|v|v1 v2|v|v n|v n|v n]; cbn [chunk_make].
  - eapply (wp_bind _ _ (fun _ => True)); [apply wp_assert; [|exact I]|intros _ _].
    + rewrite (is_empty_ok e N HW _ _ (new_holds e N HW)). reflexivity.
    + apply wp_pass. exists []. apply (new_holds e N HW).
  - doing (unit_ok e N HW Hcalm). eapply (wp_bind _ _ (fun _ => True)); [eapply wp_chunk_is; [eassumption|reflexivity|exact I]|intros _ _].
    apply wp_pass. eauto.
  - doing (pair_ok e N HW Hcalm). eapply (wp_bind _ _ (fun _ => True)); [eapply wp_chunk_is; [eassumption|reflexivity|exact I]|intros _ _].
    apply wp_pass. eauto.
  - eapply wp_bind; [apply wp_chunk_input|]. intros vec Hv.
    eapply wp_bind; [eapply wp_chunk_items_eq; exact Hv|]. intros ? ->.
    eapply wp_bind; [apply wp_chunk_of; rewrite take_length; lia|]. intros source Hs.
    doing (drain_from_ok e N HW).
    eapply (wp_bind _ _ (fun _ => True)); [apply wp_assert; [|exact I]|intros _ _].
    { match goal with H : Holds c [] |- _ => rewrite (is_empty_ok e N HW _ _ H) end. reflexivity. }
    eapply (wp_bind _ _ (fun _ => True)); [eapply wp_chunk_same; [eassumption|exact Hv|exact I]|intros _ _].
    ending. ending. apply wp_pass. eauto.
  - eapply wp_bind; [apply wp_chunk_input|]. intros vec Hv.
    rewrite (is_empty_ok e N HW _ _ Hv). destruct (length (take N v) =? 0) eqn:E0.
    { ending. apply wp_pass. exists []. apply (new_holds e N HW). }
    eapply wp_bind; [eapply wp_chunk_len_eq; exact Hv|]. intros ? ->.
    set (w := take N v) in *. assert (Hw : length w <= N) by (subst w; rewrite take_length; lia).
    assert (Hk : n mod length w < length w) by (apply Nat.mod_upper_bound; lia). set (k := n mod length w) in *.
    clearbody w k. cbv zeta. cbv beta in *.
    doing (clone_ok e N HW Hcalm). { apply clone_id. }
    eapply wp_bind; [eapply wp_chunk_items_eq; eassumption|]. intros ? ->.
    doing (collect_from_ok e N HW Hcalm). { apply (collect_map N w k []); cbn; lia. }
    doing (split_off_ok e N HW).
    eapply (wp_bind _ _ (fun _ => True)); [eapply wp_chunk_is; [eassumption| |exact I]|intros _ _].
    { symmetry. apply omap_yield. }
    eapply (wp_bind _ _ (fun _ => True)); [eapply wp_chunk_same; [eassumption|eassumption|exact I]|intros _ _].
    ending. ending. apply wp_pass. eauto.
  - eapply wp_bind; [apply wp_chunk_input|]. intros vec Hv.
    rewrite (is_empty_ok e N HW _ _ Hv). destruct (length (take N v) =? 0) eqn:E0.
    { ending. apply wp_pass. exists []. apply (new_holds e N HW). }
    eapply wp_bind; [eapply wp_chunk_len_eq; exact Hv|]. intros ? ->.
    set (w := take N v) in *. assert (Hw : length w <= N) by (subst w; rewrite take_length; lia).
    assert (Hk : n mod length w < length w) by (apply Nat.mod_upper_bound; lia). set (k := n mod length w) in *.
    clearbody w k. cbv zeta. cbv beta in *.
    eapply wp_bind; [eapply wp_chunk_items_eq; eassumption|]. intros ? ->.
    eapply wp_bind; [apply wp_chunk_of; lia|]. intros source Hs.
    doing (from_front_ok e N HW). { lia. }
    doing (split_off_ok e N HW).
    eapply (wp_bind _ _ (fun _ => True)); [eapply wp_chunk_same; [eassumption|eassumption|exact I]|intros _ _].
    eapply (wp_bind _ _ (fun _ => True)); [eapply wp_chunk_same; [eassumption|eassumption|exact I]|intros _ _].
    ending. ending. ending. apply wp_pass. eauto.
  - eapply wp_bind; [apply wp_chunk_input|]. intros vec Hv.
    rewrite (is_empty_ok e N HW _ _ Hv). destruct (length (take N v) =? 0) eqn:E0.
    { ending. apply wp_pass. exists []. apply (new_holds e N HW). }
    eapply wp_bind; [eapply wp_chunk_len_eq; exact Hv|]. intros ? ->.
    set (w := take N v) in *. assert (Hw : length w <= N) by (subst w; rewrite take_length; lia).
    assert (Hk : n mod length w < length w) by (apply Nat.mod_upper_bound; lia). set (k := n mod length w) in *.
    clearbody w k. cbv zeta. cbv beta in *.
    eapply wp_bind; [eapply wp_chunk_items_eq; eassumption|]. intros ? ->.
    eapply wp_bind; [apply wp_chunk_of; lia|]. intros source Hs.
    doing (from_back_ok e N HW). { lia. }
    eapply wp_bind; [eapply wp_chunk_len_eq; exact Hv|]. intros ? ->.
    doing (split_off_ok e N HW).
    eapply (wp_bind _ _ (fun _ => True)); [eapply wp_chunk_same; [eassumption|eassumption|exact I]|intros _ _].
    eapply (wp_bind _ _ (fun _ => True)); [eapply wp_chunk_same; [eassumption|eassumption|exact I]|intros _ _].
    ending. ending. ending. apply wp_pass. eauto.
Qed.

Ltac two_of := match goal with Hb : both _ _ ?p _ |- _ =>
  is_var p; destruct p as [?c' ?o']; destruct Hb as [?H3 ?H4]; cbn [fst snd] in * end.
Ltac finish := apply wp_pass; cbn [fst snd]; auto.

Theorem wp_chunk_action a c l : action_fits e (construct_fits e) a -> Holds c l ->
  wp (chunk_action e N bs a c l) (fun x => Holds (fst x) (snd x)).
Proof.
  intros Ha H. pose proof (holds_length e N HW c l H) as Hl.
  pose proof (is_full_ok e N HW c l H) as Hfull. pose proof (is_empty_ok e N HW c l H) as Hempty.
  destruct a; cbn [chunk_action action_fits] in *; rewrite ?Hfull, ?Hempty;
    try (eapply wp_bind; [eapply wp_chunk_len_eq; exact H|]; intros ? ->).
  - destruct (length l =? N) eqn:E.
    + panicking (push_front_ok e N HW Hcalm). finish.
    + doing (push_front_ok e N HW Hcalm).
      eapply wp_bind; [apply (wp_vec_insert _ _ _ (fun x => x = v :: l)); [lia|rewrite take_0, drop_0; reflexivity]|].
      intros ? ->. finish.
  - destruct (length l =? N) eqn:E.
    + panicking (push_back_ok e N HW Hcalm). finish.
    + doing (push_back_ok e N HW Hcalm). finish.
  - destruct l as [|a l]; cbn [length Nat.eqb].
    + panicking (pop_front_ok e N HW). finish.
    + doing (pop_front_ok e N HW).
      eapply wp_bind; [apply (wp_vec_remove 0 a _ (fun x => x = (l, a))); reflexivity|]. intros ? ->.
      eapply (wp_bind _ _ (fun _ => True)); [apply wp_assert; [apply Nat.eqb_refl|exact I]|intros _ _]. finish.
  - destruct (length l =? 0) eqn:E.
    + destruct l; [|discriminate]. panicking (pop_back_ok e N HW). finish.
    + destruct (lookup_lt_is_Some_2 l (length l - 1)) as [a Hlast]; [lia|].
      eapply wp_bind; [eapply wp_call; [intros g; eapply (pop_back_ok e N HW); exact H|]
        |].
      { unfold bl_pop_back. rewrite Hlast. reflexivity. }
      intros [c' x] [Hc Hx]. cbn [fst snd] in *. subst x. rewrite pop_last, Hlast.
      eapply (wp_bind _ _ (fun _ => True)); [apply wp_assert; [apply opt_eq_refl|exact I]|intros _ _]. finish.
  - destruct (length l <? i) eqn:E.
    + panicking (drop_left_ok e N HW Hcalm). finish.
    + doing (drop_left_ok e N HW Hcalm).
      eapply wp_bind; [apply (wp_vec_drain_to _ _ (fun x => x = (drop i l, take i l))); [lia|reflexivity]|].
      intros ? ->. finish.
  - destruct (length l <? i) eqn:E.
    + panicking (drop_right_ok e N HW Hcalm). finish.
    + doing (drop_right_ok e N HW Hcalm).
      eapply wp_bind; [apply (wp_vec_drain_from _ _ (fun x => x = (take i l, drop i l))); [lia|reflexivity]|].
      intros ? ->. finish.
  - destruct (length l <? i) eqn:E.
    + panicking (split_off_ok e N HW). finish.
    + doing (split_off_ok e N HW).
      eapply wp_bind; [apply (wp_vec_drain_from _ _ (fun x => x = (take i l, drop i l))); [lia|reflexivity]|].
      intros ? ->.
      eapply (wp_bind _ _ (fun _ => True)); [eapply wp_chunk_is; [eassumption|reflexivity|exact I]|intros _ _].
      ending. finish.
  - eapply wp_bind; [apply wp_chunk_make|]. intros oth [l2 H2]. pose proof (holds_length e N HW _ _ H2) as Hl2.
    eapply wp_bind; [eapply wp_chunk_items_eq; exact H2|]. intros ? ->.
    eapply wp_bind; [eapply wp_chunk_len_eq; exact H2|]. intros ? ->.
    eapply wp_bind; [eapply wp_chunk_len_eq; exact H|]. intros ? ->.
    eapply wp_bind; [apply (wp_plus _ _ _ (fun x => x = length l2 + length l)); [lia|reflexivity]|]. intros ? ->.
    assert (HH : both Holds Holds (c, oth) (l, l2)) by (split; assumption).
    destruct (N <? length l2 + length l) eqn:E.
    + panicking (append_ok e N HW). two_of.
      ending. finish.
    + doing (append_ok e N HW). two_of.
      ending. finish.
  - destruct Ha as [_ Hn].
    eapply wp_bind; [apply wp_chunk_make|]. intros oth [l2 H2]. pose proof (holds_length e N HW _ _ H2) as Hl2.
    eapply wp_bind; [eapply wp_chunk_items_eq; exact H2|]. intros ? ->.
    eapply wp_bind; [eapply wp_chunk_len_eq; exact H2|]. intros ? ->.
    eapply wp_bind; [eapply wp_chunk_len_eq; exact H|]. intros ? ->.
    assert (HH : both Holds Holds (c, oth) (l, l2)) by (split; assumption).
    eapply (wp_bind _ _ (fun b => b = (length l2 <? count) || (N <? length l + count))).
    { destruct (length l2 <? count) eqn:E; [apply wp_pass; reflexivity|].
      eapply wp_bind; [apply (wp_plus _ _ _ (fun x => x = length l + count)); [lia|reflexivity]|]. intros ? ->.
      apply wp_pass. reflexivity. }
    intros ? ->. destruct ((length l2 <? count) || (N <? length l + count)) eqn:E.
    + panicking (drain_from_front_ok e N HW). two_of.
      ending. finish.
    + doing (drain_from_front_ok e N HW). two_of.
      eapply wp_bind; [apply (wp_vec_drain_to _ _ (fun x => x = (drop count l2, take count l2))); [lia|reflexivity]|].
      intros ? ->.
      eapply (wp_bind _ _ (fun _ => True)); [eapply wp_chunk_is; [eassumption|reflexivity|exact I]|intros _ _].
      ending. finish.
  - destruct Ha as [_ Hn].
    eapply wp_bind; [apply wp_chunk_make|]. intros oth [l2 H2]. pose proof (holds_length e N HW _ _ H2) as Hl2.
    eapply wp_bind; [eapply wp_chunk_items_eq; exact H2|]. intros ? ->.
    eapply wp_bind; [eapply wp_chunk_len_eq; exact H2|]. intros ? ->.
    eapply wp_bind; [eapply wp_chunk_len_eq; exact H|]. intros ? ->.
    assert (HH : both Holds Holds (c, oth) (l, l2)) by (split; assumption).
    eapply (wp_bind _ _ (fun b => b = (length l2 <? count) || (N <? length l + count))).
    { destruct (length l2 <? count) eqn:E; [apply wp_pass; reflexivity|].
      eapply wp_bind; [apply (wp_plus _ _ _ (fun x => x = length l + count)); [lia|reflexivity]|]. intros ? ->.
      apply wp_pass. reflexivity. }
    intros ? ->. destruct ((length l2 <? count) || (N <? length l + count)) eqn:E.
    + panicking (drain_from_back_ok e N HW). two_of.
      ending. finish.
    + doing (drain_from_back_ok e N HW). two_of.
      eapply wp_bind; [apply (wp_vec_drain_from _ _ (fun x => x = (take (length l2 - count) l2, drop (length l2 - count) l2))); [lia|reflexivity]|].
      intros ? ->.
      eapply (wp_bind _ _ (fun _ => True)); [eapply wp_chunk_is; [eassumption|reflexivity|exact I]|intros _ _].
      ending. finish.
  - destruct (length l <=? i) eqn:E.
    + panicking (set_ok e N HW Hcalm).
      { unfold bl_set. rewrite lookup_ge_None_2 by lia. reflexivity. } finish.
    + destruct (lookup_lt_is_Some_2 l i) as [a Hi]; [lia|].
      doing (set_ok e N HW Hcalm). { unfold bl_set. rewrite Hi. reflexivity. }
      eapply wp_bind; [apply (wp_vec_set _ _ _ (fun x => x = take i l ++ v :: drop (S i) l)); [lia|reflexivity]|].
      intros ? ->. finish.
  - destruct ((length l <? i) || (length l =? N)) eqn:E.
    + panicking (insert_ok e N HW Hcalm). finish.
    + doing (insert_ok e N HW Hcalm).
      eapply wp_bind; [apply (wp_vec_insert _ _ _ (fun x => x = take i l ++ v :: drop i l)); [lia|reflexivity]|].
      intros ? ->. finish.
  - destruct Ha as [Hv Hi]. unfold vec_fits, usize in *.
    eapply (wp_bind _ _ (fun b => b = (length l <? i) || (N <? length l + length values))).
    { destruct (length l <? i) eqn:E; [apply wp_pass; reflexivity|].
      eapply wp_bind; [apply (wp_plus _ _ _ (fun x => x = length l + length values)); [lia|reflexivity]|]. intros ? ->.
      apply wp_pass. reflexivity. }
    intros ? ->. cbv zeta.
    assert (Hy : yields (length values) (map Yield values) = values) by (apply yields_map; lia).
    destruct ((length l <? i) || (N <? length l + length values)) eqn:E.
    + panicking (insert_from_ok e N HW); [lia|lia| |].
      { unfold bl_insert_from_any. rewrite Hy. spec_eq. } finish.
    + doing (insert_from_ok e N HW); [lia|lia| |].
      { unfold bl_insert_from_any. rewrite Hy, Nat.eqb_refl. spec_eq. }
      eapply wp_bind; [apply (wp_vec_insert_each _ _ _ (fun x => x = take i l ++ values ++ drop i l)); [lia|]|].
      { rewrite rev_involutive. reflexivity. }
      intros ? ->. finish.
  - destruct (Hbs l v) as (i & Ei & Hi).
    destruct (length l =? N) eqn:E.
    + panicking (insert_ordered_ok e N HW Hcalm).
      finish.
    + doing (insert_ordered_ok e N HW Hcalm).
      { replace (length l <? N) with true by lia. rewrite Ei. spec_eq. }
      unfold vec_insert_ordered. rewrite Ei.
      eapply wp_bind; [apply (wp_vec_insert _ _ _ (fun x => x = take i l ++ v :: drop i l)); [lia|reflexivity]|].
      intros ? ->. finish.
  - destruct (length l <=? i) eqn:E.
    + panicking (remove_ok e N HW).
      { unfold bl_remove. rewrite lookup_ge_None_2 by lia. reflexivity. } finish.
    + destruct (lookup_lt_is_Some_2 l i) as [a Hi]; [lia|].
      doing (remove_ok e N HW). { unfold bl_remove. rewrite Hi. reflexivity. }
      eapply wp_bind; [apply (wp_vec_remove i a _ (fun x => x = (take i l ++ drop (S i) l, a))); [exact Hi|reflexivity]|].
      intros ? ->.
      eapply (wp_bind _ _ (fun _ => True)); [apply wp_assert; [apply Nat.eqb_refl|exact I]|intros _ _]. finish.
  - eapply wp_bind.
    + eapply (wp_collect Holds); [|exact H|lia]. intros o l' Ho g.
      destruct (iter_next_ok e N HW o l' g Ho) as (c' & g' & E & Hc & _). exists (c', fst (take_side Front l')), g'.
      unfold call. rewrite E. split; [reflexivity|]. destruct l'; cbn in *; auto.
    + intros [c' x] [Hc Hx]. cbn [fst snd] in *. subst x.
      eapply (wp_bind _ _ (fun _ => True)); [apply wp_assert; [apply slice_eq_refl|exact I]|intros _ _]. finish.
  - doing (clear_ok e N HW Hcalm). finish.
Qed.

Theorem wp_chunk_actions al : forall c l, Forall (action_fits e (construct_fits e)) al -> Holds c l ->
  wp (chunk_actions e N bs al c l) (fun x => Holds (fst x) (snd x)).
Proof.
  induction al as [|a al IH]; intros c l Ha H; cbn [chunk_actions]; [apply wp_pass; exact H|].
  inversion_clear Ha. eapply wp_bind; [apply wp_chunk_action; eassumption|]. intros [c' l'] H'. cbn [fst snd] in *.
  eapply (wp_bind _ _ (fun _ => True)); [eapply wp_chunk_is; [eassumption|reflexivity|exact I]|intros _ _].
  pose proof (holds_length e N HW _ _ H').
  eapply (wp_bind _ _ (fun _ => True)); [apply wp_assert; [lia|exact I]|intros _ _].
  apply IH; assumption.
Qed.
Theorem fuzz_sized_chunk_ok input : Forall (action_fits e (construct_fits e)) (snd input) ->
  succeeds (fuzz_sized_chunk e N bs input).
Proof.
  intros Ha. assert (W : wp (fuzz_sized_chunk e N bs input) (fun _ => True)).
  { unfold fuzz_sized_chunk. eapply wp_bind; [apply wp_chunk_make|]. intros c [l H].
    eapply wp_bind; [eapply wp_chunk_items_eq; exact H|]. intros ? ->.
    eapply wp_bind; [apply wp_chunk_actions; eassumption|]. intros [c' l'] H'. cbn [fst snd] in *.
    eapply wp_chunk_end; [exact H'|exact I]. }
  intros g. destruct (W g) as ([] & g' & E & _). eauto.
Qed.
End chunk.
