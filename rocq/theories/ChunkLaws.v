(** * Consequences of the [Chunk] lemmas, in the form the properties are stated. *)
From Verif Require Import Machine Spec Prims IterSpec Program SpecProps
  ChunkModel ChunkProofs ChunkProofs2 ChunkProofs3 ChunkProofs4 ChunkProofs5 ChunkProgram ChunkExamples.
From Coq Require Import Sorting.Sorted.

Section laws.
Context {A : Type} (e : env A) (N : nat).
Hypothesis HW : N + N < word e.
Implicit Types (c : chunk A) (l : list A) (g : log A) (v : A) (i k n : nat).

Lemma yields_all (xs : list A) : yields (length xs) (map Yield xs) = xs.
Proof. induction xs as [|x xs IH]; cbn; [reflexivity|]. f_equal. exact IH. Qed.
Lemma insert_from_truthful c l g i xs : Holds N c l -> length xs < word e ->
  length l + length xs < word e \/ debug e = true ->
  agrees (Holds N) eq g (insert_from e N i (length xs) (length xs) (map Yield xs) c g)
    (if (length l + length xs <=? N) && (i <=? length l)
     then SRet (take i l ++ xs ++ drop i l) tt [] else SPanic l [] []).
Proof.
  intros H Hn Hd. pose proof (insert_from_ok e N HW c l g i (length xs) (map Yield xs) H Hn Hd) as P.
  unfold bl_insert_from_any in P. rewrite yields_all, Nat.eqb_refl in P. exact P.
Qed.

(** The sorting contract of [slice::binary_search] for a total preorder [R]. *)
Definition search_ok (R : A -> A -> Prop) (bs : list A -> A -> option nat) : Prop :=
  forall l v, StronglySorted R l -> exists i, bs l v = Some i /\ i <= length l /\
    (forall j a, j < i -> l !! j = Some a -> R a v) /\ (forall j a, i <= j -> l !! j = Some a -> R v a).
Lemma insert_ordered_sorted R bs c l g v : calm e -> search_ok R bs -> Holds N c l -> StronglySorted R l ->
  length l < N ->
  exists l1 l2, l = l1 ++ l2 /\ StronglySorted R (l1 ++ v :: l2) /\
    agrees (Holds N) eq g (insert_ordered e N bs v c g) (SRet (l1 ++ v :: l2) tt []).
Proof.
  intros Hc Hs H HS HN. destruct (Hs l v HS) as (i & Ei & Hi & H1 & H2).
  exists (take i l), (drop i l). split; [symmetry; apply take_drop|].
  split; [eapply StronglySorted_insert; eassumption|].
  pose proof (insert_ordered_ok e N HW Hc c l g v bs H) as P.
  rewrite Ei in P. replace (length l <? N) with true in P by lia.
  unfold bl_insert in P. replace ((length l <? N) && (i <=? length l)) with true in P by lia. exact P.
Qed.
Lemma insert_ordered_unsorted bs c l g v : calm e -> Holds N c l ->
  (forall i, bs l v = Some i -> i <= length l) ->
  agrees (Holds N) eq g (insert_ordered e N bs v c g)
    (if length l <? N then
       match bs l v with
       | Some i => SRet (take i l ++ v :: drop i l) tt []
       | None => SPanic l [v] []
       end
     else SPanic l [v] []).
Proof.
  intros Hc H Hb. pose proof (insert_ordered_ok e N HW Hc c l g v bs H) as P.
  destruct (length l <? N) eqn:E; [|exact P]. destruct (bs l v) as [i|]; [|exact P].
  specialize (Hb i eq_refl). unfold bl_insert in P.
  replace ((length l <? N) && (i <=? length l)) with true in P by lia. exact P.
Qed.

(** Appending what was split off restores the contents. *)
Lemma split_append c l g i : Holds N c l -> i <= length l ->
  exists c1 c2 g1 c1' c2' g2,
    split_off e N i c g = Ret c1 g1 (c2, tt) /\
    append e N (c1, c2) g1 = Ret (c1', c2') g2 tt /\
    Holds N c1' l /\ Holds N c2' [] /\ dropped g2 = dropped g /\ leaked g2 = leaked g.
Proof.
  intros H Hi. pose proof (split_off_ok e N HW c l g i H) as P. unfold bl_split_off in P.
  replace (i <=? length l) with true in P by lia.
  destruct P as (c1 & g1 & [c2 []] & E1 & H1 & H2 & D1 & L1).
  pose proof (append_ok e N HW (c1, c2) (take i l, drop i l) g1 (conj H1 H2)) as P.
  unfold bl_append in P. cbn [fst snd] in P. rewrite take_drop in P.
  pose proof (holds_length e N HW c l H) as HN.
  replace (length (take i l) + length (drop i l) <=? N) with true in P
    by (rewrite take_length, drop_length; lia).
  destruct P as ([c1' c2'] & g2 & [] & E2 & [H3 H4] & _ & D2 & L2). cbn in *.
  exists c1, c2, g1, c1', c2', g2. rewrite D2, L2, D1, L1, !app_nil_r. repeat split; auto; apply H3 || apply H4.
Qed.

(** A consumed iterator is destroyed: the elements not yet delivered are dropped, in order. *)
Lemma iter_drop script c l g : calm e -> Holds N c l ->
  exists c' g' c'' g'', pull_all (iter_next e N) (iter_next_back e N) (size_hint e) script c g =
      Ret c' g' (fst (pulls script l)) /\
    destroy e N c' g' = Ret c'' g'' tt /\
    dropped g'' = dropped g ++ snd (pulls script l) /\ leaked g'' = leaked g.
Proof.
  intros Hc H. destruct (iter_ok e N HW script c l g H) as (c' & g' & E & H' & D & L).
  destruct (destroy_ret e N HW Hc c' _ g' H') as (c'' & E').
  exists c', g', c'', (log_drop (snd (pulls script l)) g'). cbn. rewrite D, L. auto.
Qed.

Lemma eq_ok eqA c1 c2 l1 l2 g : Holds N c1 l1 -> Holds N c2 l2 ->
  eq_ e N eqA (c1, c2) g = Ret (c1, c2) g (slice_eq eqA l1 l2).
Proof. apply two_slices. exact HW. Qed.
Lemma partial_cmp_ok pc c1 c2 l1 l2 g : Holds N c1 l1 -> Holds N c2 l2 ->
  partial_cmp e N pc (c1, c2) g = Ret (c1, c2) g (iter_partial_cmp pc l1 l2).
Proof. apply two_slices. exact HW. Qed.
Lemma cmp_ok cmp c1 c2 l1 l2 g : Holds N c1 l1 -> Holds N c2 l2 ->
  cmp_ e N cmp (c1, c2) g = Ret (c1, c2) g (iter_cmp cmp l1 l2).
Proof. apply two_slices. exact HW. Qed.
Lemma slice_eq_iff (eqA : A -> A -> bool) (Heq : forall a b, eqA a b = true <-> a = b) l1 l2 :
  slice_eq eqA l1 l2 = true <-> l1 = l2.
Proof.
  revert l2. induction l1 as [|a l1 IH]; intros [|b l2]; cbn; try (split; [discriminate|discriminate]); [tauto|].
  rewrite andb_true_iff, Heq, IH. split; [intros [-> ->]; reflexivity | intros E; injection E; auto].
Qed.

(** [collect_from]: what is left of the iterator. *)
Lemma collect_exact k : forall xs it l, length xs = k -> length l + k <= N ->
  bl_collect N k (map Yield xs ++ it) l = SRet it (l ++ xs) [].
Proof.
  induction k as [|k IH]; intros [|x xs] it l Hx Hl; cbn [length] in Hx; try discriminate; cbn [bl_collect map app].
  - rewrite app_nil_r. reflexivity.
  - replace (length l <? N) with true by lia. rewrite IH by (rewrite ?app_length; cbn; lia).
    rewrite <- app_assoc. reflexivity.
Qed.
Lemma bl_pop_back_snoc l a : bl_pop_back (l ++ [a]) = SRet l a [].
Proof.
  unfold bl_pop_back. rewrite app_length. cbn [length].
  replace (length l + 1 - 1) with (length l) by lia.
  rewrite lookup_app_r by lia. rewrite Nat.sub_diag. cbn. rewrite take_app. reflexivity.
Qed.
Lemma destroy_eq c l g : calm e -> Holds N c l ->
  destroy e N c g = Ret (Chunk (left c) (right c) mem0) (log_drop l g) tt.
Proof.
  intros Hcalm H. unfold destroy, destroying.
  assert (E : exists m, drop_ e N c g = Ret (Chunk (left c) (right c) m) (log_drop l g) tt /\ forall p, m p = None).
  { start. unfold drop_. exec. dropping_tail l. eexists; split; [reflexivity|]. intros p. mem_unfold. pw. }
  destruct E as (m & E & Hm). rewrite E. erewrite slots_release_clean; [reflexivity|exact HW|]. auto.
Qed.
Lemma insert_from_safe c l g i n it : calm e -> Holds N c l -> n < word e ->
  length l + n < word e \/ debug e = true ->
  exists c' l' g', Holds N c' l' /\ destroy e N c' g' = Ret (Chunk (left c') (right c') mem0) (log_drop l' g') tt /\
    (insert_from e N i n n it c g = Ret c' g' tt \/ insert_from e N i n n it c g = Panic c' g').
Proof.
  intros Hc H Hn Hd. pose proof (insert_from_ok e N HW c l g i n it H Hn Hd) as P.
  destruct (bl_insert_from_any N i n it l) as [l' u d|l' d k].
  - destruct P as (c' & g' & [] & E & H' & _). exists c', l', g'. split; [exact H'|].
    split; [apply destroy_eq; assumption|]. auto.
  - destruct P as (c' & g' & k' & E & H' & _). exists c', l', g'. split; [exact H'|].
    split; [apply destroy_eq; assumption|]. auto.
Qed.
Lemma from_back_release c l g k : debug e = false -> Holds N c l -> length l < k -> k < word e ->
  (right c < k -> from_back e N k c g = UB OutOfBounds) /\
  (k <= right c -> exists c' o g', from_back e N k c g = Ret c' g' (o, tt) /\
     as_slice e N o g' = UB DeadSlot).
Proof.
  intros Hd H Hl Hk. start. cbn [left right cdata]. unfold from_back, debug_assert. rewrite Hd. cbn [andb]. exec.
  split; intros HN.
  - unfold with_local. erewrite (bind_Ret get) by reflexivity. cbn [snd right left].
    erewrite (bind_Ret (usub e rt k)).
    2:{ unfold usub. replace (k <=? rt) with false by lia. rewrite Hd. reflexivity. }
    unfold force_copy_to. replace (0 <? k) with true by lia. unfold bind, slots_transfer.
    replace (_ && _) with false by lia. reflexivity.
  - eexists _, _, _. split; [eapply with_local_Ret; exec|].
    unfold as_slice. exec. unfold new. cbn [left right cdata]. exec.
    destruct (decide (k <= N)).
    + eapply (slots_peek_dead e N HW _ _ 0 (k - 0) (k - 1 - length l)); [lia | lia |]. mem_side.
    + lia.
Qed.
Lemma chunk_costs xs c l g v i : Holds N c l ->
  (length xs <= N ->
   post (fun c' g' _ => Holds N c' xs /\ writes g' = writes g + length xs) (each (push_back e N) xs new g) /\
   post (fun c' g' _ => Holds N c' (rev xs) /\ writes g' = writes g + length xs) (each (push_front e N) xs new g)) /\
  (length l < N ->
   post (fun _ g' _ => writes g' <= writes g + (length l + 1)) (push_back e N v c g) /\
   post (fun _ g' _ => writes g' <= writes g + (length l + 1)) (push_front e N v c g)) /\
  (i < length l ->
   post (fun _ g' _ => writes g' = writes g + i `min` (length l - 1 - i)) (remove e N i c g)) /\
  (i <= length l -> length l < N ->
   post (fun _ g' _ => writes g' <= writes g + i `max` (length l - i) + 1) (insert e N i v c g)).
Proof.
  assert (W : forall O R (P Q : O -> log A -> R -> Prop) x, (forall o g r, P o g r -> Q o g r) -> post P x -> post Q x).
  { intros O R P Q []; cbn; auto. }
  intros H. split; [|split; [|split]].
  - intros Hx. split.
    + apply (push_backs_cost e N HW xs new [] g (new_holds e N HW)); [cbn; lia | reflexivity].
    + rewrite <- (app_nil_r (rev xs)).
      apply (push_fronts_cost e N HW xs new [] g (new_holds e N HW)); [cbn; lia | right; reflexivity].
  - intros Hl. split.
    + eapply W; [|apply (push_back_cost e N HW c l g v H Hl)]. intros o g' r. cbn. tauto.
    + eapply W; [|apply (push_front_cost e N HW c l g v H Hl)]. intros o g' r. cbn. tauto.
  - intros Hi. eapply W; [|apply (remove_cost e N HW c l g i H Hi)]. intros o g' r. cbn. tauto.
  - intros Hi Hl. eapply W; [|apply (insert_cost e N HW c l g i v H Hi Hl)]. intros o g' r. cbn. tauto.
Qed.
End laws.

(** A search meeting the contract. *)
Fixpoint take_while_le (v : nat) (l : list nat) : list nat :=
  match l with a :: l' => if a <=? v then a :: take_while_le v l' else [] | [] => [] end.
Lemma linear_search_ok : search_ok le (fun l v => Some (length (take_while_le v l))).
Proof.
  intros l v HS. eexists. split; [reflexivity|].
  induction HS as [|a l HS IH Ha]; cbn [take_while_le].
  - cbn. split; [lia|]. split; intros j x Hj E; [lia|discriminate].
  - destruct (a <=? v) eqn:Ev; cbn [length].
    + destruct IH as (H1 & H2 & H3). split; [lia|]. split; intros [|j] x Hj E; cbn in E; try lia.
      * injection E as <-. lia.
      * apply (H2 j); [lia|exact E].
      * apply (H3 j); [lia|exact E].
    + split; [lia|]. split; intros j x Hj E; [lia|].
      apply elem_of_list_lookup_2 in E. apply elem_of_cons in E. destruct E as [->|E]; [lia|].
      rewrite Forall_forall in Ha. apply elem_of_list_In in E. specialize (Ha x E). lia.
Qed.


(** Two chunks with equal contents but different layouts hash alike, but not like the slice. *)
Lemma hash_borrow_differs {A} (l : list A) : map HItem l <> slice_hash l.
Proof.
  unfold slice_hash. intros H. apply (f_equal length) in H. cbn in H. rewrite map_length in H. lia.
Qed.
