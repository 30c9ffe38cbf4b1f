(** * [RingBuffer]: laws derived from the method lemmas, in the form the properties need them. *)
From Verif Require Import Machine Spec Prims IterSpec Program SpecProps RingModel RingProofs RingProofs2 RingProofs3 RingProofs4
  RingProofs5 RingProofs6 RingProgram ChunkLaws ChunkExamples ChunkProofs5.
From Coq Require Import Sorting.Sorted.

Lemma wr_mod N x : x < N + N -> wr N x = x mod N.
Proof.
  intros H. unfold wr. destruct (x <? N) eqn:E; [rewrite Nat.mod_small by lia; reflexivity|].
  rewrite <- (Nat.mod_small (x - N) N) by lia. rewrite <- (Nat.mod_add (x - N) 1 N) by lia. f_equal. lia.
Qed.

Section laws.
Context {A : Type} (e : env A) (N : nat).
Hypothesis HW : N + N < word e.
Hypothesis HN : 0 < N.
Implicit Types (r : ring A) (l : list A) (g : log A) (v : A) (i k index count : nat).

(** [Drain] and [OwnedIter]. *)
Lemma rb_drain_iter script r l g : RHolds N r l ->
  exists r' g', pull_all (rb_pop_front e N) (rb_pop_back e N) rb_size_hint script r g =
      Ret r' g' (fst (pulls script l)) /\
    RHolds N r' (snd (pulls script l)) /\ dropped g' = dropped g /\ leaked g' = leaked g.
Proof.
  apply (pull_all_ok (RHolds N)).
  - intros o l0 g0 H. apply agrees_take_side. pose proof (rb_pop_front_ok e N HW HN o l0 g0 H) as P.
    destruct l0; exact P.
  - intros o l0 g0 H. apply agrees_take_side. pose proof (rb_pop_back_ok e N HW HN o l0 g0 H) as P.
    unfold bl_try_pop_back in P. cbn [take_side]. destruct (l0 !! (length l0 - 1)); exact P.
  - intros o l0 g0 H. unfold rb_size_hint, rb_len, bind, get, ret. destruct H as (_ & -> & _). reflexivity.
Qed.
(** [OwnedIter] dropped before it is exhausted. *)
Lemma rb_drain_iter_drop script r l g : calm e -> RHolds N r l ->
  exists r' g' r'' g'', pull_all (rb_pop_front e N) (rb_pop_back e N) rb_size_hint script r g =
      Ret r' g' (fst (pulls script l)) /\
    rb_destroy e N r' g' = Ret r'' g'' tt /\
    dropped g'' = dropped g ++ snd (pulls script l) /\ leaked g'' = leaked g.
Proof.
  intros Hc H. destruct (rb_drain_iter script r l g H) as (r' & g' & E & H' & D & L).
  destruct (rb_destroy_ok e N HW HN Hc r' _ g' H') as (r'' & g'' & [] & E2 & _ & _ & D2 & L2).
  exists r', g', r'', g''. rewrite D2, L2, D, L. auto.
Qed.
(** [Iter] and [IterMut]: items are (slot, value). *)
Lemma rb_ref_iter script r l g : RHolds N r l -> exists ix slots,
  rb_iter e N r g = Ret r g ix /\ map snd slots = l /\ NoDup (map fst slots) /\
  (forall p v, In (p, v) slots -> p < N /\ rdata r p = Some v) /\
  exists x g', pull_all (it_next e N) (it_next_back e N) it_size_hint script (ix, r) g =
      Ret x g' (fst (pulls script slots)) /\ snd x = r /\ dropped g' = dropped g /\ leaked g' = leaked g.
Proof.
  intros H. destruct (rb_iter_ok e N HW HN r l g H) as (ix & E & I). pose proof H as (Ho & Hl & Hn & Hd).
  exists ix, (slots_from N (origin r) 0 l). split; [exact E|].
  split; [apply slots_from_snd|]. split; [apply (slots_from_fst e N HW HN); try assumption; lia|]. split.
  { intros p v Hin. apply elem_of_list_In, elem_of_list_lookup in Hin as (t & Ht).
    destruct I as (_ & a & _ & Ha & _ & _ & Hs).
    assert (Hlt : t < length (slots_from N (origin r) 0 l)) by (apply lookup_lt_Some in Ht; exact Ht).
    destruct (Hs t Hlt) as (v' & Hv & Hm). rewrite Ht in Hv. injection Hv as -> <-. split; [|exact Hm].
    rewrite Hd in Hm. destruct (_ <? N) eqn:E1 in Hm; [lia|discriminate]. }
  assert (P : forall x ls g0, itH N (origin r) r x ls -> exists x' g', pull_all (it_next e N) (it_next_back e N)
     it_size_hint script x g0 = Ret x' g' (fst (pulls script ls)) /\ itH N (origin r) r x' (snd (pulls script ls)) /\
     dropped g' = dropped g0 /\ leaked g' = leaked g0).
  { apply pull_all_ok.
    - intros. apply it_next_ok; assumption.
    - intros. apply it_next_back_ok; assumption.
    - intros. eapply it_size_hint_ok; eassumption. }
  destruct (P _ _ g I) as (x & g' & E2 & I2 & D & L). exists x, g'. split; [exact E2|]. split; [exact (proj1 I2)|]. auto.
Qed.
(** The iterators of slices. *)
Lemma sl_ref_iter script s r l g : RHolds N r l -> in_range s l -> exists ix slots,
  sl_iter e N s r g = Ret r g ix /\ map snd slots = sub_list s l /\ NoDup (map fst slots) /\
  (forall p v, In (p, v) slots -> p < N /\ rdata r p = Some v) /\
  exists x g', pull_all (it_next e N) (it_next_back e N) it_size_hint script (ix, r) g =
      Ret x g' (fst (pulls script slots)) /\ snd x = r /\ dropped g' = dropped g /\ leaked g' = leaked g.
Proof.
  intros H Hs. destruct (sl_iter_ok e N HW HN s l r g H Hs) as (ix & E & I). pose proof H as (Ho & Hl & Hn & Hd).
  exists ix, (slots_from N (origin r) (fst s) (sub_list s l)). split; [exact E|].
  assert (Hlen := sub_list_length e N HW HN s l Hs). destruct Hs as [Hs1 Hs2].
  split; [apply slots_from_snd|]. split; [apply (slots_from_fst e N HW HN); try assumption; lia|]. split.
  { intros p v Hin. apply elem_of_list_In, elem_of_list_lookup in Hin as (t & Ht).
    destruct I as (_ & a & _ & Ha & _ & _ & Hsl).
    assert (Hlt : t < length (slots_from N (origin r) (fst s) (sub_list s l))) by (apply lookup_lt_Some in Ht; exact Ht).
    destruct (Hsl t Hlt) as (v' & Hv & Hm). rewrite Ht in Hv. injection Hv as -> <-. split; [|exact Hm].
    rewrite Hd in Hm. destruct (_ <? N) eqn:E1 in Hm; [lia|discriminate]. }
  assert (P : forall x ls g0, itH N (origin r) r x ls -> exists x' g', pull_all (it_next e N) (it_next_back e N)
     it_size_hint script x g0 = Ret x' g' (fst (pulls script ls)) /\ itH N (origin r) r x' (snd (pulls script ls)) /\
     dropped g' = dropped g0 /\ leaked g' = leaked g0).
  { apply pull_all_ok.
    - intros. apply it_next_ok; assumption.
    - intros. apply it_next_back_ok; assumption.
    - intros. eapply it_size_hint_ok; eassumption. }
  destruct (P _ _ g I) as (x & g' & E2 & I2 & D & L). exists x, g'. split; [exact E2|]. split; [exact (proj1 I2)|]. auto.
Qed.

(** Indexing a slice beyond its length but inside the buffer. *)
Lemma sl_index_beyond s r l g i a : RHolds N r l -> in_range s l -> snd s - fst s <= i -> l !! (fst s + i) = Some a ->
  exists r' g', sl_index e N s i r g = Ret r' g' a /\ RHolds N r' l.
Proof.
  intros H Hs Hi Ha. assert (fst s + i < length l) by (eapply lookup_lt_Some; exact Ha).
  pose proof H as (_ & _ & Hn & _).
  assert (P := sl_index_ok e N HW HN s l r g i H Hs ltac:(lia)). unfold bl_index in P. rewrite Ha in P.
  destruct P as (r' & g' & x & E & H' & -> & _). eauto.
Qed.

(** [..=usize::MAX]. *)
Lemma rb_slice_overflow r l g : debug e = false -> RHolds N r l ->
  rb_slice e Unbounded (Included (word e - 1)) r g = Ret r g (0, 0).
Proof.
  intros Hd H. unfold rb_slice, bind, get, ret, uadd. rewrite Hd. rewrite if_false by lia.
  replace (word e - 1 + 1 - word e) with 0 by lia. reflexivity.
Qed.

(** [insert_ordered] on a sorted buffer. *)
Lemma rb_insert_ordered_sorted (R : A -> A -> Prop) bs r l g v : calm e -> search_ok R bs -> RHolds N r l ->
  StronglySorted R l -> length l < N -> exists l1 l2, l = l1 ++ l2 /\ StronglySorted R (l1 ++ v :: l2) /\
    agrees (RHolds N) eq g (rb_insert_ordered e N bs v r g) (SRet (l1 ++ v :: l2) tt []).
Proof.
  intros Hc Hs H HS Hl. 
  destruct (Hs l v HS) as (i & Ei & Hi & H1 & H2).
  exists (take i l), (drop i l). split; [symmetry; apply take_drop|].
  split; [eapply (ChunkProofs5.StronglySorted_insert e N HW); eassumption|].
  pose proof (rb_insert_ordered_ok e N HW HN Hc r l g v bs H) as P.
  rewrite Ei in P. replace (length l <? N) with true in P by lia.
  unfold bl_insert in P. replace ((length l <? N) && (i <=? length l)) with true in P by lia. exact P.
Qed.

(** Splitting and appending again. *)
Lemma rb_split_append r l g i : calm e -> RHolds N r l -> i <= length l -> exists r1 r2 g1 r1' r2' g2,
  rb_split_off e N i r g = Ret r1 g1 (r2, tt) /\ rb_append e N (r1, r2) g1 = Ret (r1', r2') g2 tt /\
  RHolds N r1' l /\ RHolds N r2' [] /\ dropped g2 = dropped g /\ leaked g2 = leaked g.
Proof.
  intros Hc H Hi. pose proof (rb_split_off_ok e N HW HN Hc r l g i H) as P.
  unfold bl_split_off in P. rewrite if_true in P by lia. destruct P as (r1 & g1 & [r2 []] & E & H1 & H2 & D & L).
  assert (B : both (RHolds N) (RHolds N) (r1, r2) (take i l, drop i l)) by (split; assumption).
  pose proof (rb_append_ok e N HW HN _ _ g1 B) as P.
  unfold bl_append in P. cbn [fst snd] in P. pose proof H as (_ & _ & Hn & _).
  rewrite if_true in P by (rewrite take_length, drop_length; lia). rewrite take_drop in P.
  destruct P as ([r1' r2'] & g2 & [] & E2 & [H1' H2'] & _ & D2 & L2). cbn [fst snd] in *.
  exists r1, r2, g1, r1', r2', g2. rewrite D2, L2, D, L, !app_nil_r. auto 10.
Qed.
(** A truthful iterator. *)
Lemma extend_all (xs : list A) : forall l, length l + length xs <= N ->
  bl_extend N (map Yield xs) l = SRet (l ++ xs) tt [].
Proof.
  induction xs as [|x xs IH]; intros l H; cbn [map bl_extend length] in *; [rewrite app_nil_r; reflexivity|].
  rewrite if_true by lia. rewrite IH by (rewrite app_length; cbn [length]; lia). rewrite <- app_assoc. reflexivity.
Qed.
Lemma rb_insert_from_truthful r l g i xs : calm e -> RHolds N r l -> length l + length xs < word e \/ debug e = true ->
  agrees (RHolds N) eq g (rb_insert_from e N i (length xs) (map Yield xs) r g)
    (if (length l + length xs <=? N) && (i <=? length l)
     then SRet (take i l ++ xs ++ drop i l) tt [] else SPanic l [] []).
Proof.
  intros Hc H Hd. pose proof (rb_insert_from_ok e N HW HN Hc r l g i (length xs) (map Yield xs) H Hd) as P.
  unfold bl_insert_from_tail, bl_insert_from_any in P. rewrite (yields_all xs), Nat.eqb_refl in P.
  destruct (length l + length xs <=? N) eqn:E1; cbn [andb] in *; [|exact P].
  destruct (i =? length l) eqn:E2; [|exact P]. replace i with (length l) in * by lia.
  rewrite extend_all in P by lia. rewrite if_true by lia. rewrite firstn_all, drop_all, app_nil_r. exact P.
Qed.
End laws.

(** In a release build the sum [len + insert_size] wraps; with a capacity that divides the number of values
    of [usize] the index arithmetic then never ends. *)
Section overflow.
Context {A : Type} (e : env A) (q : nat).
Hypothesis Hr : debug e = false.
Hypothesis Hw : word e = 4 * q.
Hypothesis Hq : 4 < q.
Lemma wrap_up_forever {O} : forall fuel j (o : O) (g : log A), j < q -> wrap_up e 4 fuel (4 * j) (word e - 1) o g = Hang.
Proof.
  induction fuel as [|f IH]; intros j o g Hj; cbn [wrap_up]; rewrite if_true by lia; [reflexivity|].
  unfold bind, uadd. rewrite Hr. destruct (_ <? _) eqn:E.
  - unfold ret. replace (4 * j + 4) with (4 * S j) by lia. apply IH. lia.
  - unfold ret. replace (4 * j + 4 - word e) with (4 * 0) by lia. apply IH. lia.
Qed.
Lemma rb_insert_from_hangs (a b : A) it g : 
  let r := Ring 0 2 (upd (upd mem0 0 (Some a)) 1 (Some b)) in
  RHolds 4 r [a; b] /\ rb_insert_from e 4 0 (word e - 1) it r g = Hang.
Proof.
  split.
  - split; [cbn; lia|]. split; [reflexivity|]. split; [cbn; lia|]. intros [|[|[|[|p]]]]; reflexivity.
  - unfold rb_insert_from. unfold bind at 1, get. cbn [rlen]. unfold bind at 1, uadd. rewrite Hr.
    rewrite if_false by lia. unfold ret at 1. rewrite !if_false by lia.
    erewrite bind_Ret by (apply usub_ok; lia). rewrite if_false by lia.
    unfold raw_sub_assign. rewrite !bind_bind. unfold bind at 1. cbn [origin].
    rewrite (wrap_up_forever (S (word e - 1) + word e) 0) by lia. reflexivity.
Qed.
End overflow.

(** Concrete buffers. *)
(** [new; push_back 1; push_back 2; push_front 3; push_front 4; pop_back]: wraps around the end. *)
Section examples.
Definition ex_ring : ring nat := match (rb_push_back dbg 4 1 ;;; rb_push_back dbg 4 2 ;;; rb_push_front dbg 4 3) ring0 log0 with
  | Ret r _ _ => r | _ => ring0 end.
Lemma ex_ring_holds : RHolds 4 ex_ring [3; 1; 2] /\ origin ex_ring = 3.
Proof.
  assert (origin ex_ring = 3 /\ rlen ex_ring = 3) as [H1 H2] by (split; vm_compute; reflexivity).
  split; [|exact H1]. unfold RHolds. rewrite H1, H2. split; [lia|]. split; [reflexivity|]. split; [cbn; lia|].
  intros [|[|[|[|p]]]]; try (vm_compute; reflexivity).
Qed.
End examples.
