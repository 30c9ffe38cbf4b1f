(** * [RingBuffer], continued: constructors, collecting, clone, comparisons, iterators, slices, I/O. *)
From Verif Require Import Machine Spec Prims IterSpec RingModel RingProofs RingProofs2 RingProofs3.

Section proofs.
Context {A : Type} (e : env A) (N : nat).
Hypothesis HW : N + N < word e.
Hypothesis HN : 0 < N.
Implicit Types (r : ring A) (l : list A) (g : log A) (v : A) (i k index count : nat).
Notation agr := (agrees (RHolds N) eq).
Notation RHolds2 := (both (RHolds N) (RHolds N)).
Notation Rep := (Rep N).
Lemma rb_eq_ok eqA r1 r2 l1 l2 g : RHolds N r1 l1 -> RHolds N r2 l2 ->
  rb_eq e N eqA (r1, r2) g = Ret (r1, r2) g (slice_eq eqA l1 l2).
Proof.
  intros H1 H2. unfold rb_eq. erewrite (bind_Ret get) by reflexivity. cbn [fst snd].
  assert (E1 : rlen r1 = length l1) by apply H1. assert (E2 : rlen r2 = length l2) by apply H2.
  rewrite E1, E2. destruct (length l1 =? length l2) eqn:E.
  - erewrite bind_Ret by (apply on_fst_Ret; apply rb_contents_eq; eassumption).
    erewrite bind_Ret by (apply on_snd_Ret; apply rb_contents_eq; eassumption). reflexivity.
  - replace (slice_eq eqA l1 l2) with false; [reflexivity|].
    assert (E' : length l1 <> length l2) by lia. clear -E'. revert l2 E'.
    induction l1 as [|a l1 IH]; intros [|b l2] E'; cbn in *; try reflexivity; try congruence.
    rewrite <- IH by congruence. symmetry. apply andb_false_r.
Qed.
Lemma rb_partial_cmp_ok pc r1 r2 l1 l2 g : RHolds N r1 l1 -> RHolds N r2 l2 ->
  rb_partial_cmp e N pc (r1, r2) g = Ret (r1, r2) g (iter_partial_cmp pc l1 l2).
Proof.
  intros H1 H2. unfold rb_partial_cmp.
  erewrite bind_Ret by (apply on_fst_Ret; apply rb_contents_eq; eassumption).
  erewrite bind_Ret by (apply on_snd_Ret; apply rb_contents_eq; eassumption). reflexivity.
Qed.
Lemma rb_cmp_ok cm r1 r2 l1 l2 g : RHolds N r1 l1 -> RHolds N r2 l2 ->
  rb_cmp e N cm (r1, r2) g = Ret (r1, r2) g (iter_cmp cm l1 l2).
Proof.
  intros H1 H2. unfold rb_cmp.
  erewrite bind_Ret by (apply on_fst_Ret; apply rb_contents_eq; eassumption).
  erewrite bind_Ret by (apply on_snd_Ret; apply rb_contents_eq; eassumption). reflexivity.
Qed.
Lemma rb_hash_ok r l g : RHolds N r l -> rb_hash e N r g = Ret r g (map HItem l).
Proof. intros H. unfold rb_hash. erewrite bind_Ret by (apply rb_contents_eq; eassumption). reflexivity. Qed.

(** ** Reference iterators: the registers stand for the logical positions [a .. a+n). *)
Definition itH (o : nat) (r0 : ring A) (x : idx * ring A) (ls : list (nat * A)) : Prop :=
  snd x = r0 /\ exists a, iremaining (fst x) = length ls /\ a + length ls <= N /\
    ileft (fst x) = wr N (o + a) /\ iright (fst x) = wr N (o + (a + length ls)) /\
    forall t, t < length ls -> exists v, ls !! t = Some (wr N (o + (a + t)), v) /\ rdata r0 (wr N (o + (a + t))) = Some v.

Lemma it_next_ok o r0 x ls g : o < N -> itH o r0 x ls ->
  exists x' g', it_next e N x g = Ret x' g' (fst (take_side Front ls)) /\
    itH o r0 x' (snd (take_side Front ls)) /\ dropped g' = dropped g /\ leaked g' = leaked g.
Proof.
  intros Ho. destruct x as [[il ir rem] r]. intros (Hr & a & H1 & H2 & H3 & H4 & H5).
  cbn [fst snd ileft iright iremaining] in *. subst r il ir rem.
  unfold it_next. erewrite (bind_Ret get) by reflexivity. cbn [fst snd ileft iright iremaining].
  destruct ls as [|[s v] ls]; cbn [length take_side fst snd] in *.
  - rewrite if_true by lia. eexists _, _. split; [reflexivity|]. split; [|auto].
    split; [reflexivity|]. exists a. cbn. auto.
  - rewrite if_false by lia. erewrite bind_Ret by (apply usub_ok; lia).
    pose proof (wr_lt N (o + a) ltac:(lia)).
    erewrite bind_Ret by (apply raw_inc_ok; assumption). rewrite wr_add by lia.
    erewrite bind_Ret by reflexivity. cbn [fst snd]. erewrite bind_Ret by (apply ptr_ok; lia).
    destruct (H5 0 ltac:(lia)) as (v' & Hv1 & Hv2). rewrite !Nat.add_0_r in *. cbn in Hv1. injection Hv1 as -> ->.
    erewrite bind_Ret by (apply on_snd_Ret; apply slot_peek_ok; [lia|exact Hv2]).
    eexists _, _. split; [reflexivity|]. split; [|auto].
    split; [reflexivity|]. exists (a + 1). cbn [fst snd ileft iright iremaining].
    split; [lia|]. split; [lia|]. split; [reflexivity|]. split; [do 2 f_equal; lia|].
    intros t Ht. destruct (H5 (S t) ltac:(lia)) as (w & Hw1 & Hw2). cbn in Hw1.
    replace (a + 1 + t) with (a + S t) by lia. eauto.
Qed.
Lemma it_next_back_ok o r0 x ls g : o < N -> itH o r0 x ls ->
  exists x' g', it_next_back e N x g = Ret x' g' (fst (take_side Back ls)) /\
    itH o r0 x' (snd (take_side Back ls)) /\ dropped g' = dropped g /\ leaked g' = leaked g.
Proof.
  intros Ho. destruct x as [[il ir rem] r]. intros (Hr & a & H1 & H2 & H3 & H4 & H5).
  cbn [fst snd ileft iright iremaining] in *. subst r il ir rem.
  unfold it_next_back. erewrite (bind_Ret get) by reflexivity. cbn [fst snd ileft iright iremaining take_side].
  destruct (length ls =? 0) eqn:E.
  - destruct ls; [|cbn in E; lia]. cbn. eexists _, _. split; [reflexivity|]. split; [|auto].
    split; [reflexivity|]. exists a. cbn. auto.
  - erewrite bind_Ret by (apply usub_ok; lia).
    erewrite bind_Ret by (apply raw_dec_ok; [assumption|apply wr_lt; lia]).
    destruct (H5 (length ls - 1) ltac:(lia)) as (v' & Hv1 & Hv2).
    rewrite Hv1. cbn [fst snd].
    replace (lg N 1 (wr N (o + (a + length ls)))) with (wr N (o + (a + (length ls - 1)))) by ring_lia.
    pose proof (wr_lt N (o + (a + (length ls - 1))) ltac:(lia)).
    erewrite bind_Ret by reflexivity. cbn [fst snd]. erewrite bind_Ret by (apply ptr_ok; lia).
    erewrite bind_Ret by (apply on_snd_Ret; apply slot_peek_ok; [lia|exact Hv2]).
    eexists _, _. split; [reflexivity|]. split; [|auto].
    split; [reflexivity|]. exists a. cbn [fst snd ileft iright iremaining].
    rewrite take_length. replace ((length ls - 1) `min` length ls) with (length ls - 1) by lia.
    split; [lia|]. split; [lia|]. split; [reflexivity|]. split; [reflexivity|].
    intros t Ht. destruct (H5 t ltac:(lia)) as (w & Hw1 & Hw2). exists w. split; [|exact Hw2].
    rewrite lookup_take by lia. exact Hw1.
Qed.
Lemma it_size_hint_ok o r0 x ls g : itH o r0 x ls ->
  it_size_hint x g = Ret x g (length ls, Some (length ls)).
Proof.
  destruct x as [[il ir rem] r]. intros (Hr & a & H1 & _). cbn in H1. subst. reflexivity.
Qed.
(** The items [iter] yields: slot numbers and values, in order. *)
Fixpoint slots_from (o t : nat) (l : list A) : list (nat * A) :=
  match l with [] => [] | v :: l' => (wr N (o + t), v) :: slots_from o (S t) l' end.
Lemma slots_from_length o l : forall t, length (slots_from o t l) = length l.
Proof. induction l as [|v l IH]; intros t; cbn; [reflexivity|]. rewrite IH. reflexivity. Qed.
Lemma slots_from_lookup o l : forall t u v, l !! u = Some v -> slots_from o t l !! u = Some (wr N (o + (t + u)), v).
Proof.
  induction l as [|w l IH]; intros t [|u] v H; cbn in *; try discriminate.
  - injection H as ->. rewrite Nat.add_0_r. reflexivity.
  - etransitivity; [exact (IH (S t) u v H)|]. do 4 f_equal. lia.
Qed.
Lemma slots_from_snd o l : forall t, map snd (slots_from o t l) = l.
Proof. induction l as [|v l IH]; intros t; cbn; [reflexivity|]. rewrite IH. reflexivity. Qed.
Lemma slots_from_fst o l : o < N -> forall t, t + length l <= N -> NoDup (map fst (slots_from o t l)).
Proof.
  intros Ho. induction l as [|v l IH]; intros t Ht; cbn in *; [constructor|]. constructor; [|apply IH; lia].
  rewrite elem_of_list_In, in_map_iff. intros ([s w] & Hs & Hin). cbn in Hs. subst s.
  apply elem_of_list_In, elem_of_list_lookup in Hin. destruct Hin as (u & Hu).
  pose proof (lookup_lt_Some _ _ _ Hu) as Hlt. rewrite slots_from_length in Hlt.
  destruct (l !! u) as [x|] eqn:Ex; [|apply lookup_ge_None in Ex; lia].
  rewrite (slots_from_lookup _ _ _ _ _ Ex) in Hu. injection Hu as Hu _.
  apply wr_inj in Hu; lia.
Qed.
Lemma rb_iter_ok r l g : RHolds N r l -> exists ix, rb_iter e N r g = Ret r g ix /\
  itH (origin r) r (ix, r) (slots_from (origin r) 0 l).
Proof.
  intros H. pose proof (rep_of_holds N r l H) as R. destruct H as (Ho & Hl & Hc & Hm).
  unfold rb_iter. erewrite (bind_Ret get) by reflexivity.
  erewrite bind_Ret by (apply raw_add_ok; lia). eexists. split; [reflexivity|].
  split; [reflexivity|]. exists 0. rewrite slots_from_length. cbn [fst snd ileft iright iremaining plus].
  split; [lia|]. split; [lia|]. split; [ring_lia|]. split; [do 2 f_equal; lia|].
  intros t Ht. destruct (l !! t) as [v|] eqn:Hv; [|apply lookup_ge_None in Hv; lia].
  exists v. split; [exact (slots_from_lookup _ _ _ _ _ Hv)|]. rewrite (Rep_at N _ _ _ _ R) by lia. exact Hv.
Qed.

(** ** Slices *)
Definition sub_list (s : nat * nat) l : list A := take (snd s - fst s) (drop (fst s) l).
Definition in_range (s : nat * nat) l : Prop := fst s <= snd s <= length l.
Lemma sub_list_length s l : in_range s l -> length (sub_list s l) = snd s - fst s.
Proof. intros [H1 H2]. unfold sub_list. lookups. lia. Qed.
Lemma sub_list_lookup s l i : in_range s l -> i < snd s - fst s -> sub_list s l !! i = l !! (fst s + i).
Proof. intros [H1 H2] Hi. unfold sub_list. pw. Qed.
Lemma sl_len_ok s l r g : RHolds N r l -> in_range s l -> sl_len e s r g = Ret r g (length (sub_list s l)).
Proof. intros H Hr. rewrite sub_list_length by assumption. destruct Hr. apply usub_ok. lia. Qed.
Lemma rb_get_unchecked_ok r l g i a : RHolds N r l -> l !! i = Some a -> rb_get_unchecked e N i r g = Ret r g a.
Proof.
  intros H Ha. pose proof (lookup_lt_Some _ _ _ Ha). start. unfold rb_get_unchecked. exec.
Qed.
Lemma sl_get_ok s l r g i : RHolds N r l -> in_range s l ->
  sl_get e N s i r g = Ret r g (sub_list s l !! i).
Proof.
  intros H Hr. pose proof (rholds_length N r l H). unfold sl_get. 
  erewrite bind_Ret by (apply sl_len_ok; eassumption). rewrite sub_list_length by assumption.
  destruct (snd s - fst s <=? i) eqn:E.
  - rewrite lookup_none; [reflexivity|]. rewrite sub_list_length by assumption. lia.
  - rewrite sub_list_lookup by (assumption || lia). destruct Hr as [Hr1 Hr2].
    destruct (l !! (fst s + i)) as [a|] eqn:Ha; [|apply lookup_ge_None in Ha; lia].
    unfold sl_get_unchecked. rewrite bind_bind. erewrite bind_Ret by (apply uadd_ok; lia).
    erewrite bind_Ret by (eapply rb_get_unchecked_ok; eassumption). reflexivity.
Qed.
Lemma sl_iter_ok s l r g : RHolds N r l -> in_range s l -> exists ix, sl_iter e N s r g = Ret r g ix /\
  itH (origin r) r (ix, r) (slots_from (origin r) (fst s) (sub_list s l)).
Proof.
  intros H Hr. pose proof (rep_of_holds N r l H) as R. pose proof (sub_list_length s l Hr) as Hsl.
  pose proof (sub_list_lookup s l) as Hlk. 
  unfold sl_iter. erewrite (bind_Ret get) by reflexivity.
  assert (Hn := fun g => sl_len_ok s l r g H Hr).
  destruct H as (Ho & Hl & Hc & Hm). destruct Hr as [Hr1 Hr2].
  erewrite bind_Ret by (apply raw_add_ok; lia). erewrite bind_Ret by (apply raw_add_ok; lia).
  erewrite bind_Ret by apply Hn.
  erewrite bind_Ret by (apply raw_add_ok; [lia|]; rewrite Hsl; ring_lia).
  erewrite bind_Ret by apply Hn. eexists. split; [reflexivity|].
  split; [reflexivity|]. exists (fst s). rewrite slots_from_length. cbn [fst snd ileft iright iremaining plus].
  rewrite Hsl.
  split; [lia|]. split; [lia|]. split; [reflexivity|]. split; [ring_lia|].
  intros t Ht. destruct (sub_list s l !! t) as [v|] eqn:Hv; [|apply lookup_ge_None in Hv; lia].
  exists v. split; [exact (slots_from_lookup _ _ _ _ _ Hv)|]. rewrite (Rep_at N _ _ _ _ R) by lia.
  rewrite <- Hlk; [exact Hv|split; assumption|lia].
Qed.
Lemma sl_contents_ok s l r g : RHolds N r l -> in_range s l -> sl_contents e N s r g = Ret r g (sub_list s l).
Proof.
  intros H Hr. destruct (sl_iter_ok s l r g H Hr) as (ix & E & I). unfold sl_contents.
  erewrite bind_Ret by exact E. destruct I as (_ & a & I1 & I2 & I3 & I4 & I5). cbn [fst snd] in *.
  rewrite slots_from_length in *. rewrite I1, I3. apply peek_all_ok; try assumption; [|apply H].
  intros i Hi. destruct (I5 i Hi) as (v & Hv1 & Hv2). rewrite Hv2.
  destruct (sub_list s l !! i) as [w|] eqn:Ew; [|apply lookup_ge_None in Ew; lia].
  rewrite (slots_from_lookup _ _ _ _ _ Ew) in Hv1. congruence.
Qed.
(** The range a slice call asks for, relative to a view of length [n]; [None]: not expressible. *)
Definition start_of (lo : bound) : nat := match lo with Unbounded => 0 | Included i => i | Excluded i => S i end.
Definition end_of (hi : bound) (n : nat) : nat :=
  match hi with Unbounded => n | Included i => S i | Excluded i => i end.
Definition bound_ok (b : bound) : Prop :=
  match b with Unbounded => True | Included i => i < word e | Excluded i => i < word e end.
Definition supported (lo hi : bound) : Prop :=
  (match lo with Excluded _ => False | _ => True end) /\ (debug e = true \/ hi <> Included (word e - 1)).
Lemma rb_slice_ok lo hi r l g : RHolds N r l -> bound_ok lo -> bound_ok hi -> supported lo hi ->
  rb_slice e lo hi r g =
    if (start_of lo <=? end_of hi (length l)) && (end_of hi (length l) <=? length l)
    then Ret r g (start_of lo, end_of hi (length l)) else Panic r g.
Proof.
  intros H Hlo Hhi [Hs1 Hs2]. assert (Hl : rlen r = length l) by apply H. pose proof (rholds_length N r l H).
  unfold rb_slice. erewrite (bind_Ret get) by reflexivity. rewrite Hl.
  destruct lo as [|i|i]; [| |contradiction]; cbn [start_of]; rewrite bind_ret.
  all: destruct hi as [|j|j]; cbn [end_of]; rewrite ?bind_ret; unfold bound_ok in *.
  all: try (repeat split_if; try lia; reflexivity).
  all: unfold uadd, bind; destruct (j + 1 <? word e) eqn:E; unfold ret.
  all: try (replace (j + 1) with (S j) by lia; repeat split_if; try lia; reflexivity).
  all: destruct (debug e) eqn:Ed; [unfold panic; repeat split_if; try lia; reflexivity|].
  all: exfalso; destruct Hs2 as [Hs2|Hs2]; [discriminate|]; apply Hs2; f_equal; lia.
Qed.
Lemma sl_slice_ok s lo hi r l g : RHolds N r l -> in_range s l -> bound_ok lo -> bound_ok hi -> supported lo hi ->
  sl_slice e s lo hi r g =
    if (start_of lo <=? end_of hi (snd s - fst s)) && (end_of hi (snd s - fst s) <=? snd s - fst s)
    then Ret r g (fst s + start_of lo, fst s + end_of hi (snd s - fst s)) else Panic r g.
Proof.
  intros H [Hr1 Hr2] Hlo Hhi [Hs1 Hs2]. pose proof (rholds_length N r l H).
  unfold sl_slice. destruct s as [x y]. cbn [fst snd] in *.
  destruct lo as [|i|i]; [| |contradiction]; cbn [start_of]; rewrite ?bind_ret; unfold bound_ok in *.
  all: unfold uadd, bind, ret, panic.
  all: destruct hi as [|j|j]; cbn [end_of].
  all: try (destruct (x + i <? word e) eqn:Ei; [|destruct (debug e) eqn:Ed]).
  all: try (destruct (x + j <? word e) eqn:Ej; [|destruct (debug e) eqn:Ed']).
  all: try (destruct (x + j + 1 <? word e) eqn:Ej'; [|destruct (debug e) eqn:Ed'']).
  all: try (repeat split_if; try lia; reflexivity || (do 2 f_equal; lia)).
  all: assert (Hj : j <> word e - 1) by (destruct Hs2 as [Hs2|Hs2]; [discriminate|congruence]).
  all: repeat split_if; try lia; reflexivity || (do 2 f_equal; lia).
Qed.
Lemma sl_split_at_ok s i r l g : RHolds N r l -> in_range s l ->
  sl_split_at e s i r g =
    if i <=? length (sub_list s l) then Ret r g ((fst s, fst s + i), (fst s + i, snd s)) else Panic r g.
Proof.
  intros H Hr. pose proof (rholds_length N r l H). unfold sl_split_at.
  erewrite bind_Ret by (apply sl_len_ok; eassumption).
  pose proof (sub_list_length s l Hr). destruct Hr as [Hr1 Hr2].
  destruct (length (sub_list s l) <? i) eqn:E.
  - replace (i <=? _) with false by lia. reflexivity.
  - replace (i <=? _) with true by lia. erewrite bind_Ret by (apply uadd_ok; lia). reflexivity.
Qed.
(** Indexing is checked against the buffer, not against the slice. *)
Lemma sl_index_ok s l r g i : RHolds N r l -> in_range s l -> fst s + i < word e ->
  agr g (sl_index e N s i r g) (bl_index (fst s + i) l).
Proof.
  intros H Hr Hi. unfold sl_index. erewrite bind_Ret by (apply uadd_ok; lia). apply rb_index_ok; assumption.
Qed.
Lemma sl_eq_ok eqA s1 s2 r1 r2 l1 l2 g : RHolds N r1 l1 -> RHolds N r2 l2 -> in_range s1 l1 -> in_range s2 l2 ->
  sl_eq e N eqA s1 s2 (r1, r2) g = Ret (r1, r2) g (slice_eq eqA (sub_list s1 l1) (sub_list s2 l2)).
Proof.
  intros H1 H2 R1 R2. unfold sl_eq.
  erewrite bind_Ret by (apply on_fst_Ret; apply sl_len_ok; eassumption).
  erewrite bind_Ret by (apply on_snd_Ret; apply sl_len_ok; eassumption).
  destruct (length (sub_list s1 l1) =? length (sub_list s2 l2)) eqn:E.
  - erewrite bind_Ret by (apply on_fst_Ret; apply sl_contents_ok; eassumption).
    erewrite bind_Ret by (apply on_snd_Ret; apply sl_contents_ok; eassumption). reflexivity.
  - replace (slice_eq eqA _ _) with false; [reflexivity|]. symmetry.
    assert (E' : length (sub_list s1 l1) <> length (sub_list s2 l2)) by lia.
    revert E'. generalize (sub_list s1 l1) (sub_list s2 l2). clear. intros l1.
    induction l1 as [|a l1 IH]; intros [|b l2] E'; cbn in *; try reflexivity; try congruence.
    rewrite IH by congruence. apply andb_false_r.
Qed.
Lemma slice_eq_length (eqA : A -> A -> bool) l1 : forall l2, length l1 <> length l2 -> slice_eq eqA l1 l2 = false.
Proof.
  induction l1 as [|a l1 IH]; intros [|b l2] E'; cbn in *; try reflexivity; try congruence.
  rewrite IH by congruence. apply andb_false_r.
Qed.
Lemma sl_eq_list_ok eqA s r l other g : RHolds N r l -> in_range s l ->
  sl_eq_list e N eqA s other r g = Ret r g (slice_eq eqA (sub_list s l) other).
Proof.
  intros H Hr. unfold sl_eq_list. erewrite bind_Ret by (apply sl_len_ok; eassumption).
  destruct (length (sub_list s l) =? length other) eqn:E.
  - erewrite bind_Ret by (apply sl_contents_ok; eassumption). reflexivity.
  - rewrite slice_eq_length by lia. reflexivity.
Qed.
Lemma rb_eq_list_ok eqA r l other g : RHolds N r l ->
  rb_eq_list e N eqA other r g = Ret r g (slice_eq eqA l other).
Proof.
  intros H. unfold rb_eq_list. erewrite (bind_Ret get) by reflexivity.
  assert (E1 : rlen r = length l) by apply H. rewrite E1.
  destruct (length l =? length other) eqn:E.
  - erewrite bind_Ret by (apply rb_contents_eq; eassumption). reflexivity.
  - rewrite slice_eq_length by lia. reflexivity.
Qed.
Lemma sl_partial_cmp_ok pc s1 s2 r1 r2 l1 l2 g : RHolds N r1 l1 -> RHolds N r2 l2 -> in_range s1 l1 -> in_range s2 l2 ->
  sl_partial_cmp e N pc s1 s2 (r1, r2) g = Ret (r1, r2) g (iter_partial_cmp pc (sub_list s1 l1) (sub_list s2 l2)).
Proof.
  intros H1 H2 R1 R2. unfold sl_partial_cmp.
  erewrite bind_Ret by (apply on_fst_Ret; apply sl_contents_ok; eassumption).
  erewrite bind_Ret by (apply on_snd_Ret; apply sl_contents_ok; eassumption). reflexivity.
Qed.
Lemma sl_cmp_ok cm s1 s2 r1 r2 l1 l2 g : RHolds N r1 l1 -> RHolds N r2 l2 -> in_range s1 l1 -> in_range s2 l2 ->
  sl_cmp e N cm s1 s2 (r1, r2) g = Ret (r1, r2) g (iter_cmp cm (sub_list s1 l1) (sub_list s2 l2)).
Proof.
  intros H1 H2 R1 R2. unfold sl_cmp.
  erewrite bind_Ret by (apply on_fst_Ret; apply sl_contents_ok; eassumption).
  erewrite bind_Ret by (apply on_snd_Ret; apply sl_contents_ok; eassumption). reflexivity.
Qed.
Lemma sl_hash_ok s r l g : RHolds N r l -> in_range s l -> sl_hash e N s r g = Ret r g (map HItem (sub_list s l)).
Proof. intros H Hr. unfold sl_hash. erewrite bind_Ret by (apply sl_contents_ok; eassumption). reflexivity. Qed.

Hypothesis Hcalm : calm e.
Lemma sl_assign_ok s l r g i v : RHolds N r l -> in_range s l -> fst s + i < word e ->
  agr g (sl_assign e N s i v r g) (bl_assign (fst s + i) v l).
Proof.
  intros H Hr Hi. unfold sl_assign. erewrite bind_Ret by (apply uadd_ok; lia). apply rb_assign_ok; assumption.
Qed.
Ltac make_ret := eexists _, _, _; split; [reflexivity|]; split; [exact I|];
  split; [holds | split; log_eq].
Lemma rb_insert_ordered_ok r l g v bs : RHolds N r l ->
  agr g (rb_insert_ordered e N bs v r g)
    (if length l <? N then
       match bs l v with Some i => bl_insert N i v l | None => SPanic l [v] [] end
     else SPanic l [v] []).
Proof.
  intros H. unfold rb_insert_ordered. erewrite bind_Ret by reflexivity.
  rewrite (rb_is_full_ok N _ _ H). pose proof (rholds_length N _ _ H).
  assert (Hp : agr g (panic_dropping (R:=unit) e v r g) (SPanic (R:=unit) l [v] [])).
  { rewrite panic_dropping_ok by assumption. eexists _, _, []. rewrite app_nil_r. auto. }
  destruct (length l <? N) eqn:E.
  - replace (length l =? N) with false by lia.
    erewrite bind_Ret by (apply rb_contents_eq; eassumption).
    destruct (bs l v); [|exact Hp]. apply rb_insert_ok; auto.
  - replace (length l =? N) with true by lia. exact Hp.
Qed.
Lemma rb_from_iter_ok {O2 S2} (H2 : O2 -> S2 -> Prop) (o2 : O2) s2 it g : H2 o2 s2 ->
  agrees H2 (RMade N) g (rb_from_iter e N it o2 g)
    (match bl_extend N it [] with SRet l _ d => SRet s2 l d | SPanic l d k => SPanic s2 (d ++ l) k end).
Proof.
  intros Hs. unfold rb_from_iter. erewrite bind_Ret by (apply rb_new_eq; assumption).
  pose proof (rbuilding e N HW HN Hcalm H2 eq ring0 (on_fst (rb_extend e N it)) o2 g _
    (on_fst_agrees (RHolds N) H2 eq (rb_extend e N it) ring0 o2 s2 g _ Hs
      (rb_extend_ok e N HW HN Hcalm it _ _ g (ring0_holds N HN)))) as W.
  destruct (bl_extend N it []) as [l r d|l d k]; exact W.
Qed.
Lemma rb_from_iter_unit it g :
  agrees (fun _ _ => True) (RMade N) g (rb_from_iter e N it tt g) (bl_from_iter N it).
Proof. exact (rb_from_iter_ok (fun _ _ => True) tt tt it g I). Qed.

Fixpoint rcollecting k (it : list (ev A)) l : sres A (list A * list (ev A)) unit :=
  match k, it with
  | 0, _ => SRet (l, it) tt []
  | S _, [] => SRet (l, []) tt []
  | S _, Boom :: it' => SPanic (l, it') [] []
  | S k', Yield a :: it' =>
      if length l <? N then rcollecting k' it' (l ++ [a]) else SPanic (l, it') [a] []
  end.
Lemma rb_take_loop_ok k : forall it r l g, RHolds N r l ->
  agrees (both (RHolds N) eq) eq g (rb_take_loop e N k (r, it) g) (rcollecting k it l).
Proof.
  induction k as [|k IH]; intros it c l g H; cbn [rb_take_loop].
  - exists (c, it), g, tt. rewrite app_nil_r. repeat split; apply H.
  - erewrite (bind_Ret get) by reflexivity. destruct it as [|[a|] it]; cbn [snd rcollecting].
    + exists (c, []), g, tt. rewrite !app_nil_r. repeat split; try reflexivity; apply H.
    + erewrite (bind_Ret (on_snd _)) by reflexivity. cbn [fst snd].
      pose proof (rb_push_back_ok e N HW HN Hcalm c l g a H) as Hp. unfold bl_push_back in Hp.
      destruct (length l <? N) eqn:E; destruct Hp as (c' & g' & r & E1 & H1 & E2 & E3 & E4).
      * erewrite bind_Ret by (apply on_fst_Ret; exact E1).
        rewrite app_nil_r in E3. apply (agrees_same _ _ g g'); auto.
      * erewrite (bind_Panic (on_fst _)) by (unfold on_fst; cbn [fst snd]; rewrite E1; reflexivity).
        exists (c', it), g', r. repeat split; try assumption; apply H1.
    + erewrite (bind_Ret (on_snd _)) by reflexivity. cbn [fst snd].
      exists (c, it), g, []. rewrite !app_nil_r. repeat split; try reflexivity; apply H.
Qed.
Lemma rcollecting_closed k : forall it l,
  closing (match rcollecting k it l with
           | SRet (l', it') _ d => if length l' <? length l + k then SPanic (l', it') d [] else SRet (l', it') tt d
           | SPanic s d ks => SPanic s d ks
           end) = bl_collect N k it l.
Proof.
  induction k as [|k IH]; intros [|[a|] it] l; cbn [rcollecting bl_collect]; try reflexivity;
    try (rewrite if_false by lia; reflexivity); try (rewrite if_true by lia; reflexivity).
  destruct (length l <? N); [|reflexivity]. rewrite <- IH. rewrite app_length. cbn [length].
  replace (length l + 1 + k) with (length l + S k) by lia. reflexivity.
Qed.
Lemma rcollecting_drops k : forall it l l' it' u d, rcollecting k it l = SRet (l', it') u d -> d = [].
Proof.
  induction k as [|k IH]; intros [|[a|] it] l l' it' u d; cbn [rcollecting]; try congruence.
  destruct (length l <? N); [apply IH|congruence].
Qed.
Lemma rb_collect_from_ok k it g :
  agrees eq (RMade N) g (rb_collect_from e N k it g) (bl_collect N k it []).
Proof.
  unfold rb_collect_from. erewrite bind_Ret by (apply rb_new_eq; assumption).
  rewrite <- rcollecting_closed. eapply (rbuilding e N HW HN Hcalm eq eq).
  pose proof (rb_take_loop_ok k it ring0 [] g (ring0_holds N HN)) as W.
  pose proof (rcollecting_drops k it []) as Hd.
  destruct (rcollecting k it []) as [[l' it'] u d|[l' it'] d ks].
  - destruct W as (o' & g' & r & E & [H1 H2] & _ & W1 & W2). specialize (Hd _ _ _ _ eq_refl). subst d.
    erewrite bind_Ret by exact E. erewrite (bind_Ret get) by reflexivity. cbn [length plus].
    assert (El : rlen (fst o') = length l') by apply H1. rewrite El.
    rewrite app_nil_r in W1.
    destruct (length l' <? k).
    + exists o', g', []. rewrite !app_nil_r. repeat split; auto; apply H1.
    + exists o', g', tt. rewrite app_nil_r. repeat split; auto; apply H1.
  - destruct W as (o' & g' & ks' & E & H1 & W1 & W2 & W3). erewrite bind_Panic by exact E.
    exists o', g', ks'. auto.
Qed.

Lemma rb_unit_ok v g :
  agrees (fun _ _ => True) (RMade N) g (rb_unit e N v tt g) (bl_unit N v).
Proof.
  unfold rb_unit, bl_unit. destruct (1 <=? N) eqn:E; [|lia].
  erewrite bind_Ret by (apply raw_from_ok; lia).
  eapply agrees_Ret.
  - eapply with_local_Ret. erewrite bind_Ret by (apply raw_from_ok; lia).
    apply on_fst_Ret. unfold rb_force_write. erewrite bind_Ret by (apply ptr_ok; lia).
    apply slot_write_ok; [lia|reflexivity].
  - make_ret.
Qed.
Lemma rb_pair_ok v1 v2 g :
  agrees (fun _ _ => True) (RMade N) g (rb_pair e N v1 v2 tt g) (bl_pair N v1 v2).
Proof.
  unfold rb_pair, bl_pair. destruct (2 <=? N) eqn:E.
  - erewrite bind_Ret by (apply raw_from_ok; lia).
    eapply agrees_Ret.
    + eapply with_local_Ret. erewrite bind_Ret by (apply raw_from_ok; lia).
      erewrite bind_Ret by (apply on_fst_Ret; unfold rb_force_write; erewrite bind_Ret by (apply ptr_ok; lia);
        apply slot_write_ok; [lia|reflexivity]).
      erewrite bind_Ret by (apply raw_from_ok; lia).
      apply on_fst_Ret. unfold rb_force_write. erewrite bind_Ret by (apply ptr_ok; lia).
      apply slot_write_ok; [lia|reflexivity].
    + make_ret.
  - rewrite Hcalm, panic_dropping_ok by assumption. eexists _, _, [].
    split; [reflexivity|]. split; [exact I|]. split; [log_eq|]. split; [log_eq|reflexivity].
Qed.
End proofs.
