(** * Slices made with [from_raw_parts] *)
From Verif Require Import Machine Spec Prims ChunkModel ChunkProofs ChunkExamples SparseModel SparseSpec SparseProofs RawPartsModel
  InlineModel InlineSpec InlineProofs2.

Lemma mapM_dead {A} (f : nat -> option A) a n i : i < n -> f (a + i) = None -> mapM f (seq a n) = None.
Proof.
  revert a i. induction n as [|n IH]; intros a i Hi Hf; [lia|]. cbn [seq].
  destruct i as [|i].
  - rewrite Nat.add_0_r in Hf. cbn. rewrite Hf. reflexivity.
  - cbn. destruct (f a); [|reflexivity]. cbn. fold (mapM f (seq (S a) n)).
    rewrite (IH (S a) i) by (try lia; rewrite Nat.add_succ_comm; exact Hf). reflexivity.
Qed.
Lemma values_dead {A} N (c : sparse A) g k : k < N -> sdata c k = None -> raw_values N c g = UB DeadSlot.
Proof.
  intros Hk Hs. unfold raw_values, slots_peek. cbn [Nat.add]. rewrite Nat.leb_refl.
  rewrite (mapM_dead _ 0 N k Hk) by exact Hs. reflexivity.
Qed.

(** C69, full statement: whenever a method builds a slice with [from_raw_parts], all elements of that slice are initialised.
    True of [Chunk] and [InlineArray] in every state ([as_slice], [deref] are the slice [from_raw_parts] makes), and of
    [SparseChunk] as long as it is full: then the methods with the contract enforced are the methods (the destructor, which
    makes the slice anew for each element, only if there is at most one). *)
Theorem C69_raw_parts_partial :
  (forall (A : Type) (e : env A) (N : nat) (c : chunk A) (l : list A) (g : log A),
     N + N < word e -> Holds N c l -> as_slice e N c g = Ret c g l) /\
  (forall (A : Type) (e : env A) (L : layout) (b : nat) (c : inline A) (l : list A) (g : log A),
     wf_layout e L -> host_ok e L -> placed L b -> IHolds e L c l -> ia_deref e L b c g = Ret c g l) /\
  (forall (A : Type) (e : env A) (N : nat) (c : sparse A) (l : list A) (g : log A) (i : nat) (v : A),
     SHolds N c (map Some l) ->
     raw_values N c g = Ret c g l /\
     raw_insert e N i v c g = sp_insert e N i v c g /\ raw_remove N i c g = sp_remove N i c g /\
     raw_get N i c g = sp_get N i c g /\ (length l <= 1 -> raw_drop e N c g = sp_drop e N c g)).
Proof.
  split; [|split].
  - intros A e N c l g HW H. exact (as_slice_eq e N HW c l g H).
  - intros A e L b c l g WF HOST Hb H. exact (deref_ok e L WF HOST b c l g Hb H).
  - intros A e N c l g i v (Hl & Hm & Hd). rewrite map_length in Hl.
    assert (E : forall o g, sdata o = sdata c -> raw_values N o g = Ret o g l).
    { intros o g' Ho. unfold raw_values. apply slots_peek_ok; [exact Hl|lia|]. intros j Hj. cbn [Nat.add]. change (sdata o j = l !! j).
      rewrite Ho, Hd, list_lookup_fmap. destruct (l !! j); reflexivity. }
    split; [apply E; reflexivity|].
    unfold raw_insert, sp_insert, raw_remove, sp_remove, raw_get, sp_get.
    assert (D : length l <= 1 -> raw_drop e N c g = sp_drop e N c g).
    { intros Hn. unfold raw_drop, sp_drop, bind, get. cbn beta iota. destruct l as [|a [|? ?]]; cbn in Hl, Hn; subst N; [reflexivity| |lia].
      unfold bm_indices. cbn [seq List.filter]. rewrite Hm by lia. cbn [map lookup list_lookup]. cbn [mjoin option_join is_some raw_drop_loop sp_drop_loop].
      unfold bind. rewrite E by reflexivity. reflexivity. }
    destruct (N <=? i) eqn:Ei; [repeat split; try reflexivity; exact D|]. assert (Hi : i < N) by lia.
    assert (Hs : smap c i = true).
    { rewrite Hm by exact Hi. rewrite list_lookup_fmap. destruct (lookup_lt_is_Some_2 l i ltac:(lia)) as [a ->]. reflexivity. }
    assert (F : (i <? N) = true) by lia.
    split; [|split; [|split; [|exact D]]].
    + unfold map_set, bind, get, put, ret. cbn beta iota. rewrite F. cbn beta iota. rewrite Hs. rewrite E by reflexivity. reflexivity.
    + unfold map_set, bind, get, put, ret. cbn beta iota. rewrite F. cbn beta iota. rewrite Hs. unfold raw_force_read, bind. rewrite E by reflexivity. reflexivity.
    + unfold map_get, bind, get, put, ret. cbn beta iota. rewrite F. cbn beta iota. rewrite Hs. rewrite E by reflexivity. reflexivity.
Qed.
Print Assumptions C69_raw_parts_partial.

(** False of [SparseChunk] in every other state: as soon as some cell [k] is vacant, [insert], a [remove] or [get] that finds a
    value, and the destructor of a non-empty chunk all build a slice with an uninitialised element. *)
Theorem C69_sparse_raw_parts_refuted :
  forall (A : Type) (e : env A) (N : nat) (c : sparse A) (s : list (option A)) (g : log A) (i k : nat) (v : A),
  SHolds N c s -> s !! k = Some None ->
  (i < N -> raw_insert e N i v c g = UB DeadSlot) /\
  (forall a, s !! i = Some (Some a) -> raw_remove N i c g = UB DeadSlot /\ raw_get N i c g = UB DeadSlot) /\
  (values s <> [] -> raw_drop e N c g = UB DeadSlot).
Proof.
  intros A e N c s g i k v (Hl & Hm & Hd) Hk.
  assert (Hk' : k < N) by (apply lookup_lt_Some in Hk; lia).
  assert (E : forall o g, sdata o = sdata c -> raw_values N o g = UB DeadSlot).
  { intros o g' Ho. apply (values_dead N o g' k Hk'). rewrite Ho, Hd, Hk. reflexivity. }
  split; [|split].
  - intros Hi. unfold raw_insert. replace (N <=? i) with false by lia. assert (F : (i <? N) = true) by lia.
    unfold map_set, bind, get, put, ret. cbn beta iota. rewrite F. cbn beta iota. destruct (smap c i).
    + rewrite E by reflexivity. reflexivity.
    + unfold raw_force_write, bind. rewrite E by reflexivity. reflexivity.
  - intros a Ha. assert (Hi : i < N) by (apply lookup_lt_Some in Ha; lia). assert (F : (i <? N) = true) by lia.
    assert (Hs : smap c i = true) by (rewrite Hm, Ha by exact Hi; reflexivity).
    unfold raw_remove, raw_get. replace (N <=? i) with false by lia. split.
    + unfold map_set, bind, get, put, ret. cbn beta iota. rewrite F. cbn beta iota. rewrite Hs. unfold raw_force_read, bind. rewrite E by reflexivity. reflexivity.
    + unfold map_get, bind, get, put, ret. cbn beta iota. rewrite F. cbn beta iota. rewrite Hs. rewrite E by reflexivity. reflexivity.
  - intros Hv. unfold raw_drop, bind, get.
    assert (B : bm_indices N (smap c) = map fst (entries s)).
    { unfold bm_indices. rewrite <- Hl at 1. apply indices_entries. intros j Hj. cbn [Nat.add]. apply Hm. lia. }
    rewrite B. unfold SparseSpec.values in Hv. destruct (entries s) as [|[j a] r]; [contradiction Hv; reflexivity|].
    cbn [map fst raw_drop_loop]. unfold bind. rewrite E by reflexivity. reflexivity.
Qed.
Print Assumptions C69_sparse_raw_parts_refuted.
(** And the destructor of a full chunk with two or more elements: after the first element is dropped, the slice made for
    the second contains a dropped value. *)
Theorem C69_sparse_drop_refuted :
  forall (A : Type) (e : env A) (N : nat) (c : sparse A) (l : list A) (g : log A),
  calm e -> SHolds N c (map Some l) -> 2 <= length l -> raw_drop e N c g = UB DeadSlot.
Proof.
  intros A e N c l g HC (Hl & Hm & Hd) Hn. rewrite map_length in Hl.
  assert (E : raw_values N c g = Ret c g l).
  { unfold raw_values. apply slots_peek_ok; [exact Hl|lia|]. intros j Hj. cbn [Nat.add]. change (sdata c j = l !! j).
    rewrite Hd, list_lookup_fmap. destruct (l !! j); reflexivity. }
  destruct l as [|a [|b l]]; cbn [length] in Hl, Hn; try lia.
  assert (B : exists r, bm_indices N (smap c) = 0 :: 1 :: r).
  { unfold bm_indices. destruct N as [|[|N']]; try lia. cbn [seq List.filter]. rewrite (Hm 0), (Hm 1) by lia. eexists. reflexivity. }
  destruct B as (r & B). unfold raw_drop, bind, get. cbn beta iota. rewrite B. cbn [raw_drop_loop]. unfold bind. rewrite E.
  replace (0 <? N) with true by lia.
  rewrite (slots_drop_ok e N 0 1 [a]); [|exact HC|reflexivity|lia|intros i Hi; replace i with 0 by lia; apply (Hd 0)].
  rewrite (values_dead N _ _ 0); [reflexivity|lia|reflexivity].
Qed.
Print Assumptions C69_sparse_drop_refuted.
(** The first [insert] into a new chunk of four slots, and into one of a single slot; a full chunk of one slot. *)
Example C69_example :
  SHolds 4 (sparse0 : sparse nat) [None; None; None; None] /\ raw_insert dbg 4 2 7 sparse0 log0 = UB DeadSlot /\
  raw_insert dbg 1 0 7 sparse0 log0 = UB DeadSlot /\
  SHolds 1 (Sparse (bm_put bm0 0 true) (upd mem0 0 (Some 7))) (map Some [7]) /\
  match raw_insert dbg 1 0 8 (Sparse (bm_put bm0 0 true) (upd mem0 0 (Some 7))) log0 with Ret _ _ r => r = Some 7 | _ => False end.
Proof.
  split; [split; [reflexivity|]; split; intros [|[|[|[|i]]]]; try (vm_compute; reflexivity); lia|].
  split; [vm_compute; reflexivity|]. split; [vm_compute; reflexivity|].
  split; [split; [reflexivity|]; split; intros [|i]; try (vm_compute; reflexivity); lia|]. vm_compute. reflexivity.
Qed.
