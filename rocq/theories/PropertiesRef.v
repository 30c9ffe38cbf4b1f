(** * Properties of references into the containers, of mutation through iterators, and of [Debug]. *)
From Verif Require Import Machine Spec Prims IterSpec ChunkExamples RingModel RingProofs RingProofs4 RingProofs6 RingLaws
  RefModel RefSpec RefProofs.
From Verif Require RingOverflow.
From Verif Require ChunkModel ChunkProofs ChunkProofs2 ChunkProofs3 ChunkProofs4 SparseModel SparseSpec SparseProofs RefProofs2 InlineModel InlineSpec InlineProofs2 InlineLaws.
From Verif Require Import PropertiesInline.

(** C37, continued: addition and subtraction of two indices, and the iterator over the indices of the elements: from
    both ends in any order, with exact [size_hint], it gives the slots [(origin + i) mod N] of the elements. *)
Theorem C37_ring_index_of_indices :
  forall (A O : Type) (e : env A) (N i k : nat) (o : O) (g : log A), i < N -> k < N -> N + N < word e ->
  raw_add_raw e N i k o g = Ret o g ((i + k) mod N) /\
  exists x, x < N /\ (x + k) mod N = i /\ raw_sub_raw e N i k o g = Ret o g x.
Proof.
  intros A O e N i k o g Hi Hk HW. split.
  - exact (proj1 (raw_add_mod e N ltac:(lia) i k o g ltac:(lia))).
  - destruct (raw_sub_mod e N ltac:(lia) i k o g Hi ltac:(lia)) as (x & H1 & H2 & _ & H3).
    rewrite (Nat.mod_small i N) in H2 by exact Hi. exists x. split; [exact H1|]. split; [exact H2|exact H3].
Qed.
Print Assumptions C37_ring_index_of_indices.
Theorem C37_ring_index_iterator :
  forall (A : Type) (e : env A) (N : nat) (script : list side) (r : ring A) (l : list A) (g : log A),
  N + N < word e -> 0 < N -> RHolds N r l ->
  exists ix slots, rb_index_range e N r g = Ret r g ix /\ length slots = length l /\
    (forall i p, slots !! i = Some p -> p = (origin r + i) mod N /\ rdata r p = l !! i) /\
    exists x g', pull_all (ii_next e N) (ii_next_back e N) ii_size_hint script ix g =
      Ret x g' (fst (pulls script slots)) /\ dropped g' = dropped g /\ leaked g' = leaked g.
Proof. intros A e N script r l g HW HN. exact (rb_index_range_ok e N HW HN script r l g). Qed.
Print Assumptions C37_ring_index_iterator.
Example C37_iterator_example :
  match rb_index_range dbg 4 ex_ring log0 with
  | Ret _ g ix => match pull_all (ii_next dbg 4) (ii_next_back dbg 4) ii_size_hint [Front; Back; Front; Back] ix g with
                  | Ret _ _ outs => map snd outs = [Some 3; Some 1; Some 0; None]
                  | _ => False
                  end
  | _ => False
  end.
Proof. vm_compute. reflexivity. Qed.

(** C51, the part that holds: [insert_from] returns or panics, and leaves a valid buffer, for every announced length [n]
    and every iterator, unless the sum of the lengths wraps (release builds) and the index is before the end. *)
Theorem C51_ring_insert_from_ends_partial :
  forall (A : Type) (e : env A) (N : nat) (r : ring A) (l : list A) (g : log A) (i n : nat) (it : list (ev A)),
  N + N < word e -> 0 < N -> calm e -> RHolds N r l ->
  length l + n < word e \/ debug e = true \/ length l <= i ->
  exists r' g' l',
    (rb_insert_from e N i n it r g = Ret r' g' tt \/ rb_insert_from e N i n it r g = Panic r' g') /\ RHolds N r' l'.
Proof. intros A e N r l g i n it HW HN Hc. exact (rb_insert_from_ends e N HW HN r l g i n it Hc). Qed.
Print Assumptions C51_ring_insert_from_ends_partial.
Example C51_example : match rb_insert_from rel 4 3 254 [Yield 9; Yield 8] ex_ring log0 with Panic r g =>
    rb_contents rel 4 r g = Ret r g [3; 1; 2; 9] /\ dropped g = [8] | _ => False end /\ length [3; 1; 2] <= 3 /\ 256 <= 3 + 254.
Proof. vm_compute. repeat split; lia. Qed.
(** C51, the remaining case: the sum of the lengths wraps in a release build.  If the rest after wrapping exceeds the
    capacity or the index is out of range, the call panics and nothing changes.  Otherwise, inserting before the end
    never returns (an iterator never delivers all the items announced, there are nearly [usize::MAX]): it panics and
    nothing changed, runs for ever, is undefined, or panics with the buffer empty and nothing dropped. *)
Theorem C51_ring_insert_from_overflow_partial :
  forall (A : Type) (e : env A) (N : nat) (r : ring A) (l : list A) (g : log A) (i n : nat) (it : list (ev A)),
  N + N < word e -> 0 < N -> debug e = false -> RHolds N r l -> n < word e -> word e <= length l + n ->
  (N < length l + n - word e \/ length l < i -> rb_insert_from e N i n it r g = Panic r g) /\
  (i < length l -> length (yields n it) < n ->
     rb_insert_from e N i n it r g = Panic r g \/ rb_insert_from e N i n it r g = Hang \/
     (exists u, rb_insert_from e N i n it r g = UB u) \/
     exists r' g', rb_insert_from e N i n it r g = Panic r' g' /\ RHolds N r' [] /\ dropped g' = dropped g).
Proof. intros A e N r l g i n it HW HN HD. exact (RingOverflow.insert_from_overflow e N HW HN HD r l g i n it). Qed.
Print Assumptions C51_ring_insert_from_overflow_partial.
Example C51_overflow_example :
  let r := Ring 0 4 (upd (upd (upd (upd mem0 0 (Some 5)) 1 (Some 6)) 2 (Some 7)) 3 (Some 8)) in
  match rb_insert_from rel 6 3 253 [Yield 9] r log0, rb_insert_from rel 6 0 255 [Yield 9] r log0 with
  | Panic r g, Hang => rlen r = 0 /\ dropped g = []
  | _, _ => False
  end /\ word rel <= 4 + 253 /\ length (yields 253 [Yield 9]) < 253.
Proof. vm_compute. repeat split; lia. Qed.
(** ... and "runs for ever" is exact: in a release build a subtraction of raw indices fails to end exactly when no
    multiple of [N] added to the index, modulo the number of [usize] values, reaches the operand; then no number of
    rounds of its loop suffices. *)
Theorem C51_ring_subtraction_ends_partial :
  forall (A O : Type) (e : env A) (N i k : nat) (o : O) (g : log A),
  debug e = false -> N < word e -> i < word e ->
  (raw_sub_assign e N i k o g = Hang <-> forall m, (i + m * N) mod word e < k) /\
  (raw_sub_assign e N i k o g = Hang -> forall fuel, wrap_up e N fuel i k o g = Hang).
Proof. intros A O e N i k o g. exact (RingOverflow.raw_sub_assign_hang_iff e N i k o g). Qed.
Print Assumptions C51_ring_subtraction_ends_partial.
Example C51_subtraction_example :
  raw_sub_assign rel 6 1 255 tt log0 = Ret tt log0 0 /\ raw_sub_assign rel 6 0 255 tt log0 = Hang /\ (1 + 170 * 6) mod word rel = 253.
Proof. vm_compute. auto. Qed.

(** C53.  Split a mutable slice, and cut both halves up further in any way: a reference obtained from a piece of the left
    half (with [get_mut], or from [iter_mut] in any order from both ends) never points to the same slot as one obtained
    from a piece of the right half.  What is missing: [index_mut], for which it is false. *)
Theorem C53_ring_split_at_disjoint_partial :
  forall (A : Type) (e : env A) (N : nat) (s : nat * nat) (k : nat) (path1 path2 : list cut)
    (r : ring A) (l : list A) (g : log A) (s1 s2 t1 t2 : nat * nat) (r' r1 r2 : ring A) (g' g1 g2 : log A) (p q : nat),
  N + N < word e -> 0 < N -> RHolds N r l -> in_range s l ->
  sl_split_at e s k r g = Ret r' g' (s1, s2) ->
  sl_follow e path1 s1 r g = Ret r1 g1 t1 -> sl_follow e path2 s2 r g = Ret r2 g2 t2 ->
  ref_of e N t1 r g p -> ref_of e N t2 r g q -> p <> q.
Proof.
  intros A e N s k path1 path2 r l g s1 s2 t1 t2 r' r1 r2 g' g1 g2 p q HW HN H Hs E E1 E2.
  exact (split_disjoint e N HW HN s k path1 path2 r l g s1 s2 t1 t2 r' g' r1 g1 r2 g2 p q H Hs E E1 E2).
Qed.
Print Assumptions C53_ring_split_at_disjoint_partial.
(** ... and the reference for position [i] of a slice exists exactly when [i] is below its length, and points to that
    element. *)
Theorem C53_ring_get_mut_points_to_its_element :
  forall (A : Type) (e : env A) (N : nat) (s : nat * nat) (r : ring A) (l : list A) (g : log A) (i : nat),
  N + N < word e -> 0 < N -> RHolds N r l -> in_range s l ->
  if i <? snd s - fst s
  then exists p, sl_get_mut e N s i r g = Ret r g (Some p) /\ p < N /\ rdata r p = l !! (fst s + i)
  else sl_get_mut e N s i r g = Ret r g None.
Proof.
  intros A e N s r l g i HW HN H Hs. rewrite (sl_get_mut_ok e N HW HN s r l g i H Hs).
  destruct Hs as [Hs1 Hs2]. destruct (i <? snd s - fst s) eqn:E; [|reflexivity].
  eexists. split; [reflexivity|]. split.
  - apply (slot_of_lt e N HW HN r l); [exact H|lia].
  - apply (slot_of_holds e N HW HN r l); [exact H|lia].
Qed.
Print Assumptions C53_ring_get_mut_points_to_its_element.
(** Refutation for [index_mut]: whenever the right half is not empty, the left half (of length [k]), indexed with [k],
    gives a second mutable reference to the first element of the right half. *)
Theorem C53_ring_split_at_index_mut_refuted :
  forall (A : Type) (e : env A) (N : nat) (s : nat * nat) (k : nat) (r : ring A) (l : list A) (g : log A),
  N + N < word e -> 0 < N -> RHolds N r l -> in_range s l -> k < snd s - fst s ->
  exists s1 s2 p, sl_split_at e s k r g = Ret r g (s1, s2) /\ sl_len e s1 r g = Ret r g k /\
    sl_index_mut e N s1 k r g = Ret r g p /\ sl_get_mut e N s2 0 r g = Ret r g (Some p).
Proof. intros A e N s k r l g HW HN. exact (split_index_mut_alias e N HW HN s k r l g). Qed.
Print Assumptions C53_ring_split_at_index_mut_refuted.
Example C53_example :
  RHolds 4 ex_ring [3; 1; 2] /\ in_range (0, 3) [3; 1; 2] /\
  sl_split_at dbg (0, 3) 2 ex_ring log0 = Ret ex_ring log0 ((0, 2), (2, 3)) /\
  sl_follow dbg [CutRight 1] (0, 2) ex_ring log0 = Ret ex_ring log0 (1, 2) /\
  sl_get_mut dbg 4 (1, 2) 0 ex_ring log0 = Ret ex_ring log0 (Some 0) /\
  sl_get_mut dbg 4 (2, 3) 0 ex_ring log0 = Ret ex_ring log0 (Some 1) /\
  sl_index_mut dbg 4 (0, 2) 2 ex_ring log0 = Ret ex_ring log0 1.
Proof. split; [exact (proj1 ex_ring_holds)|]. split; [split; cbn; lia|]. repeat split; vm_compute; reflexivity. Qed.

(** C54.  What [Debug] writes is a function of the contents alone: the name, then the elements in order (for the sparse
    chunk: the indices with their values, increasing). *)
Theorem C54_debug_output :
  forall (A : Type) (e : env A) (N : nat) (g : log A), N + N < word e ->
  (forall (c : ChunkModel.chunk A) l, ChunkProofs.Holds N c l -> chunk_fmt e N c g = Ret c g (ShowList NChunk l)) /\
  (forall (r : ring A) l, 0 < N -> RHolds N r l -> rb_fmt e N r g = Ret r g (ShowList NRingBuffer l)) /\
  (forall (r : ring A) l lo hi, 0 < N -> RHolds N r l -> lo <= hi <= length l ->
     sl_fmt e N (lo, hi) r g = Ret r g (ShowList NRingBuffer (take (hi - lo) (drop lo l)))) /\
  (forall (c : SparseModel.sparse A) s, SparseProofs.SHolds N c s ->
     sp_fmt N c g = Ret c g (ShowMap NSparseChunk (SparseSpec.entries s))).
Proof.
  intros A e N g HW. split; [|split; [|split]].
  - intros c l H. unfold chunk_fmt. erewrite bind_Ret by (apply (ChunkProofs.as_slice_eq e N HW); eassumption). reflexivity.
  - intros r l HN H. exact (rb_fmt_ok e N HW HN r l g H).
  - intros r l lo hi HN H Hr. exact (sl_fmt_ok e N HW HN (lo, hi) r l g H Hr).
  - intros c s H. exact (RefProofs2.sp_fmt_ok e N ltac:(lia) c s g H).
Qed.
Print Assumptions C54_debug_output.
Theorem C54_inline_debug_output :
  forall (A : Type) (e : env A) (L : InlineModel.layout) (b : nat) (c : InlineModel.inline A) (l : list A) (g : log A),
  InlineSpec.wf_layout e L -> InlineSpec.host_ok e L -> InlineSpec.placed L b -> InlineProofs2.IHolds e L c l ->
  ia_fmt e L b c g = Ret c g (ShowList NChunk l).
Proof.
  intros A e L b c l g WF HOST Hb H. unfold ia_fmt.
  erewrite bind_Ret by (apply (InlineProofs2.deref_ok e L WF HOST); eassumption). reflexivity.
Qed.
Print Assumptions C54_inline_debug_output.
Example C54_example :
  chunk_fmt dbg 4 ex_chunk log0 = Ret ex_chunk log0 (ShowList NChunk [3; 1; 2]) /\
  rb_fmt dbg 4 ex_ring log0 = Ret ex_ring log0 (ShowList NRingBuffer [3; 1; 2]) /\
  match (SparseModel.sp_insert dbg 4 3 5 ;;; SparseModel.sp_insert dbg 4 1 6) SparseModel.sparse0 log0 with
  | Ret c g _ => match sp_fmt 4 c g with Ret _ _ x => x = ShowMap NSparseChunk [(1, 6); (3, 5)] | _ => False end
  | _ => False
  end.
Proof. repeat split; vm_compute; reflexivity. Qed.

(** C55.  Replacing every element obtained from a mutable iterator by [f] of it, in any order from both ends, changes exactly
    these elements of the container; nothing else changes, nothing is dropped. *)
Theorem C55_ring_mutation :
  forall (A : Type) (e : env A) (N : nat) (f : A -> A) (script : list side) (r : ring A) (l : list A) (g : log A),
  N + N < word e -> 0 < N -> RHolds N r l ->
  (exists r' g', rb_mutate e N f script r g = Ret r' g' tt /\ RHolds N r' (mutated f script l) /\
     dropped g' = dropped g /\ leaked g' = leaked g) /\
  (forall lo hi, lo <= hi <= length l ->
   exists r' g', sl_mutate e N (lo, hi) f script r g = Ret r' g' tt /\
     RHolds N r' (take lo l ++ mutated f script (take (hi - lo) (drop lo l)) ++ drop hi l) /\
     dropped g' = dropped g /\ leaked g' = leaked g).
Proof.
  intros A e N f script r l g HW HN H. split; [exact (rb_mutate_ok e N HW HN f script r l g H)|].
  intros lo hi Hr. exact (sl_mutate_ok e N HW HN (lo, hi) f script r l g H Hr).
Qed.
Print Assumptions C55_ring_mutation.
(** Through the reference for one position. *)
Theorem C55_ring_mutation_at :
  forall (A : Type) (e : env A) (N : nat) (f : A -> A) (r : ring A) (l : list A) (g : log A) (i lo hi : nat) (v : A),
  N + N < word e -> 0 < N -> RHolds N r l -> lo <= hi <= length l -> lo + i < hi -> l !! (lo + i) = Some v ->
  exists p r' g', sl_get_mut e N (lo, hi) i r g = Ret r g (Some p) /\ rb_get_mut e N (lo + i) r g = Ret r g (Some p) /\
    rb_index_mut e N (lo + i) r g = Ret r g p /\
    modify_slot N p f r g = Ret r' g' tt /\ RHolds N r' (<[lo + i := f v]> l) /\
    dropped g' = dropped g /\ leaked g' = leaked g.
Proof.
  intros A e N f r l g i lo hi v HW HN H Hr Hi Hv.
  destruct (modify_slot_ok e N HW HN r l g (lo + i) v f H Hv) as (r' & g' & E & H' & _ & D & L).
  exists (wr N (origin r + (lo + i))), r', g'.
  rewrite (sl_get_mut_ok e N HW HN (lo, hi) r l g i H Hr), (rb_get_mut_ok e N HW HN r l g _ H), (rb_index_mut_ok e N HW HN r l g _ H).
  cbn [fst snd]. rewrite !if_true by lia. auto 10.
Qed.
Print Assumptions C55_ring_mutation_at.
(** What [mutated] means: the elements delivered at the front, mapped; those not delivered; those delivered at the back,
    mapped.  All of them are mapped when there are enough calls. *)
Theorem C55_mutated_meaning :
  forall (A : Type) (f : A -> A) (script : list side) (l : list A),
  mutated f script l = map f (delivered Front script (fst (pulls script l))) ++ snd (pulls script l) ++
    rev (map f (delivered Back script (fst (pulls script l)))) /\
  length (mutated f script l) = length l /\
  (length l <= length script -> mutated f script l = map f l).
Proof.
  intros A f script l. split; [exact (mutated_pulls f script l)|]. split; [exact (mutated_length f script l)|].
  exact (mutated_all f script l).
Qed.
Print Assumptions C55_mutated_meaning.
(** [SparseChunk]: [n] steps of [iter_mut] change the first [n] occupied cells, [n] steps of [option_iter_mut] the first [n]
    cells. *)
Theorem C55_sparse_mutation :
  forall (A : Type) (e : env A) (N n : nat) (f : A -> A) (c : SparseModel.sparse A) (s : list (option A)) (g : log A),
  N < word e -> SparseProofs.SHolds N c s ->
  (exists o g', im_modify N f n (c, SparseModel.smap c) g = Ret o g' tt /\
     SparseProofs.SHolds N (fst o) (map_first f n s) /\ dropped g' = dropped g /\ leaked g' = leaked g) /\
  (exists o g', om_modify e N f n (c, 0) g = Ret o g' tt /\
     SparseProofs.SHolds N (fst o) (map (fmap f) (take n s) ++ drop n s) /\ dropped g' = dropped g /\ leaked g' = leaked g).
Proof.
  intros A e N n f c s g HW H. split.
  - destruct (RefProofs2.im_modify_ok e N HW f n c s (SparseModel.smap c) 0 g H ltac:(lia)) as (o & g' & E & H' & D & L).
    + reflexivity.
    + exists o, g'. rewrite drop_0 in H'. auto.
  - destruct (RefProofs2.om_modify_ok e N HW f n c s 0 g H ltac:(lia)) as (o & g' & E & H' & D & L).
    exists o, g'. rewrite drop_0 in H'. auto.
Qed.
Print Assumptions C55_sparse_mutation.
Example C55_example :
  match rb_mutate dbg 4 (fun x => x + 10) [Back; Front] ex_ring log0 with
  | Ret r g _ => rb_contents dbg 4 r g = Ret r g [13; 1; 12] | _ => False end /\
  match sl_mutate dbg 4 (1, 3) (fun x => x + 10) [Front; Back; Front] ex_ring log0 with
  | Ret r g _ => rb_contents dbg 4 r g = Ret r g [3; 11; 12] | _ => False end /\
  map_first (fun x => x + 10) 1 [None; Some 1; None; Some 2] = [None; Some 11; None; Some 2].
Proof. repeat split; vm_compute; reflexivity. Qed.
