(** * Filling a container from a live iterator (C76). *)
From Verif Require Import Machine Spec Prims LiveModel LiveSpec LiveProofs LiveProofs2 LiveProofs3 LiveLaws ChunkModel ChunkProofs RingModel
  RingProofs RingProofs2 RingProofs3 SparseModel SparseSpec SparseProofs InlineModel InlineSpec InlineProofs2.
From Verif Require ChunkExamples RingLaws.

(** C76.  The crate's own consuming iterators deliver the elements of their container, in order, or with [rev()] in reverse
    order, and what they have not delivered stays in the container: [Chunk]'s, [RingBuffer]'s and [InlineArray]'s [drain] and
    [into_iter], [SparseChunk]'s [drain] and [into_iter]. *)
Theorem C76_sources :
  forall (A : Type) (e : env A) (N : nat) (L : layout) (b : nat),
  N + N < word e -> 0 < N -> wf_layout e L -> host_ok e L -> placed L b ->
  (feeds (Holds N) (iter_next e N) (size_hint e) /\
   feeds (fun c l => Holds N c (rev l)) (iter_next_back e N) (size_hint e)) /\
  (feeds (RHolds N) (rb_pop_front e N) rb_size_hint /\
   feeds (fun c l => RHolds N c (rev l)) (rb_pop_back e N) rb_size_hint) /\
  (feeds (IHolds e L) (ia_next e L b) (ia_size_hint e L b) /\
   feeds (fun c l => IHolds e L c (rev l)) (ia_pop e L b) (ia_size_hint e L b)) /\
  feeds (fun c l => exists s, SHolds N c s /\ values s = l) (dr_next (A:=A) N) (dr_size_hint N).
Proof.
  intros A e N L b HW HN WF HO Hb. split; [exact (chunk_feeds e N HW)|]. split; [exact (ring_feeds e N HW HN)|].
  split; [exact (inline_feeds e L b WF HO Hb)|]. exact (sparse_feeds e N ltac:(lia)).
Qed.
Print Assumptions C76_sources.

(** [extend]: items are taken one at a time and appended.  If they do not all fit, the container ends up full, the item that
    found no room is dropped, the call panics, and the iterator keeps the rest. *)
Theorem C76_extend :
  forall (A S : Type) (e : env A) (N : nat) (L : layout) (b : nat) (F : S -> list A -> Prop)
    (next : M A S (option A)) (hint : M A S (nat * option nat)),
  N + N < word e -> 0 < N -> calm e -> wf_layout e L -> host_ok e L -> placed L b -> feeds F next hint ->
  extends (Holds N) N F (extend_live next (push_back e N)) /\
  extends (RHolds N) N F (extend_live next (rb_push_back e N)) /\
  extends (IHolds e L) (capacity e L) F (extend_live next (ia_push e L b)).
Proof.
  intros A S e N L b F next hint HW HN Hc WF HO Hb Hf. split; [|split].
  - eapply chunk_extends; eassumption.
  - eapply ring_extends; eassumption.
  - eapply inline_extends; eassumption.
Qed.
Print Assumptions C76_extend.

(** [collect] ([FromIterator]): the container of all the items; if there are more than fit, the item that found no room and
    then the ones collected are dropped, the call panics, and the iterator keeps the rest. *)
Theorem C76_from_iter :
  forall (A S : Type) (e : env A) (N : nat) (L : layout) (b : nat) (F : S -> list A -> Prop)
    (next : M A S (option A)) (hint : M A S (nat * option nat)),
  N + N < word e -> 0 < N -> calm e -> wf_layout e L -> host_ok e L -> placed L b -> feeds F next hint ->
  collects (Holds N) N F (from_iter_live e N next) /\
  collects (RHolds N) N F (rb_from_iter_live e N next) /\
  collects (IHolds e L) (capacity e L) F (ia_from_iter_live e L b next).
Proof.
  intros A S e N L b F next hint HW HN Hc WF HO Hb Hf. split; [|split].
  - eapply chunk_collects; eassumption.
  - eapply ring_collects; eassumption.
  - eapply inline_collects; eassumption.
Qed.
Print Assumptions C76_from_iter.

(** [collect_from(iter, count)]: the container of the first [count] items, which must exist and fit. *)
Theorem C76_collect_from :
  forall (A S : Type) (e : env A) (N : nat) (F : S -> list A -> Prop) (next : M A S (option A)) (hint : M A S (nat * option nat)),
  N + N < word e -> 0 < N -> calm e -> feeds F next hint ->
  collects_from (Holds N) N F (collect_from_live e N next) /\
  collects_from (RHolds N) N F (rb_collect_from_live e N next).
Proof.
  intros A S e N F next hint HW HN Hc Hf. split; [eapply chunk_collects_from | eapply ring_collects_from]; eassumption.
Qed.
Print Assumptions C76_collect_from.

(** [insert_from(index, iter)]: everything is inserted at [index]; if it does not fit, or the index is out of bounds, the
    call panics and neither the container nor the iterator has changed. *)
Theorem C76_insert_from :
  forall (A S : Type) (e : env A) (N : nat) (F : S -> list A -> Prop) (next : M A S (option A)) (hint : M A S (nat * option nat)),
  N + N < word e -> 0 < N -> calm e -> feeds F next hint ->
  inserts_from (Holds N) N (word e) F (fun _ => insert_from_live e N next hint) /\
  inserts_from (RHolds N) N (word e) F (rb_insert_from_live e N next hint).
Proof.
  intros A S e N F next hint HW HN Hc Hf. split; [eapply chunk_inserts_from | eapply ring_inserts_from]; eassumption.
Qed.
Print Assumptions C76_insert_from.

(** So no element is lost or duplicated between the two containers: an example of the above, moving the elements of a ring
    buffer into a chunk in reverse order, [chunk.extend(ring.drain().rev())]. *)
Theorem C76_ring_into_chunk :
  forall (A : Type) (e : env A) (N1 N2 fuel : nat) (c : chunk A) (r : ring A) (d l : list A) (gs g : log A),
  N1 + N1 < word e -> N2 + N2 < word e -> calm e -> Holds N1 c d -> RHolds N2 r l -> length l < fuel ->
  exists c' r' gs' g' d' l' ds p,
    extend_live (rb_pop_back e N2) (push_back e N1) fuel (c, (r, gs)) g =
      (if p : bool then Panic (c', (r', gs')) g' else Ret (c', (r', gs')) g' tt) /\
    Holds N1 c' d' /\ RHolds N2 r' l' /\ dropped g' = dropped g ++ ds /\ leaked g' = leaked g /\
    dropped gs' = dropped gs /\ leaked gs' = leaked gs /\
    d ++ rev l = d' ++ ds ++ rev l' /\ (p = true <-> N1 < length d + length l) /\ length ds <= 1.
Proof.
  intros A e N1 N2 fuel c r d l gs g HW1 HW2 Hc H Hr Hl.
  assert (HN : 0 < N2) by (destruct Hr as (? & _); lia).
  destruct (ring_feeds e N2 HW2 HN) as [_ Hf].
  assert (Hd : length d <= N1) by (eapply holds_length; eassumption).
  assert (Hr' : RHolds N2 r (rev (rev l))) by (rewrite rev_involutive; exact Hr).
  pose proof (extend_live_ok _ _ _ Hf (Holds N1) N1 (push_back e N1) (fun o d g v => push_back_ok e N1 HW1 Hc o d g v)
    fuel c r d (rev l) gs g H Hr' ltac:(rewrite rev_length; exact Hl) Hd)
    as (c' & r' & gs' & g' & E & Hc' & Hr2 & D & Lk & D' & Lk').
  eexists c', r', gs', g', _, _, _, _. split; [exact E|]. split; [exact Hc'|]. split; [exact Hr2|].
  split; [exact D|]. split; [exact Lk|]. split; [exact D'|]. split; [exact Lk'|].
  rewrite rev_involutive. split; [|split].
  - rewrite <- app_assoc. f_equal. rewrite <- (take_drop (N1 - length d) (rev l)) at 1. f_equal.
    rewrite <- (take_drop 1 (drop (N1 - length d) (rev l))) at 1. rewrite drop_drop. f_equal. f_equal. lia.
  - rewrite rev_length. lia.
  - rewrite take_length. lia.
Qed.
Print Assumptions C76_ring_into_chunk.

Example C76_example :
  (* [chunk.extend(ring.drain().rev())] with room for one of three: one moves, one is dropped, one stays *)
  RHolds 4 RingLaws.ex_ring [3; 1; 2] /\ Holds 4 ChunkExamples.ex_chunk [3; 1; 2] /\
  match extend_live (rb_pop_back ChunkExamples.dbg 4) (push_back ChunkExamples.dbg 4) 4
          (ChunkExamples.ex_chunk, (RingLaws.ex_ring, log0)) log0 with
  | Panic (c, (r, gs)) g => right c - left c = 4 /\ rlen r = 1 /\ dropped g = [1] /\ dropped gs = []
  | _ => False end /\
  (* [Chunk::<_, 8>::insert_from(1, ring.drain())] *)
  match insert_from_live ChunkExamples.dbg 8 (rb_pop_front ChunkExamples.dbg 4) rb_size_hint 1
          (ChunkExamples.ex_chunk, (RingLaws.ex_ring, log0)) log0 with
  | Ret (c, (r, gs)) g _ => right c - left c = 6 /\ rlen r = 0
  | _ => False end /\
  (* [Chunk::<_, 4>::collect_from(&mut ring.drain(), 2)], and 4, and into a chunk of capacity 1 *)
  match collect_from_live ChunkExamples.dbg 4 (rb_pop_front ChunkExamples.dbg 4) 2 (RingLaws.ex_ring, log0) log0 with
  | Ret (r, gs) g (c, _) => right c - left c = 2 /\ rlen r = 1 | _ => False end /\
  match collect_from_live ChunkExamples.dbg 4 (rb_pop_front ChunkExamples.dbg 4) 4 (RingLaws.ex_ring, log0) log0 with
  | Panic (r, gs) g => dropped g = [3; 1; 2] /\ rlen r = 0 | _ => False end /\
  match collect_from_live ChunkExamples.dbg 1 (rb_pop_front ChunkExamples.dbg 4) 3 (RingLaws.ex_ring, log0) log0 with
  | Panic (r, gs) g => dropped g = [1; 3] /\ rlen r = 1 | _ => False end.
Proof.
  split; [exact (proj1 RingLaws.ex_ring_holds)|]. split; [exact ChunkExamples.ex_chunk_holds|].
  split; [vm_compute; auto|]. split; [vm_compute; auto|]. split; [vm_compute; auto|]. split; vm_compute; auto.
Qed.
