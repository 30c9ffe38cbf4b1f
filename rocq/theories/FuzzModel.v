(** * Model of the project's own fuzz targets (all the files in fuzz/fuzz_targets).

    They are the authors' executable specification: a target decodes any input into a list of actions, performs them
    on a container and on a [Vec] or [BTreeMap] of the standard library (the "guide"), and asserts after each action
    that the two agree.

    A target runs on the models of the containers.  The elements are [u32]s, here numbers.  A target *fails*
    ([None]) if an assertion does not hold, if there is a panic nobody expects, or in case of undefined behaviour, an
    endless loop, or an abort.

    Simplifications.  The decoding of bytes into actions (derived by the crate arbitrary) is left out: the input is the
    decoded value; a container in it is given by the items it is collected from (src/arbitrary.rs).  An iterator passed
    to [collect_from], [from_iter] or [insert_from] is the list of its items.  The panic hook is left out. *)
From Verif Require Import Machine ChunkModel RingModel SparseModel InlineModel.
From stdpp Require Import gmap.

(** A piece of a fuzz target (all the files in fuzz/fuzz_targets): [None] when it fails. *)
Definition fz (X : Type) : Type := log nat -> option (X * log nat).
Definition pass {X} (x : X) : fz X := fun g => Some (x, g).
Definition fail {X} : fz X := fun _ => None.
Definition fbind {X Y} (m : fz X) (k : X -> fz Y) : fz Y := fun g =>
  match m g with Some (x, g') => k x g' | None => None end.
Notation "'let*' p := m 'in' k" := (fbind m (fun p => k))
  (at level 200, p pattern, m at level 200, k at level 200, right associativity).

(** A call that must return: the object afterwards and the result. *)
Definition call {O R} (m : M nat O R) (o : O) : fz (O * R) := fun g =>
  match m o g with Ret o' g' r => Some ((o', r), g') | _ => None end.
(** fuzz/fuzz_targets/assert.rs 3-15 [assert_panic]: a call that must panic; the object as the panic left it. *)
Definition assert_panic {O R} (m : M nat O R) (o : O) : fz O := fun g =>
  match m o g with Panic o' g' => Some (o', g') | _ => None end.
(** [assert!], [assert_eq!]. *)
Definition assert_ (b : bool) : fz unit := if b then pass tt else fail.
(** [a + b] on [usize], in the fuzz target itself. *)
Definition plus_ (e : env nat) (a b : nat) : fz nat :=
  if a + b <? word e then pass (a + b) else if debug e then fail else pass ((a + b) mod word e).
(** [iterator.collect::<Vec<_>>()]; fails if the iterator has not ended after [fuel] calls. *)
Fixpoint collect_ {O I} (next : M nat O (option I)) (fuel : nat) (o : O) : fz (O * list I) :=
  match fuel with
  | 0 => fail
  | S fuel' =>
      let* (o', x) := call next o in
      match x with
      | None => pass (o', [])
      | Some i => let* (o'', l) := collect_ next fuel' o' in pass (o'', i :: l)
      end
  end.

(** The methods of [Vec] that the guides use; they panic beyond the length. *)
Definition vec_insert (i : nat) (v : nat) (l : list nat) : fz (list nat) :=
  if i <=? length l then pass (take i l ++ v :: drop i l) else fail.
Definition vec_remove (i : nat) (l : list nat) : fz (list nat * nat) :=
  match l !! i with Some a => pass (take i l ++ drop (S i) l, a) | None => fail end.
Definition vec_pop (l : list nat) : list nat * option nat := (removelast l, last l).
Definition vec_set (i v : nat) (l : list nat) : fz (list nat) :=
  if i <? length l then pass (take i l ++ v :: drop (S i) l) else fail.
(** [drain(..i)] and [drain(i..)]: what is left and what is removed; [split_off] is like the latter. *)
Definition vec_drain_to (i : nat) (l : list nat) : fz (list nat * list nat) :=
  if i <=? length l then pass (drop i l, take i l) else fail.
Definition vec_drain_from (i : nat) (l : list nat) : fz (list nat * list nat) :=
  if i <=? length l then pass (take i l, drop i l) else fail.
(** [for value in values.into_iter().rev() { guide.insert(index, value) }] *)
Fixpoint vec_insert_each (i : nat) (values_rev : list nat) (l : list nat) : fz (list nat) :=
  match values_rev with
  | [] => pass l
  | v :: vs => let* l' := vec_insert i v l in vec_insert_each i vs l'
  end.
(** [Vec == Vec]. *)
Definition vec_eq (l1 l2 : list nat) : bool := slice_eq Nat.eqb l1 l2.
Definition opt_eq (x y : option nat) : bool := opt_eqb Nat.eqb x y.
(** [Iterator::is_sorted]. *)
Fixpoint is_sorted (l : list nat) : bool :=
  match l with
  | a :: (b :: _) as l' => (a <=? b) && is_sorted l'
  | _ => true
  end.
(** [binary_search(&value)] then [insert] at the index, [Ok] or [Err]; [bs] as in [insert_ordered]. *)
Definition vec_insert_ordered (bs : list nat -> nat -> option nat) (v : nat) (l : list nat) : fz (list nat) :=
  match bs l v with Some i => vec_insert i v l | None => fail end.

(** ** fuzz/fuzz_targets/sized_chunk.rs and ring_buffer.rs *)

(** fuzz/fuzz_targets/sized_chunk.rs 15-23 [Construct]. *)
Inductive construct :=
  | Empty | Single (v : nat) | Pair (v1 v2 : nat)
  | DrainFrom (vec : list nat)
  | CollectFrom (vec : list nat) (len : nat)
  | FromFront (vec : list nat) (len : nat)
  | FromBack (vec : list nat) (len : nat).
(** fuzz/fuzz_targets/ring_buffer.rs 17-26 [Construct]: the same and [FromIter]. *)
Inductive ring_construct := Like (k : construct) | FromIter (vec : list nat).
(** fuzz/fuzz_targets/sized_chunk.rs 26-44, ring_buffer.rs 29-47 [Action<A>]; [K] is [Construct<A>]. *)
Inductive action (K : Type) :=
  | PushFront (v : nat) | PushBack (v : nat) | PopFront | PopBack
  | DropLeft (i : nat) | DropRight (i : nat) | SplitOff (i : nat)
  | Append (other : K)
  | DrainFromFront (other : K) (count : nat)
  | DrainFromBack (other : K) (count : nat)
  | Set_ (i v : nat) | Insert (i v : nat) | InsertFrom (values : list nat) (i : nat)
  | InsertOrdered (v : nat) | Remove (i : nat) | Drain | Clear.
Arguments PushFront {K}. Arguments PushBack {K}. Arguments PopFront {K}. Arguments PopBack {K}.
Arguments DropLeft {K}. Arguments DropRight {K}. Arguments SplitOff {K}. Arguments Append {K}.
Arguments DrainFromFront {K}. Arguments DrainFromBack {K}. Arguments Set_ {K}. Arguments Insert {K}.
Arguments InsertFrom {K}. Arguments InsertOrdered {K}. Arguments Remove {K}. Arguments Drain {K}. Arguments Clear {K}.

Section chunk.
(** [bs]: [slice::binary_search], used by the chunk and by the guide. *)
Context (e : env nat) (N : nat) (bs : list nat -> nat -> option nat).

(** [assert_eq!(chunk, vec)]: sized_chunk/mod.rs 751-759, [Chunk == T] for [T: Borrow<[A]>]. *)
Definition chunk_is (c : chunk nat) (l : list nat) : fz unit :=
  let* (_, s) := call (as_slice e N) c in assert_ (vec_eq s l).
(** [assert_eq!(c1, c2)]: sized_chunk/mod.rs [PartialEq]. *)
Definition chunk_same (c1 c2 : chunk nat) : fz unit :=
  let* (_, b) := call (eq_ e N Nat.eqb) (c1, c2) in assert_ b.
(** [chunk.iter().cloned().collect()] *)
Definition chunk_items (c : chunk nat) : fz (list nat) :=
  let* (_, s) := call (as_slice e N) c in pass s.
Definition chunk_len (c : chunk nat) : fz nat := let* (_, n) := call (len e) c in pass n.
(** [Chunk::from_iter(l.iter().cloned())]; src/arbitrary.rs 19-21 for a chunk in the input. *)
Definition chunk_of (l : list nat) : fz (chunk nat) :=
  let* (_, r) := call (from_iter e N (map Yield l)) tt in pass (fst r).
Definition chunk_input (l : list nat) : fz (chunk nat) := chunk_of (take N l).
(** The end of a scope. *)
Definition chunk_end (c : chunk nat) : fz unit := let* _ := call (destroy e N) c in pass tt.

(** fuzz/fuzz_targets/sized_chunk.rs 50-112 [Construct::make] *)
Definition chunk_make (k : construct) : fz (chunk nat) :=
  match k with
  | Empty =>
      let out := new in
      let* _ := assert_ (is_empty out) in
      pass out
  | Single value =>
      let* (_, r) := call (unit_ e N value) tt in
      let out := fst r in
      let* _ := chunk_is out [value] in
      pass out
  | Pair left right =>
      let* (_, r) := call (pair_ e N left right) tt in
      let out := fst r in
      let* _ := chunk_is out [left; right] in
      pass out
  | DrainFrom v =>
      let* vec := chunk_input v in
      let* items := chunk_items vec in
      let* source := chunk_of items in
      let* (source, r) := call (drain_from e N) source in
      let out := fst r in
      let* _ := assert_ (is_empty source) in
      let* _ := chunk_same out vec in
      let* _ := chunk_end source in
      let* _ := chunk_end vec in
      pass out
  | CollectFrom v len =>
      let* vec := chunk_input v in
      if is_empty vec then let* _ := chunk_end vec in pass new
      else
        let* n := chunk_len vec in
        let len := len mod n in
        let* (vec, r) := call (clone e N (fun _ a => Some a)) vec in
        let* items := chunk_items (fst r) in
        let* (source, r) := call (collect_from e N len) (map Yield items) in
        let out := fst r in
        let* (vec, r) := call (split_off e N len) vec in
        let expected_remainder := fst r in
        let* _ := chunk_is expected_remainder (omap (fun x => match x with Yield a => Some a | Boom => None end) source) in
        let* _ := chunk_same out vec in
        let* _ := chunk_end expected_remainder in
        let* _ := chunk_end vec in
        pass out
  | FromFront v len =>
      let* vec := chunk_input v in
      if is_empty vec then let* _ := chunk_end vec in pass new
      else
        let* n := chunk_len vec in
        let len := len mod n in
        let* items := chunk_items vec in
        let* source := chunk_of items in
        let* (source, r) := call (from_front e N len) source in
        let out := fst r in
        let* (vec, r) := call (split_off e N len) vec in
        let remainder := fst r in
        let* _ := chunk_same source remainder in
        let* _ := chunk_same out vec in
        let* _ := chunk_end remainder in
        let* _ := chunk_end source in
        let* _ := chunk_end vec in
        pass out
  | FromBack v len =>
      let* vec := chunk_input v in
      if is_empty vec then let* _ := chunk_end vec in pass new
      else
        let* n := chunk_len vec in
        let len := len mod n in
        let* items := chunk_items vec in
        let* source := chunk_of items in
        let* (source, r) := call (from_back e N len) source in
        let out := fst r in
        let* n := chunk_len vec in
        let* (vec, r) := call (split_off e N (n - len)) vec in
        let remainder := fst r in
        let* _ := chunk_same out remainder in
        let* _ := chunk_same source vec in
        let* _ := chunk_end remainder in
        let* _ := chunk_end source in
        let* _ := chunk_end vec in
        pass out
  end.

(** fuzz/fuzz_targets/sized_chunk.rs 121-265: one action. *)
Definition chunk_action (a : action construct) (chunk : chunk nat) (guide : list nat)
    : fz (ChunkModel.chunk nat * list nat) :=
  match a with
  | PushFront value =>
      if is_full N chunk then let* chunk := assert_panic (push_front e N value) chunk in pass (chunk, guide)
      else
        let* (chunk, _) := call (push_front e N value) chunk in
        let* guide := vec_insert 0 value guide in
        pass (chunk, guide)
  | PushBack value =>
      if is_full N chunk then let* chunk := assert_panic (push_back e N value) chunk in pass (chunk, guide)
      else
        let* (chunk, _) := call (push_back e N value) chunk in
        pass (chunk, guide ++ [value])
  | PopFront =>
      if is_empty chunk then let* chunk := assert_panic (pop_front e N) chunk in pass (chunk, guide)
      else
        let* (chunk, x) := call (pop_front e N) chunk in
        let* (guide, y) := vec_remove 0 guide in
        let* _ := assert_ (x =? y) in
        pass (chunk, guide)
  | PopBack =>
      if is_empty chunk then let* chunk := assert_panic (pop_back e N) chunk in pass (chunk, guide)
      else
        let* (chunk, x) := call (pop_back e N) chunk in
        let (guide, y) := vec_pop guide in
        let* _ := assert_ (opt_eq (Some x) y) in
        pass (chunk, guide)
  | DropLeft index =>
      let* n := chunk_len chunk in
      if n <? index then let* chunk := assert_panic (drop_left e N index) chunk in pass (chunk, guide)
      else
        let* (chunk, _) := call (drop_left e N index) chunk in
        let* (guide, _) := vec_drain_to index guide in
        pass (chunk, guide)
  | DropRight index =>
      let* n := chunk_len chunk in
      if n <? index then let* chunk := assert_panic (drop_right e N index) chunk in pass (chunk, guide)
      else
        let* (chunk, _) := call (drop_right e N index) chunk in
        let* (guide, _) := vec_drain_from index guide in
        pass (chunk, guide)
  | SplitOff index =>
      let* n := chunk_len chunk in
      if n <? index then let* chunk := assert_panic (split_off e N index) chunk in pass (chunk, guide)
      else
        let* (chunk, r) := call (split_off e N index) chunk in
        let* (guide, guide_off) := vec_drain_from index guide in
        let* _ := chunk_is (fst r) guide_off in
        let* _ := chunk_end (fst r) in
        pass (chunk, guide)
  | Append k =>
      let* other := chunk_make k in
      let* other_guide := chunk_items other in
      let* n2 := chunk_len other in
      let* n := chunk_len chunk in
      let* sum := plus_ e n2 n in
      if N <? sum then
        let* (chunk, other) := assert_panic (append e N) (chunk, other) in
        let* _ := chunk_end other in
        pass (chunk, guide)
      else
        let* (both, _) := call (append e N) (chunk, other) in
        let* _ := chunk_end (snd both) in
        pass (fst both, guide ++ other_guide)
  | DrainFromFront k count =>
      let* other := chunk_make k in
      let* other_guide := chunk_items other in
      let* n2 := chunk_len other in
      let* n := chunk_len chunk in
      let* bad := (if n2 <? count then pass true else let* sum := plus_ e n count in pass (N <? sum)) in
      if bad : bool then
        let* (chunk, other) := assert_panic (drain_from_front e N count) (chunk, other) in
        let* _ := chunk_end other in
        pass (chunk, guide)
      else
        let* (both, _) := call (drain_from_front e N count) (chunk, other) in
        let* (other_guide, drained) := vec_drain_to count other_guide in
        let* _ := chunk_is (snd both) other_guide in
        let* _ := chunk_end (snd both) in
        pass (fst both, guide ++ drained)
  | DrainFromBack k count =>
      let* other := chunk_make k in
      let* other_guide := chunk_items other in
      let* n2 := chunk_len other in
      let* n := chunk_len chunk in
      let* bad := (if n2 <? count then pass true else let* sum := plus_ e n count in pass (N <? sum)) in
      if bad : bool then
        let* (chunk, other) := assert_panic (drain_from_back e N count) (chunk, other) in
        let* _ := chunk_end other in
        pass (chunk, guide)
      else
        let* (both, _) := call (drain_from_back e N count) (chunk, other) in
        let* (other_guide, drained) := vec_drain_from (n2 - count) other_guide in
        let* _ := chunk_is (snd both) other_guide in
        let* _ := chunk_end (snd both) in
        pass (fst both, drained ++ guide)
  | Set_ index value =>
      let* n := chunk_len chunk in
      if n <=? index then let* chunk := assert_panic (ChunkModel.set e N index value) chunk in pass (chunk, guide)
      else
        let* (chunk, _) := call (ChunkModel.set e N index value) chunk in
        let* guide := vec_set index value guide in
        pass (chunk, guide)
  | Insert index value =>
      let* n := chunk_len chunk in
      if (n <? index) || is_full N chunk then
        let* chunk := assert_panic (ChunkModel.insert e N index value) chunk in pass (chunk, guide)
      else
        let* (chunk, _) := call (ChunkModel.insert e N index value) chunk in
        let* guide := vec_insert index value guide in
        pass (chunk, guide)
  | InsertFrom values index =>
      let* n := chunk_len chunk in
      let* bad := (if n <? index then pass true else let* sum := plus_ e n (length values) in pass (N <? sum)) in
      let call_it := insert_from e N index (length values) (length values) (map Yield values) in
      if bad : bool then
        let* chunk := assert_panic call_it chunk in pass (chunk, guide)
      else
        let* (chunk, _) := call call_it chunk in
        let* guide := vec_insert_each index (rev values) guide in
        pass (chunk, guide)
  | InsertOrdered value =>
      if is_full N chunk then let* chunk := assert_panic (insert_ordered e N bs value) chunk in pass (chunk, guide)
      else
        let* (chunk, _) := call (insert_ordered e N bs value) chunk in
        let* guide := vec_insert_ordered bs value guide in
        pass (chunk, guide)
  | Remove index =>
      let* n := chunk_len chunk in
      if n <=? index then let* chunk := assert_panic (ChunkModel.remove e N index) chunk in pass (chunk, guide)
      else
        let* (chunk, x) := call (ChunkModel.remove e N index) chunk in
        let* (guide, y) := vec_remove index guide in
        let* _ := assert_ (x =? y) in
        pass (chunk, guide)
  | Drain =>
      let* (chunk, drained) := collect_ (iter_next e N) (S N) chunk in
      let* _ := assert_ (vec_eq drained guide) in
      pass (chunk, [])
  | Clear =>
      let* (chunk, _) := call (clear e N) chunk in
      pass (chunk, [])
  end.

(** fuzz/fuzz_targets/sized_chunk.rs 120-269: the actions, with the two assertions after each. *)
Fixpoint chunk_actions (l : list (action construct)) (chunk : chunk nat) (guide : list nat)
    : fz (ChunkModel.chunk nat * list nat) :=
  match l with
  | [] => pass (chunk, guide)
  | a :: l' =>
      let* (chunk, guide) := chunk_action a chunk guide in
      let* _ := chunk_is chunk guide in
      let* _ := assert_ (length guide <=? N) in
      chunk_actions l' chunk guide
  end.
(** fuzz/fuzz_targets/sized_chunk.rs 115-270: the whole target. *)
Definition fuzz_sized_chunk (input : construct * list (action construct)) : fz unit :=
  let* chunk := chunk_make (fst input) in
  let* guide := chunk_items chunk in
  let* (chunk, _) := chunk_actions (snd input) chunk guide in
  chunk_end chunk.
End chunk.

(** ** fuzz/fuzz_targets/ring_buffer.rs *)
Section ring.
(** [bs]: [binary_search] of the ring buffer (of the crate array-ops); [vbs]: of the guide. *)
Context (e : env nat) (N : nat) (bs vbs : list nat -> nat -> option nat).

(** [assert_eq!(ring, vec)] *)
Definition ring_is (c : ring nat) (l : list nat) : fz unit :=
  let* (_, b) := call (rb_eq_list e N Nat.eqb l) c in assert_ b.
Definition ring_same (c1 c2 : ring nat) : fz unit :=
  let* (_, b) := call (rb_eq e N Nat.eqb) (c1, c2) in assert_ b.
Definition ring_items (c : ring nat) : fz (list nat) :=
  let* (_, s) := call (rb_contents e N) c in pass s.
Definition ring_len (c : ring nat) : fz nat := let* (_, n) := call rb_len c in pass n.
Definition ring_new : fz (ring nat) := let* (_, r) := call (rb_new e N) tt in pass r.
(** [RingBuffer::from_iter]; src/arbitrary.rs 41-43 for a ring buffer in the input. *)
Definition ring_of (l : list nat) : fz (ring nat) :=
  let* (_, r) := call (rb_from_iter e N (map Yield l)) tt in pass (fst r).
Definition ring_input (l : list nat) : fz (ring nat) := ring_of (take N l).
Definition ring_end (c : ring nat) : fz unit := let* _ := call (rb_destroy e N) c in pass tt.
(** [ArrayMut::set] of the crate array-ops: replaces the value if there is one. *)
Definition ring_set (index value : nat) (c : ring nat) : fz (ring nat * option nat) :=
  let* (c, old) := call (rb_get e N index) c in
  match old with
  | None => pass (c, None)
  | Some a => let* (c, _) := call (rb_assign e N index value) c in pass (c, Some a)
  end.

(** fuzz/fuzz_targets/ring_buffer.rs 53-113 [Construct::make], the cases that sized_chunk.rs has, too *)
Definition ring_make_like (k : construct) : fz (ring nat) :=
  match k with
  | Empty =>
      let* out := ring_new in
      let* _ := assert_ (rb_is_empty out) in
      pass out
  | Single value =>
      let* (_, r) := call (rb_unit e N value) tt in
      let out := fst r in
      let* _ := ring_is out [value] in
      pass out
  | Pair left right =>
      let* (_, r) := call (rb_pair e N left right) tt in
      let out := fst r in
      let* _ := ring_is out [left; right] in
      pass out
  | DrainFrom v =>
      let* vec := ring_input v in
      let* items := ring_items vec in
      let* source := ring_of items in
      let* (source, r) := call (rb_drain_from e N) source in
      let out := fst r in
      let* _ := assert_ (rb_is_empty source) in
      let* _ := ring_same out vec in
      let* _ := ring_end source in
      let* _ := ring_end vec in
      pass out
  | CollectFrom v len =>
      let* vec := ring_input v in
      if rb_is_empty vec then let* _ := ring_end vec in ring_new
      else
        let* n := ring_len vec in
        let len := len mod n in
        let* (vec, r) := call (rb_clone e N (fun _ a => Some a)) vec in
        let* items := ring_items (fst r) in
        let* (source, r) := call (rb_collect_from e N len) (map Yield items) in
        let out := fst r in
        let* (vec, r) := call (rb_split_off e N len) vec in
        let expected_remainder := fst r in
        let* _ := ring_is expected_remainder (omap (fun x => match x with Yield a => Some a | Boom => None end) source) in
        let* _ := ring_same out vec in
        let* _ := ring_end expected_remainder in
        let* _ := ring_end vec in
        pass out
  | FromFront v len =>
      let* vec := ring_input v in
      if rb_is_empty vec then let* _ := ring_end vec in ring_new
      else
        let* n := ring_len vec in
        let len := len mod n in
        let* items := ring_items vec in
        let* source := ring_of items in
        let* (source, r) := call (rb_from_front e N len) source in
        let out := fst r in
        let* (vec, r) := call (rb_split_off e N len) vec in
        let remainder := fst r in
        let* _ := ring_same source remainder in
        let* _ := ring_same out vec in
        let* _ := ring_end remainder in
        let* _ := ring_end source in
        let* _ := ring_end vec in
        pass out
  | FromBack v len =>
      let* vec := ring_input v in
      if rb_is_empty vec then let* _ := ring_end vec in ring_new
      else
        let* n := ring_len vec in
        let len := len mod n in
        let* items := ring_items vec in
        let* source := ring_of items in
        let* (source, r) := call (rb_from_back e N len) source in
        let out := fst r in
        let* n := ring_len vec in
        let* (vec, r) := call (rb_split_off e N (n - len)) vec in
        let remainder := fst r in
        let* _ := ring_same out remainder in
        let* _ := ring_same source vec in
        let* _ := ring_end remainder in
        let* _ := ring_end source in
        let* _ := ring_end vec in
        pass out
  end.
(** fuzz/fuzz_targets/ring_buffer.rs 53-121 [Construct::make] *)
Definition ring_make (k : ring_construct) : fz (ring nat) :=
  match k with
  | Like k => ring_make_like k
  | FromIter v =>
      let* vec := ring_input v in
      let* (vec, r) := call (rb_clone e N (fun _ a => Some a)) vec in
      let* items := ring_items (fst r) in
      let* out := ring_of items in
      let* _ := ring_same out vec in
      let* _ := ring_end vec in
      pass out
  end.

(** fuzz/fuzz_targets/ring_buffer.rs 129-274: one action. *)
Definition ring_action (a : action ring_construct) (chunk : ring nat) (guide : list nat) : fz (ring nat * list nat) :=
  match a with
  | PushFront value =>
      if rb_is_full N chunk then let* chunk := assert_panic (rb_push_front e N value) chunk in pass (chunk, guide)
      else
        let* (chunk, _) := call (rb_push_front e N value) chunk in
        let* guide := vec_insert 0 value guide in
        pass (chunk, guide)
  | PushBack value =>
      if rb_is_full N chunk then let* chunk := assert_panic (rb_push_back e N value) chunk in pass (chunk, guide)
      else
        let* (chunk, _) := call (rb_push_back e N value) chunk in
        pass (chunk, guide ++ [value])
  | PopFront =>
      let* (chunk, x) := call (rb_pop_front e N) chunk in
      let* (guide, y) := (match guide with
                          | [] => pass (guide, None)
                          | _ => let* (guide, y) := vec_remove 0 guide in pass (guide, Some y)
                          end) in
      let* _ := assert_ (opt_eq x y) in
      pass (chunk, guide)
  | PopBack =>
      let* (chunk, x) := call (rb_pop_back e N) chunk in
      let (guide, y) := vec_pop guide in
      let* _ := assert_ (opt_eq x y) in
      pass (chunk, guide)
  | DropLeft index =>
      let* n := ring_len chunk in
      if n <? index then let* chunk := assert_panic (rb_drop_left e N index) chunk in pass (chunk, guide)
      else
        let* (chunk, _) := call (rb_drop_left e N index) chunk in
        let* (guide, _) := vec_drain_to index guide in
        pass (chunk, guide)
  | DropRight index =>
      let* n := ring_len chunk in
      if n <? index then let* chunk := assert_panic (rb_drop_right e N index) chunk in pass (chunk, guide)
      else
        let* (chunk, _) := call (rb_drop_right e N index) chunk in
        let* (guide, _) := vec_drain_from index guide in
        pass (chunk, guide)
  | SplitOff index =>
      let* n := ring_len chunk in
      if n <? index then let* chunk := assert_panic (rb_split_off e N index) chunk in pass (chunk, guide)
      else
        let* (chunk, r) := call (rb_split_off e N index) chunk in
        let* (guide, guide_off) := vec_drain_from index guide in
        let* _ := ring_is (fst r) guide_off in
        let* _ := ring_end (fst r) in
        pass (chunk, guide)
  | Append k =>
      let* other := ring_make k in
      let* other_guide := ring_items other in
      let* n2 := ring_len other in
      let* n := ring_len chunk in
      let* sum := plus_ e n2 n in
      if N <? sum then
        let* (chunk, other) := assert_panic (rb_append e N) (chunk, other) in
        let* _ := ring_end other in
        pass (chunk, guide)
      else
        let* (both, _) := call (rb_append e N) (chunk, other) in
        let* _ := ring_end (snd both) in
        pass (fst both, guide ++ other_guide)
  | DrainFromFront k count =>
      let* other := ring_make k in
      let* other_guide := ring_items other in
      let* n2 := ring_len other in
      let* n := ring_len chunk in
      let* bad := (if n2 <? count then pass true else let* sum := plus_ e n count in pass (N <? sum)) in
      if bad : bool then
        let* (chunk, other) := assert_panic (rb_drain_from_front e N count) (chunk, other) in
        let* _ := ring_end other in
        pass (chunk, guide)
      else
        let* (both, _) := call (rb_drain_from_front e N count) (chunk, other) in
        let* (other_guide, drained) := vec_drain_to count other_guide in
        let* _ := ring_is (snd both) other_guide in
        let* _ := ring_end (snd both) in
        pass (fst both, guide ++ drained)
  | DrainFromBack k count =>
      let* other := ring_make k in
      let* other_guide := ring_items other in
      let* n2 := ring_len other in
      let* n := ring_len chunk in
      let* bad := (if n2 <? count then pass true else let* sum := plus_ e n count in pass (N <? sum)) in
      if bad : bool then
        let* (chunk, other) := assert_panic (rb_drain_from_back e N count) (chunk, other) in
        let* _ := ring_end other in
        pass (chunk, guide)
      else
        let* (both, _) := call (rb_drain_from_back e N count) (chunk, other) in
        let* (other_guide, drained) := vec_drain_from (n2 - count) other_guide in
        let* _ := ring_is (snd both) other_guide in
        let* _ := ring_end (snd both) in
        pass (fst both, drained ++ guide)
  | Set_ index value =>
      let* n := ring_len chunk in
      if n <=? index then
        let* (chunk, x) := ring_set index value chunk in
        let* _ := assert_ (opt_eq None x) in
        pass (chunk, guide)
      else
        let* (chunk, _) := ring_set index value chunk in
        let* guide := vec_set index value guide in
        pass (chunk, guide)
  | Insert index value =>
      let* n := ring_len chunk in
      if (n <? index) || rb_is_full N chunk then
        let* chunk := assert_panic (rb_insert e N index value) chunk in pass (chunk, guide)
      else
        let* (chunk, _) := call (rb_insert e N index value) chunk in
        let* guide := vec_insert index value guide in
        pass (chunk, guide)
  | InsertFrom values index =>
      let* n := ring_len chunk in
      let* bad := (if n <? index then pass true else let* sum := plus_ e n (length values) in pass (N <? sum)) in
      let call_it := rb_insert_from e N index (length values) (map Yield values) in
      if bad : bool then
        let* chunk := assert_panic call_it chunk in pass (chunk, guide)
      else
        let* (chunk, _) := call call_it chunk in
        let* guide := vec_insert_each index (rev values) guide in
        pass (chunk, guide)
  | InsertOrdered value =>
      let* items := ring_items chunk in
      if is_sorted items then
        if rb_is_full N chunk then
          let* chunk := assert_panic (rb_insert_ordered e N bs value) chunk in pass (chunk, guide)
        else
          let* (chunk, _) := call (rb_insert_ordered e N bs value) chunk in
          let* guide := vec_insert_ordered vbs value guide in
          pass (chunk, guide)
      else pass (chunk, guide)
  | Remove index =>
      let* n := ring_len chunk in
      if n <=? index then let* chunk := assert_panic (rb_remove e N index) chunk in pass (chunk, guide)
      else
        let* (chunk, x) := call (rb_remove e N index) chunk in
        let* (guide, y) := vec_remove index guide in
        let* _ := assert_ (x =? y) in
        pass (chunk, guide)
  | Drain =>
      let* (chunk, drained) := collect_ (rb_pop_front e N) (S N) chunk in
      let* _ := assert_ (vec_eq drained guide) in
      pass (chunk, [])
  | Clear =>
      let* (chunk, _) := call (rb_clear e N) chunk in
      pass (chunk, [])
  end.
(** fuzz/fuzz_targets/ring_buffer.rs 128-278 *)
Fixpoint ring_actions (l : list (action ring_construct)) (chunk : ring nat) (guide : list nat) : fz (ring nat * list nat) :=
  match l with
  | [] => pass (chunk, guide)
  | a :: l' =>
      let* (chunk, guide) := ring_action a chunk guide in
      let* _ := ring_is chunk guide in
      let* _ := assert_ (length guide <=? N) in
      ring_actions l' chunk guide
  end.
(** fuzz/fuzz_targets/ring_buffer.rs 123-279: the whole target. *)
Definition fuzz_ring_buffer (input : ring_construct * list (action ring_construct)) : fz unit :=
  let* chunk := ring_make (fst input) in
  let* guide := ring_items chunk in
  let* (chunk, _) := ring_actions (snd input) chunk guide in
  ring_end chunk.
End ring.

(** ** fuzz/fuzz_targets/sparse_chunk.rs.  The guide, a [BTreeMap<usize, u32>], is a finite map. *)

(** fuzz/fuzz_targets/sparse_chunk.rs 15-19 [Construct], 22-26 [Action]. *)
Inductive sp_construct :=
  | SpEmpty | SpSingle (i v : nat) | SpPair (i1 v1 i2 v2 : nat).
Inductive sp_action := SpInsert (i v : nat) | SpRemove (i : nat) | SpPop.

Section sparse.
Context (e : env nat) (N : nat).

(** [assert_eq!(chunk, map)]: sparse_chunk/mod.rs 388-405, [SparseChunk == BTreeMap]. *)
Definition sparse_is (c : sparse nat) (m : gmap nat nat) : fz unit :=
  let* (_, b) := call (sp_eq_map N Nat.eqb (size m) (fun i => m !! i)) c in assert_ b.
Definition sparse_end (c : sparse nat) : fz unit := let* _ := call (sp_destroy e N) c in pass tt.

(** fuzz/fuzz_targets/sparse_chunk.rs 32-58 [Construct::make] *)
Definition sparse_make (k : sp_construct) : fz (sparse nat) :=
  match k with
  | SpEmpty =>
      let* (_, out) := call sp_new tt in
      let* (out, b) := call (sp_is_empty N) out in
      let* _ := assert_ b in
      pass out
  | SpSingle index value =>
      let index := index mod N in
      let* (_, r) := call (sp_unit e N index value) tt in
      let out := fst r in
      let guide := <[index := value]> (∅ : gmap nat nat) in
      let* _ := sparse_is out guide in
      pass out
  | SpPair left_index left right_index right =>
      let left_index := left_index mod N in
      let right_index := right_index mod N in
      let* (_, r) := call (sp_pair e N left_index left right_index right) tt in
      let out := fst r in
      let guide := <[right_index := right]> (<[left_index := left]> (∅ : gmap nat nat)) in
      let* _ := sparse_is out guide in
      pass out
  end.

(** fuzz/fuzz_targets/sparse_chunk.rs 67-89: one action. *)
Definition sparse_action (a : sp_action) (chunk : sparse nat) (guide : gmap nat nat)
    : fz (sparse nat * gmap nat nat) :=
  match a with
  | SpInsert index value =>
      if N <=? index then
        let* chunk := assert_panic (sp_insert e N index value) chunk in pass (chunk, guide)
      else
        let* (chunk, x) := call (sp_insert e N index value) chunk in
        let* _ := assert_ (opt_eq x (guide !! index)) in
        pass (chunk, <[index := value]> guide)
  | SpRemove index =>
      if N <=? index then
        let* chunk := assert_panic (sp_remove N index) chunk in pass (chunk, guide)
      else
        let* (chunk, x) := call (sp_remove N index) chunk in
        let* _ := assert_ (opt_eq x (guide !! index)) in
        pass (chunk, delete index guide)
  | SpPop =>
      let* (chunk, first) := call (sp_first_index N) chunk in
      match first with
      | Some index =>
          let* (chunk, x) := call (sp_pop N) chunk in
          let* _ := assert_ (opt_eq x (guide !! index)) in
          pass (chunk, delete index guide)
      | None =>
          let* (chunk, x) := call (sp_pop N) chunk in
          let* _ := assert_ (opt_eq x None) in
          pass (chunk, guide)
      end
  end.
(** fuzz/fuzz_targets/sparse_chunk.rs 66-92 *)
Fixpoint sparse_actions (l : list sp_action) (chunk : sparse nat) (guide : gmap nat nat)
    : fz (sparse nat * gmap nat nat) :=
  match l with
  | [] => pass (chunk, guide)
  | a :: l' =>
      let* (chunk, guide) := sparse_action a chunk guide in
      let* _ := sparse_is chunk guide in
      let* _ := assert_ (size guide <=? N) in
      sparse_actions l' chunk guide
  end.
(** fuzz/fuzz_targets/sparse_chunk.rs 61-93: the whole target; line 65 collects the entries of the chunk into the guide. *)
Definition fuzz_sparse_chunk (input : sp_construct * list sp_action) : fz unit :=
  let* chunk := sparse_make (fst input) in
  let* (o, entries) := collect_ (en_next N) (S N) (chunk, (0, 0)) in
  let guide := list_to_map (rev entries) in
  let* (chunk, _) := sparse_actions (snd input) (fst o) guide in
  sparse_end chunk.
End sparse.

(** ** fuzz/fuzz_targets/inline_array.rs *)

(** fuzz/fuzz_targets/inline_array.rs 16-25 [Action]. *)
Inductive ia_action :=
  | IaPush (v : nat) | IaPop | IaSet (i v : nat) | IaInsert (i v : nat) | IaRemove (i : nat)
  | IaSplitOff (i : nat) | IaDrain | IaClear.

Section inline.
(** The array is at address [b], the one split off at [b2]. *)
Context (e : env nat) (L : layout) (b b2 : nat).

Definition inline_is (b : nat) (c : inline nat) (l : list nat) : fz unit :=
  let* (_, x) := call (ia_eq e L b Nat.eqb l) c in assert_ x.

(** fuzz/fuzz_targets/inline_array.rs 32-85: one action. *)
Definition inline_action (a : ia_action) (chunk : inline nat) (guide : list nat) : fz (inline nat * list nat) :=
  match a with
  | IaPush value =>
      let* (chunk, full) := call (ia_is_full e L b) chunk in
      if full : bool then let* chunk := assert_panic (ia_push e L b value) chunk in pass (chunk, guide)
      else
        let* (chunk, _) := call (ia_push e L b value) chunk in
        pass (chunk, guide ++ [value])
  | IaPop =>
      let* (chunk, x) := call (ia_pop e L b) chunk in
      let (guide, y) := vec_pop guide in
      let* _ := assert_ (opt_eq x y) in
      pass (chunk, guide)
  | IaSet index value =>
      let* (chunk, n) := call (ia_len e L b) chunk in
      if n <=? index then let* chunk := assert_panic (ia_assign e L b index value) chunk in pass (chunk, guide)
      else
        let* (chunk, _) := call (ia_assign e L b index value) chunk in
        let* guide := vec_set index value guide in
        pass (chunk, guide)
  | IaInsert index value =>
      let* (chunk, n) := call (ia_len e L b) chunk in
      let* (chunk, full) := call (ia_is_full e L b) chunk in
      if (n <? index) || full then
        let* chunk := assert_panic (ia_insert e L b index value) chunk in pass (chunk, guide)
      else
        let* (chunk, _) := call (ia_insert e L b index value) chunk in
        let* guide := vec_insert index value guide in
        pass (chunk, guide)
  | IaRemove index =>
      let* (chunk, n) := call (ia_len e L b) chunk in
      if n <=? index then
        let* (chunk, x) := call (ia_remove e L b index) chunk in
        let* _ := assert_ (opt_eq None x) in
        pass (chunk, guide)
      else
        let* (chunk, x) := call (ia_remove e L b index) chunk in
        let* (guide, y) := vec_remove index guide in
        let* _ := assert_ (opt_eq x (Some y)) in
        pass (chunk, guide)
  | IaSplitOff index =>
      let* (chunk, n) := call (ia_len e L b) chunk in
      if n <? index then let* chunk := assert_panic (ia_split_off e L b b2 index) chunk in pass (chunk, guide)
      else
        let* (chunk, r) := call (ia_split_off e L b b2 index) chunk in
        let* (guide, guide_off) := vec_drain_from index guide in
        let* _ := inline_is b2 (fst r) guide_off in
        let* _ := call (ia_destroy e L b2) (fst r) in
        pass (chunk, guide)
  | IaDrain =>
      let* (chunk, drained) := collect_ (ia_next e L b) (S (capacity e L)) chunk in
      let* _ := assert_ (vec_eq drained guide) in
      pass (chunk, [])
  | IaClear =>
      let* (chunk, _) := call (ia_clear e L b) chunk in
      pass (chunk, [])
  end.
(** fuzz/fuzz_targets/inline_array.rs 31-88 *)
Fixpoint inline_actions (l : list ia_action) (chunk : inline nat) (guide : list nat)
    : fz (inline nat * list nat) :=
  match l with
  | [] => pass (chunk, guide)
  | a :: l' =>
      let* (chunk, guide) := inline_action a chunk guide in
      let* _ := inline_is b chunk guide in
      let* _ := assert_ (length guide <=? capacity e L) in
      inline_actions l' chunk guide
  end.
(** fuzz/fuzz_targets/inline_array.rs 27-89: the whole target. *)
Definition fuzz_inline_array (actions : list ia_action) : fz unit :=
  let* (_, chunk) := call (ia_new e L b) tt in
  let* (chunk, guide) := call (ia_deref e L b) chunk in
  let* (chunk, _) := inline_actions actions chunk guide in
  let* _ := call (ia_destroy e L b) chunk in
  pass tt.
End inline.
