(** * References handed out by the containers, [Debug], and the rest of [ring_buffer/index.rs].

    A [&mut A] into a container is the number of the slot it points to; two references alias iff the numbers
    are equal.  Reading or writing through it is an access to that slot. *)
From Verif Require Import Machine RingModel IterSpec.
From Verif Require ChunkModel SparseModel InlineModel.

(** ** src/ring_buffer/index.rs, the rest *)
Section index.
Context {A O : Type} (e : env A) (N : nat).
(** index.rs 64-71 [Add for RawIndex]: [self + other.0]. *)
Definition raw_add_raw (i other : nat) : M A O nat := raw_add e N i other.
(** index.rs 96-103 [Sub for RawIndex]: [self - other.0]. *)
Definition raw_sub_raw (i other : nat) : M A O nat := raw_sub e N i other.
(** index.rs 128-132 [IndexIter]: the same three registers as [Iter] ([idx]). *)
(** index.rs 137-144 [IndexIter::next]. *)
Definition ii_next : M A idx (option nat) :=
  let! s := get in
  if 0 <? iremaining s then
    let! rem := usub e (iremaining s) 1 in
    let! l := raw_inc e N (ileft s) in
    put (Idx l (iright s) rem) ;;;
    ret (Some (ileft s))
  else ret None.
(** index.rs 155-162 [IndexIter::next_back]. *)
Definition ii_next_back : M A idx (option nat) :=
  let! s := get in
  if 0 <? iremaining s then
    let! rem := usub e (iremaining s) 1 in
    let! r := raw_dec e N (iright s) in
    put (Idx (ileft s) r rem) ;;;
    ret (Some r)
  else ret None.
(** index.rs 146-150 [IndexIter::size_hint]. *)
Definition ii_size_hint : M A idx (nat * option nat) :=
  let! s := get in ret (iremaining s, Some (iremaining s)).
End index.
Section ring.
Context {A : Type} (e : env A) (N : nat).
Notation M := (M A (ring A)).
(** ring_buffer/mod.rs 214-220 [range]: the iterator over the raw indices of the elements. *)
Definition rb_index_range : M idx :=
  let! r := get in
  let! right := raw_add e N (origin r) (rlen r) in
  ret (Idx (origin r) right (rlen r)).

(** ** Mutable references.  ring_buffer/mod.rs 398-400 [get_unchecked_mut]; 127-130 [mut_ptr]. *)
Definition rb_get_unchecked_mut (index : nat) : M nat :=
  let! i := raw e N index in
  ptr e N i ;;;
  ret i.
(** mod.rs 98-108 [get_mut]. *)
Definition rb_get_mut (index : nat) : M (option nat) :=
  let! r := get in
  if rlen r <=? index then ret None else let! p := rb_get_unchecked_mut index in ret (Some p).
(** mod.rs 801-813 [index_mut]. *)
Definition rb_index_mut (index : nat) : M nat :=
  let! r := get in
  if rlen r <=? index then panic else rb_get_unchecked_mut index.
(** slice.rs 321-324 [SliceMut::get_unchecked_mut]. *)
Definition sl_get_unchecked_mut (s : nat * nat) (index : nat) : M nat :=
  let! i := uadd e (fst s) index in rb_get_unchecked_mut i.
(** slice.rs 282-292 [SliceMut::get_mut]. *)
Definition sl_get_mut (s : nat * nat) (index : nat) : M (option nat) :=
  let! n := sl_len e s in
  if n <=? index then ret None else let! p := sl_get_unchecked_mut s index in ret (Some p).
(** slice.rs 449-455 [SliceMut::index_mut]: checked against the buffer. *)
Definition sl_index_mut (s : nat * nat) (index : nat) : M nat :=
  let! i := uadd e (fst s) index in rb_index_mut i.
(** Client code [let v = *p; *p = f(v)], the old value being moved out (no destructor runs). *)
Definition modify_slot (p : nat) (f : A -> A) : M unit :=
  let! v := slot_read N p in
  slot_write N p (f v).
(** Client code: [next]/[next_back] of a mutable iterator in the order of [script], and the element behind every
    reference obtained is replaced by [f] of it. *)
Fixpoint mutate_all (f : A -> A) (script : list side) : Machine.M A (idx * ring A) unit :=
  match script with
  | [] => ret tt
  | s :: script' =>
      let! x := (match s with Front => it_next e N | Back => it_next_back e N end) in
      (match x with
       | None => ret tt
       | Some (p, _) => on_snd (modify_slot p f)
       end) ;;;
      mutate_all f script'
  end.
(** [for x in buffer.iter_mut() { .. }] and [for x in slice.iter_mut() { .. }], both ends ([rb_iter], [sl_iter] in
    RingModel.v are [iter_mut] as well). *)
Definition rb_mutate (f : A -> A) (script : list side) : M unit := fun r g =>
  match rb_iter e N r g with
  | Ret r g ix => match mutate_all f script (ix, r) g with
                  | Ret x g u => Ret (snd x) g u
                  | Panic x g => Panic (snd x) g
                  | UB u => UB u | Hang => Hang | Abort => Abort
                  end
  | Panic r g => Panic r g
  | UB u => UB u | Hang => Hang | Abort => Abort
  end.
Definition sl_mutate (s : nat * nat) (f : A -> A) (script : list side) : M unit := fun r g =>
  match sl_iter e N s r g with
  | Ret r g ix => match mutate_all f script (ix, r) g with
                  | Ret x g u => Ret (snd x) g u
                  | Panic x g => Panic (snd x) g
                  | UB u => UB u | Hang => Hang | Abort => Abort
                  end
  | Panic r g => Panic r g
  | UB u => UB u | Hang => Hang | Abort => Abort
  end.
(** Repeated splitting and slicing of a [SliceMut] (slice.rs 355-405): [slice(range)], or one half of [split_at]. *)
Inductive cut := CutSlice (lo hi : bound) | CutLeft (k : nat) | CutRight (k : nat).
Fixpoint sl_follow (path : list cut) (s : nat * nat) : M (nat * nat) :=
  match path with
  | [] => ret s
  | CutSlice lo hi :: path' => let! s' := sl_slice e s lo hi in sl_follow path' s'
  | CutLeft k :: path' => let! h := sl_split_at e s k in sl_follow path' (fst h)
  | CutRight k :: path' => let! h := sl_split_at e s k in sl_follow path' (snd h)
  end.
(** [p] is a reference that can be obtained from the mutable slice [s] with [get_mut], or with any sequence of [next] and
    [next_back] on its [iter_mut]. *)
Definition ref_of (s : nat * nat) (r : ring A) (g : log A) (p : nat) : Prop :=
  (exists i, sl_get_mut s i r g = Ret r g (Some p)) \/
  (exists script ix x g' outs, sl_iter e N s r g = Ret r g ix /\
     pull_all (it_next e N) (it_next_back e N) it_size_hint script (ix, r) g = Ret x g' outs /\
     exists h v, In (h, Some (p, v)) outs).
End ring.

(** ** [Debug].  What is written: the name, then the items as a [debug_list] or the entries as a [debug_map]
    (core::fmt's builders print them in order; the items are printed by their own [Debug]). *)
Inductive name := NChunk | NRingBuffer | NSparseChunk.
Inductive shown (A : Type) := ShowList (n : name) (items : list A) | ShowMap (n : name) (entries : list (nat * A)).
Arguments ShowList {A}. Arguments ShowMap {A}.
Section debug.
Context {A : Type} (e : env A) (N : nat).
(** sized_chunk/mod.rs 727-735. *)
Definition chunk_fmt : Machine.M A (ChunkModel.chunk A) (shown A) :=
  let! l := ChunkModel.as_slice e N in ret (ShowList NChunk l).
(** ring_buffer/mod.rs 890-895 ([iter] from front to back). *)
Definition rb_fmt : Machine.M A (ring A) (shown A) :=
  let! l := rb_contents e N in ret (ShowList NRingBuffer l).
(** ring_buffer/slice.rs 225-230, 511-516. *)
Definition sl_fmt (s : nat * nat) : Machine.M A (ring A) (shown A) :=
  let! l := sl_contents e N s in ret (ShowList NRingBuffer l).
(** Exhausting [entries] of a sparse chunk; at most [N] entries. *)
Fixpoint en_all (fuel : nat) : Machine.M A (SparseModel.sparse A * (nat * nat)) (list (nat * A)) :=
  match fuel with
  | 0 => hang
  | S fuel' =>
      let! x := SparseModel.en_next N in
      match x with
      | None => ret []
      | Some p => let! rest := en_all fuel' in ret (p :: rest)
      end
  end.
(** sparse_chunk/mod.rs 433-442. *)
Definition sp_fmt : Machine.M A (SparseModel.sparse A) (shown A) := fun c g =>
  match en_all (S N) (c, (0, 0)) g with
  | Ret s g l => Ret (fst s) g (ShowMap NSparseChunk l)
  | Panic s g => Panic (fst s) g
  | UB u => UB u | Hang => Hang | Abort => Abort
  end.
(** Client code: [n] calls of [next] on [iter_mut] of a sparse chunk, each element replaced by [f] of it. *)
Fixpoint im_modify (f : A -> A) (n : nat) : Machine.M A (SparseModel.sparse A * SparseModel.bitmap) unit :=
  match n with
  | 0 => ret tt
  | S n' =>
      let! x := SparseModel.im_next N in
      (match x with
       | None => ret tt
       | Some (p, _) => let! v := on_fst (slot_read N p) in on_fst (slot_write N p (f v))
       end) ;;;
      im_modify f n'
  end.
(** The same for [option_iter_mut]. *)
Fixpoint om_modify (f : A -> A) (n : nat) : Machine.M A (SparseModel.sparse A * nat) unit :=
  match n with
  | 0 => ret tt
  | S n' =>
      let! x := SparseModel.om_next e N in
      (match x with
       | Some (Some (p, _)) => let! v := on_fst (slot_read N p) in on_fst (slot_write N p (f v))
       | _ => ret tt
       end) ;;;
      om_modify f n'
  end.
End debug.
(** inline_array/mod.rs 508-516 (it prints the name "Chunk"). *)
Definition ia_fmt {A : Type} (e : env A) (L : InlineModel.layout) (b : nat)
  : Machine.M A (InlineModel.inline A) (shown A) :=
  let! l := InlineModel.ia_deref e L b in ret (ShowList NChunk l).
