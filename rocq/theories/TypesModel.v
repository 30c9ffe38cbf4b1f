(** * The public types of the crate as the compiler sees them: fields, lifetimes and type parameters.

    Rust decides by the fields of a struct whether it may be sent to or shared with another thread (the auto traits [Send] and
    [Sync]) and whether [X<A>] can be used where [X<B>] is expected (variance).  The crate contains no [unsafe impl] of [Send]
    or [Sync], so the fields are all there is to it.  Capacities ([const N: usize]) play no part and are left out. *)
From stdpp Require Import base list.

(** Types.  [L]: lifetimes.  [X]: type parameters (the element type, the host type of an inline array). *)
Inductive ty (L X : Type) :=
  | Param (x : X)
  | Plain                                 (* [usize], [u64], [()], [RawIndex<N>], [Range<usize>], [Bitmap<N>]: data without sharing *)
  | Array (t : ty L X)                    (* [[t; N]] for any [N], also 0 *)
  | Uninit (t : ty L X)                   (* [MaybeUninit<t>] *)
  | Phantom (t : ty L X)                  (* [PhantomData<t>] *)
  | Ref (a : L) (t : ty L X)              (* [&'a t] *)
  | RefMut (a : L) (t : ty L X)           (* [&'a mut t] *)
  | RawMut (t : ty L X)                   (* [*mut t] *)
  | Both (t u : ty L X).                  (* a struct or tuple: the fields one after the other *)
Arguments Param {L X}. Arguments Plain {L X}. Arguments Array {L X}. Arguments Uninit {L X}. Arguments Phantom {L X}.
Arguments Ref {L X}. Arguments RefMut {L X}. Arguments RawMut {L X}. Arguments Both {L X}.

(** The auto trait [Sync] (std::marker): [sync x] says that the parameter [x] is [Sync].  Raw pointers are not. *)
Fixpoint is_sync {L X} (sync : X -> Prop) (t : ty L X) : Prop :=
  match t with
  | Param x => sync x
  | Plain => True
  | Array t | Uninit t | Phantom t | Ref _ t | RefMut _ t => is_sync sync t
  | RawMut _ => False
  | Both t u => is_sync sync t /\ is_sync sync u
  end.
(** The auto trait [Send]: [&T] is [Send] if [T] is [Sync], [&mut T] if [T] is [Send]. *)
Fixpoint is_send {L X} (send sync : X -> Prop) (t : ty L X) : Prop :=
  match t with
  | Param x => send x
  | Plain => True
  | Array t | Uninit t | Phantom t | RefMut _ t => is_send send sync t
  | Ref _ t => is_sync sync t
  | RawMut _ => False
  | Both t u => is_send send sync t /\ is_send send sync u
  end.
(** Subtyping (the Rust reference, "Subtyping and Variance"): [outlives a b] and [le x y] are the relations on lifetimes and
    parameters.  [&mut] and [*mut] are invariant. *)
Inductive sub {L X} (outlives : L -> L -> Prop) (le : X -> X -> Prop) : ty L X -> ty L X -> Prop :=
  | SubParam x y : le x y -> sub outlives le (Param x) (Param y)
  | SubPlain : sub outlives le Plain Plain
  | SubArray t u : sub outlives le t u -> sub outlives le (Array t) (Array u)
  | SubUninit t u : sub outlives le t u -> sub outlives le (Uninit t) (Uninit u)
  | SubPhantom t u : sub outlives le t u -> sub outlives le (Phantom t) (Phantom u)
  | SubRef a b t u : outlives a b -> sub outlives le t u -> sub outlives le (Ref a t) (Ref b u)
  | SubRefMut a b t u :
      outlives a b -> sub outlives le t u -> sub outlives le u t -> sub outlives le (RefMut a t) (RefMut b u)
  | SubRawMut t u : sub outlives le t u -> sub outlives le u t -> sub outlives le (RawMut t) (RawMut u)
  | SubBoth t t' u u' : sub outlives le t u -> sub outlives le t' u' -> sub outlives le (Both t t') (Both u u').

(** The public structs. *)
Inductive public :=
  | PChunk | PChunkIter | PChunkDrain
  | PRing | PRingIter | PRingIterMut | PRingDrain | PRingOwnedIter | PSlice | PSliceMut
  | PSparse | PSparseIter | PSparseIterMut | PSparseDrain | PSparseOptionIter | PSparseOptionIterMut | PSparseOptionDrain
  | PInline | PInlineIter | PInlineDrain.

Section fields.
Context {L X : Type}.
(** sized_chunk/mod.rs 93-97. *)
Definition t_chunk (A : X) : ty L X := Both Plain (Both Plain (Uninit (Array (Param A)))).
(** ring_buffer/mod.rs 60-64. *)
Definition t_ring (A : X) : ty L X := Both Plain (Both Plain (Uninit (Array (Param A)))).
(** sparse_chunk/mod.rs 51-57. *)
Definition t_sparse (A : X) : ty L X := Both Plain (Uninit (Array (Param A))).
(** inline_array/mod.rs 77-110. *)
Definition t_inline (A T : X) : ty L X := Both (Array (Both Plain Plain)) (Both (Phantom (Param A)) (Uninit (Param T))).
(** The fields of each struct, with lifetime parameter ['a], element type [A] and, for inline arrays, host [T]. *)
Definition fields (p : public) (a : L) (A T : X) : ty L X :=
  match p with
  | PChunk => t_chunk A
  | PChunkIter => t_chunk A                                             (* sized_chunk/iter.rs 6-8 *)
  | PChunkDrain => RefMut a (t_chunk A)                                 (* sized_chunk/iter.rs 46-48 *)
  | PRing => t_ring A
  | PRingIter => Both (Ref a (t_ring A)) (Both Plain (Both Plain Plain)) (* ring_buffer/iter.rs 12-17 *)
  (* ring_buffer/iter.rs 54-60 *)
  | PRingIterMut => Both (RawMut (Param A)) (Both Plain (Both Plain (Both Plain (Phantom (Ref a Plain)))))
  | PRingDrain => RefMut a (t_ring A)                                   (* ring_buffer/iter.rs 132-134 *)
  | PRingOwnedIter => t_ring A                                          (* ring_buffer/iter.rs 163-165 *)
  | PSlice => Both (Ref a (t_ring A)) Plain                             (* ring_buffer/slice.rs 20-23 *)
  | PSliceMut => Both (RefMut a (t_ring A)) Plain                       (* ring_buffer/slice.rs 255-258 *)
  | PSparse => t_sparse A
  (* sparse_chunk/iter.rs 6-12; [BitmapIter<'a, N>] of the bitmaps crate borrows the bitmap. *)
  | PSparseIter => Both (Ref a Plain) (Ref a (t_sparse A))
  | PSparseIterMut => Both Plain (RefMut a (t_sparse A))                (* sparse_chunk/iter.rs 30-36 *)
  | PSparseDrain => t_sparse A                                          (* sparse_chunk/iter.rs 65-70 *)
  | PSparseOptionIter => Both Plain (Ref a (t_sparse A))                (* sparse_chunk/iter.rs 92-98 *)
  | PSparseOptionIterMut => Both Plain (RefMut a (t_sparse A))          (* sparse_chunk/iter.rs 128-134 *)
  | PSparseOptionDrain => Both Plain (t_sparse A)                       (* sparse_chunk/iter.rs 171-177 *)
  | PInline => t_inline A T
  | PInlineIter => t_inline A T                                         (* inline_array/iter.rs 6-8 *)
  | PInlineDrain => RefMut a (t_inline A T)                             (* inline_array/iter.rs 39-41 *)
  end.
End fields.

(** ** The signatures through which a client reaches elements.

    [made p]: what a value of the type is made from: nothing or elements ([Afresh]), a container taken by value ([FromValue]),
    by [&'a mut] ([FromMut]) or by [&'a] ([FromRef]). *)
Inductive origin := Afresh | FromValue | FromMut | FromRef.
Definition made (p : public) : origin :=
  match p with
  | PChunk | PRing | PSparse | PInline => Afresh
  (* [into_iter(self)]: sized_chunk/mod.rs 936-944, ring_buffer/mod.rs 948-957, inline_array/mod.rs 531-538;
     [drain(self)], [option_drain(self)]: sparse_chunk/mod.rs 264, 300 *)
  | PChunkIter | PRingOwnedIter | PInlineIter | PSparseDrain | PSparseOptionDrain => FromValue
  (* [drain(&mut self)]: sized_chunk/mod.rs 668, ring_buffer/mod.rs 745, inline_array/mod.rs 404; [iter_mut(&mut self)]:
     ring_buffer/mod.rs 340, ring_buffer/slice.rs 341, sparse_chunk/mod.rs 256; [slice_mut(&mut self)]: ring_buffer/mod.rs 375;
     [option_iter_mut(&mut self)]: sparse_chunk/mod.rs 289 *)
  | PChunkDrain | PRingDrain | PInlineDrain | PRingIterMut | PSliceMut | PSparseIterMut | PSparseOptionIterMut => FromMut
  (* [iter(&self)]: ring_buffer/mod.rs 327, ring_buffer/slice.rs 61, sparse_chunk/mod.rs 247; [slice(&self)]:
     ring_buffer/mod.rs 366; [option_iter(&self)]: sparse_chunk/mod.rs 278 *)
  | PRingIter | PSlice | PSparseIter | PSparseOptionIter => FromRef
  end.
(** A method gives the client an element by value, by [&mut] or by [&] ... *)
Inductive given := AnElement | AMutRef | ARef.
(** ... and needs the value itself, [&mut] it or [&] it. *)
Inductive needs := Itself | ItsMutRef | ItsRef.
(** The strongest methods of each type (for [Deref] to a slice: the slice's). *)
Definition methods (p : public) : list (needs * given) :=
  match p with
  (* [pop_front(&mut self) -> A], [IndexMut], [Index]: sized_chunk/mod.rs 378, 722, 713; the same in ring_buffer/mod.rs 450,
     803, 789; sparse_chunk/mod.rs 174, 334, 324; inline_array/mod.rs 313, 450, 444 *)
  | PChunk | PRing | PSparse | PInline => [(ItsMutRef, AnElement); (ItsMutRef, AMutRef); (ItsRef, ARef)]
  (* [next(&mut self) -> Option<A>] (or [Option<Option<A>>]): sized_chunk/iter.rs 12, 56; ring_buffer/iter.rs 140, 171;
     sparse_chunk/iter.rs 78, 185; inline_array/iter.rs 13, 46 *)
  | PChunkIter | PChunkDrain | PRingDrain | PRingOwnedIter | PSparseDrain | PSparseOptionDrain | PInlineIter | PInlineDrain =>
      [(ItsMutRef, AnElement)]
  (* [next(&mut self) -> Option<&'a A>]: ring_buffer/iter.rs 22, sparse_chunk/iter.rs 20, 106 *)
  | PRingIter | PSparseIter | PSparseOptionIter => [(ItsMutRef, ARef)]
  (* [next(&mut self) -> Option<&'a mut A>]: ring_buffer/iter.rs 95, sparse_chunk/iter.rs 44, 142 *)
  | PRingIterMut | PSparseIterMut | PSparseOptionIterMut => [(ItsMutRef, AMutRef)]
  (* [get(&self)], [Index]: ring_buffer/slice.rs 38, 166 *)
  | PSlice => [(ItsRef, ARef)]
  (* [get_mut(&mut self)], [get(&self)]: ring_buffer/slice.rs 286, 273 *)
  | PSliceMut => [(ItsMutRef, AMutRef); (ItsRef, ARef)]
  end.
