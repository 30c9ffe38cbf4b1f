(** * Containers of containers: hashing and printing them. *)
From Verif Require Import Machine Program ChunkModel RingModel SparseModel InlineModel RefModel InlineSpec IterSpec
  ChunkProgram RingProgram SparseProgram InlineProgram MixModel NestModel.

Definition rewrap {B O X R T} (w : O -> X) (f : R -> T) (m : outcome B O R) : outcome B X T :=
  match m with
  | Ret o g r => Ret (w o) g (f r)
  | Panic o g => Panic (w o) g
  | UB u => UB u | Hang => Hang | Abort => Abort
  end.

(** [x.hash(hasher)]: src/sized_chunk/mod.rs 737-749, src/ring_buffer/mod.rs 897-904, src/inline_array/mod.rs 518-530: [item.hash(hasher)]
    for each item, and nothing else.  [SparseChunk] has no [Hash]: [None]. *)
Definition m_hash {B} (f : env B) : M B (mobj f) (option (list (hev B))) := fun x g =>
  match x with
  | OfChunk k c => rewrap (OfChunk k) Some (hash f (`k) c g)
  | OfRing k c => rewrap (OfRing k) Some (rb_hash f (`k) c g)
  | OfSparse k c => Ret (OfSparse k c) g None
  | OfInline k o => rewrap (OfInline k) Some (in_place (`k) (ia_hash f (`k)) o g)
  end.
(** [format!("{:?}", x)]: src/sized_chunk/mod.rs 727-735, src/ring_buffer/mod.rs 890-895, src/sparse_chunk/mod.rs 433-442,
    src/inline_array/mod.rs 508-516. *)
Definition m_fmt {B} (f : env B) : M B (mobj f) (shown B) := fun x g =>
  match x with
  | OfChunk k c => rewrap (OfChunk k) id (chunk_fmt f (`k) c g)
  | OfRing k c => rewrap (OfRing k) id (rb_fmt f (`k) c g)
  | OfSparse k c => rewrap (OfSparse k) id (sp_fmt (`k) c g)
  | OfInline k o => rewrap (OfInline k) id (in_place (`k) (ia_fmt f (`k)) o g)
  end.

Section nest.
Context {A : Type} (e : env A).
Notation E := (outer_env e).
(** The calls [item.hash(hasher)] that the outer [hash] makes, one after the other: the items are containers and hash themselves
    with the code above.  (A call that does not return ends everything.)  Simplification: the outer code hands out the references
    first and the calls are made afterwards; in between it does nothing else.  What a call would leave of an item is not written
    back, since the item is behind a shared reference: [m_hash] leaves it as it was. *)
Fixpoint hash_elems (evs : list (hev (mobj e))) : M A unit (option (list (hev A))) := fun _ g =>
  match evs with
  | [] => Ret tt g (Some [])
  | HLen n :: evs' => rewrap id (option_map (cons (HLen n))) (hash_elems evs' tt g)
  | HItem v :: evs' =>
      match m_hash e v g with
      | Ret _ g1 (Some l) => rewrap id (option_map (app l)) (hash_elems evs' tt g1)
      | Ret _ g1 None => Ret tt g1 None
      | Panic _ g1 => Panic tt g1
      | UB u => UB u | Hang => Hang | Abort => Abort
      end
  end.
Definition nest_hash : M A (mobj E) (option (list (hev A))) := fun x g =>
  match m_hash E x log0 with
  | Ret x' _ (Some evs) => rewrap (fun _ => x') id (hash_elems evs tt g)
  | Ret x' _ None => Ret x' g None
  | Panic x' _ => Panic x' g
  | UB u => UB u | Hang => Hang | Abort => Abort
  end.

(** The calls [item.fmt(f)] that printing the outer container makes. *)
Fixpoint fmt_elems (l : list (mobj e)) : M A unit (list (shown A)) := fun _ g =>
  match l with
  | [] => Ret tt g []
  | v :: l' =>
      match m_fmt e v g with
      | Ret _ g1 s => rewrap id (cons s) (fmt_elems l' tt g1)
      | Panic _ g1 => Panic tt g1
      | UB u => UB u | Hang => Hang | Abort => Abort
      end
  end.
Definition nest_fmt : M A (mobj E) (shown (shown A)) := fun x g =>
  match m_fmt E x log0 with
  | Ret x' _ (ShowList n l) => rewrap (fun _ => x') (ShowList n) (fmt_elems l tt g)
  | Ret x' _ (ShowMap n l) => rewrap (fun _ => x') (fun ss => ShowMap n (zip (map fst l) ss)) (fmt_elems (map snd l) tt g)
  | Panic x' _ => Panic x' g
  | UB u => UB u | Hang => Hang | Abort => Abort
  end.
End nest.
