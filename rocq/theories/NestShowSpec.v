(** * Containers of containers: hashing and printing them: what is meant. *)
From Verif Require Import Machine Spec Program InlineModel InlineSpec SparseModel SparseSpec IterSpec MixModel MixSpec RefModel NestModel NestSpec.

(** What [Debug] shows of a container: the type's name and the elements (of an [InlineArray], the name "Chunk"), of a
    [SparseChunk] the indices and elements, increasing. *)
Definition shows {B} {f : env B} (s : mst f) : shown B :=
  match s with
  | OfChunk _ l => ShowList NChunk l
  | OfRing _ l => ShowList NRingBuffer l
  | OfSparse _ c => ShowMap NSparseChunk (entries c)
  | OfInline _ l => ShowList NChunk l
  end.
(** The same with each element replaced by what [Debug] shows of it. *)
Definition inside {B C} (f : B -> C) (x : shown B) : shown C :=
  match x with
  | ShowList n l => ShowList n (map f l)
  | ShowMap n l => ShowMap n (map (fun p => (fst p, f (snd p))) l)
  end.
(** The sizes of the elements. *)
Definition sizes {A} (e : env A) (s : mst (outer_senv e)) : list nat := map (fun v => length (m_items e v)) (m_items (outer_senv e) s).
(** A code none of whose words begins with another. *)
Definition prefix_free {A H} (h : A -> list H) : Prop := forall a b k, h a ++ k = h b -> a = b.
