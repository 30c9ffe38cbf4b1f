(** * Containers of containers: comparing and cloning them: what is meant. *)
From Verif Require Import Machine Spec Program InlineModel InlineSpec SparseModel SparseSpec IterSpec MixModel MixSpec ChunkProgram RingProgram
  SparseProgram InlineProgram TempModel TempMix OwnModel OwnMix WalkModel WalkSpec WalkMix NestModel NestSpec.

(** The same kind of container, with the same number of elements, related one by one; for a [SparseChunk], in the same cells. *)
Definition same_shape {B} (f : env B) (P : B -> B -> Prop) (x y : mst f) : Prop :=
  match x, y with
  | OfChunk k l, OfChunk k2 l2 => k = k2 /\ Forall2 P l l2
  | OfRing k l, OfRing k2 l2 => k = k2 /\ Forall2 P l l2
  | OfSparse k s, OfSparse k2 s2 => k = k2 /\ Forall2 (option_Forall2 P) s s2
  | OfInline k l, OfInline k2 l2 => k = k2 /\ Forall2 P l l2
  | _, _ => False
  end.
Definition is_inline {B} {f : env B} (x : mst f) : bool := match x with OfInline _ _ => true | _ => false end.

Section nest.
Context {A : Type} (e : env A).
Notation st := (mst e).
Notation Es := (outer_senv e).
(** Lists are equal if they have the same length and equal elements, arrays of options if the same cells are occupied, by equal elements. *)
Definition inner_eq (eqA : A -> A -> bool) (t u : st) : bool :=
  match t, u with OfSparse _ a, OfSparse _ b => slice_eq (opt_eqb eqA) a b | _, _ => slice_eq eqA (m_items e t) (m_items e u) end.
Definition outer_eq (eqA : A -> A -> bool) (s t : mst Es) : bool :=
  match s, t with
  | OfSparse _ a, OfSparse _ b => slice_eq (opt_eqb (inner_eq eqA)) a b
  | _, _ => slice_eq (inner_eq eqA) (m_items Es s) (m_items Es t)
  end.
(** The elements of the two are all of the same type. *)
Definition alike_kinds (s t : mst Es) : Prop := forall v w, In v (m_items Es s) -> In w (m_items Es t) -> same_kind e v w.
(** None of the containers is an [InlineArray]. *)
Definition no_inlines (s : mst Es) : Prop := is_inline s = false /\ forallb (fun v => negb (is_inline v)) (m_items Es s) = true.
End nest.
