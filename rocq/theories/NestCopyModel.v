(** * Containers of containers: comparing and cloning them. *)
From Verif Require Import Machine Program ChunkModel RingModel SparseModel InlineModel InlineSpec IterSpec
  ChunkProgram RingProgram SparseProgram InlineProgram MixModel TempModel TempMix OwnModel OwnMix WalkModel WalkMix NestModel.

(** [x == y]: src/sized_chunk/mod.rs 751-761, src/ring_buffer/mod.rs 815-821, src/sparse_chunk/mod.rs 370-386,
    src/inline_array/mod.rs 478-488. *)
Definition o_eq {B C R S I} {f : env B} (eqB : B -> B -> bool) (x : anyof f C R S I) : mop2 B :=
  match x with
  | OfChunk _ _ => M2Chunk (CEq eqB) | OfRing _ _ => M2Ring (BEq eqB) | OfSparse _ _ => M2Sparse (PEq eqB)
  | OfInline _ _ => M2Inline (IEq eqB)
  end.
(** [x.partial_cmp(&y)]: src/sized_chunk/mod.rs 763-770, src/ring_buffer/mod.rs 856-862, src/inline_array/mod.rs 490-497.
    [SparseChunk] has none (the other kind's is rejected). *)
Definition o_pcmp {B C R S I} {f : env B} (pc : B -> B -> option comparison) (x : anyof f C R S I) : mop2 B :=
  match x with
  | OfChunk _ _ => M2Chunk (CPartialCmp pc) | OfRing _ _ => M2Ring (BPartialCmp pc) | OfSparse _ _ => M2Chunk (CPartialCmp pc)
  | OfInline _ _ => M2Inline (IPartialCmp pc)
  end.
(** [x.clone()], an [InlineArray] at position [q]: src/sized_chunk/mod.rs 105-120, src/ring_buffer/mod.rs 769-776,
    src/sparse_chunk/mod.rs 73-86, src/inline_array/mod.rs 424-440. *)
Definition o_clone {B C R S I} {b : env B} (q : nat) (cl : nat -> B -> option B) (x : anyof b C R S I) : mopn b :=
  match x with
  | OfChunk _ _ => MnChunk (CClone cl) | OfRing _ _ => MnRing (BClone cl) | OfSparse _ _ => MnSparse (PClone cl)
  | OfInline _ _ => MnInline (IClone q cl)
  end.
Definition flag {B} (r : mres B) : option bool := match r with MRes (RBool b) | MSp (PBool b) => Some b | _ => None end.
Definition order_of {B} (r : mres B) : option (option comparison) := match r with MRes (ROCmp c) => Some c | _ => None end.

Section nest.
Context {A : Type} (e : env A).
Notation obj := (mobj e).
Notation E := (outer_env e).
(** [==] and [partial_cmp] of the elements of the outer container, which are containers: no more than results. *)
Definition elem_eq (eqA : A -> A -> bool) (v w : obj) : bool :=
  match run2 (mix_kit e) (o_eq eqA v) (v, w) log0 with Ret _ _ r => match flag r with Some b => b | None => false end | _ => false end.
Definition elem_pcmp (pc : A -> A -> option comparison) (v w : obj) : option comparison :=
  match run2 (mix_kit e) (o_pcmp pc v) (v, w) log0 with Ret _ _ r => mjoin (order_of r) | _ => None end.
Definition nest_eq (eqA : A -> A -> bool) : M A (mobj E * mobj E) (option bool) := fun xy =>
  mapR flag (lower e (run2 (mix_kit E) (o_eq (elem_eq eqA) (fst xy)))) xy.
Definition nest_pcmp (pc : A -> A -> option comparison) : M A (mobj E * mobj E) (option (option comparison)) := fun xy =>
  mapR order_of (lower e (run2 (mix_kit E) (o_pcmp (elem_pcmp pc) (fst xy)))) xy.

(** The clones of the elements, made one after the other by the code of their kinds; [cl n] is the [n]-th call of [A::clone].
    If one panics there are no more. *)
Fixpoint clone_elems (q : nat) (cl : nat -> A -> option A) (n : nat) (l : list obj) : M A unit (list obj) := fun _ g =>
  match l with
  | [] => Ret tt g []
  | v :: l' =>
      match runn (mix_kit e) (o_clone q (fun i => cl (n + i)) v) v g with
      | Ret _ g1 w =>
          match clone_elems q cl (n + length (contents e v)) l' tt g1 with
          | Ret _ g2 ws => Ret tt g2 (w :: ws)
          | x => x
          end
      | Panic _ g1 => Ret tt g1 []
      | UB u => UB u | Hang => Hang | Abort => Abort
      end
  end.
(** [x.clone()]: the outer code gets those as the results of its calls of the elements' [clone]; where they end it panics.
    Simplification: the clones are made before the outer code stores the first of them; it does nothing else in between. *)
Definition nest_clone (q : nat) (cl : nat -> A -> option A) : M A (mobj E) (mobj E) := fun x g =>
  match clone_elems q cl 0 (contents E x) tt g with
  | Ret _ g1 ws => lower e (runn (mix_kit E) (o_clone q (fun i _ => ws !! i) x)) x g1
  | Panic _ g1 => Panic x g1
  | UB u => UB u | Hang => Hang | Abort => Abort
  end.
End nest.
