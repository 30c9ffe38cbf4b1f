(** * Programs that use several kinds of container at once: the code.

    A store of [Chunk]s, [RingBuffer]s, [SparseChunk]s and [InlineArray]s of any capacities and layouts, all over the same
    element type.  The single-container operations are those of ChunkProgram.v, RingProgram.v, SparseProgram.v and
    InlineProgram.v; here are the ones that move elements from a container of one kind to one of another, through the live
    iterators of LiveModel.v. *)
From Verif Require Import Machine Spec Program ChunkModel RingModel SparseModel InlineModel InlineSpec LiveModel LiveSparseModel IterSpec
  ChunkProgram RingProgram SparseProgram InlineProgram.

(** The capacities and layouts for which the types exist and work: [usize] can count twice the capacity; a ring buffer has
    room for something (C24); an inline array has room for its header (C43). *)
Definition ccap {A} (e : env A) := { N | N + N < word e }.
Definition rcap {A} (e : env A) := { N | N + N < word e /\ 0 < N }.
Definition scap {A} (e : env A) := { N | N < word e }.
Definition ilay {A} (e : env A) := { L | wf_layout e L /\ host_ok e L }.

(** Something of each kind. *)
Inductive anyof {A} (e : env A) (C R S I : Type) :=
  | OfChunk (k : ccap e) (x : C) | OfRing (k : rcap e) (x : R) | OfSparse (k : scap e) (x : S) | OfInline (k : ilay e) (x : I).
Arguments OfChunk {A e C R S I}. Arguments OfRing {A e C R S I}. Arguments OfSparse {A e C R S I}. Arguments OfInline {A e C R S I}.
(** A container. *)
Definition mobj {A} (e : env A) := anyof e (chunk A) (ring A) (sparse A) (located A).

(** Results. *)
Inductive mres (A : Type) := MRes (r : res A) | MSp (r : sp_res A).
Arguments MRes {A}. Arguments MSp {A}.
Definition mres_unit {A} (_ : unit) : mres A := MRes RUnit.

(** Where a new container is to be made: its kind, and for an inline array its address. *)
Inductive target {A} (e : env A) := ToChunk (k : ccap e) | ToRing (k : rcap e) | ToInline (k : ilay e) (q : nat).
Arguments ToChunk {A e}. Arguments ToRing {A e}. Arguments ToInline {A e}.

(** Operations.  [M1 o]: a method of the kind the container is of. *)
Definition mop0 {A} (e : env A) := anyof e (chunk_op0 A) (ring_op0 A) (sp_op0 A) (ia_op0 A).
Inductive mop1 (A : Type) :=
  | M1Chunk (o : chunk_op1 A) | M1Ring (o : ring_op1 A) | M1Sparse (o : sp_op1 A) | M1Inline (o : ia_op1 A).
Arguments M1Chunk {A}. Arguments M1Ring {A}. Arguments M1Sparse {A}. Arguments M1Inline {A}.
Inductive mopn {A} (e : env A) :=
  | MnChunk (o : chunk_opn A) | MnRing (o : ring_opn A) | MnSparse (o : sp_opn A) | MnInline (o : ia_opn A)
  | MnFromInline (k : ccap e)                          (* [Chunk::from(&mut array)] *)
  | MnCollect (sd : side) (t : target e)               (* [x.drain().collect()], with [Back]: [x.drain().rev().collect()] *)
  | MnCollectFrom (sd : side) (t : target e) (n : nat) (* [collect_from(&mut x.drain(), n)] *)
  | MnCollectSparse (sd : side) (k : scap e)           (* [x.drain().map(Some).collect()] into a [SparseChunk] *)
  | MnCollectCells (k : scap e).                       (* [x.option_drain().collect()] into a [SparseChunk] *)
Arguments MnChunk {A e}. Arguments MnRing {A e}. Arguments MnSparse {A e}. Arguments MnInline {A e}.
Arguments MnFromInline {A e}. Arguments MnCollect {A e}. Arguments MnCollectFrom {A e}.
Arguments MnCollectSparse {A e}. Arguments MnCollectCells {A e}.
Inductive mop2 (A : Type) :=
  | M2Chunk (o : chunk_op2 A) | M2Ring (o : ring_op2 A) | M2Sparse (o : sp_op2 A) | M2Inline (o : ia_op2 A)
  | M2Extend (sd : side)                               (* [x.extend(y.drain())], with [Back]: [x.extend(y.drain().rev())] *)
  | M2InsertFrom (sd : side) (i : nat)                 (* [x.insert_from(i, y.drain())] *)
  | M2EqSlice (eqA : A -> A -> bool).                  (* [x == y] where [y: Borrow<[A]>] *)
Arguments M2Chunk {A}. Arguments M2Ring {A}. Arguments M2Sparse {A}. Arguments M2Inline {A}.
Arguments M2Extend {A}. Arguments M2InsertFrom {A}. Arguments M2EqSlice {A}.

#[global] Instance layout_eq_dec : EqDecision layout.
Proof. solve_decision. Defined.

Section mix.
Context {A : Type} (e : env A).
Notation obj := (mobj e).

(** Running a method of one container. *)
Definition as_kind {O R} (f : O -> obj) (m : M A O R) (x : O) (g : log A) : outcome A obj R :=
  match m x g with
  | Ret x' g' r => Ret (f x') g' r
  | Panic x' g' => Panic (f x') g'
  | UB u => UB u | Hang => Hang | Abort => Abort
  end.
Definition as_kind2 {O R} (f f2 : O -> obj) (m : M A (O * O) R) (x y : O) (g : log A) : outcome A (obj * obj) R :=
  match m (x, y) g with
  | Ret (x', y') g' r => Ret (f x', f2 y') g' r
  | Panic (x', y') g' => Panic (f x', f2 y') g'
  | UB u => UB u | Hang => Hang | Abort => Abort
  end.
(** A program with such a call is rejected by the type checker. *)
Definition ill_typed {O R} (x : O) (g : log A) : outcome A O R := Panic x g.

(** [next] and [next_back] of the [Drain] of any container: sized_chunk/iter.rs 50-80, ring_buffer/iter.rs 136-156,
    inline_array/iter.rs 43-59, sparse_chunk/iter.rs 72-90.  The last has no [next_back], and owns its [SparseChunk]: what the
    iterator still has is here what the container still has. *)
Definition m_next (sd : side) : M A obj (option A) := fun x g =>
  match x with
  | OfChunk k c => as_kind (OfChunk k) (match sd with Front => iter_next e (`k) | Back => iter_next_back e (`k) end) c g
  | OfRing k r => as_kind (OfRing k) (match sd with Front => rb_pop_front e (`k) | Back => rb_pop_back e (`k) end) r g
  | OfInline k i =>
      as_kind (OfInline k) (in_place (`k) (match sd with Front => ia_next e (`k) | Back => ia_pop e (`k) end)) i g
  | OfSparse k s => match sd with Front => as_kind (OfSparse k) (dr_next (`k)) s g | Back => ill_typed x g end
  end.
(** [size_hint] of the same; lines as for [m_next]. *)
Definition m_hint : M A obj (nat * option nat) := fun x g =>
  match x with
  | OfChunk k c => as_kind (OfChunk k) (size_hint e) c g
  | OfRing k r => as_kind (OfRing k) rb_size_hint r g
  | OfInline k i => as_kind (OfInline k) (in_place (`k) (ia_size_hint e (`k))) i g
  | OfSparse k s => as_kind (OfSparse k) (dr_size_hint (`k)) s g
  end.
(** More than the number of elements a container can hold; bounds the loops. *)
Definition m_fuel (x : obj) : nat :=
  match x with
  | OfChunk k _ => S (`k) | OfRing k _ => S (`k) | OfSparse k _ => S (`k) | OfInline k _ => S (capacity e (`k))
  end.

(** The log of the iterator is added to that of the container. *)
Definition log_join (g gs : log A) : log A :=
  {| dropped := dropped g ++ dropped gs; leaked := leaked g ++ leaked gs; writes := writes g + writes gs |}.
(** A method of [x] that consumes an iterator over [y]. *)
Definition consuming {O R} (f : O -> obj) (m : M A (O * (obj * log A)) R) (x : O) (y : obj) (g : log A)
  : outcome A (obj * obj) R :=
  match m (x, (y, log0)) g with
  | Ret (x', (y', gs)) g' r => Ret (f x', y') (log_join g' gs) r
  | Panic (x', (y', gs)) g' => Panic (f x', y') (log_join g' gs)
  | UB u => UB u | Hang => Hang | Abort => Abort
  end.
(** A constructor that consumes an iterator over [y]. *)
Definition made_from {C} (f : C -> obj) (m : M A (obj * log A) (C * unit)) (y : obj) (g : log A) : outcome A obj obj :=
  match m (y, log0) g with
  | Ret (y', gs) g' (c, _) => Ret y' (log_join g' gs) (f c)
  | Panic (y', gs) g' => Panic y' (log_join g' gs)
  | UB u => UB u | Hang => Hang | Abort => Abort
  end.
(** Methods of [InlineArray] at its address, next to an iterator. *)
Definition in_place_with {S R} (L : layout) (m : nat -> M A (inline A * S) R) : M A (located A * S) R := fun o g =>
  match m (address L (fst (fst o))) (snd (fst o), snd o) g with
  | Ret (i, s) g' r => Ret ((fst (fst o), i), s) g' r
  | Panic (i, s) g' => Panic ((fst (fst o), i), s) g'
  | UB u => UB u | Hang => Hang | Abort => Abort
  end.

(** [y.drain().collect()], [y.drain().rev().collect()]: sized_chunk/mod.rs 872-883, ring_buffer/mod.rs 939-946,
    inline_array/mod.rs 540-551. *)
Definition m_collect (sd : side) (t : target e) : M A obj obj := fun y g =>
  match t with
  | ToChunk k => made_from (OfChunk k) (from_iter_live e (`k) (m_next sd) (m_fuel y)) y g
  | ToRing k => made_from (OfRing k) (rb_from_iter_live e (`k) (m_next sd) (m_fuel y)) y g
  | ToInline k q =>
      made_from (fun c => OfInline k (q, c)) (ia_from_iter_live e (`k) (address (`k) q) (m_next sd) (m_fuel y)) y g
  end.
(** [collect_from(&mut y.drain(), n)]: sized_chunk/mod.rs 181-194, ring_buffer/mod.rs 283-292; inline arrays have no such
    constructor. *)
Definition m_collect_from (sd : side) (t : target e) (n : nat) : M A obj obj := fun y g =>
  match t with
  | ToChunk k => made_from (OfChunk k) (collect_from_live e (`k) (m_next sd) n) y g
  | ToRing k => made_from (OfRing k) (rb_collect_from_live e (`k) (m_next sd) n) y g
  | ToInline _ _ => ill_typed y g
  end.
(** [y.drain().map(Some).collect()] into a [SparseChunk]: sparse_chunk/mod.rs 352-368. *)
Definition map_some (next : M A obj (option A)) : M A obj (option (option A)) :=
  let! x := next in ret (match x with Some a => Some (Some a) | None => None end).
Definition m_collect_sparse (sd : side) (k : scap e) : M A obj obj := fun y g =>
  made_from (OfSparse k) (sp_from_iter_live e (`k) (map_some (m_next sd)) (m_fuel y)) y g.
(** [y.option_drain().collect()]: the same lines; sparse_chunk/mod.rs 297-305 [option_drain].  Like [drain] it owns its chunk: what
    the iterator still has is here what the container still has. *)
Definition m_collect_cells (k : scap e) : M A obj obj := fun y g =>
  match y with
  | OfSparse k2 c =>
      match sp_from_iter_live e (`k) (od_next e (`k2)) (S (`k2)) ((c, 0), log0) g with
      | Ret ((c', _), gs) g' (new, _) => Ret (OfSparse k2 c') (log_join g' gs) (OfSparse k new)
      | Panic ((c', _), gs) g' => Panic (OfSparse k2 c') (log_join g' gs)
      | UB u => UB u | Hang => Hang | Abort => Abort
      end
  | _ => ill_typed y g
  end.
(** [x.extend(y.drain())]: sized_chunk/mod.rs 907-915, ring_buffer/mod.rs 873-878, inline_array/mod.rs 575-582. *)
Definition m_extend (sd : side) : M A (obj * obj) unit := fun o g =>
  match fst o with
  | OfChunk k c => consuming (OfChunk k) (extend_live (m_next sd) (push_back e (`k)) (m_fuel (snd o))) c (snd o) g
  | OfRing k r => consuming (OfRing k) (extend_live (m_next sd) (rb_push_back e (`k)) (m_fuel (snd o))) r (snd o) g
  | OfInline k i =>
      consuming (OfInline k) (in_place_with (`k) (fun b => extend_live (m_next sd) (ia_push e (`k) b) (m_fuel (snd o)))) i (snd o) g
  | OfSparse _ _ => ill_typed o g
  end.
(** [x.insert_from(i, y.drain())]: sized_chunk/mod.rs 595-639, ring_buffer/mod.rs 648-705; [SparseChunk]'s iterator is not an [ExactSizeIterator]. *)
Definition m_insert_from (sd : side) (i : nat) : M A (obj * obj) unit := fun o g =>
  match snd o with OfSparse _ _ => ill_typed o g | _ =>
  match fst o with
  | OfChunk k c => consuming (OfChunk k) (insert_from_live e (`k) (m_next sd) m_hint i) c (snd o) g
  | OfRing k r => consuming (OfRing k) (rb_insert_from_live e (`k) (m_next sd) m_hint (m_fuel (snd o)) i) r (snd o) g
  | _ => ill_typed o g
  end end.
(** [y.borrow()]: sized_chunk/mod.rs 834-838, inline_array/mod.rs 455-459. *)
Definition m_borrow : M A obj (list A) := fun x g =>
  match x with
  | OfChunk k c => as_kind (OfChunk k) (as_slice e (`k)) c g
  | OfInline k i => as_kind (OfInline k) (in_place (`k) (ia_deref e (`k))) i g
  | _ => ill_typed x g
  end.
(** [x == y]: sized_chunk/mod.rs 751-760, ring_buffer/mod.rs 823-834, inline_array/mod.rs 478-487. *)
Definition m_eq_slice (eqA : A -> A -> bool) : M A (obj * obj) bool :=
  let! other := on_snd m_borrow in
  on_fst (fun x g =>
    match x with
    | OfChunk k c => as_kind (OfChunk k) (let! l := as_slice e (`k) in ret (slice_eq eqA l other)) c g
    | OfRing k r => as_kind (OfRing k) (rb_eq_list e (`k) eqA other) r g
    | OfInline k i => as_kind (OfInline k) (in_place (`k) (fun b => ia_eq e (`k) b eqA other)) i g
    | OfSparse _ _ => ill_typed x g
    end).

Definition mix_kit : kit A (mop0 e) (mop1 A) (mopn e) (mop2 A) (mres A) obj := {|
  run0 := fun o => match o with
    | OfChunk k o => mapR (OfChunk k) (run0 (chunk_kit e (`k)) o)
    | OfRing k o => mapR (OfRing k) (run0 (ring_kit e (`k)) o)
    | OfSparse k o => mapR (OfSparse k) (run0 (sparse_kit e (`k)) o)
    | OfInline k o => mapR (OfInline k) (run0 (ia_kit e (`k)) o)
    end;
  run1 := fun o x g => match o, x with
    | M1Chunk o, OfChunk k c => as_kind (OfChunk k) (mapR MRes (run1 (chunk_kit e (`k)) o)) c g
    | M1Ring o, OfRing k c => as_kind (OfRing k) (mapR MRes (run1 (ring_kit e (`k)) o)) c g
    | M1Sparse o, OfSparse k c => as_kind (OfSparse k) (mapR MSp (run1 (sparse_kit e (`k)) o)) c g
    | M1Inline o, OfInline k c => as_kind (OfInline k) (mapR MRes (run1 (ia_kit e (`k)) o)) c g
    | _, _ => ill_typed x g
    end;
  runn := fun o x g => match o, x with
    | MnChunk o, OfChunk k c => as_kind (OfChunk k) (mapR (OfChunk k) (runn (chunk_kit e (`k)) o)) c g
    | MnRing o, OfRing k c => as_kind (OfRing k) (mapR (OfRing k) (runn (ring_kit e (`k)) o)) c g
    | MnSparse o, OfSparse k c => as_kind (OfSparse k) (mapR (OfSparse k) (runn (sparse_kit e (`k)) o)) c g
    | MnInline o, OfInline k c => as_kind (OfInline k) (mapR (OfInline k) (runn (ia_kit e (`k)) o)) c g
    | MnFromInline kc, OfInline k c =>
        as_kind (OfInline k) (mapR (OfChunk kc) (in_place (`k) (fun b => chunk_from_mut e (`k) b (`kc)))) c g
    | MnCollect sd t, _ => m_collect sd t x g
    | MnCollectFrom sd t n, _ => m_collect_from sd t n x g
    | MnCollectSparse sd k, _ => m_collect_sparse sd k x g
    | MnCollectCells k, _ => m_collect_cells k x g
    | _, _ => ill_typed x g
    end;
  run2 := fun o xy g => match o, fst xy, snd xy with
    | M2Chunk o, OfChunk k x, OfChunk k2 y =>
        if decide (`k = `k2) then as_kind2 (OfChunk k) (OfChunk k2) (mapR MRes (run2 (chunk_kit e (`k)) o)) x y g else ill_typed xy g
    | M2Ring o, OfRing k x, OfRing k2 y =>
        if decide (`k = `k2) then as_kind2 (OfRing k) (OfRing k2) (mapR MRes (run2 (ring_kit e (`k)) o)) x y g else ill_typed xy g
    | M2Sparse o, OfSparse k x, OfSparse k2 y =>
        if decide (`k = `k2) then as_kind2 (OfSparse k) (OfSparse k2) (mapR MSp (run2 (sparse_kit e (`k)) o)) x y g else ill_typed xy g
    | M2Inline o, OfInline k x, OfInline k2 y =>
        if decide (`k = `k2) then as_kind2 (OfInline k) (OfInline k2) (mapR MRes (run2 (ia_kit e (`k)) o)) x y g else ill_typed xy g
    | M2Extend sd, _, _ => mapR mres_unit (m_extend sd) xy g
    | M2InsertFrom sd i, _, _ => mapR mres_unit (m_insert_from sd i) xy g
    | M2EqSlice eqA, _, _ => mapR (fun b => MRes (RBool b)) (m_eq_slice eqA) xy g
    | _, _, _ => ill_typed xy g
    end;
  kill := fun x g => match x with
    | OfChunk k c => as_kind (OfChunk k) (kill (chunk_kit e (`k))) c g
    | OfRing k c => as_kind (OfRing k) (kill (ring_kit e (`k))) c g
    | OfSparse k c => as_kind (OfSparse k) (kill (sparse_kit e (`k))) c g
    | OfInline k c => as_kind (OfInline k) (kill (ia_kit e (`k))) c g
    end |}.
End mix.
