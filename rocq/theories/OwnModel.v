(** * [y.into_iter().collect()]: an iterator that owns its container.

    [from_iter] consumes the iterator in a [for] loop, so it is dropped when the loop is left, before the container under
    construction -- also by unwinding; and with it the container it owns (no iterator has a [Drop] of its own).  By reference
    ([MnCollect] and the others, MixModel.v, and the temporaries of TempModel.v) it is dropped after it, if at all.
    Otherwise these are the functions of LiveModel.v and LiveSparseModel.v. *)
From Verif Require Import Machine Program ChunkModel RingModel SparseModel InlineModel LiveModel LiveSparseModel IterSpec
  ChunkProgram RingProgram SparseProgram InlineProgram MixModel TempModel.

(** A loop that owns its iterator, which [kl] drops. *)
Definition owning {A C S} (kl : M A S unit) (m : M A (C * (S * log A)) unit) : M A (C * (S * log A)) unit := fun o g =>
  match m o g with
  | Ret (c, (y, gs)) g1 _ =>
      match kl y (log_join g1 gs) with
      | Ret y' g2 _ => Ret (c, (y', log0)) g2 tt
      | Panic y' g2 => Panic (c, (y', log0)) g2
      | UB u => UB u | Hang => Hang | Abort => Abort
      end
  | Panic (c, (y, gs)) g1 =>
      match kl y (log_join g1 gs) with
      | Ret y' g2 _ => Panic (c, (y', log0)) g2
      | Panic _ _ => Abort     (* a panic while unwinding *)
      | UB u => UB u | Hang => Hang | Abort => Abort
      end
  | UB u => UB u | Hang => Hang | Abort => Abort
  end.

Section own.
Context {A : Type} (e : env A).
Notation obj := (mobj e).
(** What goes out of scope with the iterator: sized_chunk/iter.rs 6-37, ring_buffer/iter.rs 163-191, sparse_chunk/iter.rs 65-90,
    inline_array/iter.rs 6-30: a container. *)
Definition m_kill : M A obj unit := kill (mix_kit e).
(** [y.into_iter().collect()], with [Back]: [y.into_iter().rev().collect()].  sized_chunk/mod.rs 872-883, ring_buffer/mod.rs
    939-946, inline_array/mod.rs 540-551 [from_iter]; [into_iter]: sized_chunk/mod.rs 936-943, ring_buffer/mod.rs 948-957,
    sparse_chunk/mod.rs 339-350, inline_array/mod.rs 532-538. *)
Definition m_into (sd : side) (t : target e) : M A obj obj := fun y g =>
  match t with
  | ToChunk k =>
      made_from e (OfChunk k) (with_local ChunkModel.new (destroy e (`k))
        (owning m_kill (extend_live (m_next e sd) (push_back e (`k)) (m_fuel e y)))) y g
  | ToRing k =>
      made_from e (OfRing k) (
        let! b := rb_new e (`k) in
        with_local b (rb_destroy e (`k)) (owning m_kill (extend_live (m_next e sd) (rb_push_back e (`k)) (m_fuel e y)))) y g
  | ToInline k q =>
      let b := address (`k) q in
      made_from e (fun c => OfInline k (q, c)) (
        let! chunk := (fun o g => match ia_new e (`k) b tt g with
                                  | Ret _ g' c => Ret o g' c | Panic _ g' => Panic o g'
                                  | UB u => UB u | Hang => Hang | Abort => Abort end) in
        with_local chunk (ia_destroy e (`k) b) (owning m_kill (extend_live (m_next e sd) (ia_push e (`k) b) (m_fuel e y)))) y g
  end.
(** [y.into_iter().map(Some).collect()] into a [SparseChunk]: sparse_chunk/mod.rs 352-368. *)
Definition m_into_sparse (sd : side) (k : scap e) : M A obj obj := fun y g =>
  made_from e (OfSparse k) (
    let! out := sp_new in
    with_local out (sp_destroy e (`k)) (owning m_kill (sp_fill_live e (`k) (map_some e (m_next e sd)) (m_fuel e y) 0))) y g.
(** [y.option_drain().collect()]: the same lines; sparse_chunk/mod.rs 297-305; sparse_chunk/iter.rs 171-200 [OptionDrain]. *)
Definition m_into_cells (k : scap e) : M A obj obj := fun y g =>
  match y with
  | OfSparse k2 c =>
      match (let! out := sp_new in
             with_local out (sp_destroy e (`k))
               (owning (on_fst (sp_destroy e (`k2))) (sp_fill_live e (`k) (od_next e (`k2)) (S (`k2)) 0))) ((c, 0), log0) g with
      | Ret ((c', _), gs) g' (new, _) => Ret (OfSparse k2 c') (log_join g' gs) (OfSparse k new)
      | Panic ((c', _), gs) g' => Panic (OfSparse k2 c') (log_join g' gs)
      | UB u => UB u | Hang => Hang | Abort => Abort
      end
  | _ => ill_typed y g
  end.
(** The variable [y] is moved from; to be able to go on using it, [mem::take(&mut y)] leaves an empty container in its place. *)
Definition m_taking (fresh : obj -> mop0 e) (m : M A obj obj) : M A obj obj := fun y g =>
  match run0 (mix_kit e) (fresh y) tt g with
  | Ret _ g0 z =>
      match m y g0 with
      | Ret _ g1 n => Ret z g1 n
      | Panic _ g1 => Panic z g1
      | UB u => UB u | Hang => Hang | Abort => Abort
      end
  | Panic _ g0 => Panic y g0
  | UB u => UB u | Hang => Hang | Abort => Abort
  end.
End own.

(** The operations, with these. *)
Inductive into_op {A} (e : env A) :=
  | Into (sd : side) (t : target e)
  | IntoSparse (sd : side) (k : scap e)
  | IntoCells (k : scap e).
Arguments Into {A e}. Arguments IntoSparse {A e}. Arguments IntoCells {A e}.
Definition run_into {A} (e : env A) (fresh : mobj e -> mop0 e) (o : into_op e) : M A (mobj e) (mobj e) :=
  m_taking e fresh
    match o with
    | Into sd t => m_into e sd t
    | IntoSparse sd k => m_into_sparse e sd k
    | IntoCells k => m_into_cells e k
    end.

(** A kit with more ways to make a new container out of one. *)
Definition more_kit {A op0 op1 opn op2 res obj opx} (K : kit A op0 op1 opn op2 res obj) (more : opx -> M A obj obj)
  : kit A op0 op1 (opn + opx) op2 res obj := {|
  run0 := run0 K; run1 := run1 K;
  runn := fun o => match o with inl o => runn K o | inr o => more o end;
  run2 := run2 K; kill := kill K |}.
