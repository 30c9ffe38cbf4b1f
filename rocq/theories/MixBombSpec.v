(** * Programs that use several kinds of container at once, of values whose destructors may panic: what they should do. *)
From Verif Require Import Machine Spec Program InlineModel InlineSpec IterSpec ChunkProgram RingProgram SparseProgram InlineProgram
  MixModel MixSpec Bombs BombProgram ChunkBombs RingBombs SparseBombs InlineBombs.

Section mix.
Context {A : Type} (e : env A).
Notation st := (mst e).
Definition bas_kind {S R} (f : S -> st) (b : bres (A := A) S R) : bres (A := A) st R :=
  match b with BRet x r d => BRet (f x) r d | BPanic x d k => BPanic (f x) d k | BAbort => BAbort | BOpen => BOpen end.
Definition bas_kind2 {S R} (f f2 : S -> st) (b : bres (A := A) (S * S) R) : bres (A := A) (st * st) R :=
  match b with
  | BRet x r d => BRet (f (fst x), f2 (snd x)) r d | BPanic x d k => BPanic (f (fst x), f2 (snd x)) d k
  | BAbort => BAbort | BOpen => BOpen
  end.
(** The methods of the single containers do what C56 to C59 say.  The calls that move elements from one container to another
    do what MixSpec.v says, except that where it says that elements are dropped (they are then dropped by unwinding) and the
    destructor of one of them panics, the process aborts. *)
Definition mix_bspec : bkit A (mop0 e) (mop1 A) (mopn e) (mop2 A) (mres A) st := {|
  bs0 := fun o => match o with
    | OfChunk k o => bmap (OfChunk k) (bs0 (chunk_bspec e (`k)) o)
    | OfRing k o => bmap (OfRing k) (bs0 (ring_bspec e (`k)) o)
    | OfSparse k o => bmap (OfSparse k) (bs0 (sparse_bspec e (`k)) o)
    | OfInline k o => bmap (OfInline k) (bs0 (ia_bspec e (capacity e (`k))) o)
    end;
  bs1 := fun o x => match o, x with
    | M1Chunk o, OfChunk k l => bas_kind (OfChunk k) (bmap MRes (bs1 (chunk_bspec e (`k)) o l))
    | M1Ring o, OfRing k l => bas_kind (OfRing k) (bmap MRes (bs1 (ring_bspec e (`k)) o l))
    | M1Sparse o, OfSparse k s => bas_kind (OfSparse k) (bmap MSp (bs1 (sparse_bspec e (`k)) o s))
    | M1Inline o, OfInline k l => bas_kind (OfInline k) (bmap MRes (bs1 (ia_bspec e (capacity e (`k))) o l))
    | _, _ => BPanic x [] []
    end;
  bsn := fun o x => match o, x with
    | MnChunk o, OfChunk k l => bas_kind (OfChunk k) (bmap (OfChunk k) (bsn (chunk_bspec e (`k)) o l))
    | MnRing o, OfRing k l => bas_kind (OfRing k) (bmap (OfRing k) (bsn (ring_bspec e (`k)) o l))
    | MnSparse o, OfSparse k s => bas_kind (OfSparse k) (bmap (OfSparse k) (bsn (sparse_bspec e (`k)) o s))
    | MnInline o, OfInline k l => bas_kind (OfInline k) (bmap (OfInline k) (bsn (ia_bspec e (capacity e (`k))) o l))
    | MnFromInline kc, OfInline k l => with_bombs e (sas_kind e (OfInline k) (smapR (OfChunk kc) (bl_convert (`kc) l)))
    | MnCollect sd t, _ => with_bombs e (mix_collect e sd t x)
    | MnCollectFrom sd t n, _ => with_bombs e (mix_collect_from e sd t n x)
    | MnCollectSparse sd k, _ => with_bombs e (mix_collect_sparse e sd k x)
    | MnCollectCells k, _ => with_bombs e (mix_collect_cells e k x)
    | _, _ => BPanic x [] []
    end;
  bs2 := fun o xy => match o, fst xy, snd xy with
    | M2Chunk o, OfChunk k x, OfChunk k2 y => bas_kind2 (OfChunk k) (OfChunk k2) (bmap MRes (bs2 (chunk_bspec e (`k)) o (x, y)))
    | M2Ring o, OfRing k x, OfRing k2 y => bas_kind2 (OfRing k) (OfRing k2) (bmap MRes (bs2 (ring_bspec e (`k)) o (x, y)))
    | M2Sparse o, OfSparse k x, OfSparse k2 y => bas_kind2 (OfSparse k) (OfSparse k2) (bmap MSp (bs2 (sparse_bspec e (`k)) o (x, y)))
    | M2Inline o, OfInline k x, OfInline k2 y =>
        bas_kind2 (OfInline k) (OfInline k2) (bmap MRes (bs2 (ia_bspec e (capacity e (`k))) o (x, y)))
    | M2Extend sd, x, y => with_bombs e (smapR mres_unit (mix_extend e sd x y))
    | M2InsertFrom sd i, x, y => with_bombs e (smapR mres_unit (mix_insert_from e sd i x y))
    | M2EqSlice eqA, x, y => BRet xy (MRes (RBool (slice_eq eqA (m_items e x) (m_items e y)))) []
    | _, _, _ => BPanic xy [] []
    end;
  bsk := fun x => match x with
    | OfChunk k l => bsk (chunk_bspec e (`k)) l
    | OfRing k l => bsk (ring_bspec e (`k)) l
    | OfSparse k s => bsk (sparse_bspec e (`k)) s
    | OfInline k l => bsk (ia_bspec e (capacity e (`k))) l
    end;
  bg0 := fun o => match o with
    | OfChunk k o => bg0 (chunk_bspec e (`k)) o
    | OfRing k o => bg0 (ring_bspec e (`k)) o
    | OfSparse k o => bg0 (sparse_bspec e (`k)) o
    | OfInline k o => bg0 (ia_bspec e (capacity e (`k))) o
    end;
  bg1 := fun o x => match o, x with
    | M1Chunk o, OfChunk k l => bg1 (chunk_bspec e (`k)) o l
    | M1Ring o, OfRing k l => bg1 (ring_bspec e (`k)) o l
    | M1Sparse o, OfSparse k s => bg1 (sparse_bspec e (`k)) o s
    | M1Inline o, OfInline k l => bg1 (ia_bspec e (capacity e (`k))) o l
    | _, _ => []
    end;
  bgn := fun o x => match o, x with
    | MnChunk o, OfChunk k l => bgn (chunk_bspec e (`k)) o l
    | MnRing o, OfRing k l => bgn (ring_bspec e (`k)) o l
    | MnSparse o, OfSparse k s => bgn (sparse_bspec e (`k)) o s
    | MnInline o, OfInline k l => bgn (ia_bspec e (capacity e (`k))) o l
    | _, _ => []
    end |}.
(** What a client must not do (C14, C32, C47): let [clear], [drop_left] or [drop_right] of a [Chunk] or a [RingBuffer], or [clear] of
    an [InlineArray], drop a value whose destructor panics. *)
Definition mix_discards (o : mop1 A) (x : st) : Prop :=
  match o, x with
  | M1Chunk o, OfChunk _ l => chunk_discards e o l
  | M1Ring o, OfRing _ l => ring_discards e o l
  | M1Inline o, OfInline _ l => ia_discards e o l
  | _, _ => False
  end.
End mix.
