(** * Programs that use several kinds of container at once: what they should do.

    A container is its kind and its contents: a list, or for a [SparseChunk] an array of options. *)
From Verif Require Import Machine Spec Program InlineModel InlineSpec SparseSpec IterSpec MixModel
  ChunkProgram RingProgram SparseProgram InlineProgram.

Definition mst {A} (e : env A) := anyof e (list A) (list A) (list (option A)) (list A).

(** An array of options whose first [n] elements have been taken. *)
Fixpoint without_first {A} (n : nat) (s : list (option A)) : list (option A) :=
  match n, s with
  | 0, _ => s
  | _, [] => []
  | Datatypes.S n', Some _ :: s' => None :: without_first n' s'
  | Datatypes.S _, None :: s' => None :: without_first n s'
  end.

Section mix.
Context {A : Type} (e : env A).
Notation st := (mst e).

Definition m_items (x : st) : list A :=
  match x with OfChunk _ l => l | OfRing _ l => l | OfInline _ l => l | OfSparse _ s => values s end.
(** The elements in the order an iterator from that side delivers them. *)
Definition queue (sd : side) (x : st) : list A := match sd with Front => m_items x | Back => rev (m_items x) end.
(** The container when [n] of them have been delivered. *)
Definition shorten (sd : side) (n : nat) (l : list A) : list A :=
  match sd with Front => drop n l | Back => take (length l - n) l end.
Definition after (sd : side) (n : nat) (x : st) : st :=
  match x with
  | OfChunk k l => OfChunk k (shorten sd n l)
  | OfRing k l => OfRing k (shorten sd n l)
  | OfInline k l => OfInline k (shorten sd n l)
  | OfSparse k s => OfSparse k (without_first n s)
  end.
(** Replacing the contents of a list container. *)
Definition with_items (x : st) (l : list A) : st :=
  match x with OfChunk k _ => OfChunk k l | OfRing k _ => OfRing k l | OfInline k _ => OfInline k l | OfSparse k s => x end.
Definition m_cap (x : st) : nat :=
  match x with OfChunk k _ => `k | OfRing k _ => `k | OfInline k _ => capacity e (`k) | OfSparse k _ => `k end.
(** A new container. *)
Definition fresh (t : target e) (l : list A) : st :=
  match t with ToChunk k => OfChunk k l | ToRing k => OfRing k l | ToInline k _ => OfInline k l end.
Definition target_cap (t : target e) : nat :=
  match t with ToChunk k => `k | ToRing k => `k | ToInline k _ => capacity e (`k) end.

(** [x.extend(y.drain())]: what fits moves to the end of [x].  If not everything fits the next element is dropped, the call
    panics and the rest stays in [y]. *)
Definition mix_extend (sd : side) (x y : st) : sres A (st * st) unit :=
  let d := m_items x in let l := queue sd y in let room := m_cap x - length d in
  if length l <=? room then SRet (with_items x (d ++ l), after sd (length l) y) tt []
  else SPanic (with_items x (d ++ take room l), after sd (S room) y) (take 1 (drop room l)) [].
(** [x.insert_from(i, y.drain())]: everything moves to position [i] of [x], or nothing happens and the call panics. *)
Definition mix_insert_from (sd : side) (i : nat) (x y : st) : sres A (st * st) unit :=
  let d := m_items x in let l := queue sd y in
  if (length d + length l <=? m_cap x) && (i <=? length d)
  then SRet (with_items x (take i d ++ l ++ drop i d), after sd (length l) y) tt []
  else SPanic (x, y) [] [].
(** [y.drain().collect()]: everything moves to the new container.  If it does not fit the call panics, what had been taken is
    dropped, the element that did not fit first, and the rest stays in [y]. *)
Definition mix_collect (sd : side) (t : target e) (y : st) : sres A st st :=
  let l := queue sd y in let N := target_cap t in
  if length l <=? N then SRet (after sd (length l) y) (fresh t l) []
  else SPanic (after sd (S N) y) (take 1 (drop N l) ++ take N l) [].
(** [collect_from(&mut y.drain(), n)]: the same with the first [n], which must exist. *)
Definition mix_collect_from (sd : side) (t : target e) (n : nat) (y : st) : sres A st st :=
  let l := queue sd y in let N := target_cap t in
  if (n <=? length l) && (n <=? N) then SRet (after sd n y) (fresh t (take n l)) []
  else SPanic (after sd (n `min` S N `min` length l) y) (take 1 (drop N (take n l)) ++ take N (take n l)) [].
(** [y.drain().map(Some).collect()] into a [SparseChunk]: the elements go into the first cells; otherwise as [collect]. *)
Definition mix_collect_sparse (sd : side) (k : scap e) (y : st) : sres A st st :=
  let l := queue sd y in let N := `k in
  if length l <=? N then SRet (after sd (length l) y) (OfSparse k (map Some l ++ no_cells (N - length l))) []
  else SPanic (after sd (S N) y) (take 1 (drop N l) ++ take N l) [].
(** [y.option_drain().collect()] into a [SparseChunk]: every element goes into the cell of the same index.  At the first one, [v],
    for which there is no such cell the call panics; it is dropped, then the ones moved before; the later ones stay in [y]. *)
Definition mix_collect_cells (k : scap e) (y : st) : sres A st st :=
  match y with
  | OfSparse k2 s =>
      let N := `k in
      match entries (drop N s) with
      | [] => SRet (OfSparse k2 (no_cells (length s))) (OfSparse k (take N (s ++ no_cells N))) []
      | (j, v) :: _ => SPanic (OfSparse k2 (no_cells (N + j + 1) ++ drop (N + j + 1) s)) (v :: values (take N s)) []
      end
  | _ => SPanic y [] []
  end.

(** The call passes the type checker. *)
Definition iterates (sd : side) (y : st) : Prop := match y, sd with OfSparse _ _, Back => False | _, _ => True end.
Definition is_list (x : st) : Prop := match x with OfSparse _ _ => False | _ => True end.
Definition is_slice (x : st) : Prop := match x with OfChunk _ _ | OfInline _ _ => True | _ => False end.
Definition same_kind (x y : st) : Prop :=
  match x, y with
  | OfChunk k _, OfChunk k2 _ => `k = `k2
  | OfRing k _, OfRing k2 _ => `k = `k2
  | OfSparse k _, OfSparse k2 _ => `k = `k2
  | OfInline k _, OfInline k2 _ => `k = `k2
  | _, _ => False
  end.

Definition sas_kind {S R} (f : S -> st) (s : sres A S R) : sres A st R :=
  match s with SRet x r d => SRet (f x) r d | SPanic x d k => SPanic (f x) d k end.
Definition sas_kind2 {S R} (f f2 : S -> st) (s : sres A (S * S) R) : sres A (st * st) R :=
  match s with SRet x r d => SRet (f (fst x), f2 (snd x)) r d | SPanic x d k => SPanic (f (fst x), f2 (snd x)) d k end.

Definition mix_spec : skit A (mop0 e) (mop1 A) (mopn e) (mop2 A) (mres A) st := {|
  spec0 := fun o => match o with
    | OfChunk k o => smapR (OfChunk k) (spec0 (chunk_spec e (`k)) o)
    | OfRing k o => smapR (OfRing k) (spec0 (ring_spec e (`k)) o)
    | OfSparse k o => smapR (OfSparse k) (spec0 (array_spec (`k)) o)
    | OfInline k o => smapR (OfInline k) (spec0 (ia_spec (capacity e (`k))) o)
    end;
  spec1 := fun o x => match o, x with
    | M1Chunk o, OfChunk k l => sas_kind (OfChunk k) (smapR MRes (spec1 (chunk_spec e (`k)) o l))
    | M1Ring o, OfRing k l => sas_kind (OfRing k) (smapR MRes (spec1 (ring_spec e (`k)) o l))
    | M1Sparse o, OfSparse k s => sas_kind (OfSparse k) (smapR MSp (spec1 (array_spec (`k)) o s))
    | M1Inline o, OfInline k l => sas_kind (OfInline k) (smapR MRes (spec1 (ia_spec (capacity e (`k))) o l))
    | _, _ => SPanic x [] []
    end;
  specn := fun o x => match o, x with
    | MnChunk o, OfChunk k l => sas_kind (OfChunk k) (smapR (OfChunk k) (specn (chunk_spec e (`k)) o l))
    | MnRing o, OfRing k l => sas_kind (OfRing k) (smapR (OfRing k) (specn (ring_spec e (`k)) o l))
    | MnSparse o, OfSparse k s => sas_kind (OfSparse k) (smapR (OfSparse k) (specn (array_spec (`k)) o s))
    | MnInline o, OfInline k l => sas_kind (OfInline k) (smapR (OfInline k) (specn (ia_spec (capacity e (`k))) o l))
    | MnFromInline kc, OfInline k l => sas_kind (OfInline k) (smapR (OfChunk kc) (bl_convert (`kc) l))
    | MnCollect sd t, _ => mix_collect sd t x
    | MnCollectFrom sd t n, _ => mix_collect_from sd t n x
    | MnCollectSparse sd k, _ => mix_collect_sparse sd k x
    | MnCollectCells k, _ => mix_collect_cells k x
    | _, _ => SPanic x [] []
    end;
  spec2 := fun o xy => match o, fst xy, snd xy with
    | M2Chunk o, OfChunk k x, OfChunk k2 y =>
        sas_kind2 (OfChunk k) (OfChunk k2) (smapR MRes (spec2 (chunk_spec e (`k)) o (x, y)))
    | M2Ring o, OfRing k x, OfRing k2 y =>
        sas_kind2 (OfRing k) (OfRing k2) (smapR MRes (spec2 (ring_spec e (`k)) o (x, y)))
    | M2Sparse o, OfSparse k x, OfSparse k2 y =>
        sas_kind2 (OfSparse k) (OfSparse k2) (smapR MSp (spec2 (array_spec (`k)) o (x, y)))
    | M2Inline o, OfInline k x, OfInline k2 y =>
        sas_kind2 (OfInline k) (OfInline k2) (smapR MRes (spec2 (ia_spec (capacity e (`k))) o (x, y)))
    | M2Extend sd, x, y => smapR mres_unit (mix_extend sd x y)
    | M2InsertFrom sd i, x, y => smapR mres_unit (mix_insert_from sd i x y)
    | M2EqSlice eqA, x, y => SRet xy (MRes (RBool (slice_eq eqA (m_items x) (m_items y)))) []
    | _, _, _ => SPanic xy [] []
    end;
  (* Type-correct, and the restrictions of the single-container programs.  [insert_from]: the sum of the lengths is a [usize]. *)
  legal1 := fun o x => match o, x with
    | M1Chunk o, OfChunk k l => legal1 (chunk_spec e (`k)) o l
    | M1Ring o, OfRing k l => legal1 (ring_spec e (`k)) o l
    | M1Sparse o, OfSparse k s => True
    | M1Inline o, OfInline k l => legal1 (ia_spec (capacity e (`k))) o l
    | _, _ => False
    end;
  legaln := fun o x => match o, x with
    | MnChunk o, OfChunk k l => legaln (chunk_spec e (`k)) o l
    | MnRing o, OfRing k l => legaln (ring_spec e (`k)) o l
    | MnSparse o, OfSparse k s => True
    | MnInline o, OfInline k l => True
    | MnFromInline kc, OfInline k l => True
    | MnCollect sd t, _ => iterates sd x
    | MnCollectFrom sd t n, _ => iterates sd x /\ match t with ToInline _ _ => False | _ => True end
    | MnCollectSparse sd k, _ => iterates sd x
    | MnCollectCells k, _ => match x with OfSparse _ _ => True | _ => False end
    | _, _ => False
    end;
  legal2 := fun o xy => match o, fst xy, snd xy with
    | M2Chunk o, OfChunk k x, OfChunk k2 y => `k = `k2 /\ legal2 (chunk_spec e (`k)) o (x, y)
    | M2Ring o, OfRing k x, OfRing k2 y => `k = `k2 /\ legal2 (ring_spec e (`k)) o (x, y)
    | M2Sparse o, x, y => same_kind x y /\ match x with OfSparse _ _ => True | _ => False end
    | M2Inline o, x, y => same_kind x y /\ match x with OfInline _ _ => True | _ => False end
    | M2Extend sd, x, y => is_list x /\ iterates sd y
    | M2InsertFrom sd i, x, y =>
        match x with OfChunk _ _ | OfRing _ _ => True | _ => False end /\ is_list y /\
        length (m_items x) + length (m_items y) < word e
    | M2EqSlice eqA, x, y => is_list x /\ is_slice y
    | _, _, _ => False
    end;
  given0 := fun o => match o with
    | OfChunk k o => given0 (chunk_spec e (`k)) o
    | OfRing k o => given0 (ring_spec e (`k)) o
    | OfSparse k o => given0 (array_spec (`k)) o
    | OfInline k o => given0 (ia_spec (capacity e (`k))) o
    end;
  given1 := fun o x => match o, x with
    | M1Chunk o, OfChunk k l => given1 (chunk_spec e (`k)) o l
    | M1Ring o, OfRing k l => given1 (ring_spec e (`k)) o l
    | M1Sparse o, OfSparse k s => given1 (array_spec (`k)) o s
    | M1Inline o, OfInline k l => given1 (ia_spec (capacity e (`k))) o l
    | _, _ => []
    end;
  givenn := fun o x => match o, x with
    | MnChunk o, OfChunk k l => givenn (chunk_spec e (`k)) o l
    | MnRing o, OfRing k l => givenn (ring_spec e (`k)) o l
    | MnSparse o, OfSparse k s => givenn (array_spec (`k)) o s
    | MnInline o, OfInline k l => givenn (ia_spec (capacity e (`k))) o l
    | _, _ => []
    end;
  items := m_items;
  outs := fun r => match r with MRes r => moved_out r | MSp r => sp_moved_out r end |}.
End mix.
