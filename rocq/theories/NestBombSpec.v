(** * Containers of containers of values whose destructors may panic: what they should do. *)
From Verif Require Import Machine Spec Program InlineModel InlineSpec SparseSpec IterSpec MixModel MixSpec ChunkProgram RingProgram
  SparseProgram InlineProgram Bombs BombProgram SparseBombs MixBombSpec TempModel TempMix OwnModel OwnMix WalkModel WalkSpec WalkMix NestModel NestSpec.

Section nest.
Context {A : Type} (e : env A).
Notation st := (mst e).
Notation Es := (outer_senv e).

(** The destructors of containers, one after the other: what is dropped, and what is lost.  [None]: two elements of one of them
    have destructors that panic, which aborts the process. *)
Fixpoint bsettle (D : list st) : option (list A * list A) :=
  match D with
  | [] => Some ([], [])
  | x :: D' =>
      match bsk (mix_bspec e) x, bsettle D' with
      | BRet _ _ d, Some (d', k') => Some (d ++ d', k')
      | BPanic _ d k, Some (d', k') => Some (d ++ d', k ++ k')
      | _, _ => None
      end
  end.
Definition bflat {S R} (b : bres (A := st) S R) : bres (A := A) S R :=
  match b with
  | BRet x r D => BRet x r (flat_map (m_items e) D)
  | BPanic x D K =>
      match bsettle D with Some (d, k) => BPanic x d (k ++ flat_map (m_items e) K) | None => BAbort end
  | BAbort => BAbort | BOpen => BOpen
  end.
Definition bspec_at {Y R} (i : nat) (f : st -> bres (A := A) (st * Y) R) (x : mst Es) (y : Y) : bres (A := A) (mst Es * Y) R :=
  match elem e i x with
  | None => BPanic (x, y) [] []
  | Some v =>
      match f v with
      | BRet (v', y') r d => BRet (with_elem e i v' x, y') r d
      | BPanic (v', y') d k => BPanic (with_elem e i v' x, y') d k
      | BAbort => BAbort | BOpen => BOpen
      end
  end.
Definition bspec_at1 {R} (i : nat) (f : st -> bres (A := A) st R) (x : mst Es) : bres (A := A) (mst Es) R :=
  match elem e i x with
  | None => BPanic x [] []
  | Some v =>
      match f v with
      | BRet v' r d => BRet (with_elem e i v' x) r d
      | BPanic v' d k => BPanic (with_elem e i v' x) d k
      | BAbort => BAbort | BOpen => BOpen
      end
  end.
(** The container that was in the cell is dropped; if that panics, the new one has been stored. *)
Definition bdiscard {S} (b : bres (A := st) S (mres st)) : bres (A := st) S unit :=
  match b with
  | BRet x r d =>
      match length (List.filter (sbomb e) (m_outs r)) with
      | 0 => BRet x tt (d ++ m_outs r) | 1 => BPanic x (d ++ m_outs r) [] | _ => BAbort
      end
  | BPanic x d k => BPanic x d k
  | BAbort => BAbort | BOpen => BOpen
  end.
Definition bas_one {S R S2 R2} (f : S -> S2) (h : R -> R2) (b : bres (A := A) S R) : bres (A := A) S2 R2 :=
  match b with BRet x r d => BRet (f x) (h r) d | BPanic x d k => BPanic (f x) d k | BAbort => BAbort | BOpen => BOpen end.
Definition bas_two {S1 S2 R R2} (f1 : S1 -> nst e) (f2 : S2 -> nst e) (h : R -> R2) (b : bres (A := A) (S1 * S2) R)
  : bres (A := A) (nst e * nst e) R2 := bas_one (fun xy => (f1 (fst xy), f2 (snd xy))) h b.
Definition bspec_put (o : put_op) (x : mst Es) (y : st) : bres (A := A) (mst Es * st) unit :=
  bas_one (fun x' => (x', m_empty e y)) (fun u => u) (bflat (bdiscard (bs1 (mix_bspec Es) (o_put o x y) x))).
Definition bspec_take (o : take_op) (x : mst Es) : bres (A := A) (mst Es) st :=
  match bflat (bs1 (mix_bspec Es) (o_take o x) x) with
  | BRet x' r d => match m_outs r with [v] => BRet x' v d | _ => BPanic x' d [] end
  | BPanic x' d k => BPanic x' d k
  | BAbort => BAbort | BOpen => BOpen
  end.

Definition nest_bspec : bkit A (nop0 e) (nop1 A) (nopn e) (nop2 A) (nres A) (nst e) := {|
  bs0 := fun o => match o with
    | NNew o => bmap inl (bs0 (walk_bspec e) o)
    | NNewOuter o => bmap inr (bflat (bs0 (mix_bspec Es) (o_new e _ o)))
    end;
  bs1 := fun o x => match o, x with
    | NMethod o, inl y => bas_one inl NInner (bs1 (walk_bspec e) o y)
    | NAt i o, inr x => bas_one inr NInner (bspec_at1 i (bs1 (walk_bspec e) o) x)
    | NOuterMethod o, inr x => bas_one inr (fun r => NOuter (info r)) (bflat (bs1 (mix_bspec Es) (o_method o x) x))
    | _, _ => BPanic x [] []
    end;
  bsn := fun o x => match o, x with
    | NSpawn o, inl y => bas_one inl inl (bsn (walk_bspec e) o y)
    | NAtSpawn i o, inr x => bas_one inr inl (bspec_at1 i (bsn (walk_bspec e) o) x)
    | NTake o, inr x => bas_one inr inl (bspec_take o x)
    | NOuterSpawn o, inr x => bas_one inr inr (bflat (bsn (mix_bspec Es) (o_spawn e o x) x))
    | _, _ => BPanic x [] []
    end;
  bs2 := fun o xy => match o, fst xy, snd xy with
    | NMethod2 o, inl x, inl y => bas_two inl inl NInner (bs2 (walk_bspec e) o (x, y))
    | NAt2 i o, inr x, inl y => bas_two inr inl NInner (bspec_at i (fun v => bs2 (walk_bspec e) o (v, y)) x y)
    | NPut o, inr x, inl y => bas_two inr inl (fun _ => NOuter None) (bspec_put o x y)
    | NMerge o, inr x, inr y => bas_two inr inr (fun _ => NOuter None) (bflat (bs2 (mix_bspec Es) (o_merge o x) (x, y)))
    | _, _, _ => BPanic xy [] []
    end;
  bsk := fun x => match x with inl y => bsk (mix_bspec e) y | inr x => bflat (bsk (mix_bspec Es) x) end;
  bg0 := fun o => match o with NNew o => bg0 (walk_bspec e) o | NNewOuter _ => [] end;
  bg1 := fun o x => match o, x with
    | NMethod o, inl y => bg1 (walk_bspec e) o y
    | NAt i o, inr x => at_elem e i x [] (bg1 (walk_bspec e) o)
    | _, _ => []
    end;
  bgn := fun o x => match o, x with
    | NSpawn o, inl y => bgn (walk_bspec e) o y
    | NAtSpawn i o, inr x => at_elem e i x [] (bgn (walk_bspec e) o)
    | _, _ => []
    end |}.
(** What a client must not do: that of C81 on a container, wherever it is, or [clear], [drop_left] or [drop_right] on a container
    of containers when that drops one of them whose destructor panics. *)
Definition nest_discards (o : nop1 A) (x : nst e) : Prop :=
  match o, x with
  | NMethod o, inl y => walk_discards e o y
  | NAt i o, inr x => at_elem e i x False (walk_discards e o)
  | NOuterMethod o, inr x => mix_discards Es (o_method o x) x
  | _, _ => False
  end.
End nest.
