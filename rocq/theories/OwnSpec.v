(** * [y.into_iter().collect()]: what it should do. *)
From Verif Require Import Machine Spec Program Bombs BombProgram SparseSpec IterSpec MixModel MixSpec OwnModel.

Section own.
Context {A : Type} (e : env A) (empty : mst e -> mst e).
Notation st := (mst e).
(** [y.into_iter().collect()]: everything moves to the new container.  If it does not fit the call panics, and everything is
    dropped: the element that did not fit first, then the rest of [y] -- in the order of [y], from whichever side it was
    consumed --, then those that had been moved.  Either way [y] is used up. *)
Definition mix_into (sd : side) (t : target e) (y : st) : sres A st st :=
  let l := queue e sd y in let N := target_cap e t in
  if length l <=? N then SRet (empty y) (fresh e t l) []
  else SPanic (empty y) (take 1 (drop N l) ++ m_items e (after e sd (S N) y) ++ take N l) [].
(** [y.into_iter().map(Some).collect()] into a [SparseChunk]: the elements go into the first cells; otherwise the same. *)
Definition mix_into_sparse (sd : side) (k : scap e) (y : st) : sres A st st :=
  let l := queue e sd y in let N := `k in
  if length l <=? N then SRet (empty y) (OfSparse k (map Some l ++ no_cells (N - length l))) []
  else SPanic (empty y) (take 1 (drop N l) ++ m_items e (after e sd (S N) y) ++ take N l) [].
(** [y.option_drain().collect()] into a [SparseChunk]: every element goes into the cell of the same index.  At the first one
    for which there is no such cell the call panics, and everything is dropped: that element, the later ones, then the ones moved
    before. *)
Definition mix_into_cells (k : scap e) (y : st) : sres A st st :=
  match y with
  | OfSparse k2 s =>
      let N := `k in
      match values (drop N s) with
      | [] => SRet (empty y) (OfSparse k (take N (s ++ no_cells N))) []
      | late => SPanic (empty y) (late ++ values (take N s)) []
      end
  | _ => SPanic y [] []
  end.
Definition spec_into (o : into_op e) (y : st) : sres A st st :=
  match o with
  | Into sd t => mix_into sd t y
  | IntoSparse sd k => mix_into_sparse sd k y
  | IntoCells k => mix_into_cells k y
  end.
Definition legal_into (o : into_op e) (y : st) : Prop :=
  match o with
  | Into sd _ | IntoSparse sd _ => iterates e sd y
  | IntoCells _ => match y with OfSparse _ _ => True | _ => False end
  end.
End own.

(** Specifications with more ways to make a new container out of one, which are given no values. *)
Definition more_spec {A op0 op1 opn op2 res st opx} (S : skit A op0 op1 opn op2 res st) (more : opx -> st -> sres A st st)
  (lg : opx -> st -> Prop) : skit A op0 op1 (opn + opx) op2 res st := {|
  spec0 := spec0 S; spec1 := spec1 S;
  specn := fun o => match o with inl o => specn S o | inr o => more o end;
  spec2 := spec2 S; legal1 := legal1 S;
  legaln := fun o => match o with inl o => legaln S o | inr o => lg o end;
  legal2 := legal2 S; given0 := given0 S; given1 := given1 S;
  givenn := fun o => match o with inl o => givenn S o | inr _ => fun _ => [] end;
  items := items S; outs := outs S |}.
(** If a destructor panics it is while unwinding, and the process aborts. *)
Definition more_bspec {A op0 op1 opn op2 res st opx} (e : env A) (B : bkit A op0 op1 opn op2 res st) (more : opx -> st -> sres A st st)
  : bkit A op0 op1 (opn + opx) op2 res st := {|
  bs0 := bs0 B; bs1 := bs1 B;
  bsn := fun o => match o with inl o => bsn B o | inr o => fun x => with_bombs e (more o x) end;
  bs2 := bs2 B; bsk := bsk B; bg0 := bg0 B; bg1 := bg1 B;
  bgn := fun o => match o with inl o => bgn B o | inr _ => fun _ => [] end |}.
