(** * Containers of containers: what they should do.

    An outer container is its kind and the list (or array of options) of the contents of the containers in it. *)
From Verif Require Import Machine Spec Program InlineModel InlineSpec SparseSpec IterSpec MixModel MixSpec ChunkProgram RingProgram
  SparseProgram InlineProgram TempModel TempMix OwnModel OwnMix WalkModel WalkSpec WalkMix NestModel.

Section nest.
Context {A : Type} (e : env A).
Notation st := (mst e).

(** The specification of MixSpec.v, for elements which are the contents of containers. *)
Definition sbomb (x : st) : bool := existsb (bomb e) (m_items e x).
Definition outer_senv : env st := over e sbomb.
Notation Es := outer_senv.
Definition nst := (st + mst Es)%type.
Definition nest_items (x : nst) : list A :=
  match x with inl y => m_items e y | inr x => flat_map (m_items e) (m_items Es x) end.

(** A container that is dropped drops its elements, in order. *)
Definition flat {S R} (s : sres st S R) : sres A S R :=
  match s with
  | SRet x r d => SRet x r (flat_map (m_items e) d)
  | SPanic x d k => SPanic x (flat_map (m_items e) d) (flat_map (m_items e) k)
  end.
(** The element at [i], and the container in which it is another one. *)
Definition elem {B} {b : B -> bool} (i : nat) (x : mst (over e b)) : option B :=
  match x with OfChunk _ l | OfRing _ l | OfInline _ l => l !! i | OfSparse _ s => mjoin (s !! i) end.
Definition with_elem {B} {b : B -> bool} (i : nat) (v : B) (x : mst (over e b)) : mst (over e b) :=
  match x with
  | OfChunk k l => OfChunk k (<[i := v]> l) | OfRing k l => OfRing k (<[i := v]> l)
  | OfInline k l => OfInline k (<[i := v]> l) | OfSparse k s => OfSparse k (<[i := Some v]> s)
  end.
(** [x[i].method(..)]: the method on the element, whose place it keeps; if there is none the call panics. *)
Definition spec_at {Y R} (i : nat) (f : st -> sres A (st * Y) R) (x : mst Es) (y : Y) : sres A (mst Es * Y) R :=
  match elem i x with
  | None => SPanic (x, y) [] []
  | Some v =>
      match f v with
      | SRet (v', y') r d => SRet (with_elem i v' x, y') r d
      | SPanic (v', y') d k => SPanic (with_elem i v' x, y') d k
      end
  end.
Definition spec_at1 {R} (i : nat) (f : st -> sres A st R) (x : mst Es) : sres A (mst Es) R :=
  match elem i x with
  | None => SPanic x [] []
  | Some v =>
      match f v with
      | SRet v' r d => SRet (with_elem i v' x) r d
      | SPanic v' d k => SPanic (with_elem i v' x) d k
      end
  end.
(** [x.push_back(mem::take(&mut y))]: [y] moves into [x], if there is room; otherwise the call panics and drops it.  What it
    replaces in a [SparseChunk] is dropped. *)
Definition spec_put (o : put_op) (x : mst Es) (y : st) : sres A (mst Es * st) (nres A) :=
  match spec1 (mix_spec Es) (o_put o x y) x with
  | SRet x' r d => SRet (x', m_empty e y) (NOuter None) (flat_map (m_items e) (d ++ outs (mix_spec Es) r))
  | SPanic x' d k => SPanic (x', m_empty e y) (flat_map (m_items e) d) (flat_map (m_items e) k)
  end.
(** [let y = x.pop_back()]. *)
Definition spec_take (o : take_op) (x : mst Es) : sres A (mst Es) st :=
  match spec1 (mix_spec Es) (o_take o x) x with
  | SRet x' r d =>
      match outs (mix_spec Es) r with
      | [v] => SRet x' v (flat_map (m_items e) d)
      | _ => SPanic x' (flat_map (m_items e) d) []
      end
  | SPanic x' d k => SPanic x' (flat_map (m_items e) d) (flat_map (m_items e) k)
  end.

Definition sas_one {S R S2 R2} (f : S -> S2) (h : R -> R2) (s : sres A S R) : sres A S2 R2 :=
  match s with SRet x r d => SRet (f x) (h r) d | SPanic x d k => SPanic (f x) d k end.
Definition sas_two {S1 S2 R R2} (f1 : S1 -> nst) (f2 : S2 -> nst) (h : R -> R2) (s : sres A (S1 * S2) R) : sres A (nst * nst) R2 :=
  match s with SRet (x, y) r d => SRet (f1 x, f2 y) (h r) d | SPanic (x, y) d k => SPanic (f1 x, f2 y) d k end.
(** If there is such an element. *)
Definition at_elem {T} (i : nat) (x : mst Es) (no : T) (f : st -> T) : T := match elem i x with None => no | Some v => f v end.

Definition nest_spec : skit A (nop0 e) (nop1 A) (nopn e) (nop2 A) (nres A) nst := {|
  spec0 := fun o => match o with
    | NNew o => sas_one (fun u => u) inl (spec0 (walk_spec e) o)
    | NNewOuter o => sas_one (fun u => u) inr (flat (spec0 (mix_spec Es) (o_new e _ o)))
    end;
  spec1 := fun o x => match o, x with
    | NMethod o, inl y => sas_one inl NInner (spec1 (walk_spec e) o y)
    | NAt i o, inr x => sas_one inr NInner (spec_at1 i (spec1 (walk_spec e) o) x)
    | NOuterMethod o, inr x => sas_one inr (fun r => NOuter (info r)) (flat (spec1 (mix_spec Es) (o_method o x) x))
    | _, _ => SPanic x [] []
    end;
  specn := fun o x => match o, x with
    | NSpawn o, inl y => sas_one inl inl (specn (walk_spec e) o y)
    | NAtSpawn i o, inr x => sas_one inr inl (spec_at1 i (specn (walk_spec e) o) x)
    | NTake o, inr x => sas_one inr inl (spec_take o x)
    | NOuterSpawn o, inr x => sas_one inr inr (flat (specn (mix_spec Es) (o_spawn e o x) x))
    | _, _ => SPanic x [] []
    end;
  spec2 := fun o xy => match o, fst xy, snd xy with
    | NMethod2 o, inl x, inl y => sas_two inl inl NInner (spec2 (walk_spec e) o (x, y))
    | NAt2 i o, inr x, inl y => sas_two inr inl NInner (spec_at i (fun v => spec2 (walk_spec e) o (v, y)) x y)
    | NPut o, inr x, inl y => sas_two inr inl (fun r => r) (spec_put o x y)
    | NMerge o, inr x, inr y => sas_two inr inr (fun _ => NOuter None) (flat (spec2 (mix_spec Es) (o_merge o x) (x, y)))
    | _, _, _ => SPanic xy [] []
    end;
  legal1 := fun o x => match o, x with
    | NMethod o, inl y => legal1 (walk_spec e) o y
    | NAt i o, inr x => at_elem i x True (legal1 (walk_spec e) o)
    | NOuterMethod o, inr x => legal1 (mix_spec Es) (o_method o x) x
    | _, _ => False
    end;
  legaln := fun o x => match o, x with
    | NSpawn o, inl y => legaln (walk_spec e) o y
    | NAtSpawn i o, inr x => at_elem i x True (legaln (walk_spec e) o)
    | NTake o, inr x => legal1 (mix_spec Es) (o_take o x) x
    | NOuterSpawn o, inr x => legaln (mix_spec Es) (o_spawn e o x) x
    | _, _ => False
    end;
  legal2 := fun o xy => match o, fst xy, snd xy with
    | NMethod2 o, inl x, inl y => legal2 (walk_spec e) o (x, y)
    | NAt2 i o, inr x, inl y => at_elem i x True (fun v => legal2 (walk_spec e) o (v, y))
    | NPut o, inr x, inl y => legal1 (mix_spec Es) (o_put o x y) x
    | NMerge o, inr x, inr y => legal2 (mix_spec Es) (o_merge o x) (x, y)
    | _, _, _ => False
    end;
  given0 := fun o => match o with NNew o => given0 (walk_spec e) o | NNewOuter _ => [] end;
  given1 := fun o x => match o, x with
    | NMethod o, inl y => given1 (walk_spec e) o y
    | NAt i o, inr x => at_elem i x [] (given1 (walk_spec e) o)
    | _, _ => []
    end;
  givenn := fun o x => match o, x with
    | NSpawn o, inl y => givenn (walk_spec e) o y
    | NAtSpawn i o, inr x => at_elem i x [] (givenn (walk_spec e) o)
    | _, _ => []
    end;
  items := nest_items;
  outs := fun r => match r with NInner r => outs (walk_spec e) r | NOuter _ => [] end |}.
End nest.
