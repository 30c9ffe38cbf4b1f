(** * The standard methods of an iterator: what they should do to a container that is being drained. *)
From Verif Require Import Machine Spec Program Bombs BombProgram SparseBombs IterSpec MixModel MixSpec WalkModel.

(** The first element of [l] which satisfies [q], with its position. *)
Definition first_from {A} (q : nat -> A -> bool) (k : nat) (l : list A) : option (nat * A) :=
  List.find (fun ka => q (fst ka) (snd ka)) (combine (seq k (length l)) l).
Definition first_at {A} (q : nat -> A -> bool) (l : list A) : option (nat * A) := first_from q 0 l.

(** How the call ends: with a result, when it has taken [n] elements and dropped [d] of them; with a panic; with an abort. *)
Inductive walked (A : Type) := Walked (n : nat) (r : wres A) (d : list A) | Broke (n : nat) (d : list A) | Died.
Arguments Walked {A}. Arguments Broke {A}. Arguments Died {A}.

Section walk.
Context {A : Type} (b : A -> bool).    (* dropping this value panics *)
Implicit Types (l : list A) (p : nat -> A -> option bool).
(** The elements up to position [k] have been taken and dropped, and there was a panic: the last of them dropped by
    unwinding -- which a destructor that panics turns into an abort -- or while being dropped. *)
Definition broke k l : walked A := Broke (S k) (take (S k) l).
Definition unwound k (a : A) l : walked A := if b a then Died else broke k l.
(** The predicates answer as in [p]: [None] is a panic. *)
Definition walk_nth (n : nat) l : walked A :=
  match first_at (fun _ => b) (take n l) with
  | Some (k, _) => broke k l
  | None => Walked (S n `min` length l) (WItem (l !! n)) (take n l)
  end.
Definition walk_find p l : walked A :=
  match first_at (fun k a => match p k a with Some false => b a | _ => true end) l with
  | None => Walked (length l) (WItem None) l
  | Some (k, a) =>
      match p k a with
      | Some true => Walked (S k) (WItem (Some a)) (take k l)
      | Some false => broke k l
      | None => unwound k a l
      end
  end.
(** [position], [any], [all] stop at the first answer [stop]; the item is dropped there too. *)
Definition walk_test p (stop : bool) (found : nat -> wres A) (r : wres A) l : walked A :=
  match first_at (fun k a => match p k a with Some x => Bool.eqb x stop || b a | None => true end) l with
  | None => Walked (length l) r l
  | Some (k, a) =>
      match p k a with
      | Some _ => if b a then broke k l else Walked (S k) (found k) (take (S k) l)
      | None => unwound k a l
      end
  end.
Definition walk_count l : walked A :=
  match first_at (fun _ => b) l with
  | Some (k, _) => broke k l
  | None => Walked (length l) (WNat (length l)) l
  end.
Definition walk_take (n : nat) l : walked A := Walked (n `min` length l) (WVals (take n l)) [].
Definition walk_collect l : walked A := Walked (length l) (WVals l) [].
Definition walk (o : walk_op A) : list A -> walked A :=
  match o with
  | WNth _ n => walk_nth n
  | WFind _ p => walk_find p
  | WPosition _ p => walk_test p true (fun k => WIndex (Some k)) (WIndex None)
  | WAny _ p => walk_test p true (fun _ => WBool true) (WBool false)
  | WAll _ p => walk_test p false (fun _ => WBool false) (WBool true)
  | WCount _ => walk_count
  | WTake _ n => walk_take n
  | WCollect _ => walk_collect
  end.
End walk.
Definition walk_side {A} (o : walk_op A) : side :=
  match o with WNth sd _ | WFind sd _ | WPosition sd _ | WAny sd _ | WAll sd _ | WCount sd | WTake sd _ | WCollect sd => sd end.

(** On a container: the elements taken are the first, from that side; the others stay. *)
Section mix.
Context {A : Type} (e : env A).
Notation st := (mst e).
Definition spec_walk (o : walk_op A) (y : st) : sres A st (wres A) :=
  let sd := walk_side o in
  match walk (fun _ => false) o (queue e sd y) with
  | Walked n r d => SRet (after e sd n y) r d
  | Broke n d => SPanic (after e sd n y) d []
  | Died => SPanic y [] []     (* not without a destructor that panics *)
  end.
Definition bspec_walk (o : walk_op A) (y : st) : bres (A := A) st (wres A) :=
  let sd := walk_side o in
  match walk (bomb e) o (queue e sd y) with
  | Walked n r d => BRet (after e sd n y) r d
  | Broke n d => BPanic (after e sd n y) d []
  | Died => BAbort
  end.
Definition legal_walk (o : walk_op A) (y : st) : Prop := iterates e (walk_side o) y.
(** The values a result hands over. *)
Definition wres_outs (outs : mres A -> list A) (r : wres A) : list A :=
  match r with WRes r => outs r | WItem (Some a) => [a] | WVals l => l | _ => [] end.
End mix.

(** Specifications with more methods on one container, which are given no values. *)
Definition more1_spec {A op0 op1 opn op2 res st opx resx} (S : skit A op0 op1 opn op2 res st) (old : res -> resx)
    (more : opx -> st -> sres A st resx) (lg : opx -> st -> Prop) (os : resx -> list A) : skit A op0 (op1 + opx) opn op2 resx st := {|
  spec0 := spec0 S;
  spec1 := fun o x => match o with inl o => smapR old (spec1 S o x) | inr o => more o x end;
  specn := specn S;
  spec2 := fun o xy => smapR old (spec2 S o xy);
  legal1 := fun o => match o with inl o => legal1 S o | inr o => lg o end;
  legaln := legaln S; legal2 := legal2 S; given0 := given0 S;
  given1 := fun o => match o with inl o => given1 S o | inr _ => fun _ => [] end;
  givenn := givenn S; items := items S; outs := os |}.
Definition more1_bspec {A op0 op1 opn op2 res st opx resx} (B : bkit A op0 op1 opn op2 res st) (old : res -> resx)
    (more : opx -> st -> bres (A := A) st resx) : bkit A op0 (op1 + opx) opn op2 resx st := {|
  bs0 := bs0 B;
  bs1 := fun o x => match o with inl o => bmap old (bs1 B o x) | inr o => more o x end;
  bsn := bsn B;
  bs2 := fun o xy => bmap old (bs2 B o xy);
  bsk := bsk B; bg0 := bg0 B;
  bg1 := fun o => match o with inl o => bg1 B o | inr _ => fun _ => [] end;
  bgn := bgn B |}.
