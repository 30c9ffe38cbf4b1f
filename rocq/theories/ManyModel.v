(** * Several shared iterators over one container at the same time (the container is only borrowed, [&]). *)
From Verif Require Import Machine IterSpec.
From Verif Require RingModel SparseModel.

Section many.
Context {A X C I : Type} (next : side -> M A (X * C) (option I)).
(** A call on the [j]-th iterator, whose registers are [x]. *)
Definition in_one {R} (j : nat) (x : X) (m : M A (X * C) R) : M A (list X * C) R := fun s g =>
  match m (x, snd s) g with
  | Ret (x', c) g r => Ret (<[j := x']> (fst s), c) g r
  | Panic (x', c) g => Panic (<[j := x']> (fst s), c) g
  | UB u => UB u | Hang => Hang | Abort => Abort
  end.
(** Client code: [next]/[next_back] of the iterators in any order; the answers, with the number of the iterator asked. *)
Fixpoint rounds (script : list (nat * side)) : M A (list X * C) (list (nat * option I)) :=
  match script with
  | [] => ret []
  | (j, s) :: script' =>
      let! st := get in
      match fst st !! j with
      | None => rounds script'
      | Some x =>
          let! r := in_one j x (next s) in
          let! rest := rounds script' in
          ret ((j, r) :: rest)
      end
  end.
End many.
(** The iterators are made, then used; the registers die with them. *)
Definition among {A X C R} (open : M A C (list X)) (m : M A (list X * C) R) : M A C R := fun c g =>
  match open c g with
  | Ret c g xs => match m (xs, c) g with
                  | Ret s g r => Ret (snd s) g r | Panic s g => Panic (snd s) g
                  | UB u => UB u | Hang => Hang | Abort => Abort
                  end
  | Panic c g => Panic c g
  | UB u => UB u | Hang => Hang | Abort => Abort
  end.
Fixpoint each {A C V X} (open : V -> M A C X) (vs : list V) : M A C (list X) :=
  match vs with [] => ret [] | v :: vs' => let! x := open v in let! xs := each open vs' in ret (x :: xs) end.
Section ring.
Import RingModel.
Context {A : Type} (e : env A) (N : nat).
(** src/ring_buffer/mod.rs 327-334 [iter] of the buffer ([None]), src/ring_buffer/slice.rs 61-68 [Slice::iter] of the slice
    with the given range. *)
Definition ring_open (v : option (nat * nat)) : M A (ring A) idx :=
  match v with None => rb_iter e N | Some s => sl_iter e N s end.
(** src/ring_buffer/iter.rs 22-29, 39-46 [Iter::next], [next_back]: the value behind the reference. *)
Definition ring_pull (s : side) : M A (idx * ring A) (option A) :=
  let! x := (match s with Front => it_next e N | Back => it_next_back e N end) in ret (option_map snd x).
Definition ring_readers (vs : list (option (nat * nat))) (script : list (nat * side)) : M A (ring A) (list (nat * option A)) :=
  among (each ring_open vs) (rounds ring_pull script).
End ring.
Section sparse.
Import SparseModel.
Context {A : Type} (e : env A) (N : nat).
(** The three kinds of shared iterators and their registers: src/sparse_chunk/mod.rs 247-252 [iter], 270-272 [entries], 278-283
    [option_iter]. *)
Inductive sview := Values | Entries | Options.
Inductive sregs := RValues (k : nat) | REntries (k : nat * nat) | ROptions (k : nat).
Inductive sitem := Value (a : A) | Entry (p : nat * A) | Option (o : option A).
Definition sparse_open (v : sview) : M A (sparse A) sregs :=
  ret (match v with Values => RValues 0 | Entries => REntries (0, 0) | Options => ROptions 0 end).
Definition swapped {K R R'} (reg : K -> sregs) (item : R -> R') (k : K) (m : M A (sparse A * K) (option R))
  : M A (sregs * sparse A) (option R') := fun s g =>
  match m (snd s, k) g with
  | Ret (c, k) g r => Ret (reg k, c) g (option_map item r)
  | Panic (c, k) g => Panic (reg k, c) g
  | UB u => UB u | Hang => Hang | Abort => Abort
  end.
(** src/sparse_chunk/iter.rs 20-22 [Iter::next], 106-114 [OptionIter::next]; [entries] is [indices().zip(iter())]. *)
Definition sparse_pull (_ : side) : M A (sregs * sparse A) (option sitem) := fun s =>
  match fst s with
  | RValues k => swapped RValues (fun r => Value (snd r)) k (it_next N) s
  | REntries k => swapped REntries Entry k (en_next N) s
  | ROptions k => swapped ROptions Option k (oi_next e N) s
  end.
Definition sparse_readers (vs : list sview) (script : list nat) : M A (sparse A) (list (nat * option sitem)) :=
  among (each sparse_open vs) (rounds sparse_pull (map (fun j => (j, Front)) script)).
End sparse.
Arguments sitem : clear implicits.
Arguments Value {A}. Arguments Entry {A}. Arguments Option {A}.
