(** * The standard methods of an iterator, on the draining iterators.

    [nth], [find], [position], [any], [all], [count], [by_ref().take(n).collect::<Vec<_>>()] and [collect::<Vec<_>>()] are
    provided methods of [core::iter::Iterator]: none of the crate's iterators overrides them (sized_chunk/iter.rs 9-37, 53-84,
    ring_buffer/iter.rs 175-206, sparse_chunk/iter.rs 65-90, inline_array/iter.rs 36-63 define [next], [size_hint] and
    [next_back] only).  So what they do is made of calls of the crate's [next], between which items are given to the caller's
    predicate or dropped.  The loops below are those of the standard library, transcribed: that part is trusted.  With [Back]
    they are called on [rev()]. *)
From Verif Require Import Machine Program IterSpec MixModel.

Section loops.
Context {A S : Type} (e : env A) (next : M A S (option A)).

(** [nth(n)]: [n] items are taken and dropped, the next one is returned. *)
Fixpoint it_nth (n : nat) : M A S (option A) :=
  match n with
  | 0 => next
  | Datatypes.S n' =>
      let! x := next in
      match x with
      | None => ret None
      | Some a => drop_values e [a] ;;; it_nth n'
      end
  end.
(** [try_fold] with a counter: [body] is given the items one by one, until it breaks out of the loop with a result; if the
    items run out after [k] of them the result is [fin k].  [fuel] bounds the number of items. *)
Fixpoint it_loop {R} (body : nat -> A -> M A S (option R)) (fin : nat -> R) (fuel k : nat) : M A S R :=
  match fuel with
  | 0 => hang
  | Datatypes.S fuel' =>
      let! x := next in
      match x with
      | None => ret (fin k)
      | Some a =>
          let! r := body k a in
          match r with
          | Some r => ret r
          | None => it_loop body fin fuel' (Datatypes.S k)
          end
      end
  end.
(** The closures.  [p k a] is what the caller's predicate answers when it is called for the [k]-th time, on the item [a];
    [None]: it panics. *)
(** [find]: the predicate is given a reference; an item that it rejects is dropped. *)
Definition finding (p : nat -> A -> option bool) (k : nat) (a : A) : M A S (option (option A)) :=
  match p k a with
  | None => panic_dropping e a
  | Some true => ret (Some (Some a))
  | Some false => drop_values e [a] ;;; ret None
  end.
(** [position], [any], [all]: the predicate is given the item, and drops it; the loop ends with [r k] when it answers [stop]. *)
Definition testing {R} (p : nat -> A -> option bool) (stop : bool) (r : nat -> R) (k : nat) (a : A) : M A S (option R) :=
  match p k a with
  | None => panic_dropping e a
  | Some b => drop_values e [a] ;;; ret (if Bool.eqb b stop then Some (r k) else None)
  end.
(** [count]: every item is dropped. *)
Definition counting (k : nat) (a : A) : M A S (option nat) := drop_values e [a] ;;; ret None.
(** [by_ref().take(n).collect::<Vec<_>>()] and, without the bound, [collect::<Vec<_>>()]: what has been collected, [acc], is
    dropped if [next] panics. *)
Definition next_holding (acc : list A) : M A S (option A) := fun s g =>
  match next s g with
  | Panic s' g' => match drop_values e acc s' g' with
                   | Ret s'' g'' _ => Panic s'' g''
                   | Panic _ _ => Abort
                   | UB u => UB u | Hang => Hang | Abort => Abort
                   end
  | x => x
  end.
Fixpoint it_take (n : nat) (acc : list A) : M A S (list A) :=
  match n with
  | 0 => ret acc
  | Datatypes.S n' =>
      let! x := next_holding acc in
      match x with
      | None => ret acc
      | Some a => it_take n' (acc ++ [a])
      end
  end.
Fixpoint it_collect (fuel : nat) (acc : list A) : M A S (list A) :=
  match fuel with
  | 0 => hang
  | Datatypes.S fuel' =>
      let! x := next_holding acc in
      match x with
      | None => ret acc
      | Some a => it_collect fuel' (acc ++ [a])
      end
  end.
End loops.

(** The calls: on [y.drain()], or with [Back] on [y.drain().rev()]. *)
Inductive walk_op (A : Type) :=
  | WNth (sd : side) (n : nat)
  | WFind (sd : side) (p : nat -> A -> option bool)
  | WPosition (sd : side) (p : nat -> A -> option bool)
  | WAny (sd : side) (p : nat -> A -> option bool)
  | WAll (sd : side) (p : nat -> A -> option bool)
  | WCount (sd : side)
  | WTake (sd : side) (n : nat)
  | WCollect (sd : side).
Arguments WNth {A}. Arguments WFind {A}. Arguments WPosition {A}. Arguments WAny {A}. Arguments WAll {A}.
Arguments WCount {A}. Arguments WTake {A}. Arguments WCollect {A}.
(** Results. *)
Inductive wres (A : Type) := WRes (r : mres A) | WItem (x : option A) | WIndex (x : option nat) | WBool (b : bool) | WNat (n : nat)
  | WVals (l : list A).
Arguments WRes {A}. Arguments WItem {A}. Arguments WIndex {A}. Arguments WBool {A}. Arguments WNat {A}. Arguments WVals {A}.

Definition run_walk {A} (e : env A) (o : walk_op A) : M A (mobj e) (wres A) := fun y =>
  match o with
  | WNth sd n => mapR WItem (it_nth e (m_next e sd) n)
  | WFind sd p => mapR WItem (it_loop (m_next e sd) (finding e p) (fun _ => None) (m_fuel e y) 0)
  | WPosition sd p => mapR WIndex (it_loop (m_next e sd) (testing e p true Some) (fun _ => None) (m_fuel e y) 0)
  | WAny sd p => mapR WBool (it_loop (m_next e sd) (testing e p true (fun _ => true)) (fun _ => false) (m_fuel e y) 0)
  | WAll sd p => mapR WBool (it_loop (m_next e sd) (testing e p false (fun _ => false)) (fun _ => true) (m_fuel e y) 0)
  | WCount sd => mapR WNat (it_loop (m_next e sd) (counting e) id (m_fuel e y) 0)
  | WTake sd n => mapR WVals (it_take e (m_next e sd) n [])
  | WCollect sd => mapR WVals (it_collect e (m_next e sd) (m_fuel e y) [])
  end y.

(** A kit with more methods on one container. *)
Definition more1_kit {A op0 op1 opn op2 res obj opx resx} (K : kit A op0 op1 opn op2 res obj) (old : res -> resx)
    (more : opx -> M A obj resx) : kit A op0 (op1 + opx) opn op2 resx obj := {|
  run0 := run0 K;
  run1 := fun o => match o with inl o => mapR old (run1 K o) | inr o => more o end;
  runn := runn K;
  run2 := fun o => mapR old (run2 K o);
  kill := kill K |}.
