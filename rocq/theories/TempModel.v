(** * Temporaries: calls on a container that the caller gives away.

    [x.append(&mut mem::take(&mut y))], [x.extend(mem::take(&mut y).drain())], [mem::take(&mut y).split_off(3)]: [mem::take]
    puts an empty container ([Default::default], src/sized_chunk/mod.rs 702-706, src/ring_buffer/mod.rs 761-767,
    src/sparse_chunk/mod.rs 308-315, src/inline_array/mod.rs 415-419; all call [new]) in the place of [y]; what was there is a
    temporary of the statement and is dropped at its end, by unwinding if the call panics.  ([x.extend(mem::take(&mut y))] does the
    same: the iterator is a variable of [extend] that owns the container, and is dropped when [extend] returns or unwinds.)
    [y.into_iter().collect()] by value drops the rest of the iterator before, not after, the unfinished container: OwnModel.v.
    Simplification: the temporary keeps the address of [y]; C72 is about moves. *)
From Verif Require Import Machine Program.

Inductive passed (op : Type) := ByRef (o : op) | Temp (o : op).
Arguments ByRef {op}. Arguments Temp {op}.

Section temp.
Context {A op0 op1 opn op2 res obj : Type} (K : kit A op0 op1 opn op2 res obj).
(** The [new()] of the type of a container. *)
Context (fresh : obj -> op0).

(** A method of [x] that is given the temporary. *)
Definition temp2 (o : op2) : M A (obj * obj) res := fun xy g =>
  match run0 K (fresh (snd xy)) tt g with
  | Ret _ g0 z =>
      match run2 K o xy g0 with
      | Ret (x, y) g1 r =>
          match kill K y g1 with
          | Ret _ g2 _ => Ret (x, z) g2 r
          | Panic _ g2 => Panic (x, z) g2
          | UB u => UB u | Hang => Hang | Abort => Abort
          end
      | Panic (x, y) g1 =>
          match kill K y g1 with
          | Ret _ g2 _ => Panic (x, z) g2
          | Panic _ _ => Abort     (* a panic while unwinding *)
          | UB u => UB u | Hang => Hang | Abort => Abort
          end
      | UB u => UB u | Hang => Hang | Abort => Abort
      end
  | Panic _ g0 => Panic xy g0
  | UB u => UB u | Hang => Hang | Abort => Abort
  end.
(** A method of the temporary that returns a new container; if the destructor of the temporary panics, the new container is
    dropped by unwinding. *)
Definition tempn (o : opn) : M A obj obj := fun y g =>
  match run0 K (fresh y) tt g with
  | Ret _ g0 z =>
      match runn K o y g0 with
      | Ret y' g1 n =>
          match kill K y' g1 with
          | Ret _ g2 _ => Ret z g2 n
          | Panic _ g2 =>
              match kill K n g2 with
              | Ret _ g3 _ => Panic z g3
              | Panic _ _ => Abort
              | UB u => UB u | Hang => Hang | Abort => Abort
              end
          | UB u => UB u | Hang => Hang | Abort => Abort
          end
      | Panic y' g1 =>
          match kill K y' g1 with
          | Ret _ g2 _ => Panic z g2
          | Panic _ _ => Abort
          | UB u => UB u | Hang => Hang | Abort => Abort
          end
      | UB u => UB u | Hang => Hang | Abort => Abort
      end
  | Panic _ g0 => Panic y g0
  | UB u => UB u | Hang => Hang | Abort => Abort
  end.
Definition temp_kit : kit A op0 op1 (passed opn) (passed op2) res obj := {|
  run0 := run0 K;
  run1 := run1 K;
  runn := fun o => match o with ByRef o => runn K o | Temp o => tempn o end;
  run2 := fun o => match o with ByRef o => run2 K o | Temp o => temp2 o end;
  kill := kill K |}.
End temp.
