(** * Moving a container: the typed copies the compiler makes of values of type [MaybeUninit<T>].

    Passing, returning or assigning a container by value copies its fields.  The copy of a [MaybeUninit<T>] is a copy of
    the bytes of [T] except its padding: the documentation of [MaybeUninit] says that padding bytes of [T] are not
    preserved, they are uninitialised afterwards. *)
From Verif Require Import Machine InlineModel InlineProgram Program ChunkProgram.

(** Which bytes of a value of the host type [T] (of the element type [A]) are padding: chosen by the compiler. *)
Record padding := Padding { pad_t : nat -> bool; pad_a : nat -> bool }.

Section move.
Context {A : Type} (P : padding).
(** Is the content of this byte of any use?  The padding bytes of an element are not: nobody looks at them. *)
Definition meaningful (x : option (byte A)) : bool :=
  match x with
  | Some (BLen _ _) => true
  | Some (BHead _) => negb (pad_a P 0)
  | Some (BTail k) => negb (pad_a P k)
  | None => false
  end.
(** src/inline_array/mod.rs 109 [data: MaybeUninit<T>]: the bytes after a move of the array.  (Simplification: a byte that
    is padding of an element is shown as before, since nobody looks at it.) *)
Definition moved (c : inline A) : inline A :=
  Inline (fun q => if pad_t P q && meaningful (bytes c q) then None else bytes c q) (zst c).

(** The operations, where every array that is returned is moved to where the caller wants it, and moving an array is
    such a copy (InlineProgram.v: [IMove]).  src/inline_array/mod.rs 260-288 [new], 373-387 [split_off], 428-438 [clone],
    541-550 [from_iter] return arrays by value.  (Simplification: the move of the empty array that [new] returns to the other
    three is left out.) *)
Definition ia_kit_moving (e : env A) (L : layout)
  : kit A (ia_op0 A) (ia_op1 A) (ia_opn A) (ia_op2 A) (res A) (located A) := {|
  run0 := fun o => mapR (fun x => (fst x, moved (snd x))) (run0 (ia_kit e L) o);
  run1 := fun o => match o with
    | IMove q => fun x g => Ret (q, moved (snd x)) g RUnit
    | _ => run1 (ia_kit e L) o
    end;
  runn := fun o => mapR (fun x => (fst x, moved (snd x))) (runn (ia_kit e L) o);
  run2 := run2 (ia_kit e L);
  kill := kill (ia_kit e L) |}.
End move.

(** ** The other containers: src/sized_chunk/mod.rs 93-97, src/ring_buffer/mod.rs 60-64, src/sparse_chunk/mod.rs 51-57:
    [data: MaybeUninit<[A; N]>].  Slot [i] is the bytes [i * size ..]; the padding of [[A; N]] is the padding of its
    elements.  A byte of an element is the element with the number of the byte. *)
Section array.
Context {A : Type} (size : nat) (pad : nat -> bool).
Definition array_bytes (m : mem A) (q : nat) : option (A * nat) :=
  match m (q / size) with Some a => Some (a, q mod size) | None => None end.
Definition moved_bytes (bs : nat -> option (A * nat)) (q : nat) : option (A * nat) :=
  if pad (q mod size) then None else bs q.
End array.
