(** * The methods of [RingBuffer] as calls of the unsafe primitives of BorrowModel.v *)
From Verif Require Import Machine BorrowModel.

(** What a method does to its own fields and slots; [v] is the value the caller handed over. *)
Inductive step :=
| SFields | SSetFields
| STake (i : nat)       (* [force_read]: the value leaves the buffer *)
| SPut (i : nat)        (* [force_write] of the value handed over *)
| SMove (a b : nat)     (* [force_write(b, force_read(a))] *)
| SDrop (i : nat)       (* [force_drop], [drop_in_place] *)
| SLook (i : nat)       (* a shared reference to the slot, read through *)
| SAssign (i : nat).    (* a unique reference to the slot, [*r = v] *)
(** ** What it leaves in the slots *)
Definition leave {A} (v : A) (s : step) (m : Machine.mem A) : Machine.mem A :=
  match s with
  | SFields | SSetFields | SLook _ => m
  | STake i | SDrop i => upd m i None
  | SPut i | SAssign i => upd m i (Some v)
  | SMove a b => upd (upd m a None) b (m a)
  end.
Fixpoint replay {A} (v : A) (ss : list step) (m : Machine.mem A) : Machine.mem A :=
  match ss with [] => m | s :: ss' => replay v ss' (leave v s m) end.

Section code.
Context (N : nat).
(** ** The calls on the buffer with number [o]: ring_buffer/mod.rs 133-148 [force_drop], [force_read], [force_write];
    388-400 [get_unchecked], [get_unchecked_mut]. *)
Definition ring_call (o : nat) (s : step) : list call :=
  match s with
  | SFields => [Fields o]
  | SSetFields => [SetFields o]
  | STake i => [RingRead o i]
  | SPut i | SDrop i => [RingWrite o i]
  | SMove a b => [RingRead o a; RingWrite o b]
  | SLook i => [RingGet o i]
  | SAssign i => [RingGetMut o i]
  end.

(** The slot of index [i] in a buffer with this origin; one slot to the left. *)
Definition slot_of (origin i : nat) : nat := (origin + i) mod N.
Definition left_of (i : nat) : nat := (i + (N - 1)) mod N.

(** ** Methods: the steps and the new fields of a buffer with fields [origin], [len]; [None]: the method panics. *)
Inductive ring_op :=
| RPushFront | RPushBack | RPopFront | RPopBack | RGet (i : nat) | RIndex (i : nat) | RAssign (i : nat) | RInsert (i : nat)
| RRemove (i : nat) | RDropLeft (i : nat) | RDropRight (i : nat) | RClear | RRead.
Definition ring_steps (origin len : nat) (op : ring_op) : option (list step * (nat * nat)) :=
  match op with
  (* ring_buffer/mod.rs 421-429 [push_front] *)
  | RPushFront =>
      if len =? N then None
      else Some ([SFields; SSetFields; SSetFields; SPut (left_of origin)], (left_of origin, len + 1))
  (* 407-414 [push_back] *)
  | RPushBack =>
      if len =? N then None
      else Some ([SFields; SPut (slot_of origin len); SSetFields], (origin, len + 1))
  (* 450-458 [pop_front], 436-443 [pop_back] *)
  | RPopFront =>
      if len =? 0 then Some ([SFields], (origin, len))
      else Some ([SFields; SSetFields; SSetFields; STake origin], (slot_of origin 1, len - 1))
  | RPopBack =>
      if len =? 0 then Some ([SFields], (origin, len))
      else Some ([SFields; SSetFields; STake (slot_of origin (len - 1))], (origin, len - 1))
  (* 86-108 [get], [get_mut]; 785-813 [Index], [IndexMut] *)
  | RGet i => if i <? len then Some ([SFields; SLook (slot_of origin i)], (origin, len)) else Some ([SFields], (origin, len))
  | RIndex i => if i <? len then Some ([SFields; SLook (slot_of origin i)], (origin, len)) else None
  | RAssign i => if i <? len then Some ([SFields; SAssign (slot_of origin i)], (origin, len)) else None
  (* 582-616 [insert] *)
  | RInsert i =>
      if len =? N then None
      else if len <? i then None
      else if i =? 0 then Some ([SFields; SFields; SSetFields; SSetFields; SPut (left_of origin)], (left_of origin, len + 1))
      else if i =? len then Some ([SFields; SFields; SPut (slot_of origin len); SSetFields], (origin, len + 1))
      else if len - i <? i then
        Some ([SFields] ++ map (fun j => SMove (slot_of origin (len - 1 - j)) (slot_of origin (len - j))) (seq 0 (len - i)) ++
              [SSetFields; SFields; SPut (slot_of origin i)], (origin, len + 1))
      else
        let left := left_of origin in
        Some ([SFields; SSetFields; SSetFields; SFields] ++ map (fun j => SMove (slot_of left (j + 1)) (slot_of left j)) (seq 0 i) ++
              [SFields; SPut (slot_of left i)], (left, len + 1))
  (* 715-742 [remove] *)
  | RRemove i =>
      if len <=? i then None
      else if len - i <? i then
        Some ([SFields; STake (slot_of origin i); SSetFields; SFields] ++
              map (fun j => SMove (slot_of origin (i + j + 1)) (slot_of origin (i + j))) (seq 0 (len - 1 - i)), (origin, len - 1))
      else
        Some ([SFields; STake (slot_of origin i); SFields] ++
              map (fun j => SMove (slot_of origin (i - 1 - j)) (slot_of origin (i - j))) (seq 0 i) ++ [SSetFields; SSetFields],
              (slot_of origin 1, len - 1))
  (* 465-476 [drop_left], 483-494 [drop_right], 752-758 [clear] *)
  | RDropLeft i =>
      if i =? 0 then Some ([], (origin, len))
      else if len <? i then None
      else Some ([SFields] ++ map (fun j => SDrop (slot_of origin j)) (seq 0 i) ++ [SSetFields; SSetFields], (slot_of origin i, len - i))
  | RDropRight i =>
      if len <? i then None
      else if i =? len then Some ([SFields], (origin, len))
      else Some ([SFields] ++ map (fun j => SDrop (slot_of origin (i + j))) (seq 0 (len - i)) ++ [SSetFields], (origin, i))
  | RClear => Some ([SFields] ++ map (fun j => SDrop (slot_of origin j)) (seq 0 len) ++ [SSetFields; SSetFields], (0, 0))
  (* ring_buffer/iter.rs 22-30 [next], to the end *)
  | RRead => Some ([SFields] ++ map (fun j => SLook (slot_of origin j)) (seq 0 len), (origin, len))
  end.

(** ** Methods that move elements from one buffer to another *)
(** ring_buffer/mod.rs 150-186 [copy_from]: the blocks (from, to, length) it copies. *)
Definition copy_to (from to count : nat) : list (nat * nat * nat) :=
  if N <? to + count then [(from, to, N - to); (slot_of from (N - to), 0, count - (N - to))] else [(from, to, count)].
Definition copy_blocks (from to count : nat) : list (nat * nat * nat) :=
  if N <? from + count then copy_to from to (N - from) ++ copy_to 0 (slot_of to (N - from)) (count - (N - from))
  else copy_to from to count.
(** The buffer with number [o] receives from the one with number [o']: their fields, the blocks. *)
Inductive ring_op2 := RDrainFront (count : nat) | RDrainBack (count : nat) | RAppend | RSplitOff (i : nat).
Definition ring_blocks (self other : nat * nat) (op : ring_op2) : option (list (nat * nat * nat) * ((nat * nat) * (nat * nat))) :=
  let '(o1, n1) := self in
  let '(o2, n2) := other in
  let front count := (copy_blocks o2 (slot_of o1 n1) count, ((o1, n1 + count), (slot_of o2 count, n2 - count))) in
  match op with
  (* 538-551 [drain_from_front], 527-529 [append] *)
  | RDrainFront count => if (N <? n1 + count) || (n2 <? count) then None else Some (front count)
  | RAppend => if N <? n1 + n2 then None else Some (front n2)
  (* 560-574 [drain_from_back] *)
  | RDrainBack count =>
      if (N <? n1 + count) || (n2 <? count) then None
      else
        let o := (o1 + (N - count)) mod N in
        Some (copy_blocks (slot_of o2 (n2 - count)) o count, ((o, n1 + count), (o2, n2 - count)))
  (* 504-517 [split_off] of [other], into the new buffer [self] *)
  | RSplitOff i =>
      if n2 <? i then None
      else if i =? n2 then Some ([], ((o1, n1), (o2, n2)))
      else Some (copy_blocks (slot_of o2 i) 0 (n2 - i), ((0, n2 - i), (o2, i)))
  end.
Definition ring_call2 (o o' : nat) (bs : list (nat * nat * nat)) : list call :=
  [Fields o; Fields o'] ++ map (fun b => RingCopyTo o' o (fst (fst b)) (snd (fst b)) (snd b)) bs ++ [SetFields o'; SetFields o].
End code.
(** What the blocks leave in the slots of the two buffers. *)
Definition leave2 {A} (b : nat * nat * nat) (m : Machine.mem A * Machine.mem A) : Machine.mem A * Machine.mem A :=
  let '(from, to, n) := b in
  ((fun p => if (to <=? p) && (p <? to + n) then snd m (from + (p - to)) else fst m p),
   (fun p => if (from <=? p) && (p <? from + n) then None else snd m p)).
Fixpoint replay2 {A} (bs : list (nat * nat * nat)) (m : Machine.mem A * Machine.mem A) : Machine.mem A * Machine.mem A :=
  match bs with [] => m | b :: bs' => replay2 bs' (leave2 b m) end.
