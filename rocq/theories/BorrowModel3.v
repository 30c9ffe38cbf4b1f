(** * The methods of [SparseChunk] and [InlineArray] as calls of the unsafe primitives of BorrowModel.v *)
From Verif Require Import Machine BorrowModel BorrowModel2.

(** ** [SparseChunk]: the calls of a step on the chunk with number [o]; sparse_chunk/mod.rs 103-113 [force_read],
    [force_write]; 216-234 [get_unchecked], [get_unchecked_mut]; 164 [mem::replace(&mut self.values_mut()[index], value)]. *)
Definition sparse_call (o : nat) (s : step) : list call :=
  match s with
  | SFields => [Fields o]
  | SSetFields => [SetFields o]
  | STake i | SLook i => [SparseRead o i]
  | SPut i | SDrop i | SAssign i => [SparseWrite o i]
  | SMove a b => [SparseRead o a; SparseWrite o b]
  end.
Inductive sparse_op :=
| SInsert (i : nat) | SRemove (i : nat) | SPop | SGet (i : nat) | SGetMut (i : nat) | SIndex (i : nat) | SIndexMut (i : nat).
(** The steps and the new map of a chunk whose map is [m]; [None]: the method panics. *)
Definition sparse_steps (N : nat) (m : nat -> bool) (op : sparse_op) : option (list step * (nat -> bool)) :=
  let set i b := fun p => if p =? i then b else m p in
  match op with
  (* sparse_chunk/mod.rs 156-169 [insert]: [map.set] reads and writes the map *)
  | SInsert i =>
      if N <=? i then None
      else Some ([SFields; SSetFields] ++ (if m i then [SAssign i] else [SPut i]), set i true)
  (* 171-183 [remove] *)
  | SRemove i => if N <=? i then None else Some ([SFields; SSetFields] ++ (if m i then [STake i] else []), set i false)
  (* 185-190 [pop], 241-244 [first_index] *)
  | SPop =>
      match find m (seq 0 N) with
      | None => Some ([SFields], m)
      | Some i => Some ([SFields; SFields; SSetFields; STake i], set i false)
      end
  (* 192-214 [get], [get_mut]; 317-337 [Index], [IndexMut] *)
  | SGet i => if N <=? i then Some ([], m) else Some ([SFields] ++ (if m i then [SLook i] else []), m)
  | SGetMut i => if N <=? i then Some ([], m) else Some ([SFields] ++ (if m i then [SAssign i] else []), m)
  | SIndex i => if N <=? i then None else if m i then Some ([SFields; SLook i], m) else None
  | SIndexMut i => if N <=? i then None else if m i then Some ([SFields; SAssign i], m) else None
  end.

(** ** [InlineArray]: the call and the new length of the array with number [o] and length [len]; [None]: the method panics. *)
Inductive array_op := IPush | IPop | IInsert (i : nat) | IRemove (i : nat) | ILen | IRead | IIndex (i : nat) | IAssign (i : nat) | IClear.
Definition array_calls (cap o len : nat) (op : array_op) : option (call * nat) :=
  match op with
  (* inline_array/mod.rs 298-306 [push], 313-322 [pop] *)
  | IPush => if cap <=? len then None else Some (ArrayPush o len, len + 1)
  | IPop => if len =? 0 then Some (ArrayLen o, 0) else Some (ArrayPop o len, len - 1)
  (* 330-343 [insert], 352-364 [remove] *)
  | IInsert i => if (cap <=? len) || (len <? i) then None else Some (ArrayInsert o len i, len + 1)
  | IRemove i => if len <=? i then Some (ArrayLen o, len) else Some (ArrayRemove o len i, len - 1)
  (* 217-219 [len]; 442-453 [deref], [deref_mut], and the slice's [Index], [IndexMut] *)
  | ILen => Some (ArrayLen o, len)
  | IRead => Some (ArrayRead o len, len)
  | IIndex i => if i <? len then Some (ArrayRead o len, len) else None
  | IAssign i => if i <? len then Some (ArrayWrite o len, len) else None
  (* 393-398 [clear] *)
  | IClear => Some (ArrayClear o len, 0)
  end.
