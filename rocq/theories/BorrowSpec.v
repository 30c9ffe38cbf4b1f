(** * What the theorems about aliasing say *)
From Verif Require Import Machine IterSpec BorrowModel.

(** ** Histories of calls *)
(** The calls the crate makes: existing, different objects; slots inside the buffer. *)
Definition valid_call (N k : nat) (c : call) : Prop :=
  match c with
  | Fields o | SetFields o | ArrayLen o => o < k
  | ChunkRead o i | ChunkWrite o i | RingRead o i | RingWrite o i | RingGet o i | RingGetMut o i | SparseRead o i
  | SparseWrite o i => o < k /\ i < N
  | ChunkCopy o from to n => o < k /\ from + n <= N /\ to + n <= N
  | ChunkCopyTo o o' from to n | RingCopyTo o o' from to n => o < k /\ o' < k /\ o <> o' /\ from + n <= N /\ to + n <= N
  | SliceRead o a n | SliceWrite o a n => o < k /\ a + n <= N
  | ArrayPush o len => o < k /\ len < N
  | ArrayPop o len => o < k /\ 0 < len <= N
  | ArrayInsert o len i => o < k /\ i <= len < N
  | ArrayRemove o len i => o < k /\ i < len <= N
  | ArraySplitOff o o' len i => o < k /\ o' < k /\ o <> o' /\ i <= len <= N
  | ArrayRead o len | ArrayWrite o len | ArrayClear o len => o < k /\ len <= N
  | ChunkFromArray o o' len => o < k /\ o' < k /\ o <> o' /\ len <= N
  end.
(** The places whose contents a call reads and writes (place 0 of an object: its length or bounds; place [1 + i]: slot [i]);
    writing a [SparseChunk]'s slot may be [mem::replace], which reads it too. *)
Definition header (o : nat) (l : place) : Prop := fst l = o /\ snd l = 0.
Definition elements (o a n : nat) (l : place) : Prop := fst l = o /\ a < snd l <= a + n.
Definition call_reads (c : call) (l : place) : Prop :=
  match c with
  | Fields o | ArrayLen o | ArrayPush o _ | SliceWrite o _ _ | ArrayWrite o _ | ArrayClear o _ => header o l
  | SetFields _ | ChunkWrite _ _ | RingWrite _ _ | RingGetMut _ _ => False
  | ChunkRead o i | RingRead o i | RingGet o i | SparseRead o i | SparseWrite o i => elements o i 1 l
  | ChunkCopy o from _ n | ChunkCopyTo o _ from _ n | RingCopyTo o _ from _ n => elements o from n l
  | SliceRead o a n => header o l \/ elements o a n l
  | ArrayPop o len => header o l \/ elements o (len - 1) 1 l
  | ArrayInsert o len i => header o l \/ elements o i (len - i) l
  | ArrayRemove o len i => header o l \/ elements o i (len - i) l
  | ArraySplitOff o o' len i => header o l \/ header o' l \/ elements o i (len - i) l
  | ArrayRead o len | ChunkFromArray o _ len => header o l \/ elements o 0 len l
  end.
Definition call_writes (c : call) (l : place) : Prop :=
  match c with
  | Fields _ | ArrayLen _ | ChunkRead _ _ | SliceRead _ _ _ | RingRead _ _ | RingGet _ _ | ArrayRead _ _ | SparseRead _ _ => False
  | SetFields o | ArrayPop o _ => header o l
  | ChunkWrite o i | RingWrite o i | RingGetMut o i | SparseWrite o i => elements o i 1 l
  | ChunkCopy o _ to n => elements o to n l
  | ChunkCopyTo _ o' _ to n | RingCopyTo _ o' _ to n => elements o' to n l
  | SliceWrite o a n => elements o a n l
  | ArrayPush o len => header o l \/ elements o len 1 l
  | ArrayInsert o len i => header o l \/ elements o i (len - i + 1) l
  | ArrayRemove o len i => header o l \/ elements o i (len - 1 - i) l
  | ArraySplitOff o o' len i => header o l \/ header o' l \/ elements o' 0 (len - i) l
  | ArrayWrite o len => elements o 0 len l
  | ArrayClear o len => header o l \/ elements o 0 len l
  | ChunkFromArray o o' len => header o l \/ header o' l \/ elements o' 0 len l
  end.
(** The calls that move elements inside one object by a pointer made before another [&mut] to it. *)
Definition stale (c : call) : Prop :=
  match c with ChunkCopy _ _ _ n => 0 < n | ArrayRemove _ len i => i + 1 < len | _ => False end.
(** Called on a chunk whose elements lie in the slots [l .. r): does the method move elements inside the chunk? *)
Definition moves (N l r : nat) (op : chunk_op) : Prop :=
  match op with
  | CPushFront => l = 0 /\ 0 < r < N
  | CPushBack => r = N /\ 0 < l < r
  | CInsert i => if (r =? N) || ((0 <? l) && (i <? r - l - i)) then 0 < i else i < r - l
  | CRemove i => 0 < i /\ i + 1 < r - l
  | _ => False
  end.

(** ** Clients of mutable iterators *)
(** The items among [ys]. *)
Fixpoint somes (ys : list (option nat)) : list nat :=
  match ys with [] => [] | Some i :: ys' => i :: somes ys' | None :: ys' => somes ys' end.
(** How many references the client has got after [script]. *)
Fixpoint nexts (script : list iact) : nat :=
  match script with [] => 0 | Next :: script' => S (nexts script') | Touch _ _ :: script' => nexts script' end.
Definition got (script : list iact) (ys : list (option nat)) : nat := length (somes (take (nexts script) ys)).
(** A reference is written through, the iterator yields another item, the reference is written through again. *)
Definition later_write (j : nat) (script : list iact) : Prop := exists s3 s4, script = s3 ++ Touch true j :: s4.
Definition write_after_next (j : nat) (script : list iact) (ys : list (option nat)) : Prop :=
  exists s2 s3 s4, script = s2 ++ Next :: s3 ++ Touch true j :: s4 /\ got s2 ys < got (s2 ++ [Next]) ys.
Definition rewritten (n : nat) (script : list iact) (ys : list (option nat)) : Prop :=
  exists s1 j rest, script = s1 ++ Touch true j :: rest /\ j < n + got s1 ys /\ write_after_next j rest (drop (nexts s1) ys).

(** ** Clients of [split_at] *)
(** One half is written through, later the other one is used. *)
Definition conflict (us : list use) : Prop :=
  exists us1 u us2 u' us3, us = us1 ++ u :: us2 ++ u' :: us3 /\ writes_ u = true /\ right_half u' <> right_half u.
