(** * What the calls of StreamModel.v mean for a queue of at most [N] bytes. *)
From Verif Require Import Machine StreamModel.

(** The queue after the call and what the call returns.  A write takes as much as there is room for; [write_all] fails iff
    not everything fits (the queue is then full); a read takes as much as is there and leaves the rest of the client's
    buffer alone; [read_exact] fails iff there is not enough (the queue is then empty). *)
Definition queue_call (N : nat) (op : io_op) (q : list nat) : list nat * io_result :=
  let room := N - length q in
  match op with
  | Write buf => (q ++ take room buf, Wrote (length (take room buf)))
  | WriteAll buf => (q ++ take room buf, All (length buf <=? room))
  | Flush => (q, Flushed)
  | Read buf => let n := length buf `min` length q in (drop n q, Filled n (take n q ++ drop n buf))
  | ReadExact buf =>
      (drop (length buf) q, Exact (length buf <=? length q) (take (length buf) q ++ drop (length q) buf))
  | ReadToEnd _ => ([], Rest q)
  end.
(** A history of calls, the queue going from [q] to [q'].  When [panics] holds, a call of [write] or [write_all] that has
    something to write and room for some of it may panic instead, leaving the queue as it was. *)
Inductive queue_run (N : nat) (panics : Prop) : list nat -> list io_op -> list io_result -> list nat -> Prop :=
| queue_done q : queue_run N panics q [] [] q
| queue_step q op ops q1 r rs q' : queue_call N op q = (q1, r) -> queue_run N panics q1 ops rs q' ->
    queue_run N panics q (op :: ops) (r :: rs) q'
| queue_panic q op buf ops rs q' : panics -> op = Write buf \/ op = WriteAll buf -> buf <> [] -> length q < N ->
    queue_run N panics q ops rs q' -> queue_run N panics q (op :: ops) (Panicked :: rs) q'.

(** [ins] can be the bytes a call took from the client, and [outs] the bytes it gave: as far as the results tell. *)
Definition accepted (op : io_op) (r : io_result) (ins : list nat) : Prop :=
  match op, r with
  | Write buf, Wrote n => n <= length buf /\ ins = take n buf
  | WriteAll buf, All true => ins = buf
  | WriteAll buf, All false => ins `prefix_of` buf /\ length ins < length buf
  | _, _ => ins = []
  end.
Definition delivered (op : io_op) (r : io_result) (outs : list nat) : Prop :=
  match op, r with
  | Read old, Filled n buf => n <= length old /\ length outs = n /\ buf = outs ++ drop n old
  | ReadExact old, Exact true buf => outs = buf /\ length outs = length old
  | ReadExact old, Exact false buf => length outs < length old /\ buf = outs ++ drop (length outs) old
  | ReadToEnd _, Rest bytes => outs = bytes
  | _, _ => outs = []
  end.
