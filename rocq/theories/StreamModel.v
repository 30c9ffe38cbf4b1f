(** * The containers as byte streams: programs of [std::io::Write] and [std::io::Read] calls on one [Chunk<u8, N>]
    (sized_chunk/mod.rs 782-807) or [RingBuffer<u8, N>] (ring_buffer/mod.rs 907-937), including the provided methods of the two
    traits the crate does not override.  Bytes are numbers. *)
From Verif Require Import Machine.

(** What a client calls.  [ReadToEnd size]: the standard library chooses the sizes of the buffers it reads into;
    [S (size k)] is the size of the [k]-th. *)
Inductive io_op :=
| Write (buf : list nat) | WriteAll (buf : list nat) | Flush
| Read (buf : list nat) | ReadExact (buf : list nat) | ReadToEnd (size : nat -> nat).
(** What it gets: [Wrote n] is [Ok(n)] of [write]; [Filled n buf] is [Ok(n)] of [read] with what the client's buffer then
    contains; [Exact ok buf] is [read_exact] ([ok = false]: [UnexpectedEof]); [All ok] is [write_all] ([ok = false]:
    [WriteZero]); [Rest bytes] is what [read_to_end] appended.  [Panicked]: the call panicked and the client caught it. *)
Inductive io_result :=
| Wrote (n : nat) | All (ok : bool) | Flushed
| Filled (n : nat) (buf : list nat) | Exact (ok : bool) (buf : list nat) | Rest (bytes : list nat) | Panicked.

Section stream.
Context {O : Type} (write : list nat -> M nat O nat) (read : list nat -> M nat O (list nat * nat)).
(** std [Write::write_all]:
    [while !buf.is_empty() { match self.write(buf)? { 0 => return Err(WriteZero), n => buf = &buf[n..] } }].
    ([Interrupted] errors are never returned here.)  Slicing beyond the end panics. *)
Fixpoint write_all (fuel : nat) (buf : list nat) : M nat O bool :=
  match buf with
  | [] => ret true
  | _ =>
      match fuel with
      | 0 => hang
      | S fuel' =>
          let! n := write buf in
          if n =? 0 then ret false
          else if length buf <? n then panic else write_all fuel' (drop n buf)
      end
  end.
(** std [Read::read_exact]:
    [while !buf.is_empty() { match self.read(buf)? { 0 => break, n => buf = &mut buf[n..] } }
     if !buf.is_empty() { Err(UnexpectedEof) } else { Ok(()) }]; with the contents of the whole buffer afterwards. *)
Fixpoint read_exact (fuel : nat) (buf : list nat) : M nat O (bool * list nat) :=
  match buf with
  | [] => ret (true, [])
  | _ =>
      match fuel with
      | 0 => hang
      | S fuel' =>
          let! x := read buf in
          let '(buf', n) := x in
          if n =? 0 then ret (false, buf')
          else if length buf' <? n then panic else
            let! y := read_exact fuel' (drop n buf') in
            ret (fst y, take n buf' ++ snd y)
      end
  end.
(** std [Read::read_to_end]: reads into the spare capacity of a vector, some buffer of its choice at a time, until a read
    into a non-empty buffer returns 0. *)
Fixpoint read_to_end (fuel k : nat) (size : nat -> nat) : M nat O (list nat) :=
  match fuel with
  | 0 => hang
  | S fuel' =>
      let! x := read (repeat 0 (S (size k))) in
      let '(buf, n) := x in
      if n =? 0 then ret []
      else
        let! rest := read_to_end fuel' (S k) size in
        ret (take n buf ++ rest)
  end.
(** One call; [fuel] bounds the loop of [read_to_end]. *)
Definition io_call (fuel : nat) (op : io_op) : M nat O io_result :=
  match op with
  | Write buf => let! n := write buf in ret (Wrote n)
  | WriteAll buf => let! ok := write_all (S (length buf)) buf in ret (All ok)
  | Flush => ret Flushed
  | Read buf => let! x := read buf in ret (Filled (snd x) (fst x))
  | ReadExact buf => let! x := read_exact (S (length buf)) buf in ret (Exact (fst x) (snd x))
  | ReadToEnd size => let! bytes := read_to_end fuel 0 size in ret (Rest bytes)
  end.
(** A program: panics are caught ([catch_unwind]) and the container is used further. *)
Definition io_try (fuel : nat) (op : io_op) : M nat O io_result := fun o g =>
  match io_call fuel op o g with Panic o' g' => Ret o' g' Panicked | x => x end.
Fixpoint io_run (fuel : nat) (ops : list io_op) : M nat O (list io_result) :=
  match ops with
  | [] => ret []
  | op :: ops' =>
      let! r := io_try fuel op in
      let! rs := io_run fuel ops' in
      ret (r :: rs)
  end.
End stream.
