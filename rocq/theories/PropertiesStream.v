(** * [Chunk<u8, N>] and [RingBuffer<u8, N>] as byte streams. *)
From Verif Require Import Machine Spec Prims ChunkExamples ChunkModel ChunkProofs ChunkProofs4 RingModel RingProofs RingProofs5
  StreamModel StreamSpec StreamProofs.

(** C75.  Any program of [write], [write_all], [flush], [read], [read_exact] and [read_to_end] calls on a chunk terminates
    without panicking, and every call does what it does on a queue of at most [N] bytes (StreamSpec.v). *)
Theorem C75_chunk_stream :
  forall (e : env nat) (N fuel : nat) (ops : list io_op) (c : chunk nat) (l : list nat) (g : log nat),
  N + N < word e -> calm e -> Holds N c l -> N < fuel ->
  exists c' g' rs l', io_run (io_write e N) (io_read e N) fuel ops c g = Ret c' g' rs /\
    queue_run N False l ops rs l' /\ Holds N c' l' /\ dropped g' = dropped g /\ leaked g' = leaked g.
Proof.
  intros e N fuel ops c l g HW Hc H Hf.
  destruct (io_run_ok (io_write e N) (io_read e N) N False (Holds N)) with (fuel := fuel) (ops := ops) (o := c) (l := l) (g := g)
    as (c' & g' & rs & l' & E & Q & H' & D & L); try assumption.
  - intros o q Ho. exact (holds_length e N HW o q Ho).
  - intros o q g0 buf Ho. left. exact (io_write_ok e N HW Hc o q g0 buf Ho).
  - intros o q g0 buf Ho. exact (io_read_ok e N HW o q g0 buf Ho).
  - exists c', g', rs, l'. auto.
Qed.
Print Assumptions C75_chunk_stream.
(** The same of a ring buffer in release builds; in debug builds a [write] or [write_all] of at least one byte into a buffer
    with room may panic (C34) - it has then written nothing, and the buffer is usable. *)
Theorem C75_ring_stream :
  forall (e : env nat) (N fuel : nat) (ops : list io_op) (r : ring nat) (l : list nat) (g : log nat),
  N + N < word e -> RHolds N r l -> N < fuel ->
  exists r' g' rs l', io_run (rb_io_write e N) (rb_io_read e N) fuel ops r g = Ret r' g' rs /\
    queue_run N (debug e = true) l ops rs l' /\ RHolds N r' l' /\ dropped g' = dropped g /\ leaked g' = leaked g.
Proof.
  intros e N fuel ops r l g HW H Hf. assert (HN : 0 < N) by (destruct H as (? & _); lia).
  destruct (io_run_ok (rb_io_write e N) (rb_io_read e N) N (debug e = true) (RHolds N))
    with (fuel := fuel) (ops := ops) (o := r) (l := l) (g := g)
    as (c' & g' & rs & l' & E & Q & H' & D & L); try assumption.
  - intros o q (_ & _ & Ho & _). exact Ho.
  - intros o q g0 buf Ho. destruct (debug e) eqn:Ed.
    + destruct (room N o buf) eqn:Er.
      * left. exact (rb_io_write_ok e N HW HN o q g0 buf Ho (or_intror Er)).
      * right. split; [reflexivity|]. split; [|exact (rb_io_write_wrap e N HW HN o q g0 buf Ho Ed Er)].
        unfold room in Er. destruct Ho as (Ho & Hl & Hc & _). rewrite Hl in Er.
        assert (wr N (origin o + length q) < N) by (apply wr_lt; lia). lia.
    + left. exact (rb_io_write_ok e N HW HN o q g0 buf Ho (or_introl Ed)).
  - intros o q g0 buf Ho. exact (rb_io_read_ok e N HW HN o q g0 buf Ho).
  - exists c', g', rs, l'. auto.
Qed.
Print Assumptions C75_ring_stream.
(** So, whatever the calls and their results: the bytes that were there, followed by those the calls accepted, are the
    bytes the calls delivered, followed by those that are left - none lost, invented or out of order - and without panics
    the results say which they are, except how much of a failed [write_all] was taken and of a failed [read_exact] was
    delivered. *)
Theorem C75_no_byte_lost :
  forall (N : nat) (panics : Prop) (ops : list io_op) (rs : list io_result) (l l' : list nat),
  queue_run N panics l ops rs l' -> length l <= N ->
  (exists ins outs, Forall3 accepted ops rs ins /\ Forall3 delivered ops rs outs /\
     l ++ concat ins = concat outs ++ l' /\ length l' <= N) /\
  (~ panics -> ~ In Panicked rs).
Proof.
  intros N panics ops rs l l' Q Hl. split; [exact (queue_run_conserves N panics l ops rs l' Q Hl)|].
  intros HP. apply (queue_run_no_panic N l ops rs l'). clear Hl.
  induction Q; [constructor|econstructor; eassumption|contradiction].
Qed.
Print Assumptions C75_no_byte_lost.

Definition ex_ops : list io_op :=
  [WriteAll [8; 9; 10]; Read [0; 0]; WriteAll [11; 12; 13]; ReadExact [0; 0; 0]; ReadExact [7; 7; 7]; Write [1; 2]; ReadToEnd (fun _ => 0)].
Example C75_example :
  match io_run (io_write dbg 4) (io_read dbg 4) 5 ex_ops (Chunk 0 0 mem0) log0 with
  | Ret _ _ rs => rs = [All true; Filled 2 [8; 9]; All true; Exact true [10; 11; 12]; Exact false [13; 7; 7]; Wrote 2; Rest [1; 2]]
  | _ => False end /\
  match io_run (rb_io_write rel 4) (rb_io_read rel 4) 5 ex_ops ring0 log0 with
  | Ret _ _ rs => rs = [All true; Filled 2 [8; 9]; All true; Exact true [10; 11; 12]; Exact false [13; 7; 7]; Wrote 2; Rest [1; 2]]
  | _ => False end /\
  match io_run (rb_io_write dbg 4) (rb_io_read dbg 4) 5 ex_ops ring0 log0 with
  | Ret _ _ rs => rs = [All true; Filled 2 [8; 9]; Panicked; Exact false [10; 0; 0]; Exact false [7; 7; 7]; Panicked; Rest []]
  | _ => False end /\
  Holds (A:=nat) 4 (Chunk 0 0 mem0) [] /\ RHolds 4 (@ring0 nat) [].
Proof.
  split; [vm_compute; reflexivity|]. split; [vm_compute; reflexivity|]. split; [vm_compute; reflexivity|].
  split.
  - split; [reflexivity|]. split; [cbn; lia|]. intros p. cbn [left cdata]. rewrite lookup_nil. destruct (0 <=? p); reflexivity.
  - split; [cbn; lia|]. split; [reflexivity|]. split; [cbn; lia|]. intros p. rewrite lookup_nil. destruct (p <? 4); reflexivity.
Qed.
