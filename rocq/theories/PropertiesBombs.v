(** * Programs over values whose destructors may panic.

    [bomb e a]: the destructor of [a] panics; [e] is arbitrary.  A program is a list of calls on any number of containers,
    each of which may panic, be caught, and be followed by further calls (Program.v, BombProgram.v); [runx] runs the
    code: [Finished] (containers, log, observed results), [Aborted] (a destructor panicked during unwinding, so
    Rust aborts the process), [Broken] (undefined behaviour or non-termination).  [brun] is the specification, on
    lists (or arrays of options): [BFinished] containers, dropped, leaked, observed results, values handed over. *)
From Verif Require Import Machine Spec Prims ChunkExamples Program ChunkProgram Bombs BombProgram ChunkBombs RingBombs SparseBombs InlineBombs.
From Verif Require ChunkProofs RingProofs RingProgram SparseProofs SparseProgram InlineModel InlineSpec InlineProofs2 InlineProgram PropertiesInline.

(** C56.  The one thing a client must not do is to let [clear], [drop_left], [drop_right] drop such a value ([spares];
    C14 shows what happens otherwise). *)
Theorem C56_chunk_panicking_destructors :
  forall (A : Type) (e : env A) (N : nat) (p : list (cmd (chunk_op0 A) (chunk_op1 A) (chunk_opn A) (chunk_op2 A))),
  N + N < word e ->
  ball_legal (chunk_spec e N) (chunk_bspec e N) p [] -> spares (chunk_bspec e N) (chunk_discards e) p [] ->
  match brun (chunk_bspec e N) p [] with
  | BFinished Y d k evs gv => exists X g, runx (chunk_kit e N) p [] log0 = Finished X g evs /\
      Forall2 (orel (ChunkProofs.Holds N)) X Y /\ dropped g = d /\ Permutation (leaked g) k /\
      Permutation gv (live (chunk_spec e N) Y ++ returned (chunk_spec e N) evs ++ dropped g ++ leaked g)
  | BAborted => runx (chunk_kit e N) p [] log0 = Aborted
  | BUnknown => False
  end.
Proof. intros A e N p HW. exact (chunk_bomb_safe e N HW p). Qed.
Print Assumptions C56_chunk_panicking_destructors.
(** 13 is a bomb.  A push into a full chunk that panics normally (dropping 9); a chunk with one bomb destroyed: all its elements
    are dropped, the panic gets out; later an iterator panics in [from_iter] after yielding the bomb: abort. *)
Example C56_example :
  let p := [Make CNew; Call 0 (CPushBack 13); Call 0 (CPushFront 5); Call 0 (CPushBack 9); Call 0 (CSet 1 6);
            Call 0 (CPushBack 13); Call 0 CPopFront; Call 0 (CPushBack 13); Kill 0] in
  ball_legal (chunk_spec bombed 2) (chunk_bspec bombed 2) p [] /\ spares (chunk_bspec bombed 2) (chunk_discards bombed) p [] /\
  runx (chunk_kit bombed 2) (firstn 6 p) [] log0 = Aborted /\
  match runx (chunk_kit bombed 2) (firstn 5 p ++ [Call 0 CPopFront; Call 0 (CPushBack 13); Kill 0]) [] log0 with
  | Finished X g evs => X = [None] /\ dropped g = [9; 6; 13] /\
      evs = [Done; Returned RUnit; Returned RUnit; Panicked; Returned (RVal 13); Returned (RVal 5); Returned RUnit; Panicked]
  | _ => False
  end.
Proof. vm_compute. tauto. Qed.

(** C57.  The same for ring buffers; [buffer[i] = v] stores [v] also when the destructor of the old value panics; when a
    buffer is destroyed the elements behind the first panicking one are leaked. *)
Theorem C57_ring_panicking_destructors :
  forall (A : Type) (e : env A) (N : nat)
    (p : list (cmd (RingProgram.ring_op0 A) (RingProgram.ring_op1 A) (RingProgram.ring_opn A) (RingProgram.ring_op2 A))),
  N + N < word e -> 0 < N ->
  ball_legal (RingProgram.ring_spec e N) (ring_bspec e N) p [] -> spares (ring_bspec e N) (ring_discards e) p [] ->
  match brun (ring_bspec e N) p [] with
  | BFinished Y d k evs gv => exists X g, runx (RingProgram.ring_kit e N) p [] log0 = Finished X g evs /\
      Forall2 (orel (RingProofs.RHolds N)) X Y /\ dropped g = d /\ Permutation (leaked g) k /\
      Permutation gv (live (RingProgram.ring_spec e N) Y ++ returned (RingProgram.ring_spec e N) evs ++ dropped g ++ leaked g)
  | BAborted => runx (RingProgram.ring_kit e N) p [] log0 = Aborted
  | BUnknown => False
  end.
Proof. intros A e N p HW HN. exact (ring_bomb_safe e N HW HN p). Qed.
Print Assumptions C57_ring_panicking_destructors.
Example C57_example :
  let p := [Make (RingProgram.BFromIter [Yield 1; Yield 13; Yield 3]); Call 0 (RingProgram.BAssign 1 7);
            Call 0 (RingProgram.BPushFront 13); Spawn 0 (RingProgram.BSplitOff 2); Call 0 RingProgram.BContents; Kill 0; Kill 1] in
  ball_legal (RingProgram.ring_spec bombed 4) (ring_bspec bombed 4) p [] /\ spares (ring_bspec bombed 4) (ring_discards bombed) p [] /\
  match runx (RingProgram.ring_kit bombed 4) p [] log0 with
  | Finished X g evs => X = [None; None] /\ dropped g = [13; 13; 7; 3] /\ leaked g = [1] /\
      evs = [Done; Panicked; Returned RUnit; Done; Returned (RRefs [13; 1]); Panicked; Done]
  | _ => False
  end.
Proof. vm_compute. intuition (try lia; try (match goal with H : exists _, _ |- _ => destruct H as (? & ? & ?) end); try discriminate; auto). Qed.

(** C58.  Sparse chunks: nothing at all is asked of the client. *)
Theorem C58_sparse_panicking_destructors :
  forall (A : Type) (e : env A) (N : nat)
    (p : list (cmd (SparseProgram.sp_op0 A) (SparseProgram.sp_op1 A) (SparseProgram.sp_opn A) (SparseProgram.sp_op2 A))),
  N < word e ->
  match brun (sparse_bspec e N) p [] with
  | BFinished Y d k evs gv => exists X g, runx (SparseProgram.sparse_kit e N) p [] log0 = Finished X g evs /\
      Forall2 (orel (SparseProofs.SHolds N)) X Y /\ dropped g = d /\ Permutation (leaked g) k /\
      Permutation gv (live (SparseProgram.array_spec N) Y ++ returned (SparseProgram.array_spec N) evs ++ dropped g ++ leaked g)
  | BAborted => runx (SparseProgram.sparse_kit e N) p [] log0 = Aborted
  | BUnknown => False
  end.
Proof. intros A e N p HW. exact (sparse_bomb_program e N HW p). Qed.
Print Assumptions C58_sparse_panicking_destructors.
Example C58_example :
  match runx (SparseProgram.sparse_kit bombed 4)
    [Make (SparseProgram.PPair 2 13 2 5); Make (SparseProgram.PPair 0 13 2 5); Call 1 (SparseProgram.PInsert 3 13);
     Call 1 (SparseProgram.PIterMutAssign (fun k => 20 + k)); Call 1 (SparseProgram.PAssign 3 8); Call 1 (SparseProgram.PAssign 1 9);
     Call 1 (SparseProgram.PInsert 1 13); Call 1 SparseProgram.PIndices; Kill 1] [] log0 with
  | Finished X g evs => X = [None; None] /\ dropped g = [13; 5; 13; 13; 9; 20; 13] /\ leaked g = [5; 8] /\
      evs = [Panicked; Done; Returned (SparseProgram.POpt None); Panicked; Panicked; Panicked; Returned (SparseProgram.POpt None);
             Returned (SparseProgram.PNats [0; 1; 2; 3]); Panicked]
  | _ => False
  end.
Proof. vm_compute. auto. Qed.

(** C59.  Inline arrays: the client must not [clear] an array with such a value (C47). *)
Theorem C59_inline_panicking_destructors :
  forall (A : Type) (e : env A) (L : InlineModel.layout)
    (p : list (cmd (InlineProgram.ia_op0 A) (InlineProgram.ia_op1 A) (InlineProgram.ia_opn A) (InlineProgram.ia_op2 A))),
  InlineSpec.wf_layout e L -> InlineSpec.host_ok e L ->
  let cap := InlineModel.capacity e L in
  ball_legal (InlineProgram.ia_spec cap) (ia_bspec e cap) p [] -> spares (ia_bspec e cap) (ia_discards e) p [] ->
  match brun (ia_bspec e cap) p [] with
  | BFinished Y d k evs gv => exists X g, runx (InlineProgram.ia_kit e L) p [] log0 = Finished X g evs /\
      Forall2 (orel (InlineProgram.LHolds e L)) X Y /\ dropped g = d /\ Permutation (leaked g) k /\
      Permutation gv (live (InlineProgram.ia_spec cap) Y ++ returned (InlineProgram.ia_spec cap) evs ++ dropped g ++ leaked g)
  | BAborted => runx (InlineProgram.ia_kit e L) p [] log0 = Aborted
  | BUnknown => False
  end.
Proof. intros A e L p WF HOST. exact (ia_bomb_safe e L WF HOST p). Qed.
Print Assumptions C59_inline_panicking_destructors.
(** A 16-aligned element type behind a header at the end of the host ([capacity] 3); the arrays move in memory. *)
Example C59_example :
  let p := [Make (InlineProgram.INew 3); Call 0 (InlineProgram.IExtend [Yield 1; Yield 13; Yield 3; Yield 4]);
            Call 0 (InlineProgram.IAssign 1 7); Call 0 (InlineProgram.IMove 5);
            Spawn 0 (InlineProgram.IClone 8 (fun _ a => Some (if a =? 7 then 13 else a + 20)));
            Kill 1; Call 0 InlineProgram.IAsSlice; Kill 0] in
  InlineSpec.wf_layout bombed PropertiesInline.ex_last /\ InlineSpec.host_ok bombed PropertiesInline.ex_last /\ InlineModel.capacity bombed PropertiesInline.ex_last = 3 /\
  ball_legal (InlineProgram.ia_spec 3) (ia_bspec bombed 3) p [] /\ spares (ia_bspec bombed 3) (ia_discards bombed) p [] /\
  match runx (InlineProgram.ia_kit bombed PropertiesInline.ex_last) p [] log0 with
  | Finished X g evs => X = [None; None] /\ dropped g = [4; 13; 21; 13; 23; 1; 7; 3] /\ leaked g = [] /\
      evs = [Done; Panicked; Panicked; Returned RUnit; Done; Panicked; Returned (RRefs [1; 7; 3]); Done]
  | _ => False
  end.
Proof.
  split; [apply PropertiesInline.ex_last_wf; reflexivity|]. split; [split; [vm_compute; lia|intros H; discriminate H]|]. split; [reflexivity|].
  split; [vm_compute; tauto|]. split; [vm_compute; tauto|]. vm_compute. auto.
Qed.
