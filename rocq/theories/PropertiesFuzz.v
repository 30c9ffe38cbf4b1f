(** * The project's own fuzz targets never fail. *)
From Verif Require Import Machine ChunkModel RingModel SparseModel InlineModel InlineSpec ChunkLaws ChunkExamples PropertiesInline FuzzModel FuzzSpec
  FuzzProofs FuzzProofs2 FuzzProofs3.

(** C73.  Whatever input the fuzzer generates, the target ends normally: every call that it expects to return returns, every
    call that it expects to panic panics, every assertion holds, and there is no undefined behaviour, in debug and in release
    builds.  The targets use the capacity 64; it holds for every capacity from 2 (pair constructors) to half the address
    space. *)
Theorem C73_fuzz_sized_chunk :
  forall (e : env nat) (N : nat) (bs : list nat -> nat -> option nat) (input : construct * list (action construct)),
  calm e -> 2 <= N -> N + N < word e -> search_in_range bs ->
  List.Forall (action_fits e (construct_fits e)) (snd input) ->
  succeeds (fuzz_sized_chunk e N bs input).
Proof. intros. apply fuzz_sized_chunk_ok; assumption. Qed.
Print Assumptions C73_fuzz_sized_chunk.
(** [RingBuffer::insert_ordered] uses the binary search of the crate array-ops ([bs]); that of the guide is the one of [Vec] ([vbs]).  They
    may return different positions among equal values. *)
Theorem C73_fuzz_ring_buffer :
  forall (e : env nat) (N : nat) (bs vbs : list nat -> nat -> option nat) (input : ring_construct * list (action ring_construct)),
  calm e -> 2 <= N -> N + N < word e -> search_ok le bs -> search_ok le vbs ->
  List.Forall (action_fits e (ring_construct_fits e)) (snd input) ->
  succeeds (fuzz_ring_buffer e N bs vbs input).
Proof. intros. apply fuzz_ring_buffer_ok; assumption. Qed.
Print Assumptions C73_fuzz_ring_buffer.
Theorem C73_fuzz_sparse_chunk :
  forall (e : env nat) (N : nat) (input : sp_construct * list sp_action),
  calm e -> 0 < N -> N < word e -> succeeds (fuzz_sparse_chunk e N input).
Proof. intros. apply fuzz_sparse_chunk_ok; assumption. Qed.
Print Assumptions C73_fuzz_sparse_chunk.
(** For every host type for which [new] does not panic and every layout the compiler may choose. *)
Theorem C73_fuzz_inline_array :
  forall (e : env nat) (L : layout) (b b2 : nat) (actions : list ia_action),
  calm e -> wf_layout e L -> host_ok e L -> placed L b -> placed L b2 ->
  succeeds (fuzz_inline_array e L b b2 actions).
Proof. intros. apply fuzz_inline_array_ok; assumption. Qed.
Print Assumptions C73_fuzz_inline_array.

(** Inputs that use every constructor and every action. *)
Definition ex_constructs : list construct :=
  [Empty; Single 3; Pair 5 4; DrainFrom [1; 2; 3]; CollectFrom [4; 5; 6; 7] 6; FromFront [1; 2; 3; 4; 5] 7;
   FromBack [1; 2; 3; 4; 5] 8; CollectFrom [] 9].
Definition ex_actions {K} (ks : list K) : list (action K) :=
  [InsertOrdered 2; PushFront 1; PushBack 9; InsertOrdered 5; PopFront; PopBack; Insert 1 7; Insert 60 7; Set_ 0 8; Set_ 70 8;
   InsertFrom [1; 2; 3] 1; InsertFrom (seq 0 62) 1; DropLeft 1; DropLeft 99; DropRight 3; DropRight 99] ++
  map Append ks ++ map (fun k => DrainFromFront k 2) ks ++ map (fun k => DrainFromBack k 1) ks ++
  [SplitOff 4; SplitOff 65; Remove 1; Remove 80; InsertOrdered 3; Drain; PopFront; PopBack; Clear; InsertFrom (seq 0 64) 0; PushBack 1; PushFront 1;
   InsertOrdered 4; Insert 3 3].
Definition ends {X} (m : fz X) : bool := match m log0 with Some _ => true | None => false end.
Lemma linear_in_range : search_in_range (fun l v => Some (length (take_while_le v l))).
Proof.
  intros l v. eexists. split; [reflexivity|]. induction l as [|a l IH]; cbn; [lia|]. destruct (a <=? v); cbn; lia.
Qed.
Example C73_example_chunk :
  let bs l v := Some (length (take_while_le v l)) in
  (search_in_range bs /\ List.Forall (action_fits dbg (construct_fits dbg)) (ex_actions ex_constructs)) /\
  forallb (fun k => ends (fuzz_sized_chunk dbg 64 bs (k, ex_actions ex_constructs))) ex_constructs = true.
Proof.
  intros bs. split; [split; [apply linear_in_range|]|vm_compute; reflexivity].
  repeat constructor; cbn; unfold usize, vec_fits; cbn; lia.
Qed.
Example C73_example_ring :
  let bs l v := Some (length (take_while_le v l)) in
  let ks := FromIter [4; 4; 2] :: map Like ex_constructs in
  (search_ok le bs /\ List.Forall (action_fits dbg (ring_construct_fits dbg)) (ex_actions ks)) /\
  forallb (fun k => ends (fuzz_ring_buffer dbg 64 bs bs (k, ex_actions ks))) ks = true.
Proof.
  intros bs ks. split; [split; [apply linear_search_ok|]|vm_compute; reflexivity].
  repeat constructor; cbn; unfold usize, vec_fits; cbn; lia.
Qed.
Example C73_example_sparse :
  forallb (fun k => ends (fuzz_sparse_chunk dbg 64 (k, [SpPop; SpInsert 3 1; SpInsert 3 2; SpInsert 63 3; SpInsert 64 4; SpRemove 3; SpRemove 3;
      SpRemove 64; SpInsert 7 5; SpPop; SpPop; SpPop; SpInsert 0 0])))
    [SpEmpty; SpSingle 70 2; SpPair 70 2 6 3; SpPair 1 2 63 3] = true.
Proof. vm_compute. reflexivity. Qed.
(** [[usize; 16]] with elements [u32], on a 64-bit machine: 128 bytes, capacity 30. *)
Definition fuzz_layout : layout := Layout 4 4 128 8 8 8 8.
Example C73_example_inline :
  (wf_layout dbg fuzz_layout /\ host_ok dbg fuzz_layout /\ placed fuzz_layout 8 /\ placed fuzz_layout 160) /\
  capacity dbg fuzz_layout = 30 /\
  ends (fuzz_inline_array dbg fuzz_layout 8 160 ([IaPop; IaRemove 0; IaPush 1; IaPush 2; IaInsert 1 3; IaInsert 4 3; IaSet 0 5; IaSet 3 5;
    IaRemove 1; IaRemove 2; IaPop; IaSplitOff 0; IaSplitOff 1] ++ map IaPush (seq 0 31) ++
    [IaInsert 0 0; IaSplitOff 20; IaDrain; IaPush 7; IaClear; IaPush 8])) = true.
Proof.
  split; [|split; [reflexivity|vm_compute; reflexivity]]. split; [|split; [split; cbn; lia|]].
  - split; cbn [align_a align_t align_us align_u64 size_a size_t size_us fuzz_layout]; try lia;
      try (exists 2; reflexivity); try (exists 3; reflexivity); try (exists 1; reflexivity); try (exists 16; reflexivity).
    cbn. lia.
  - split; [exists 1|exists 20]; reflexivity.
Qed.
(** The assertions are not vacuous: a target that compares with the wrong contents, or expects a panic where there is none,
    fails. *)
Example C73_example_fails :
  ends (let* c := chunk_make dbg 64 (Pair 1 2) in chunk_is dbg 64 c [2; 1]) = false /\
  ends (let* c := chunk_make dbg 64 (Pair 1 2) in assert_panic (push_back dbg 64 3) c) = false /\
  ends (let* c := chunk_make dbg 64 Empty in call (pop_front dbg 64) c) = false.
Proof. vm_compute. auto. Qed.
