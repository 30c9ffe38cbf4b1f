(** * Layout independence, endless iterators, and exchanging containers. *)
From Verif Require Import Machine Spec Prims Program ChunkModel ChunkProofs ChunkProgram ChunkExamples
  RingModel RingProofs RingProgram RingLaws SparseModel SparseSpec SparseProofs SparseProgram
  InlineModel InlineSpec InlineProofs2 InlineProgram Portable Endless Interchange ChunkCost Capacity SparseCapacity.
From Verif Require PropertiesInline.

(** C60.  How a container behaves depends on its contents only: not on where they are in the buffer (and so not on the
    history of the container), not on the build profile, not on the word size.  [alike]: same events, same values
    dropped in the same order, same values leaked, same contents at the end. *)
Theorem C60_chunk_behaviour_depends_on_contents :
  forall (A : Type) (e1 e2 : env A) (N : nat) (p : list (cmd (chunk_op0 A) (chunk_op1 A) (chunk_opn A) (chunk_op2 A)))
    (X1 X2 : list (option (chunk A))) (L : list (option (list A))) (g1 g2 : log A),
  calm e1 -> calm e2 -> N + N < word e1 -> N + N < word e2 ->
  Forall2 (orel (Holds N)) X1 L -> Forall2 (orel (Holds N)) X2 L ->
  all_legal (chunk_spec e1 N) p L -> all_legal (chunk_spec e2 N) p L ->
  alike (Holds N) (Holds N) g1 g2 (run (chunk_kit e1 N) p X1 g1) (run (chunk_kit e2 N) p X2 g2).
Proof. intros A e1 e2 N p X1 X2 L g1 g2 H1 H2. exact (chunk_alike e1 e2 N H1 H2 p X1 X2 L g1 g2). Qed.
Print Assumptions C60_chunk_behaviour_depends_on_contents.
(** The same contents at two places of the buffer. *)
Definition ex_chunk_left : chunk nat :=
  match (push_back dbg 4 3 ;;; push_back dbg 4 1 ;;; push_back dbg 4 2) new log0 with
  | Ret c _ _ => c | _ => new end.
Lemma ex_chunk_left_holds : Holds 4 ex_chunk_left [3; 1; 2].
Proof.
  assert (left ex_chunk_left = 0 /\ right ex_chunk_left = 3) as [H1 H2] by (split; vm_compute; reflexivity).
  unfold Holds. rewrite H1, H2. split; [reflexivity|]. split; [lia|].
  intros [|[|[|[|q]]]]; try (vm_compute; reflexivity).
Qed.
Example C60_chunk_example :
  let p := [Call 0 (CInsert 1 7); Call 0 (CPushFront 8); Call 0 (CRemove 1); Spawn 0 (CSplitOff 2); Call 1 CClear; Call 0 CAsSlice] in
  left ex_chunk = 1 /\ left ex_chunk_left = 0 /\ Holds 4 ex_chunk [3; 1; 2] /\ Holds 4 ex_chunk_left [3; 1; 2] /\
  all_legal (chunk_spec dbg 4) p [Some [3; 1; 2]] /\ all_legal (chunk_spec rel 4) p [Some [3; 1; 2]] /\
  match run (chunk_kit dbg 4) p [Some ex_chunk] log0, run (chunk_kit rel 4) p [Some ex_chunk_left] log0 with
  | Some (_, g, evs), Some (_, g', evs') => evs = evs' /\ dropped g = [8; 2] /\ dropped g' = [8; 2] /\
      evs = [Returned RUnit; Panicked; Returned (RVal 7); Done; Returned RUnit; Returned (RRefs [3; 1])]
  | _, _ => False
  end.
Proof.
  split; [vm_compute; reflexivity|]. split; [vm_compute; reflexivity|].
  split; [exact ex_chunk_holds|]. split; [exact ex_chunk_left_holds|]. split; [vm_compute; tauto|]. split; [vm_compute; tauto|].
  vm_compute. auto.
Qed.
Theorem C60_ring_behaviour_depends_on_contents :
  forall (A : Type) (e1 e2 : env A) (N : nat) (p : list (cmd (ring_op0 A) (ring_op1 A) (ring_opn A) (ring_op2 A)))
    (X1 X2 : list (option (ring A))) (L : list (option (list A))) (g1 g2 : log A),
  calm e1 -> calm e2 -> N + N < word e1 -> N + N < word e2 -> 0 < N ->
  Forall2 (orel (RHolds N)) X1 L -> Forall2 (orel (RHolds N)) X2 L ->
  all_legal (ring_spec e1 N) p L -> all_legal (ring_spec e2 N) p L ->
  alike (RHolds N) (RHolds N) g1 g2 (run (ring_kit e1 N) p X1 g1) (run (ring_kit e2 N) p X2 g2).
Proof. intros A e1 e2 N p X1 X2 L g1 g2 H1 H2. exact (ring_alike e1 e2 N H1 H2 p X1 X2 L g1 g2). Qed.
Print Assumptions C60_ring_behaviour_depends_on_contents.
(** The same contents, wrapped around the end of the buffer or not. *)
Example C60_ring_example :
  let p := [Call 0 (BInsert 1 7); Call 0 (BPushFront 8); Call 0 (BRemove 1); Spawn 0 (BSplitOff 2); Call 1 BClear; Call 0 BContents] in
  match rb_from_iter dbg 4 [Yield 3; Yield 1; Yield 2] tt log0 with
  | Ret _ g0 (r, _) =>
      origin ex_ring = 3 /\ origin r = 0 /\
      match run (ring_kit dbg 4) p [Some ex_ring] log0, run (ring_kit rel 4) p [Some r] log0 with
      | Some (_, g, evs), Some (_, g', evs') => evs = evs' /\ dropped g = [8; 2] /\ dropped g' = [8; 2] /\
          evs = [Returned RUnit; Panicked; Returned (RVal 7); Done; Returned RUnit; Returned (RRefs [3; 1])]
      | _, _ => False
      end
  | _ => False
  end.
Proof. vm_compute. auto 10. Qed.
Theorem C60_sparse_behaviour_depends_on_contents :
  forall (A : Type) (e1 e2 : env A) (N : nat) (p : list (cmd (sp_op0 A) (sp_op1 A) (sp_opn A) (sp_op2 A)))
    (X1 X2 : list (option (sparse A))) (L : list (option (list (option A)))) (g1 g2 : log A),
  calm e1 -> calm e2 -> N < word e1 -> N < word e2 ->
  Forall2 (orel (SHolds N)) X1 L -> Forall2 (orel (SHolds N)) X2 L ->
  alike (SHolds N) (SHolds N) g1 g2 (run (sparse_kit e1 N) p X1 g1) (run (sparse_kit e2 N) p X2 g2).
Proof. intros A e1 e2 N p X1 X2 L g1 g2 H1 H2. exact (sparse_alike e1 e2 N H1 H2 p X1 X2 L g1 g2). Qed.
Print Assumptions C60_sparse_behaviour_depends_on_contents.
(** For [InlineArray] also not on the host type and the header's place in it, as long as the capacity is the same, nor on
    the addresses of the arrays: [relocate f] is the same program with array [q] at place [f q]. *)
Theorem C60_inline_behaviour_depends_on_contents :
  forall (A : Type) (e1 e2 : env A) (L1 L2 : layout) (f : nat -> nat)
    (p : list (cmd (ia_op0 A) (ia_op1 A) (ia_opn A) (ia_op2 A)))
    (X1 X2 : list (option (nat * inline A))) (L : list (option (list A))) (g1 g2 : log A),
  calm e1 -> calm e2 -> wf_layout e1 L1 -> wf_layout e2 L2 -> host_ok e1 L1 -> host_ok e2 L2 ->
  capacity e1 L1 = capacity e2 L2 ->
  Forall2 (orel (LHolds e1 L1)) X1 L -> Forall2 (orel (LHolds e2 L2)) X2 L ->
  all_legal (ia_spec (capacity e1 L1)) p L ->
  alike (LHolds e1 L1) (LHolds e2 L2) g1 g2 (run (ia_kit e1 L1) p X1 g1) (run (ia_kit e2 L2) (map (relocate f) p) X2 g2).
Proof. exact @inline_alike. Qed.
Print Assumptions C60_inline_behaviour_depends_on_contents.

(** C61.  Iterators that never end: the outcome on [p ++ rest] does not depend on [rest], so an endless iterator whose
    first items are [p] has this outcome too. *)
Theorem C61_chunk_endless_iterators :
  forall (A : Type) (e : env A) (N : nat) (p : list (ev A)) (c : chunk A) (l : list A) (g : log A),
  N + N < word e -> calm e -> Holds N c l ->
  (N < length l + length p ->
    exists c' g', (forall rest, extend e N (p ++ rest) c g = Panic c' g') /\ Holds N c' (l ++ yields (N - length l) p)) /\
  (N < length p -> exists g', forall rest, from_iter e N (p ++ rest) tt g = Panic tt g') /\
  (forall i n rest, n <= length p -> insert_from e N i n n (p ++ rest) c g = insert_from e N i n n p c g) /\
  (forall k rest, k <= length p ->
    match collect_from e N k p g with
    | Ret it g' r => collect_from e N k (p ++ rest) g = Ret (it ++ rest) g' r
    | Panic it g' => collect_from e N k (p ++ rest) g = Panic (it ++ rest) g'
    | _ => False
    end).
Proof.
  intros A e N p c l g HW Hc H. split; [exact (extend_endless e N HW Hc p c l g H)|].
  split; [exact (from_iter_endless e N HW Hc p g)|]. split; [intros i n rest Hn; apply insert_from_prefix, Hn|].
  intros k rest Hk. pose proof (collect_from_prefix e N k p rest g) as P.
  pose proof (ChunkProofs2.collect_from_ok e N HW Hc k p g) as Q.
  destruct (collect_from e N k p g); auto; exfalso;
    destruct (bl_collect N k p []); repeat (destruct Q as (? & Q)); discriminate.
Qed.
Print Assumptions C61_chunk_endless_iterators.
Example C61_chunk_example : forall rest,
  match extend dbg 4 ([Yield 7; Yield 8] ++ rest) ex_chunk log0 with
  | Panic c g => as_slice dbg 4 c g = Ret c g [3; 1; 2; 7] /\ dropped g = [8]
  | _ => False
  end.
Proof. intros rest. vm_compute. auto. Qed.
Theorem C61_ring_endless_iterators :
  forall (A : Type) (e : env A) (N : nat) (p : list (ev A)) (c : ring A) (l : list A) (g : log A),
  N + N < word e -> 0 < N -> calm e -> RHolds N c l ->
  (N < length l + length p ->
    exists c' g', (forall rest, rb_extend e N (p ++ rest) c g = Panic c' g') /\ RHolds N c' (l ++ yields (N - length l) p)) /\
  (N < length p -> exists g', forall rest, rb_from_iter e N (p ++ rest) tt g = Panic tt g') /\
  (forall i n rest, n <= length p -> i <> length l -> rb_insert_from e N i n (p ++ rest) c g = rb_insert_from e N i n p c g) /\
  (forall k rest, k <= length p ->
    match rb_collect_from e N k p g with
    | Ret it g' r => rb_collect_from e N k (p ++ rest) g = Ret (it ++ rest) g' r
    | Panic it g' => rb_collect_from e N k (p ++ rest) g = Panic (it ++ rest) g'
    | _ => False
    end).
Proof.
  intros A e N p c l g HW HN Hc H. split; [exact (rb_extend_endless e N HW HN Hc p c l g H)|].
  split; [exact (rb_from_iter_endless e N HW HN Hc p g)|]. split.
  { intros i n rest Hn Hi. apply rb_insert_from_prefix; [exact Hn|]. destruct H as (_ & -> & _). exact Hi. }
  intros k rest Hk. pose proof (rb_collect_from_prefix e N HW HN k p rest g Hk) as P.
  pose proof (RingProofs4.rb_collect_from_ok e N HW HN Hc k p g) as Q.
  destruct (rb_collect_from e N k p g); auto; exfalso;
    destruct (bl_collect N k p []); repeat (destruct Q as (? & Q)); discriminate.
Qed.
Print Assumptions C61_ring_endless_iterators.
(** At the end of the buffer [insert_from] ignores the announced length and takes items until it panics. *)
Example C61_ring_example : forall rest,
  match rb_insert_from dbg 4 3 1 ([Yield 7; Yield 8] ++ rest) ex_ring log0 with
  | Panic c g => rb_contents dbg 4 c g = Ret c g [3; 1; 2; 7] /\ dropped g = [8]
  | _ => False
  end.
Proof. intros rest. vm_compute. auto. Qed.
(** [SparseChunk]: an occupied item at a position that does not exist ends it, and only such an item (or a panic of the
    iterator) does: as long as there is none the next item is asked for, so [from_iter] does not end on endless
    [None]s. *)
Theorem C61_sparse_endless_iterators :
  forall (A : Type) (e : env A) (N : nat) (p : list (ev (option A))) (g : log A),
  calm e ->
  ((exists k v, N <= k /\ p !! k = Some (Yield (Some v))) ->
    exists g', forall rest, sp_from_iter e N (p ++ rest) tt g = Panic tt g') /\
  ((forall k, N <= k -> k < length p -> p !! k = Some (Yield None)) -> (forall k, p !! k <> Some Boom) ->
    exists g' r, sp_from_iter e N p tt g = Ret tt g' r).
Proof.
  intros A e N p g Hc. split; [intros (k & v & H1 & H2); exact (sp_from_iter_endless e N Hc p k v g H1 H2)|].
  exact (sp_from_iter_goes_on e N Hc p g).
Qed.
Print Assumptions C61_sparse_endless_iterators.
Example C61_sparse_example :
  (forall rest, match sp_from_iter dbg 2 ([Yield (Some 4); Yield None; Yield None; Yield (Some 5)] ++ rest) tt log0 with
    | Panic _ g => dropped g = [5; 4] | _ => False end) /\
  match sp_from_iter dbg 2 [Yield (Some 4); Yield None; Yield None; Yield None] tt log0 with Ret _ g (c, _) => dropped g = [] | _ => False end.
Proof. split; [intros rest|]; vm_compute; auto. Qed.
Theorem C61_inline_endless_iterators :
  forall (A : Type) (e : env A) (L : layout) (b : nat) (p : list (ev A)) (c : inline A) (l : list A) (g : log A),
  wf_layout e L -> host_ok e L -> calm e -> placed L b -> IHolds e L c l ->
  (capacity e L < length l + length p ->
    exists c' g', (forall rest, ia_extend e L b (p ++ rest) c g = Panic c' g') /\
      IHolds e L c' (l ++ yields (capacity e L - length l) p)) /\
  (capacity e L < length p -> exists g', forall rest, ia_from_iter e L b (p ++ rest) tt g = Panic tt g').
Proof.
  intros A e L b p c l g WF HOST Hc Hb H. split; [exact (ia_extend_endless e L WF HOST Hc b p c l g Hb H)|].
  exact (ia_from_iter_endless e L WF HOST Hc b p g Hb).
Qed.
Print Assumptions C61_inline_endless_iterators.
Example C61_inline_example : forall rest,
  match ia_from_iter dbg PropertiesInline.ex_last (address PropertiesInline.ex_last 3) ([Yield 4; Yield 5; Yield 6; Yield 7] ++ rest) tt log0 with
  | Panic _ g => dropped g = [7; 4; 5; 6]
  | _ => False
  end.
Proof. intros rest. vm_compute. auto. Qed.

(** C62.  A program over chunks that uses only what both containers offer ([translated]) behaves the same over ring
    buffers. *)
Theorem C62_chunk_and_ring_interchangeable :
  forall (A : Type) (e1 e2 : env A) (N : nat)
    (p : list (cmd (chunk_op0 A) (chunk_op1 A) (chunk_opn A) (chunk_op2 A)))
    (q : list (cmd (ring_op0 A) (ring_op1 A) (ring_opn A) (ring_op2 A)))
    (X1 : list (option (chunk A))) (X2 : list (option (ring A))) (L : list (option (list A))) (g1 g2 : log A),
  calm e1 -> calm e2 -> N + N < word e1 -> N + N < word e2 -> 0 < N -> translated p q ->
  Forall2 (orel (Holds N)) X1 L -> Forall2 (orel (RHolds N)) X2 L ->
  all_legal (chunk_spec e1 N) p L -> all_legal (ring_spec e2 N) q L ->
  alike (Holds N) (RHolds N) g1 g2 (run (chunk_kit e1 N) p X1 g1) (run (ring_kit e2 N) q X2 g2).
Proof. intros A e1 e2 N p q X1 X2 L g1 g2 H1 H2. exact (chunk_ring_alike e1 e2 N H1 H2 p q X1 X2 L g1 g2). Qed.
Print Assumptions C62_chunk_and_ring_interchangeable.
Example C62_example :
  let p := [Make CNew; Call 0 (CExtend [Yield 1; Yield 2]); Call 0 (CPushFront 3); Call 0 (CInsertFrom 1 2 [Yield 8; Yield 9]);
            Call 0 (CInsertFrom 3 1 [Yield 8]); Spawn 0 (CFromFront 2); Call 0 (CAssign 5 6); Call2 0 1 CAppend; Call 0 CAsSlice; Call 0 CDrainNextBack; Kill 0] in
  let q := [Make BNew; Call 0 (BExtend [Yield 1; Yield 2]); Call 0 (BPushFront 3); Call 0 (BInsertFrom 1 2 [Yield 8; Yield 9]);
            Call 0 (BInsertFrom 3 1 [Yield 8]); Spawn 0 (BFromFront 2); Call 0 (BAssign 5 6); Call2 0 1 BAppend; Call 0 BContents; Call 0 BPopBack; Kill 0] in
  translated p q /\ all_legal (chunk_spec dbg 4) p [] /\ all_legal (ring_spec rel 4) q [] /\
  match run (chunk_kit dbg 4) p [] log0, run (ring_kit rel 4) q [] log0 with
  | Some (_, g, evs), Some (_, g', evs') => evs = evs' /\ dropped g = [6; 2; 8; 3] /\ dropped g' = dropped g
  | _, _ => False
  end.
Proof.
  split; [repeat constructor|]. split; [vm_compute; repeat split; auto; lia|]. split; [vm_compute; repeat split; auto; lia|]. vm_compute. auto.
Qed.

(** C63.  What a chunk costs as a deque: in any history of pushes and pops, [pushes h] values are written once, and
    besides, at most [N - 1] values are moved per change of ends.  Pops move nothing; operations that panic move
    nothing.  [writes] counts the values copied into buffers. *)
Theorem C63_chunk_deque_cost :
  forall (A : Type) (e : env A) (N : nat) (h : list (deque_op A)) (c : chunk A) (l : list A) (g : log A),
  N + N < word e -> calm e -> Holds N c l ->
  exists c' g' l', history e N h c g = Some (c', g') /\ Holds N c' l' /\
    writes g' <= writes g + pushes h + (turns h + 1) * (N - 1).
Proof. intros A e N h c l g HW Hc H. exact (history_cost e N HW Hc h c l g H). Qed.
Print Assumptions C63_chunk_deque_cost.
(** A queue (push at the back, pop at the front) turns at every operation and shifts when the buffer's end is reached;
    a stack never shifts once it has its place. *)
Example C63_example :
  let queue := [PushB 1; PushB 2; PopF; PushB 3; PopF; PushB 4; PopF; PushB 5] in
  let stack := [PushF 1; PushF 2; PopF; PopF; PushF 3; PushF 4; PushF 5; PopF; PushF 6] in
  turns queue = 6 /\ pushes queue = 5 /\ turns stack = 0 /\ pushes stack = 6 /\
  match history dbg 3 queue new log0, history dbg 3 stack new log0 with
  | Some (_, g), Some (_, g') => writes g = 6 /\ writes g' = 6
  | _, _ => False
  end.
Proof. vm_compute. auto 10. Qed.

(** C64.  The capacity is only a limit: a program in which nothing panics, and which does not ask whether a container is
    full, does exactly the same with a larger capacity. *)
Theorem C64_chunk_capacity_is_only_a_limit :
  forall (A : Type) (e1 e2 : env A) (N1 N2 : nat) (p : list (cmd (chunk_op0 A) (chunk_op1 A) (chunk_opn A) (chunk_op2 A)))
    (X1 X2 : list (option (chunk A))) (L : list (option (list A))) (g1 g2 : log A),
  calm e1 -> calm e2 -> N1 <= N2 -> N1 + N1 < word e1 -> N2 + N2 < word e2 ->
  Forall2 (orel (Holds N1)) X1 L -> Forall2 (orel (Holds N2)) X2 L ->
  all_legal (chunk_spec e1 N1) p L -> all_legal (chunk_spec e2 N2) p L ->
  Forall (fun c => match c with Call _ CIsFull => False | _ => True end) p ->
  ~ (exists x g evs, run (chunk_kit e1 N1) p X1 g1 = Some (x, g, evs) /\ In Panicked evs) ->
  alike (Holds N1) (Holds N2) g1 g2 (run (chunk_kit e1 N1) p X1 g1) (run (chunk_kit e2 N2) p X2 g2).
Proof.
  intros A e1 e2 N1 N2 p X1 X2 L g1 g2 H1 H2 HN W1 W2 HX1 HX2 L1 L2 Ha Hp.
  apply (chunk_capacity e1 e2 N1 N2 H1 H2 HN p X1 X2 L g1 g2 W1 W2 HX1 HX2 L1 L2 Ha).
  apply (no_panic _ _ _ (chunk_refines e1 N1 W1 H1) p X1 L g1 HX1 L1 Hp).
Qed.
Print Assumptions C64_chunk_capacity_is_only_a_limit.
Theorem C64_ring_capacity_is_only_a_limit :
  forall (A : Type) (e1 e2 : env A) (N1 N2 : nat) (p : list (cmd (ring_op0 A) (ring_op1 A) (ring_opn A) (ring_op2 A)))
    (X1 X2 : list (option (ring A))) (L : list (option (list A))) (g1 g2 : log A),
  calm e1 -> calm e2 -> 0 < N1 -> N1 <= N2 -> N1 + N1 < word e1 -> N2 + N2 < word e2 ->
  Forall2 (orel (RHolds N1)) X1 L -> Forall2 (orel (RHolds N2)) X2 L ->
  all_legal (ring_spec e1 N1) p L -> all_legal (ring_spec e2 N2) p L ->
  Forall (fun c => match c with Call _ BIsFull => False | _ => True end) p ->
  ~ (exists x g evs, run (ring_kit e1 N1) p X1 g1 = Some (x, g, evs) /\ In Panicked evs) ->
  alike (RHolds N1) (RHolds N2) g1 g2 (run (ring_kit e1 N1) p X1 g1) (run (ring_kit e2 N2) p X2 g2).
Proof.
  intros A e1 e2 N1 N2 p X1 X2 L g1 g2 H1 H2 H0 HN W1 W2 HX1 HX2 L1 L2 Ha Hp.
  apply (ring_capacity e1 e2 N1 N2 H1 H2 HN p X1 X2 L g1 g2 W1 W2 H0 HX1 HX2 L1 L2 Ha).
  apply (no_panic _ _ _ (ring_refines e1 N1 W1 H0 H1) p X1 L g1 HX1 L1 Hp).
Qed.
Print Assumptions C64_ring_capacity_is_only_a_limit.
Theorem C64_inline_capacity_is_only_a_limit :
  forall (A : Type) (e1 e2 : env A) (L1 L2 : layout) (p : list (cmd (ia_op0 A) (ia_op1 A) (ia_opn A) (ia_op2 A)))
    (X1 X2 : list (option (located A))) (L : list (option (list A))) (g1 g2 : log A),
  calm e1 -> calm e2 -> wf_layout e1 L1 -> wf_layout e2 L2 -> host_ok e1 L1 -> host_ok e2 L2 ->
  capacity e1 L1 <= capacity e2 L2 ->
  Forall2 (orel (LHolds e1 L1)) X1 L -> Forall2 (orel (LHolds e2 L2)) X2 L ->
  all_legal (ia_spec (capacity e1 L1)) p L -> all_legal (ia_spec (capacity e2 L2)) p L ->
  Forall (fun c => match c with Call _ IIsFull => False | _ => True end) p ->
  ~ (exists x g evs, run (ia_kit e1 L1) p X1 g1 = Some (x, g, evs) /\ In Panicked evs) ->
  alike (LHolds e1 L1) (LHolds e2 L2) g1 g2 (run (ia_kit e1 L1) p X1 g1) (run (ia_kit e2 L2) p X2 g2).
Proof.
  intros A e1 e2 L1 L2 p X1 X2 L g1 g2 H1 H2 WF1 WF2 HO1 HO2 HN HX1 HX2 LL1 LL2 Ha Hp.
  apply (inline_capacity e1 e2 L1 L2 p X1 X2 L g1 g2 H1 H2 WF1 WF2 HO1 HO2 HN HX1 HX2 LL1 LL2 Ha).
  apply (no_panic _ _ _ (ia_refines e1 L1 WF1 HO1 H1) p X1 L g1 HX1 LL1 Hp).
Qed.
Print Assumptions C64_inline_capacity_is_only_a_limit.
(** A sparse chunk of a larger capacity has, in addition, empty cells at its end.  [option_drain] hands out the cells one by
    one; the program asks it for existing cells only. *)
Theorem C64_sparse_capacity_is_only_a_limit :
  forall (A : Type) (e1 e2 : env A) (N1 N2 : nat) (p : list (cmd (sp_op0 A) (sp_op1 A) (sp_opn A) (sp_op2 A)))
    (X1 X2 : list (option (sparse A))) (L : list (option (list (option A)))) (g1 g2 : log A),
  let padded c s := SHolds N2 c (s ++ replicate (N2 - N1) None) in
  calm e1 -> calm e2 -> N1 <= N2 -> N1 < word e1 -> N2 < word e2 ->
  Forall2 (orel (SHolds N1)) X1 L -> Forall2 (orel padded) X2 L ->
  Forall (fun c => match c with Call _ PIsFull => False | Call _ (POptionDrain n) => n <= N1 | _ => True end) p ->
  ~ (exists x g evs, run (sparse_kit e1 N1) p X1 g1 = Some (x, g, evs) /\ In Panicked evs) ->
  alike (SHolds N1) padded g1 g2 (run (sparse_kit e1 N1) p X1 g1) (run (sparse_kit e2 N2) p X2 g2).
Proof.
  intros A e1 e2 N1 N2 p X1 X2 L g1 g2 padded H1 H2 HN W1 W2 HX1 HX2 Ha Hp.
  apply (sparse_capacity e1 e2 N1 N2 p X1 X2 L g1 g2 H1 H2 HN W1 W2 HX1 HX2).
  - eapply Forall_impl; [|exact Ha]. intros c. destruct c as [|? o| | |]; cbn; auto.
  - apply (no_panic _ _ _ (sparse_refines e1 N1 H1 W1) p X1 L g1 HX1 (array_legal_any N1 p L) Hp).
Qed.
Print Assumptions C64_sparse_capacity_is_only_a_limit.
Example C64_sparse_example :
  let p := [Make PNew; Call 0 (PInsert 3 7); Call 0 (PInsert 1 5); Call 0 (PInsert 3 8); Call 0 (PGet 6); Call 0 (POptionDrain 2);
            Spawn 0 (PClone (fun _ a => Some a)); Call 1 PIndices; Call2 0 1 (PEq Nat.eqb); Kill 0] in
  match run (sparse_kit dbg 4) p [] log0, run (sparse_kit rel 9) p [] log0, run (sparse_kit dbg 3) p [] log0 with
  | Some (_, g, evs), Some (_, g', evs'), Some (_, _, evs'') =>
    evs = evs' /\ dropped g = dropped g' /\ ~ In Panicked evs /\ In Panicked evs''
  | _, _, _ => False
  end.
Proof.
  vm_compute. split; [reflexivity|]. split; [reflexivity|]. split; [|auto 10]. intros H. repeat destruct H as [H|H]; try discriminate. exact H.
Qed.
(** The same program with capacities 4 and 7: the same; with [is_full] it would not be, nor with one more push. *)
Example C64_example :
  let p := [Make CNew; Call 0 (CExtend [Yield 1; Yield 2]); Call 0 (CPushFront 3); Spawn 0 (CFromFront 2);
            Call 0 (CInsertFrom 1 2 [Yield 8; Yield 9]); Call2 0 1 CAppend; Call 0 CAsSlice; Kill 0] in
  all_legal (chunk_spec dbg 6) p [] /\ all_legal (chunk_spec rel 9) p [] /\
  match run (chunk_kit dbg 6) p [] log0, run (chunk_kit rel 9) p [] log0, run (chunk_kit dbg 4) p [] log0 with
  | Some (_, g, evs), Some (_, g', evs'), Some (_, _, evs'') =>
    evs = evs' /\ dropped g = dropped g' /\ ~ In Panicked evs /\ In Panicked evs''
  | _, _, _ => False
  end.
Proof.
  split; [vm_compute; repeat split; auto; lia|]. split; [vm_compute; repeat split; auto; lia|]. vm_compute.
  split; [reflexivity|]. split; [reflexivity|]. split; [|auto 10]. intros H. repeat destruct H as [H|H]; try discriminate. exact H.
Qed.
