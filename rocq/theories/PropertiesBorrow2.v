(** * Programs on [RingBuffer], [SparseChunk] and [InlineArray] and the aliasing rules *)
From Verif Require Import Machine Spec Prims RingModel RingProofs.
From Verif Require SparseSpec SparseModel SparseProofs InlineModel InlineSpec InlineProofs2.
From Verif Require BorrowModel BorrowSpec BorrowProofs3 ChunkExamples RingLaws.
From Verif Require Import BorrowModel2 BorrowModel3 BorrowLink4 BorrowLink5 BorrowLink6 BorrowLink7 BorrowLink8.

(** C70 for [RingBuffer]: any program of its methods on any number of buffers, run on the machine of RingModel.v (panics are
    caught and the program goes on; [split_off] makes a new buffer): no command fails to return or panic, and the accesses of
    the whole run are accepted by Stacked Borrows and by Tree Borrows. *)
Theorem C70_ring_programs :
  forall (A : Type) (e : env A) (N k : nat) (rs : list (ring A)) (cs : list (ring_cmd A)) (g : log A),
  N + N < word e -> calm e -> 0 < N ->
  Forall (fun r => exists l, RHolds N r l) rs ->
  (forall o o' n, In (RFrom o o' (RDrainFront n)) cs \/ In (RFrom o o' (RDrainBack n)) cs -> n < word e) ->
  length rs + ring_splits cs <= k ->
  exists calls, ring_program e N cs rs g = Some calls /\
    BorrowModel.sb_accepts (BorrowModel.trace k (BorrowModel.b_calls N calls)) /\
    BorrowModel.tb_accepts (BorrowModel.trace k (BorrowModel.b_calls N calls)).
Proof.
  intros A e N k rs cs g HW HC HN HR Hn Hk.
  assert (HO : Forall (cmd_ok e) cs).
  { apply List.Forall_forall. intros [o op v|o o' [n|n| |i]|o' i] H; cbn; try exact I; apply (Hn o o'); auto. }
  pose proof (ring_program_ok e N HW HC HN cs rs g k HR HO Hk) as H.
  destruct (ring_program e N cs rs g) as [l|]; [|contradiction]. destruct H as [H1 H2].
  exists l. split; [reflexivity|]. split.
  - apply BorrowProofs3.sb_calls_exact; [exact H1|]. apply Forall_Exists_neg. exact H2.
  - apply BorrowProofs3.tb_calls_ok. exact H1.
Qed.
Print Assumptions C70_ring_programs.
(** The steps BorrowModel2.v lists for a method are the method's: it returns or panics, leaves [origin] and [length] and puts
    into the slots what RingModel.v says; a panic changes nothing. *)
Theorem C70_ring_calls_meaning :
  forall (A : Type) (e : env A) (N : nat) (r : ring A) (g : log A) (op : ring_op) (v : A),
  N + N < word e -> calm e -> 0 < N -> origin r < N -> rlen r <= N ->
  match ring_code e N op v r g with
  | Ret r' _ _ => exists ss, ring_steps N (origin r) (rlen r) op = Some (ss, (origin r', rlen r')) /\
                    forall p, rdata r' p = replay v ss (rdata r) p
  | Panic r' _ => ring_steps N (origin r) (rlen r) op = None /\ r' = r
  | _ => True
  end.
Proof. intros A e N r g op v HW HC HN. apply ring_code_replays; assumption. Qed.
Print Assumptions C70_ring_calls_meaning.
(** The same for the methods that move elements from [r2] to [r1]. *)
Theorem C70_ring_blocks_meaning :
  forall (A : Type) (e : env A) (N : nat) (r1 r2 : ring A) (g : log A) (op : ring_op2),
  N + N < word e -> 0 < N -> origin r1 < N -> rlen r1 <= N -> origin r2 < N -> rlen r2 <= N ->
  match op with RDrainFront n | RDrainBack n => n < word e | RSplitOff _ => r1 = ring0 | RAppend => True end ->
  match ring_code2 e N op (r1, r2) g with
  | Ret (r1', r2') _ _ => exists bs,
      ring_blocks N (origin r1, rlen r1) (origin r2, rlen r2) op = Some (bs, ((origin r1', rlen r1'), (origin r2', rlen r2'))) /\
      forall p, rdata r1' p = fst (replay2 bs (rdata r1, rdata r2)) p /\ rdata r2' p = snd (replay2 bs (rdata r1, rdata r2)) p
  | Panic s' _ => ring_blocks N (origin r1, rlen r1) (origin r2, rlen r2) op = None /\ s' = (r1, r2)
  | _ => True
  end.
Proof.
  intros A e N r1 r2 g op HW HN F1 F2 F3 F4 Hop.
  exact (ring_code2_replays e N HW HN op r1 r2 g (conj F1 (conj F2 (conj F3 F4))) Hop).
Qed.
Print Assumptions C70_ring_blocks_meaning.
(** A program on the buffer that holds [3; 1; 2], with [split_off], a wrapping [append] and a panic. *)
Example C70_example_ring_program :
  ring_program ChunkExamples.dbg 4 [ROn 0 RPushFront 7; ROn 0 RPushBack 8; RSplit 0 1; ROn 1 (RInsert 1) 9; RFrom 0 1 (RDrainFront 2); ROn 0 (RRemove 1) 0]
    [RingLaws.ex_ring] log0 =
  Some (let open := fun o => BorrowModel.Fields o in let set := fun o => BorrowModel.SetFields o in
   [open 0; set 0; set 0; BorrowModel.RingWrite 0 2;
    open 0;
    open 1; open 0; BorrowModel.RingCopyTo 0 1 3 0 1; BorrowModel.RingCopyTo 0 1 0 1 2; set 0; set 1;
    open 1; set 1; set 1; open 1; BorrowModel.RingRead 1 0; BorrowModel.RingWrite 1 3; open 1; BorrowModel.RingWrite 1 0;
    open 0; open 1; BorrowModel.RingCopyTo 1 0 3 3 1; BorrowModel.RingCopyTo 1 0 0 0 1; set 1; set 0;
    open 0; BorrowModel.RingRead 0 3; open 0; BorrowModel.RingRead 0 2; BorrowModel.RingWrite 0 3; set 0; set 0]).
Proof. vm_compute. reflexivity. Qed.

(** C70 for [SparseChunk]: the same for any program of [insert], [remove], [pop], [get], [get_mut], [Index] and [IndexMut] on any
    number of chunks; each command names the chunk, the method and the value handed over. *)
Theorem C70_sparse_programs :
  forall (A : Type) (e : env A) (N k : nat) (rs : list (SparseModel.sparse A)) (cs : list (nat * sparse_op * A)) (g : log A),
  calm e -> Forall (fun c => exists s, SparseProofs.SHolds N c s) rs -> length rs <= k ->
  exists calls, sparse_program e N cs rs g = Some calls /\
    BorrowModel.sb_accepts (BorrowModel.trace k (BorrowModel.b_calls N calls)) /\
    BorrowModel.tb_accepts (BorrowModel.trace k (BorrowModel.b_calls N calls)).
Proof.
  intros A e N k rs cs g HC HR Hk. pose proof (sparse_program_ok e N HC cs rs g k HR Hk) as H.
  destruct (sparse_program e N cs rs g) as [l|]; [|contradiction]. destruct H as [H1 H2].
  exists l. split; [reflexivity|]. split.
  - apply BorrowProofs3.sb_calls_exact; [exact H1|]. apply Forall_Exists_neg. exact H2.
  - apply BorrowProofs3.tb_calls_ok. exact H1.
Qed.
Print Assumptions C70_sparse_programs.
(** The steps listed for a method are the method's: which indices are occupied and what is in the slots afterwards. *)
Theorem C70_sparse_calls_meaning :
  forall (A : Type) (e : env A) (N : nat) (c : SparseModel.sparse A) (s : list (option A)) (g : log A) (op : sparse_op) (v : A),
  calm e -> SparseProofs.SHolds N c s ->
  match sparse_code e N op v c g with
  | Ret c' _ _ => exists ss, sparse_steps N (SparseModel.smap c) op = Some (ss, SparseModel.smap c') /\
                    forall p, SparseModel.sdata c' p = replay v ss (SparseModel.sdata c) p
  | Panic c' _ => sparse_steps N (SparseModel.smap c) op = None /\ c' = c
  | _ => False
  end.
Proof.
  intros A e N c s g op v HC H. pose proof (sparse_code_replays e N HC op v c s g H) as H1. pose proof (sparse_code_kept e N HC op v c s g H) as H2.
  destruct (sparse_code e N op v c g); try exact H1; exact H2.
Qed.
Print Assumptions C70_sparse_calls_meaning.
Example C70_example_sparse_program :
  sparse_program ChunkExamples.dbg 4 [(0, SInsert 2, 5); (1, SInsert 3, 6); (0, SInsert 2, 7); (0, SRemove 9, 0); (1, SGet 3, 0); (0, SPop, 0)]
    [SparseModel.sparse0; SparseModel.sparse0] log0 =
  Some [BorrowModel.Fields 0; BorrowModel.SetFields 0; BorrowModel.SparseWrite 0 2; BorrowModel.Fields 1; BorrowModel.SetFields 1;
    BorrowModel.SparseWrite 1 3; BorrowModel.Fields 0; BorrowModel.SetFields 0; BorrowModel.SparseWrite 0 2; BorrowModel.Fields 0;
    BorrowModel.Fields 1; BorrowModel.SparseRead 1 3; BorrowModel.Fields 0; BorrowModel.Fields 0; BorrowModel.SetFields 0; BorrowModel.SparseRead 0 2].
Proof. vm_compute. reflexivity. Qed.

(** C70 for [InlineArray], any program of its methods on any number of arrays (each stored at the address beside it;
    [split_off] makes a new one): every method returns or panics, and leaves the length BorrowModel3.v says; Tree Borrows
    accepts the accesses; Stacked Borrows accepts them iff no [remove] was performed of an element that is not the last.  The
    last part is where the full claim fails ([C70_aliasing_refuted], PropertiesBorrow.v). *)
Theorem C70_array_programs_partial :
  forall (A : Type) (e : env A) (L : InlineModel.layout) (k : nat) (rs : list (nat * InlineModel.inline A)) (cs : list (array_cmd A)) (g : log A),
  InlineSpec.wf_layout e L -> InlineSpec.host_ok e L -> calm e ->
  Forall (fun r => InlineSpec.placed L (fst r) /\ exists l, InlineProofs2.IHolds e L (snd r) l) rs ->
  (forall o i b, In (ISplit o i b) cs -> InlineSpec.placed L b) ->
  length rs + array_splits cs <= k ->
  exists calls performed, array_program e L cs rs g = Some (calls, performed) /\
    BorrowModel.tb_accepts (BorrowModel.trace k (BorrowModel.b_calls (InlineModel.capacity e L) calls)) /\
    (BorrowModel.sb_accepts (BorrowModel.trace k (BorrowModel.b_calls (InlineModel.capacity e L) calls)) <->
     forall len i, In (len, IRemove i) performed -> len <= i + 1).
Proof.
  intros A e L k rs cs g WF HOST HC HR HS Hk.
  assert (HO : Forall (split_ok L) cs).
  { apply List.Forall_forall. intros [o op v|o i b] H; cbn; [exact I|]. exact (HS o i b H). }
  pose proof (array_program_ok e L WF HOST HC cs rs g k HR HO Hk) as H.
  destruct (array_program e L cs rs g) as [[l ps]|]; [|contradiction]. destruct H as [H1 H2].
  exists l, ps. split; [reflexivity|]. split; [apply BorrowProofs3.tb_calls_ok; exact H1|].
  rewrite (BorrowProofs3.sb_calls_exact _ _ l H1), H2, List.Exists_exists. split.
  - intros HN len i Hi. destruct (le_lt_dec len (i + 1)) as [Hle|Hlt]; [exact Hle|]. exfalso. apply HN. exists (len, IRemove i). split; assumption.
  - intros HA ([len op] & Hi & Hp). destruct op; try contradiction. specialize (HA _ _ Hi). cbn in Hp. lia.
Qed.
Print Assumptions C70_array_programs_partial.
(** The call listed for a method: it writes every slot whose contents the method changes, and the length if it changes, and
    reads the elements the method gives out.  A method that panics leaves the elements as they are. *)
Theorem C70_array_calls_meaning :
  forall (A : Type) (e : env A) (L : InlineModel.layout) (b o : nat) (c : InlineModel.inline A) (l : list A) (g : log A) (op : array_op) (v : A),
  InlineSpec.wf_layout e L -> InlineSpec.host_ok e L -> calm e -> InlineSpec.placed L b -> InlineProofs2.IHolds e L c l ->
  match array_code e L b op v c g with
  | Ret c' _ _ => exists l' call,
      InlineProofs2.IHolds e L c' l' /\ array_calls (InlineModel.capacity e L) o (length l) op = Some (call, length l') /\
      (forall p, p < length l' -> l' !! p <> l !! p -> BorrowSpec.call_writes call (o, S p)) /\
      (length l' <> length l -> BorrowSpec.call_writes call (o, 0)) /\
      (forall p, match op with IRead => p < length l | IIndex i | IRemove i => p = i /\ i < length l | IPop => p + 1 = length l | _ => False end ->
         BorrowSpec.call_reads call (o, S p))
  | Panic c' _ => InlineProofs2.IHolds e L c' l /\ array_calls (InlineModel.capacity e L) o (length l) op = None
  | _ => False
  end.
Proof. intros A e L b o c l g op v WF HOST HC Hb H. exact (array_code_fits e L WF HOST HC b c l g o op v Hb H). Qed.
Print Assumptions C70_array_calls_meaning.
(** Three pushes (the capacity), a failed one, the removal of the first and of the last element, [split_off]. *)
Definition ex_array : InlineModel.layout := InlineModel.Layout 8 8 32 8 8 8 8.
Example C70_example_array_program :
  InlineModel.capacity ChunkExamples.dbg ex_array = 3 /\ InlineSpec.placed ex_array 64 /\
  match InlineModel.ia_new ChunkExamples.dbg ex_array 64 tt log0 with
  | Ret _ g c =>
      array_program ChunkExamples.dbg ex_array
        [IOn 0 IPush 5; IOn 0 IPush 6; IOn 0 IPush 7; IOn 0 IPush 8; IOn 0 (IRemove 0) 0; IOn 0 (IRemove 1) 0; ISplit 0 0 128; IOn 1 IPop 0; IOn 1 IClear 0]
        [(64, c)] g =
      Some ([BorrowModel.ArrayPush 0 0; BorrowModel.ArrayPush 0 1; BorrowModel.ArrayPush 0 2; BorrowModel.ArrayLen 0; BorrowModel.ArrayRemove 0 3 0;
             BorrowModel.ArrayRemove 0 2 1; BorrowModel.ArraySplitOff 0 1 1 0; BorrowModel.ArrayPop 1 1; BorrowModel.ArrayClear 1 0],
            [(0, IPush); (1, IPush); (2, IPush); (3, IPush); (3, IRemove 0); (2, IRemove 1); (1, IPop); (0, IClear)])
  | _ => False
  end.
Proof. split; [vm_compute; reflexivity|]. split; [exists 8; reflexivity|]. vm_compute. reflexivity. Qed.

(** The calls of a step read and write the slots (and the fields) the step is about, and no others; [SDrop] and an [SAssign] on
    a [SparseChunk] count as writes ([mem::replace] reads the slot too). *)
Definition reads_slot (s : step) (i : nat) : Prop := match s with STake j | SLook j | SMove j _ => i = j | _ => False end.
Definition writes_slot (s : step) (i : nat) : Prop := match s with SPut j | SDrop j | SAssign j | SMove _ j => i = j | _ => False end.
Theorem C70_steps_accesses :
  forall (o o' i : nat) (s : step),
  ((exists c, In c (ring_call o s) /\ BorrowSpec.call_reads c (o', S i)) <-> o' = o /\ reads_slot s i) /\
  ((exists c, In c (ring_call o s) /\ BorrowSpec.call_writes c (o', S i)) <-> o' = o /\ writes_slot s i) /\
  ((exists c, In c (ring_call o s) /\ BorrowSpec.call_reads c (o', 0)) <-> o' = o /\ s = SFields) /\
  ((exists c, In c (ring_call o s) /\ BorrowSpec.call_writes c (o', 0)) <-> o' = o /\ s = SSetFields) /\
  ((exists c, In c (sparse_call o s) /\ BorrowSpec.call_writes c (o', S i)) <-> o' = o /\ writes_slot s i) /\
  (o' = o /\ reads_slot s i -> exists c, In c (sparse_call o s) /\ BorrowSpec.call_reads c (o', S i)) /\
  ((exists c, In c (sparse_call o s) /\ BorrowSpec.call_reads c (o', S i)) -> o' = o /\ (reads_slot s i \/ writes_slot s i)) /\
  ((exists c, In c (sparse_call o s) /\ BorrowSpec.call_reads c (o', 0)) <-> o' = o /\ s = SFields) /\
  ((exists c, In c (sparse_call o s) /\ BorrowSpec.call_writes c (o', 0)) <-> o' = o /\ s = SSetFields).
Proof.
  intros o o' i s.
  assert (E1 : forall A (x : A) (P : A -> Prop), (exists c, In c [x] /\ P c) <-> P x).
  { intros A x P. split; [intros (c & [<-|[]] & H); exact H|intros H; exists x; split; [left; reflexivity|exact H]]. }
  assert (E2 : forall A (x y : A) (P : A -> Prop), (exists c, In c [x; y] /\ P c) <-> P x \/ P y).
  { intros A x y P. split; [intros (c & [<-|[<-|[]]] & H); auto|intros [H|H]; [exists x|exists y]; split; cbn; auto]. }
  destruct s; cbn [ring_call sparse_call]; rewrite ?E1, ?E2; cbn; unfold BorrowSpec.header, BorrowSpec.elements; cbn;
    repeat match goal with |- _ /\ _ => split end; (intuition (discriminate || lia || (subst; auto))).
Qed.
Print Assumptions C70_steps_accesses.
