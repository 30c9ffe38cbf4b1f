(** * Client closures called on the elements of the mutable iterators (C89). *)
From Verif Require Import Machine Spec IterSpec VisitModel VisitSpec VisitSpecProofs VisitProofs2 ChunkExamples.
From Verif Require ChunkModel ChunkProofs RingModel RingProofs RingProofs4 SparseModel SparseSpec SparseProofs InlineModel InlineSpec InlineProofs InlineProofs2 Instances RefModel PropertiesInline RingLaws.

Section visits.
Context {A : Type} (e : env A) (act : nat -> A -> use A).
Notation seen script l := (visited (bomb e) act 0 script l).
(** C89.  A closure is called on every element that a script of [next]/[next_back] calls of the mutable iterator gives; each call
    leaves the element, replaces it, assigns to it, or panics, depending on the call's number and the value it finds; the
    destructor of a value assigned over may panic.  The container ends up holding exactly what the specification predicts,
    exactly the predicted destructors have run, nothing is leaked, and the panic comes out iff it is predicted.  [Chunk]: *)
Theorem C89_chunk : forall N script (c : ChunkModel.chunk A) l g, ChunkProofs.Holds N c l ->
  ends_as (ChunkProofs.Holds N) g (seen script l) (ch_visit e N act script c g).
Proof. intros N script c l g H. exact (ch_visit_ok e N act script c l g H). Qed.
(** ... a mutable slice of a ring buffer: the elements outside the slice stay as they are; *)
Theorem C89_ring_slice : forall N s script (r : RingModel.ring A) l g, N + N < word e -> 0 < N ->
  RingProofs.RHolds N r l -> RingProofs4.in_range s l ->
  ends_as (fun r' m => RingProofs.RHolds N r' (take (fst s) l ++ m ++ drop (snd s) l)) g
    (seen script (take (snd s - fst s) (drop (fst s) l))) (sl_visit e N act s script r g).
Proof. intros N s script r l g HW HN H Hs. exact (sl_visit_ok e N act HW HN s script r l g H Hs). Qed.
(** ... the whole ring buffer; *)
Theorem C89_ring : forall N script (r : RingModel.ring A) l g, N + N < word e -> 0 < N -> RingProofs.RHolds N r l ->
  ends_as (RingProofs.RHolds N) g (seen script l) (rb_visit e N act script r g).
Proof. intros N script r l g HW HN H. exact (rb_visit_ok e N act HW HN script r l g H). Qed.
(** ... a sparse chunk, whose mutable iterator goes forward only: the occupied indices stay the same; *)
Theorem C89_sparse : forall N n (c : SparseModel.sparse A) s g, N < word e -> SparseProofs.SHolds N c s ->
  ends_as (fun c' m => SparseProofs.SHolds N c' (SparseSpec.refill s m)) g (seen (repeat Front n) (SparseSpec.values s))
    (sp_visit e N act n c g).
Proof. intros N n c s g HW H. exact (sp_visit_ok e N act HW n c s g H). Qed.
(** ... the same through [option_iter_mut], the vacant entries being skipped; *)
Theorem C89_sparse_options : forall N n (c : SparseModel.sparse A) s g, N < word e -> SparseProofs.SHolds N c s ->
  ends_as (fun c' m => SparseProofs.SHolds N c' (SparseSpec.refill s m)) g (seen (repeat Front n) (SparseSpec.values s))
    (om_visit e N act n c g).
Proof. intros N n c s g HW H. exact (om_visit_ok e N act HW n c s g H). Qed.
(** ... an inline array. *)
Theorem C89_inline : forall L b script (c : InlineModel.inline A) l g,
  InlineSpec.wf_layout e L -> InlineSpec.host_ok e L -> InlineSpec.placed L b -> InlineProofs2.IHolds e L c l ->
  ends_as (InlineProofs2.IHolds e L) g (seen script l) (ia_visit e L b act script c g).
Proof. intros L b script c l g WF HOST Hb H. exact (ia_visit_ok e L act WF HOST b script c l g Hb H). Qed.
(** What the specification says about [for x in &mut container { .. }] and any shorter loop from the front: an initial segment
    of the elements has been given to the closure, each once, in order and with its original value, and has become what
    the closure made of it; the rest is untouched; the destructors that ran are those of the values assigned over, in
    order; without a panic the segment is everything, or as long as the script. *)
Theorem C89_forward_meaning : forall n l m d p, seen (repeat Front n) l = (m, d, p) -> exists j, j <= n /\ j <= length l /\
  m = imap (fun i a => left_by (act i a) a) (take j l) ++ drop j l /\
  d = concat (imap (fun i a => dropped_by (act i a) a) (take j l)) /\
  (p = false -> j = n \/ j = length l).
Proof. intros n l m d p E. exact (visited_forward (bomb e) act n 0 l m d p E). Qed.
End visits.
Print Assumptions C89_chunk.
Print Assumptions C89_ring_slice.
Print Assumptions C89_ring.
Print Assumptions C89_sparse.
Print Assumptions C89_sparse_options.
Print Assumptions C89_inline.
Print Assumptions C89_forward_meaning.

(** Non-vacuity: [3; 1; 2] in a ring buffer of capacity 4; the destructor of 1 panics. *)
Definition one_bomb : env nat := Env (word dbg) (debug dbg) (fun a => a =? 1).
Definition ex_act (k : nat) (a : nat) : use nat :=
  match k with 0 => Replaces (a + 10) | 1 => Assigns 7 | 2 => Assigns 8 | _ => Panics end.
Example C89_example :
  visited (bomb one_bomb) ex_act 0 [Back; Front; Front] [3; 1; 2] = ([7; 8; 12], [3; 1], true) /\
  match rb_visit one_bomb 4 ex_act [Back; Front; Front] RingLaws.ex_ring log0 with
  | Panic r g => RingModel.rb_contents one_bomb 4 r g = Ret r g [7; 8; 12] /\ dropped g = [3; 1]
  | _ => False end /\
  match sl_visit one_bomb 4 ex_act (1, 3) [Front; Front; Front] RingLaws.ex_ring log0 with
  | Ret r g _ => RingModel.rb_contents one_bomb 4 r g = Ret r g [3; 11; 7] /\ dropped g = [2]
  | _ => False end /\
  match ch_visit one_bomb 4 (fun k a => if a =? 1 then Panics else Leaves) [Front; Front; Front] ex_chunk log0 with
  | Panic c g => ChunkModel.as_slice one_bomb 4 c g = Ret c g [3; 1; 2] /\ dropped g = []
  | _ => False end.
Proof. repeat split; vm_compute; repeat split; reflexivity. Qed.
Example C89_example_sparse_inline :
  match sp_visit rel 4 (fun k a => if k =? 0 then Assigns (a + 20) else Panics) 9 Instances.ex_sparse log0 with
  | Panic c g => RefModel.sp_fmt 4 c g = Ret c g (RefModel.ShowMap RefModel.NSparseChunk [(0, 28); (2, 7)]) /\ dropped g = [8]
  | _ => False end /\
  match om_visit rel 4 (fun k a => Replaces (a + k + 20)) 9 Instances.ex_sparse log0 with
  | Ret c g _ => RefModel.sp_fmt 4 c g = Ret c g (RefModel.ShowMap RefModel.NSparseChunk [(0, 28); (2, 28)]) /\ dropped g = []
  | _ => False end /\
  match ia_visit (Env (word rel) (debug rel) (fun a => a =? 13)) PropertiesInline.ex_last 32 (fun k a => Assigns k)
    [Back; Back; Back] Instances.ex_inline log0 with
  | Panic c g => InlineModel.ia_deref rel PropertiesInline.ex_last 32 c g = Ret c g [5; 1; 0] /\ dropped g = [6; 13]
  | _ => False end /\
  SparseProofs.SHolds 4 Instances.ex_sparse [Some 8; None; Some 7; None] /\
  InlineProofs2.IHolds rel PropertiesInline.ex_last Instances.ex_inline [5; 13; 6].
Proof.
  split; [vm_compute; repeat split; reflexivity|]. split; [vm_compute; repeat split; reflexivity|]. split; [vm_compute; repeat split; reflexivity|].
  split; [exact Instances.ex_sparse_holds|exact Instances.ex_inline_holds].
Qed.
