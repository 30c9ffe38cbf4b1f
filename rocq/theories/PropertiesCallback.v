(** * Comparing, hashing and printing when the elements' own functions panic or contradict themselves.
    Every proof is a reference to a lemma. *)
From Verif Require Import Machine Spec Prims ChunkModel ChunkProofs ChunkExamples RingModel RingProofs RingProofs4 RingLaws.
From Verif Require Import CallbackModel CallbackSpec CallbackProofs.
From Verif Require Import InlineModel InlineSpec InlineProofs InlineProofs2 PropertiesInline.
From Verif Require Import SparseModel SparseSpec SparseProofs.

(** In all statements [answer k x] is what the caller's code does when asked the [k]-th time, about [x] ([None]: it panics),
    and [asked m o g answer stop final xs] (CallbackSpec.v) says: the call asks about [xs] in order, once each, until an
    answer decides or the caller's code panics; it returns what was decided, or [final], or panics; objects and log are unchanged. *)

(** C68, Chunk: [==], [cmp], [partial_cmp] ask about the pairs at equal positions, [hash] and [Debug] about every element. *)
Theorem C68_chunk_callbacks :
  forall (A : Type) (e : env A) (N : nat) (c1 c2 : chunk A) (l1 l2 other : list A) (g : log A) (header : bool)
         (eqs : nat -> A * A -> option bool) (cmps : nat -> A * A -> option comparison)
         (pcmps : nat -> A * A -> option (option comparison)) (hashes : nat -> A -> option unit) (prints : nat -> A -> option bool),
  N + N < word e -> Holds N c1 l1 -> Holds N c2 l2 ->
  (if length l1 =? length l2 then asked (chunk_eq_by e N eqs) (c1, c2) g eqs eq_stop true (zip l1 l2)
   else unasked (chunk_eq_by e N eqs) (c1, c2) g false) /\
  (if length l1 =? length other then asked (chunk_eq_slice_by e N other eqs) (c1, tt) g eqs eq_stop true (zip l1 other)
   else unasked (chunk_eq_slice_by e N other eqs) (c1, tt) g false) /\
  asked (chunk_cmp_by e N cmps) (c1, c2) g cmps cmp_stop (length l1 ?= length l2) (zip l1 l2) /\
  asked (chunk_partial_cmp_by e N pcmps) (c1, c2) g pcmps pcmp_stop (Some (length l1 ?= length l2)) (zip l1 l2) /\
  asked (chunk_hash_by e N hashes) c1 g hashes (fun _ => None) tt l1 /\
  (if header then asked (chunk_fmt_by e N header prints) c1 g prints eq_stop true l1
   else unasked (chunk_fmt_by e N header prints) c1 g false).
Proof. intros A e N c1 c2 l1 l2 other g header eqs cmps pcmps hashes prints HW H1 H2. exact (chunk_callbacks e N HW c1 c2 l1 l2 other g header eqs cmps pcmps hashes prints H1 H2). Qed.
Print Assumptions C68_chunk_callbacks.

(** C68, InlineArray. *)
Theorem C68_inline_callbacks :
  forall (A : Type) (e : env A) (L : layout) (b b2 : nat) (c1 c2 : inline A) (l1 l2 : list A) (g : log A) (header : bool)
         (eqs : nat -> A * A -> option bool) (cmps : nat -> A * A -> option comparison)
         (pcmps : nat -> A * A -> option (option comparison)) (hashes : nat -> A -> option unit) (prints : nat -> A -> option bool),
  wf_layout e L -> host_ok e L -> placed L b -> placed L b2 -> IHolds e L c1 l1 -> IHolds e L c2 l2 ->
  (if length l1 =? length l2 then asked (inline_eq_by e L b b2 eqs) (c1, c2) g eqs eq_stop true (zip l1 l2)
   else unasked (inline_eq_by e L b b2 eqs) (c1, c2) g false) /\
  asked (inline_cmp_by e L b b2 cmps) (c1, c2) g cmps cmp_stop (length l1 ?= length l2) (zip l1 l2) /\
  asked (inline_partial_cmp_by e L b b2 pcmps) (c1, c2) g pcmps pcmp_stop (Some (length l1 ?= length l2)) (zip l1 l2) /\
  asked (inline_hash_by e L b hashes) c1 g hashes (fun _ => None) tt l1 /\
  (if header then asked (inline_fmt_by e L b header prints) c1 g prints eq_stop true l1
   else unasked (inline_fmt_by e L b header prints) c1 g false).
Proof. intros A e L b b2 c1 c2 l1 l2 g header eqs cmps pcmps hashes prints WF HOST Hb Hb2 H1 H2. exact (inline_callbacks e L WF HOST b b2 c1 c2 l1 l2 g header eqs cmps pcmps hashes prints Hb Hb2 H1 H2). Qed.
Print Assumptions C68_inline_callbacks.

(** C68, RingBuffer. *)
Theorem C68_ring_callbacks :
  forall (A : Type) (e : env A) (N : nat) (r1 r2 : ring A) (l1 l2 other : list A) (g : log A) (header : bool)
         (eqs : nat -> A * A -> option bool) (cmps : nat -> A * A -> option comparison)
         (pcmps : nat -> A * A -> option (option comparison)) (hashes : nat -> A -> option unit) (prints : nat -> A -> option bool),
  N + N < word e -> 0 < N -> RHolds N r1 l1 -> RHolds N r2 l2 ->
  (if length l1 =? length l2 then asked (ring_eq_by e N eqs) (r1, r2) g eqs eq_stop true (zip l1 l2)
   else unasked (ring_eq_by e N eqs) (r1, r2) g false) /\
  (if length l1 =? length other then asked (ring_eq_list_by e N other eqs) (r1, tt) g eqs eq_stop true (zip l1 other)
   else unasked (ring_eq_list_by e N other eqs) (r1, tt) g false) /\
  asked (ring_cmp_by e N cmps) (r1, r2) g cmps cmp_stop (length l1 ?= length l2) (zip l1 l2) /\
  asked (ring_partial_cmp_by e N pcmps) (r1, r2) g pcmps pcmp_stop (Some (length l1 ?= length l2)) (zip l1 l2) /\
  asked (ring_hash_by e N hashes) r1 g hashes (fun _ => None) tt l1 /\
  (if header then asked (ring_fmt_by e N header prints) r1 g prints eq_stop true l1
   else unasked (ring_fmt_by e N header prints) r1 g false).
Proof. intros A e N r1 r2 l1 l2 other g header eqs cmps pcmps hashes prints HW HN H1 H2. exact (ring_callbacks e N HW HN r1 r2 l1 l2 other g header eqs cmps pcmps hashes prints H1 H2). Qed.
Print Assumptions C68_ring_callbacks.

(** C68, slices of RingBuffers: the same for the parts [v1], [v2] of the contents. *)
Theorem C68_ring_slice_callbacks :
  forall (A : Type) (e : env A) (N : nat) (s1 s2 : nat * nat) (r1 r2 : ring A) (l1 l2 other : list A) (g : log A) (header : bool)
         (eqs : nat -> A * A -> option bool) (cmps : nat -> A * A -> option comparison)
         (pcmps : nat -> A * A -> option (option comparison)) (hashes : nat -> A -> option unit) (prints : nat -> A -> option bool),
  N + N < word e -> 0 < N -> RHolds N r1 l1 -> RHolds N r2 l2 ->
  fst s1 <= snd s1 <= length l1 -> fst s2 <= snd s2 <= length l2 ->
  let v1 := take (snd s1 - fst s1) (drop (fst s1) l1) in
  let v2 := take (snd s2 - fst s2) (drop (fst s2) l2) in
  (if length v1 =? length v2 then asked (rslice_eq_by e N s1 s2 eqs) (r1, r2) g eqs eq_stop true (zip v1 v2)
   else unasked (rslice_eq_by e N s1 s2 eqs) (r1, r2) g false) /\
  (if length v1 =? length other then asked (rslice_eq_list_by e N s1 other eqs) (r1, tt) g eqs eq_stop true (zip v1 other)
   else unasked (rslice_eq_list_by e N s1 other eqs) (r1, tt) g false) /\
  asked (rslice_cmp_by e N s1 s2 cmps) (r1, r2) g cmps cmp_stop (length v1 ?= length v2) (zip v1 v2) /\
  asked (rslice_partial_cmp_by e N s1 s2 pcmps) (r1, r2) g pcmps pcmp_stop (Some (length v1 ?= length v2)) (zip v1 v2) /\
  asked (rslice_hash_by e N s1 hashes) r1 g hashes (fun _ => None) tt v1 /\
  (if header then asked (rslice_fmt_by e N s1 header prints) r1 g prints eq_stop true v1
   else unasked (rslice_fmt_by e N s1 header prints) r1 g false).
Proof. intros A e N s1 s2 r1 r2 l1 l2 other g header eqs cmps pcmps hashes prints HW HN H1 H2 I1 I2 v1 v2. exact (rslice_callbacks e N HW HN s1 s2 r1 r2 l1 l2 other g header eqs cmps pcmps hashes prints H1 H2 I1 I2). Qed.
Print Assumptions C68_ring_slice_callbacks.

(** C68, SparseChunk: two chunks are compared value by value only if they occupy the same indices; a chunk and a map (given
    by [len] and [get]) only if they have equally many keys, and up to the first key the map does not have. *)
Theorem C68_sparse_callbacks :
  forall (A : Type) (e : env A) (N : nat) (c1 c2 : sparse A) (s1 s2 : list (option A)) (g : log A) (header : bool) (len : nat)
         (other : nat -> option A) (eqs : nat -> A * A -> option bool) (prints : nat -> nat * A -> option bool),
  N < word e -> SHolds N c1 s1 -> SHolds N c2 s2 ->
  (occupied s1 = occupied s2 -> asked (sparse_eq_by N eqs) (c1, c2) g eqs eq_stop true (zip (values s1) (values s2))) /\
  (occupied s1 <> occupied s2 -> unasked (sparse_eq_by N eqs) (c1, c2) g false) /\
  (length (entries s1) = len ->
   asked (sparse_eq_map_by N len other eqs) c1 g eqs eq_stop (has_keys other (entries s1)) (met other (entries s1))) /\
  (length (entries s1) <> len -> unasked (sparse_eq_map_by N len other eqs) c1 g false) /\
  (if header then asked (sparse_fmt_by N header prints) c1 g prints eq_stop true (entries s1)
   else unasked (sparse_fmt_by N header prints) c1 g false).
Proof. intros A e N c1 c2 s1 s2 g header len other eqs prints HW H1 H2. exact (sparse_callbacks e N HW c1 c2 s1 s2 g header len other eqs prints H1 H2). Qed.
Print Assumptions C68_sparse_callbacks.

(** A comparison that panics at its second call; one that contradicts itself (a chunk compared with itself). *)
Example C68_example :
  Holds 4 ex_chunk [3; 1; 2] /\ RHolds 4 ex_ring [3; 1; 2] /\
  match chunk_eq_by dbg 4 (fun k p => if k =? 1 then None else Some (fst p =? snd p)) ([], (ex_chunk, ex_chunk)) log0 with
  | Panic (calls, _) g => calls = [(3, 3); (1, 1)] /\ dropped g = [] | _ => False end /\
  match ring_cmp_by dbg 4 (fun k p => Some (if k =? 2 then Gt else Eq)) ([], (ex_ring, ex_ring)) log0 with
  | Ret (calls, _) g r => calls = [(3, 3); (1, 1); (2, 2)] /\ r = Gt | _ => False end.
Proof. split; [exact ex_chunk_holds|]. split; [exact (proj1 ex_ring_holds)|]. vm_compute. auto. Qed.
(** What [asked] says determines the calls and the result; and if the answers depend on the elements only, [==] is
    element-wise equality and [cmp] the lexicographic order. *)
Theorem C68_specification_is_complete :
  forall (X T R : Type) (answer : nat -> X -> option T) (stop : T -> option R) (final : R) (xs calls calls' : list X) (res res' : option R),
  questions answer stop final xs calls res -> questions answer stop final xs calls' res' -> calls = calls' /\ res = res'.
Proof. intros X T R answer stop final xs calls calls' res res'. apply questions_unique. Qed.
Print Assumptions C68_specification_is_complete.
Theorem C68_consistent_answers :
  forall (A : Type) (eqA : A -> A -> bool) (cmp : A -> A -> comparison) (l1 l2 : list A) (cs cs' : list (A * A)) res res',
  (length l1 = length l2 -> questions (fun _ p => Some (eqA (fst p) (snd p))) eq_stop true (zip l1 l2) cs res ->
   res = Some (slice_eq eqA l1 l2)) /\
  (questions (fun _ p => Some (cmp (fst p) (snd p))) cmp_stop (length l1 ?= length l2) (zip l1 l2) cs' res' ->
   res' = Some (iter_cmp cmp l1 l2)).
Proof. intros A eqA cmp l1 l2 cs cs' res res'. exact (questions_pure eqA cmp l1 l2 cs cs' res res'). Qed.
Print Assumptions C68_consistent_answers.
