(** * "O(1) amortised double ended push/pop" (README.md). *)
From Verif Require Import Machine Spec Prims ChunkModel ChunkProofs ChunkCost ChunkExamples Amortised RingModel RingProofs RingAmortised RingLaws.

(** C80.  The README says that pushing and popping at both ends costs O(1) amortised: the number of slots written in any
    history is at most a constant times its length.  [writes] counts the slots written.

    True of [RingBuffer], with constant 1: *)
Theorem C80_ring_amortised_constant :
  forall (A : Type) (e : env A) (N : nat) (h : list (deque_op A)) (r : ring A) (l : list A) (g : log A),
  N + N < word e -> 0 < N -> calm e -> RHolds N r l ->
  exists r' g', ring_history e N h r g = Some (r', g') /\ writes g' - writes g <= length h.
Proof.
  intros A e N h r l g HW HN Hc H. destruct (ring_history_cost e N HW HN Hc h r l g H) as (r' & g' & E & C).
  exists r', g'. split; [exact E|]. pose proof (pushes_le h). lia.
Qed.
(** True of [Chunk] if it is pushed to at one end only (and popped from at either) and never holds more than a fixed part of
    its capacity: with at most [b] of [N] elements, each push costs at most [N / (N - b)] on average; with at most half, 2. *)
Theorem C80_chunk_amortised_constant_partial :
  forall (A : Type) (e : env A) (N b : nat) (h : list (deque_op A)) (g : log A),
  N + N < word e -> calm e -> b < N ->
  (forall v, ~ In (PushF v) h) \/ (forall v, ~ In (PushB v) h) ->
  at_most N b h [] ->
  exists c' g', history e N h new g = Some (c', g') /\
    (N - b) * (writes g' - writes g) <= N * pushes h /\
    (b + b <= N -> writes g' - writes g <= 2 * length h).
Proof.
  intros A e N b h g HW Hc Hb Hs Ha.
  assert (S : Forall no_push_front h \/ Forall no_push_back h).
  { destruct Hs as [Hs|Hs]; [left|right]; apply List.Forall_forall; intros [v|v| |] Hv; cbn; try done; exact (Hs v Hv). }
  destruct (one_sided e N HW Hc b h g Hb S Ha) as (c' & g' & E & C). exists c', g'. split; [exact E|]. split; [exact C|].
  intros Hb2. pose proof (pushes_le h). nia.
Qed.
(** False of [Chunk] otherwise, whatever the constant [K]: (1) with pushes at both ends in turn, however much room there is
    ([n] elements in a chunk of any capacity above [n]: every push moves all of them); (2) with pushes at one end, as a queue,
    in a chunk that is nearly full. *)
Theorem C80_chunk_amortised_constant_refuted :
  forall (A : Type) (v : A) (K : nat),
  (exists n h, forall N (e : env A), n < N -> N + N < word e -> calm e ->
     exists c' g', history e N h new log0 = Some (c', g') /\ K * length h < writes g') /\
  (exists N h, (forall w, ~ In (PushF w) h) /\ forall e : env A, N + N < word e -> calm e ->
     exists c' g', history e N h new log0 = Some (c', g') /\ K * length h < writes g').
Proof.
  intros A v K. split.
  - exists (2 * K + 1), (replicate (2 * K + 1) (PushB v) ++ repeated ((K + 1) * (K + 1)) (both_ends v)). intros N e Hn HW Hc.
    destruct (worst_both_ends e N HW Hc v (2 * K + 1) ((K + 1) * (K + 1)) log0 ltac:(lia) Hn) as (c' & g' & E & W).
    exists c', g'. split; [exact E|]. rewrite W, app_length, replicate_length, repeated_length. cbn [length both_ends log0 writes]. nia.
  - exists (2 * K + 2), (replicate (2 * K + 2) (PushB v) ++ PopF :: repeated (K * (K + 2)) (queued v)). split.
    + intros w Hw. apply in_app_or in Hw as [Hw|[Hw|Hw]]; [|done|].
      * apply elem_of_list_In, elem_of_replicate in Hw as [Hw _]. done.
      * revert Hw. generalize (K * (K + 2)). intros k. induction k as [|k IH]; cbn [repeated queued app]; [done|].
        intros [Hw|[Hw|Hw]]; [done|done|exact (IH Hw)].
    + intros e HW Hc. destruct (worst_queue e (2 * K + 2) HW Hc v (K * (K + 2)) log0 ltac:(lia)) as (c' & g' & E & W).
      exists c', g'. split; [exact E|]. rewrite W, app_length. cbn [length]. rewrite replicate_length, repeated_length.
      cbn [length queued log0 writes]. nia.
Qed.
(** A queue of at most 2 in a chunk of 4 (six pushes, 7 slots written); pushes and pops at both ends in turn on three
    elements (four pushes after the first three: 3 + 4 * 4). *)
Example C80_example :
  let queue := [PushB 1; PushB 2; PopF; PushB 3; PopF; PushB 4; PopF; PushB 5; PopF; PopF; PushB 6] in
  at_most 4 2 queue [] /\ pushes queue = 6 /\
  match history dbg 4 queue new log0, history dbg 4 ([PushB 1; PushB 1; PushB 1] ++ repeated 2 (both_ends 7)) new log0 with
  | Some (_, g), Some (_, g') => writes g = 7 /\ writes g' = 19
  | _, _ => False
  end /\
  match ring_history dbg 4 [PushB 7; PushF 8; PushB 9; PopB; PopF] ex_ring log0 with
  | Some (_, g) => writes g = 1
  | None => False
  end.
Proof. split; [vm_compute; lia|]. vm_compute. repeat split; reflexivity. Qed.
Print Assumptions C80_ring_amortised_constant.
Print Assumptions C80_chunk_amortised_constant_partial.
Print Assumptions C80_chunk_amortised_constant_refuted.
