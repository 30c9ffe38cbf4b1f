(** * What the operations cost, counted in slots written.  Every proof is a reference to a lemma. *)
From Verif Require Import Machine Spec Prims IterSpec ChunkModel ChunkProofs ChunkProofs2 ChunkProofs5 ChunkExamples ChunkCost BulkCost.
From Verif Require Import RingModel RingProofs RingProofs2 RingLaws RingCost.
From Verif Require Import InlineModel InlineSpec InlineProofs InlineProofs2 PropertiesInline InlineCost.
From Verif Require Import SparseModel.

(** [post (fun _ g' _ => P) (m c g)]: executed with the log [g] the call [m] returns, and the log [g'] afterwards
    satisfies [P].  [within b (m c g)]: if the call returns or panics, at most [b] slot writes are on the log. *)
Notation wrote n := (fun _ g' _ => writes g' = n).

(** C67, moves between chunks: each moved value is written once; when there is no room at the end where they arrive the
    contents are first shifted, once. *)
Theorem C67_chunk_bulk_costs :
  forall (A : Type) (e : env A) (N : nat) (c1 c2 : chunk A) (l1 l2 : list A) (g : log A) (k : nat),
  N + N < word e -> Holds N c1 l1 -> Holds N c2 l2 ->
  (k <= length l2 ->
   post (wrote (writes g + k)) (from_front e N k c2 g) /\
   post (wrote (writes g + k)) (from_back e N k c2 g) /\
   post (wrote (writes g + (length l2 - k))) (split_off e N k c2 g)) /\
  (k <= length l2 -> length l1 + k <= N ->
   post (fun _ g' _ => writes g' <= writes g + length l1 + k /\ (right c1 + k <= N -> writes g' = writes g + k))
     (drain_from_front e N k (c1, c2) g) /\
   post (fun _ g' _ => writes g' <= writes g + length l1 + k /\ (k <= left c1 -> writes g' = writes g + k))
     (drain_from_back e N k (c1, c2) g)) /\
  (length l1 + length l2 <= N ->
   post (fun _ g' _ => writes g' <= writes g + length l1 + length l2 /\
                       (right c1 + length l2 <= N -> writes g' = writes g + length l2)) (append e N (c1, c2) g)).
Proof.
  intros A e N c1 c2 l1 l2 g k HW H1 H2. split; [|split].
  - intros Hk. split; [exact (from_front_cost e N HW c2 l2 g k H2 Hk)|].
    split; [exact (from_back_cost e N HW c2 l2 g k H2 Hk)|exact (split_off_cost e N HW c2 l2 g k H2 Hk)].
  - intros Hk Hl. exact (conj (drain_from_front_cost e N HW c1 c2 l1 l2 g k H1 H2 Hl Hk) (drain_from_back_cost e N HW c1 c2 l1 l2 g k H1 H2 Hl Hk)).
  - exact (append_cost e N HW c1 c2 l1 l2 g H1 H2).
Qed.
Print Assumptions C67_chunk_bulk_costs.
(** The shift does happen: [ex_chunk] holds three values in the last three of its four slots. *)
Example C67_append_example :
  Holds 4 ex_chunk [3; 1; 2] /\
  match append rel 4 (ex_chunk, Chunk 2 3 (upd mem0 2 (Some 9))) log0 with Ret _ g _ => writes g = 4 | _ => False end.
Proof. split; [exact ex_chunk_holds|]. vm_compute. reflexivity. Qed.

(** C67, inserting into and removing from a chunk: the values on one side of the position move by one, on the shorter side
    if both ends have room; [insert_from] and [extend] write each new value once and move the others at most once. *)
Theorem C67_chunk_shift_costs :
  forall (A : Type) (e : env A) (N : nat) (c : chunk A) (l : list A) (g : log A) (i : nat) (v : A) (xs : list A),
  N + N < word e -> Holds N c l ->
  (length l < N -> i <= length l ->
   post (fun _ g' _ => writes g' <= writes g + i `max` (length l - i) + 1 /\
                       (0 < left c -> right c < N -> writes g' = writes g + i `min` (length l - i) + 1)) (insert e N i v c g)) /\
  (i < length l -> post (wrote (writes g + i `min` (length l - 1 - i))) (remove e N i c g)) /\
  (length l + length xs <= N -> i <= length l ->
   post (fun _ g' _ => writes g' <= writes g + length l + length xs)
     (insert_from e N i (length xs) (length xs) (map Yield xs) c g)) /\
  (length l + length xs <= N ->
   post (fun _ g' _ => writes g' <= writes g + length xs + (N - 1) /\
                       (right c + length xs <= N -> writes g' = writes g + length xs)) (extend e N (map Yield xs) c g)).
Proof.
  intros A e N c l g i v xs HW H. split; [exact (insert_cost e N HW c l g i v H)|]. split; [exact (remove_cost e N HW c l g i H)|].
  split; [exact (insert_from_truthful_cost e N HW c l g i xs H)|]. intros Hl.
  pose proof (extend_cost e N HW xs c l g H Hl) as P. pose proof (slack_le e N HW false c).
  destruct (extend e N (map Yield xs) c g); cbn in *; try contradiction. split; [nia|apply P].
Qed.
Print Assumptions C67_chunk_shift_costs.
Example C67_insert_example :
  match extend rel 4 [Yield 9] ex_chunk log0 with Ret _ g _ => writes g = 4 | _ => False end /\
  match insert_from rel 8 1 2 2 [Yield 8; Yield 9] (Chunk 2 5 (upd (upd (upd mem0 2 (Some 3)) 3 (Some 1)) 4 (Some 2))) log0 with
  | Ret _ g _ => writes g = 3 | _ => False end.
Proof. vm_compute. auto. Qed.

(** C67, RingBuffer: a move between buffers writes the moved values once and nothing else; [insert_from] also moves the
    values on the shorter side of the position, whatever the iterator does. *)
Theorem C67_ring_bulk_costs :
  forall (A : Type) (e : env A) (N : nat) (r1 r2 : ring A) (l1 l2 : list A) (g : log A) (k : nat),
  N + N < word e -> 0 < N -> RHolds N r1 l1 -> RHolds N r2 l2 ->
  (k <= length l2 ->
   post (wrote (writes g + k)) (rb_from_front e N k r2 g) /\
   post (wrote (writes g + k)) (rb_from_back e N k r2 g) /\
   post (wrote (writes g + (length l2 - k))) (rb_split_off e N k r2 g)) /\
  (k <= length l2 -> length l1 + k <= N ->
   post (wrote (writes g + k)) (rb_drain_from_front e N k (r1, r2) g) /\
   post (wrote (writes g + k)) (rb_drain_from_back e N k (r1, r2) g)) /\
  (length l1 + length l2 <= N -> post (wrote (writes g + length l2)) (rb_append e N (r1, r2) g)).
Proof.
  intros A e N r1 r2 l1 l2 g k HW HN H1 H2. split; [|split].
  - intros Hk. split; [exact (rb_from_front_cost e N HW HN r2 l2 g k H2 Hk)|].
    split; [exact (rb_from_back_cost e N HW HN r2 l2 g k H2 Hk)|exact (rb_split_off_cost e N HW HN r2 l2 g k H2 Hk)].
  - intros Hk Hl. exact (conj (rb_drain_from_front_cost e N HW HN r1 r2 l1 l2 g k H1 H2 Hl Hk) (rb_drain_from_back_cost e N HW HN r1 r2 l1 l2 g k H1 H2 Hl Hk)).
  - exact (rb_append_cost e N HW HN r1 r2 l1 l2 g H1 H2).
Qed.
Print Assumptions C67_ring_bulk_costs.
Theorem C67_ring_insert_from_costs :
  forall (A : Type) (e : env A) (N : nat) (r : ring A) (l : list A) (g : log A) (i n : nat) (it : list (ev A)) (xs : list A),
  N + N < word e -> 0 < N -> RHolds N r l ->
  (length l + n <= N -> i < length l -> within (writes g + i `min` (length l - i) + n) (rb_insert_from e N i n it r g)) /\
  (calm e -> length l + length xs <= N -> i <= length l ->
   post (fun _ g' _ => writes g' <= writes g + i `min` (length l - i) + length xs) (rb_insert_from e N i (length xs) (map Yield xs) r g)) /\
  (calm e -> length l + length xs <= N -> post (wrote (writes g + length xs)) (rb_extend e N (map Yield xs) r g)).
Proof.
  intros A e N r l g i n it xs HW HN H. split; [exact (rb_insert_from_cost e N HW HN r l g i n it H)|].
  split; intros Hc; [exact (rb_insert_from_truthful_cost e N HW HN r l g i xs Hc H)|exact (rb_extend_cost e N HW HN xs Hc r l g H)].
Qed.
Print Assumptions C67_ring_insert_from_costs.
Example C67_ring_example :
  match rb_append rel 4 (Ring 3 1 (upd mem0 3 (Some 7)), ex_ring) log0 with Ret _ g _ => writes g = 3 | _ => False end /\
  match rb_insert_from rel 4 2 1 [Yield 9] ex_ring log0 with Ret _ g _ => writes g = 2 | _ => False end.
Proof. vm_compute. auto. Qed.

(** C67, InlineArray. *)
Theorem C67_inline_costs :
  forall (A : Type) (e : env A) (L : layout) (b b2 : nat) (c : inline A) (l : list A) (g : log A) (i : nat) (v : A),
  wf_layout e L -> host_ok e L -> placed L b -> placed L b2 -> IHolds e L c l ->
  (length l < capacity e L -> post (wrote (writes g + 1)) (ia_push e L b v c g)) /\
  post (wrote (writes g)) (ia_pop e L b c g) /\
  (length l < capacity e L -> i <= length l -> post (wrote (writes g + (length l - i + 1))) (ia_insert e L b i v c g)) /\
  (i < length l -> post (wrote (writes g + (length l - 1 - i))) (ia_remove e L b i c g)) /\
  (i <= length l -> post (wrote (writes g + (length l - i))) (ia_split_off e L b b2 i c g)).
Proof.
  intros A e L b b2 c l g i v WF HOST Hb Hb2 H. split; [exact (ia_push_cost e L WF HOST b c l g v Hb H)|].
  split; [exact (ia_pop_cost e L WF HOST b c l g Hb H)|]. split; [exact (ia_insert_cost e L WF HOST b c l g i v Hb H)|].
  split; [exact (ia_remove_cost e L WF HOST b c l g i Hb H)|exact (ia_split_off_cost e L WF HOST b b2 c l g i Hb Hb2 H)].
Qed.
Print Assumptions C67_inline_costs.
Example C67_inline_example :
  wf_layout rel ex_last /\ placed ex_last 16 /\
  match ia_new rel ex_last 16 tt log0 with
  | Ret _ g0 c0 =>
      match (ia_push rel ex_last 16 5 ;;; ia_push rel ex_last 16 6 ;;; ia_insert rel ex_last 16 0 7) c0 g0 with
      | Ret c g _ => writes g = 5 /\ match ia_remove rel ex_last 16 0 c g with Ret _ g' r => r = Some 7 /\ writes g' = 7 | _ => False end
      | _ => False
      end
  | _ => False
  end.
Proof. split; [apply ex_last_wf; reflexivity|]. split; [exists 1; reflexivity|]. vm_compute. auto. Qed.

(** C67, SparseChunk: one slot for an insertion, none for anything else, in any state. *)
Theorem C67_sparse_costs :
  forall (A : Type) (e : env A) (N : nat) (c : sparse A) (g : log A) (i : nat) (v : A),
  within (writes g + 1) (sp_insert e N i v c g) /\
  within (writes g) (sp_remove N i c g) /\ within (writes g) (sp_pop N c g) /\ within (writes g) (sp_get N i c g).
Proof.
  intros A e N c g i v.
  assert (R : forall j, within (writes g) (sp_remove N j c g)).
  { intros j. unfold sp_remove, map_set, sp_force_read, slot_read, bind, get, put, ret, panic, undefined.
    destruct (N <=? j); [cbn; lia|]. destruct (j <? N); [|exact I]. destruct (smap c j); [|cbn; lia].
    cbn. destruct (sdata c j); cbn; lia || exact I. }
  split; [|split; [apply R|split]].
  - unfold sp_insert, map_set, sp_force_write, slot_read, slot_write, bind, get, put, ret, panic_dropping, undefined.
    destruct (N <=? i); [destruct (bomb e v); cbn; lia|]. destruct (i <? N); [|exact I]. destruct (smap c i).
    + cbn. destruct (sdata c i); cbn; lia || exact I.
    + cbn. lia.
  - unfold sp_pop, sp_first_index, bind, get, ret. destruct (bm_first N (smap c)); [apply R|cbn; lia].
  - unfold sp_get, map_get, sp_get_unchecked, slot_peek, bind, get, ret, undefined.
    destruct (N <=? i); [cbn; lia|]. destruct (i <? N); [|exact I]. destruct (smap c i); [|cbn; lia].
    destruct (getm c i); cbn; lia || exact I.
Qed.
Print Assumptions C67_sparse_costs.

(** C67: dropping values writes nothing, in any state and also when a destructor panics. *)
Theorem C67_dropping_writes_nothing :
  forall (A : Type) (e : env A) (N : nat) (c : chunk A) (r : ring A) (g : log A) (i : nat),
  within (writes g) (drop_left e N i c g) /\ within (writes g) (drop_right e N i c g) /\ within (writes g) (clear e N c g) /\
  within (writes g) (rb_drop_left e N i r g) /\ within (writes g) (rb_drop_right e N i r g) /\ within (writes g) (rb_clear e N r g).
Proof.
  intros A e N c r g i. split; [exact (drop_left_free e N i c g)|]. split; [exact (drop_right_free e N i c g)|].
  split; [exact (clear_free e N c g)|]. split; [exact (rb_drop_left_free e N i r g)|].
  split; [exact (rb_drop_right_free e N i r g)|exact (rb_clear_free e N r g)].
Qed.
Print Assumptions C67_dropping_writes_nothing.
Example C67_dropping_example :
  match drop_left bombed 4 1 (Chunk 0 2 (upd (upd mem0 0 (Some 13)) 1 (Some 5))) log0 with Panic _ g => writes g = 0 | _ => False end /\
  match rb_clear dbg 4 ex_ring log0 with Ret _ g _ => writes g = 0 /\ length (dropped g) = 3 | _ => False end.
Proof. vm_compute. auto. Qed.
