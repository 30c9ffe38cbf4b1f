(** * Moving containers: what the compiler's typed copies preserve. *)
From Verif Require Import Machine Spec Prims ChunkExamples InlineModel InlineSpec InlineProofs2 InlineProofs3 Program ChunkProgram InlineProgram
  PropertiesInline MoveModel MoveSpec MoveProofs.

(** C72, the part that holds.  If no padding byte of the host type lies under the header or under a byte of an element slot
    that the element uses, every program of calls - in which every array returned is moved to its place, and arrays are
    moved around between the calls - behaves as on lists.  Hosts without padding satisfy this. *)
Theorem C72_inline_moves_partial :
  forall (A : Type) (e : env A) (L : layout) (P : padding) (p : list (cmd (ia_op0 A) (ia_op1 A) (ia_opn A) (ia_op2 A))),
  wf_layout e L -> host_ok e L -> calm e -> harmless e L P (capacity e L) -> all_legal (ia_spec (capacity e L)) p [] ->
  exists X g, run (ia_kit_moving P e L) p [] log0 = Some (X, g, s_events (srun (ia_spec (capacity e L)) p [])) /\
    Forall2 (orel (LHolds e L)) X (s_store (srun (ia_spec (capacity e L)) p [])) /\
    dropped g = s_dropped (srun (ia_spec (capacity e L)) p []) /\
    Permutation (leaked g) (s_leaked (srun (ia_spec (capacity e L)) p [])).
Proof. intros A e L P p WF HOST Hc HP HL. exact (moving_program e L P WF HOST Hc p HP HL). Qed.
Print Assumptions C72_inline_moves_partial.
(** ... and exactly: a move keeps an array intact if and only if no padding byte of the host lies under its header or under
    a byte that one of its elements uses. *)
Theorem C72_inline_move_exact_partial :
  forall (A : Type) (e : env A) (L : layout) (P : padding) (c : inline A) (l : list A),
  wf_layout e L -> host_ok e L -> IHolds e L c l ->
  (IHolds e L (moved P c) l <-> harmless e L P (length l)).
Proof.
  intros A e L P c l WF HOST H. split; [|exact (moved_holds e L P c l H)].
  intros HM. assert (HH : forall q, pad_t P q = true -> ~ in_header e L q).
  { intros q Hq Hin. pose proof (header_lost e L P WF HOST 0 c l log0 q (Nat.divide_0_r _) H Hq Hin) as E.
    destruct (ia_len_ok e L WF HOST 0 _ l log0 (Nat.divide_0_r _) HM) as (? & ? & ? & E' & _). congruence. }
  intros q Hq. split; [exact (HH q Hq)|]. intros j m Hj Hin. destruct (pad_a P m) eqn:Em; [reflexivity|].
  pose proof (element_lost e L P WF HOST 0 c l log0 q j m (Nat.divide_0_r _) H Hq Hj Hin Em HH) as E.
  rewrite (deref_ok e L WF HOST 0 _ l log0 (Nat.divide_0_r _) HM) in E. discriminate.
Qed.
Print Assumptions C72_inline_move_exact_partial.
(** Refutation: with padding under the header the length of a new array is undefined after a move, as is that of every
    other array; with padding under an element its contents are. *)
Theorem C72_inline_padded_host_refuted :
  forall (A : Type) (e : env A) (L : layout) (P : padding) (b b' q : nat) (g : log A),
  wf_layout e L -> host_ok e L -> placed L b -> placed L b' -> pad_t P q = true ->
  (in_header e L q ->
   (exists c, ia_new e L b tt g = Ret tt g c /\ ia_len e L b' (moved P c) g = UB DeadSlot) /\
   (forall c l, IHolds e L c l -> ia_len e L b' (moved P c) g = UB DeadSlot)) /\
  (forall j m c l, in_element L q j m -> pad_a P m = false -> IHolds e L c l -> j < length l ->
   (forall q', pad_t P q' = true -> ~ in_header e L q') -> ia_deref e L b' (moved P c) g = UB DeadSlot).
Proof.
  intros A e L P b b' q g WF HOST Hb Hb' Hq. split.
  - intros Hin. assert (HL : forall c l, IHolds e L c l -> ia_len e L b' (moved P c) g = UB DeadSlot).
    { intros c l H. exact (header_lost e L P WF HOST b' c l g q Hb' H Hq Hin). }
    split; [|exact HL]. destruct (new_ok e L WF HOST b tt g Hb) as (c & E & H). exists c. split; [exact E|]. exact (HL c [] H).
  - intros j m c l Hin Hm H Hj HH. exact (element_lost e L P WF HOST b' c l g q j m Hb' H Hq Hj Hin Hm HH).
Qed.
Print Assumptions C72_inline_padded_host_refuted.
(** Chunk, RingBuffer, SparseChunk: the storage is an array of elements, whose padding is that of the elements; every byte
    that an element uses survives a move, wherever the element is. *)
Theorem C72_slots_survive_moves :
  forall (A : Type) (size : nat) (pad : nat -> bool) (m : mem A) (i k : nat) (a : A),
  k < size -> pad k = false -> m i = Some a ->
  moved_bytes size pad (array_bytes size m) (i * size + k) = Some (a, k).
Proof. intros. apply array_move; assumption. Qed.
Print Assumptions C72_slots_survive_moves.

(** Two hosts of 16 bytes, elements of one byte: [(u64, u8)] with padding 9..15 and [(u8, u64)] with padding 1..7 (both
    [repr(C)]). *)
Definition host_16 : layout := Layout 1 1 16 8 8 8 8.
Definition u64_u8 : padding := Padding (fun q => (9 <=? q) && (q <? 16)) (fun _ => false).
Definition u8_u64 : padding := Padding (fun q => (1 <=? q) && (q <? 8)) (fun _ => false).
(** A host without padding, [[u64; 8]], for elements of 16 bytes of which the second half is padding. *)
Definition no_padding : padding := Padding (fun _ => false) (fun q => 8 <=? q).
Lemma host_16_wf e : word e = 256 -> wf_layout (A:=nat) e host_16.
Proof.
  intros H. split; cbn [align_a align_t align_us align_u64 size_a size_t size_us host_16]; try lia;
    try (exists 0; reflexivity); try (exists 3; reflexivity); try (exists 1; reflexivity); try (exists 2; reflexivity);
    try (exists 16; reflexivity).
Qed.
Example C72_example :
  wf_layout rel host_16 /\ host_ok rel host_16 /\ capacity rel host_16 = 8 /\
  harmless rel host_16 u64_u8 1 /\ harmless rel ex_last no_padding (capacity rel ex_last) /\
  (* one element survives *)
  match run (ia_kit_moving u64_u8 rel host_16) [Make (INew 1); Call 0 (IPush 5); Call 0 (IMove 2); Call 0 IAsSlice] [] log0 with
  | Some (_, _, evs) => evs = [Done; Returned RUnit; Returned RUnit; Returned (RRefs [5])] | None => False end /\
  (* two do not *)
  run (ia_kit_moving u64_u8 rel host_16) [Make (INew 1); Call 0 (IPush 5); Call 0 (IPush 6); Call 0 (IMove 2); Call 0 IAsSlice] [] log0 = None /\
  (* an empty array does not *)
  run (ia_kit_moving u8_u64 rel host_16) [Make (INew 1); Call 0 ILen] [] log0 = None /\
  match run (ia_kit_moving no_padding rel ex_last) ex_inline_program [] log0 with Some _ => True | None => False end.
Proof.
  split; [apply host_16_wf; reflexivity|]. split; [split; cbn; lia|]. split; [reflexivity|]. split.
  { intros q Hq. unfold u64_u8 in Hq. cbn [pad_t] in Hq. assert (9 <= q < 16) by lia.
    split; [unfold in_header, header_at; cbn [align_a align_us size_us host_16]; rewrite if_true by reflexivity; lia|].
    intros j m Hj [Hm E]. unfold elements_at in E. cbn [align_a align_us size_us size_a host_16] in Hm, E. rewrite if_true in E by reflexivity. lia. }
  split; [intros q Hq; discriminate|]. vm_compute. repeat split.
Qed.
