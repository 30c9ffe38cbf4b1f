(** * Concrete instances.  Each theorem that has no example of its own beside it is applied here to concrete,
    non-trivial data, all its hypotheses discharged: a definition [X_case] is the theorem [X] of the given
    arguments, so its type is the concrete conclusion and no hypothesis is left. *)
From Verif Require Import Machine Spec Prims IterSpec IterSpec2 Program ChunkExamples ChunkProofs
  RingModel RingProofs RingLaws SparseModel SparseSpec SparseProofs InlineModel InlineSpec InlineProofs2
  ChunkProgram RingProgram SparseProgram InlineProgram ArbitraryModel
  PropertiesChunk PropertiesRing PropertiesSparse PropertiesInline PropertiesExtra PropertiesMore PropertiesRef
  PropertiesCost CallbackSpec PropertiesCallback.

(** ** The data *)
Ltac num := cbn; lia.
Definition ex_log : log nat := Log [40; 41] [42] 7.
Definition ring_held : RHolds 4 ex_ring [3; 1; 2] := proj1 ex_ring_holds.
(** A sparse chunk with values at 0 and 2 of its 4 cells, as [insert] leaves it. *)
Definition ex_sparse : sparse nat :=
  match (sp_insert rel 4 2 7 ;;; sp_insert rel 4 0 8) (Sparse (fun _ => false) mem0) log0 with Ret c _ _ => c | _ => Sparse (fun _ => false) mem0 end.
Lemma ex_sparse_holds : SHolds 4 ex_sparse [Some 8; None; Some 7; None].
Proof.
  split; [reflexivity|]. split.
  - intros [|[|[|[|i]]]] H; first [vm_compute; reflexivity|lia].
  - intros [|[|[|[|i]]]]; try (vm_compute; reflexivity).
Qed.
(** An array of three numbers, the header behind them. *)
Definition ex_inline : inline nat :=
  match ia_from_iter rel ex_last 32 (map Yield [5; 13; 6]) tt log0 with Ret _ _ (c, _) => c | _ => inline_uninit end.
Lemma rel_last : wf_layout rel ex_last. Proof. apply ex_last_wf. reflexivity. Qed.
Lemma dbg_last : wf_layout dbg ex_last. Proof. apply ex_last_wf. reflexivity. Qed.
Lemma bombed_last : wf_layout bombed ex_last. Proof. apply ex_last_wf. reflexivity. Qed.
Lemma rel_first : wf_layout rel ex_first. Proof. apply ex_first_wf. reflexivity. Qed.
Lemma rel_last_host : host_ok rel ex_last. Proof. split; num. Qed.
Lemma dbg_last_host : host_ok dbg ex_last. Proof. split; num. Qed.
Lemma rel_first_host : host_ok rel ex_first. Proof. split; num. Qed.
Lemma bombed_last_host : host_ok bombed ex_last. Proof. split; num. Qed.
Lemma at16 : placed ex_last 16. Proof. exists 1. reflexivity. Qed.
Lemma at32 : placed ex_last 32. Proof. exists 2. reflexivity. Qed.
Lemma ex_inline_holds : IHolds rel ex_last ex_inline [5; 13; 6].
Proof.
  destruct (C48_inline_any_contents nat rel ex_last 32 [5; 13; 6] rel_last rel_last_host rel_calm at32) as (c & g & E & H & _); [num|].
  unfold ex_inline. rewrite E. exact H.
Qed.
Lemma ex_inline_holds_bombed : IHolds bombed ex_last ex_inline [5; 13; 6].
Proof. exact ex_inline_holds. Qed.

(** ** Chunk *)
Definition C01_case := C01_chunk_programs_are_list_programs nat rel 4 ex_program ltac:(num) rel_calm (proj1 C01_example).
Definition C02_case := C02_chunk_programs_are_memory_safe nat rel 4 ex_program ltac:(num) rel_calm (proj1 C01_example).
(** The iterator promises two items and gives one; the index is past the end. *)
Definition C08_partial_case := C08_chunk_insert_from_any_iterator_partial nat dbg 4 ex_chunk [3; 1; 2] ex_log 9 2 [Yield 7; Boom]
  ltac:(num) dbg_calm ex_chunk_holds ltac:(num) ltac:(right; reflexivity).
Definition C12_partial_case := C12_chunk_from_front_back_partial nat rel 4 ex_chunk [3; 1; 2] ex_log 2 ltac:(num) ex_chunk_holds ltac:(left; num).
Definition C12_partial_case2 := C12_chunk_from_front_back_partial nat dbg 4 ex_chunk [3; 1; 2] ex_log 9 ltac:(num) ex_chunk_holds ltac:(right; reflexivity).
Definition C14_partial_case := C14_chunk_destroy_with_panicking_drop_partial nat (Env 256 true (fun a => a =? 1)) 4 ex_chunk [3; 1; 2] ex_log ltac:(num) ex_chunk_holds.

(** ** Ring buffer *)
Definition C23_case := C23_ring_programs_are_list_programs nat rel 4 ex_ring_program ltac:(num) ltac:(num) rel_calm (proj1 C23_example).
Definition C24_case := C24_ring_programs_are_memory_safe nat rel 4 ex_ring_program ltac:(num) ltac:(num) rel_calm (proj1 C23_example).
Definition C27_case := C27_ring_insert_from_misbehaving nat dbg 4 ex_ring [3; 1; 2] ex_log 1 1 [] ltac:(num) ltac:(num) dbg_calm ring_held ltac:(left; num).
Definition C30_partial_case := C30_ring_drop_left_right_clear_partial nat dbg 4 ex_ring [3; 1; 2] ex_log 2 ltac:(num) ltac:(num) ring_held.
Definition C31_case := C31_ring_iterators nat dbg 4 [Front; Back; Front; Back] ex_ring [3; 1; 2] ex_log ltac:(num) ltac:(num) dbg_calm ring_held.
Definition C32_partial_case := C32_ring_slices_partial nat dbg 4 ex_ring [3; 1; 2] ex_log (Included 1) Unbounded (Included 1) (Included 1) 1
  ltac:(num) ltac:(num) ring_held ltac:(num) ltac:(num) ltac:(split; [exact I|left; reflexivity]) ltac:(num) ltac:(num) ltac:(split; [exact I|left; reflexivity]).
Definition C32_iterators_case := C32_ring_slice_iterators nat dbg 4 [Back; Front; Front] (1, 3) ex_ring [3; 1; 2] ex_log ltac:(num) ltac:(num) ring_held ltac:(num).
Definition C33_partial_case := C33_ring_slice_index_partial nat dbg 4 (0, 2) ex_ring [3; 1; 2] ex_log 2 9 ltac:(num) ltac:(num) dbg_calm ring_held ltac:(num) ltac:(num).
Definition C34_partial_case := C34_ring_io_partial rel 4 ex_ring [3; 1; 2] [8; 9] ex_log ltac:(num) ltac:(num) ring_held.
Definition C35_partial_case := C35_ring_positive_capacity_partial nat dbg 1 ex_log ltac:(num) ltac:(num) dbg_calm.
Definition C36_case := C36_ring_clone_eq_cmp_hash nat dbg 4 ex_ring ex_ring [3; 1; 2] [3; 1; 2] ex_log (fun k a => if k =? 2 then None else Some (a + 10))
  Nat.eqb (fun a b => Some (a ?= b)) Nat.compare ltac:(num) ltac:(num) dbg_calm ring_held ring_held.
Definition C37_case := C37_ring_index_of_indices nat unit dbg 4 1 3 tt ex_log ltac:(num) ltac:(num) ltac:(num).
Definition C53_get_mut_case := C53_ring_get_mut_points_to_its_element nat dbg 4 (1, 3) ex_ring [3; 1; 2] ex_log 1 ltac:(num) ltac:(num) ring_held ltac:(cbv; lia).
Definition C55_case := C55_ring_mutation nat dbg 4 S [Back; Front] ex_ring [3; 1; 2] ex_log ltac:(num) ltac:(num) ring_held.
Definition C55_at_case := C55_ring_mutation_at nat dbg 4 S ex_ring [3; 1; 2] ex_log 1 1 3 2 ltac:(num) ltac:(num) ring_held ltac:(num) ltac:(num) eq_refl.
Definition C55_meaning_case := C55_mutated_meaning nat S [Back; Front; Front] [3; 1; 2; 8].

(** ** Sparse chunk *)
Definition C38_case := C38_sparse_programs_are_array_programs nat rel 4 ex_sparse_program ltac:(num) rel_calm.
Definition C39_safe_case := C39_sparse_programs_are_memory_safe nat rel 4 ex_sparse_program ltac:(num) rel_calm.
Definition C39_once_case := C39_sparse_values_dropped_once nat rel 4 ex_sparse_program ltac:(num) rel_calm.
Definition C39_panics_case := C39_sparse_destructor_panics nat (Env 256 true (fun a => a =? 8)) 4 ex_sparse _ ex_log ex_sparse_holds.
Definition C40_entries_case := C40_entries_meaning nat [Some 8; None; Some 7; None].
Definition C40_iterators_case := C40_sparse_iterators nat rel 4 3 ex_sparse _ ex_log ltac:(num) ex_sparse_holds.
Definition C40_draining_case := C40_sparse_draining_iterators nat rel 4 3 ex_sparse _ ex_log ltac:(num) ex_sparse_holds.
Definition C41_case := C41_sparse_equality nat 4 Nat.eqb ex_sparse ex_sparse _ _ ex_log Nat.eqb_eq ex_sparse_holds ex_sparse_holds.
Definition C41_any_case := C41_sparse_equality_any nat 4 (fun a b => a <? b) ex_sparse ex_sparse _ _ ex_log ex_sparse_holds ex_sparse_holds.
Lemma ex_cells_fit i v : [Some 8; None; Some 7; None; None] !! i = Some (Some v) -> i < 4.
Proof. destruct i as [|[|[|[|[|i]]]]]; cbn; intros H; try discriminate H; lia. Qed.
(** One item more than the capacity, but it is [None]. *)
Definition C42_case := C42_sparse_from_iter nat rel 4 [Some 8; None; Some 7; None; None] ex_log rel_calm ex_cells_fit.

(** ** Inline array *)
Definition C44_partial_case := C44_inline_capacity_partial nat rel ex_last 32 ex_log rel_last at32.
Definition C45_case := C45_inline_programs_are_list_programs nat rel ex_last ex_inline_program rel_last rel_last_host rel_calm (proj1 (proj2 (proj2 (proj2 C45_example)))).
Definition C46_case := C46_inline_programs_are_memory_safe nat rel ex_last ex_inline_program rel_last rel_last_host rel_calm (proj1 (proj2 (proj2 (proj2 C45_example)))).
Definition C47_partial_case := C47_inline_destroy_with_panicking_drop_partial nat bombed ex_last 16 ex_inline [5; 13; 6] 13 ex_log bombed_last bombed_last_host at16 ex_inline_holds_bombed eq_refl.
Definition C48_iterators_case := C48_inline_iterators nat rel ex_last 16 [Back; Front] ex_inline [5; 13; 6] ex_log rel_last rel_last_host rel_calm at16 ex_inline_holds.
Definition C48_eq_case := C48_inline_eq_cmp_hash nat rel ex_last 16 32 ex_inline ex_inline [5; 13; 6] [5; 13; 6] ex_log Nat.eqb (fun a b => Some (a ?= b)) Nat.compare
  rel_last rel_last_host at16 at32 ex_inline_holds ex_inline_holds.

(** ** Arbitrary, pools *)
Definition ex_gen : option (list (gen nat)) := Some [Item 5; Item 6; Fail; Item 7].
Definition C49_chunk_case := C49_arbitrary_chunk nat rel 4 ex_gen ex_log rel_calm ltac:(num).
Definition C49_ring_case := C49_arbitrary_ring nat rel 4 ex_gen ex_log rel_calm ltac:(num) ltac:(num).
Definition C49_inline_case := C49_arbitrary_inline nat rel ex_last 16 ex_gen ex_log rel_calm rel_last rel_last_host at16.
Definition C50_pool_case := C50_chunk_pool_constructors nat rel 4 3 2 (fun k a => if k =? 2 then None else Some (a + 10)) ex_chunk [3; 1; 2] ex_log ltac:(num) rel_calm ex_chunk_holds.
Lemma ex_hint u : Some 9 = Some u -> u * 4 < word rel. Proof. intros [= <-]. num. Qed.
Definition C52_partial_case := C52_arbitrary_size_hint_partial nat unit rel 4 (Some 9) tt ex_log ex_hint.

(** ** Costs *)
Lemma ex_ring1_holds : RHolds 4 (Ring 3 1 (upd mem0 3 (Some 7))) [7].
Proof. split; [num|]. split; [reflexivity|]. split; [num|]. intros [|[|[|[|p]]]]; vm_compute; try reflexivity. Qed.
Definition C67_ring_case := C67_ring_bulk_costs nat rel 4 (Ring 3 1 (upd mem0 3 (Some 7))) ex_ring [7] [3; 1; 2] ex_log 2 ltac:(num) ltac:(num) ex_ring1_holds ring_held.
Definition C67_sparse_case := C67_sparse_costs nat rel 4 ex_sparse ex_log 2 9.

(** ** Debug output, callbacks *)
Definition C54_case := proj1 (proj2 (C54_debug_output nat rel 4 ex_log ltac:(num))) ex_ring _ ltac:(num) ring_held.
Definition C54_sparse_case := proj2 (proj2 (proj2 (C54_debug_output nat rel 4 ex_log ltac:(num)))) ex_sparse _ ex_sparse_holds.
(** Inconsistent answers; the third one panics. *)
Definition odd_eq (k : nat) (p : nat * nat) : option bool := if k =? 2 then None else Some true.
Definition odd_cmp (k : nat) (p : nat * nat) : option comparison := if k =? 1 then Some Lt else Some Eq.
Definition odd_pcmp (k : nat) (p : nat * nat) : option (option comparison) := if k =? 1 then Some None else Some (Some Eq).
Definition odd_hash (k : nat) (a : nat) : option unit := if a =? 2 then None else Some tt.
Definition odd_print (k : nat) (a : nat) : option bool := Some (k <? 1).
Definition C68_chunk_case := C68_chunk_callbacks nat rel 4 ex_chunk ex_chunk _ _ [3; 1] ex_log true odd_eq odd_cmp odd_pcmp odd_hash odd_print ltac:(num) ex_chunk_holds ex_chunk_holds.
Definition C68_inline_case := C68_inline_callbacks nat rel ex_last 16 32 ex_inline ex_inline _ _ ex_log true odd_eq odd_cmp odd_pcmp odd_hash odd_print
  rel_last rel_last_host at16 at32 ex_inline_holds ex_inline_holds.
Definition C68_ring_case := C68_ring_callbacks nat rel 4 ex_ring ex_ring _ _ [3; 1] ex_log true odd_eq odd_cmp odd_pcmp odd_hash odd_print ltac:(num) ltac:(num) ring_held ring_held.
Definition C68_slice_case := C68_ring_slice_callbacks nat rel 4 (0, 2) (1, 3) ex_ring ex_ring _ _ [3; 1] ex_log true odd_eq odd_cmp odd_pcmp odd_hash odd_print
  ltac:(num) ltac:(num) ring_held ring_held ltac:(num) ltac:(num).

(** The second question decides. *)
Lemma ex_questions : questions (fun _ p => Some (Nat.compare (fst p) (snd p))) cmp_stop (3 ?= 2) (zip [3; 1; 2] [3; 4]) [(3, 3); (1, 4)] (Some Lt).
Proof.
  right. exists 1, (1, 4). split; [reflexivity|]. split; [reflexivity|]. split.
  - intros [|j] Hj; [|lia]. intros x [= <-]. exists Eq. auto.
  - right. exists Lt, Lt. auto.
Qed.
Definition C68_complete_case := fun calls res => C68_specification_is_complete _ _ _ _ _ _ _ [(3, 3); (1, 4)] calls (Some Lt) res ex_questions.
Definition C68_consistent_case := proj2 (C68_consistent_answers nat Nat.eqb Nat.compare [3; 1; 2] [3; 4] [] [(3, 3); (1, 4)] None (Some Lt)) ex_questions.

(** ** Programs on two layouts *)
Definition p_sparse : list (cmd (sp_op0 nat) (sp_op1 nat) (sp_opn nat) (sp_op2 nat)) :=
  [ Call 0 (PInsert 1 5); Call 0 PPop; Call 0 (PInsert 9 6); Call 0 PIndices; Kill 0 ].
Definition C60_sparse_case := C60_sparse_behaviour_depends_on_contents nat rel dbg 4 p_sparse
  [Some ex_sparse] [Some ex_sparse] [Some [Some 8; None; Some 7; None]] ex_log log0 rel_calm dbg_calm ltac:(num) ltac:(num)
  ltac:(constructor; [exact ex_sparse_holds|constructor]) ltac:(constructor; [exact ex_sparse_holds|constructor]).
Definition p_inline : list (cmd (ia_op0 nat) (ia_op1 nat) (ia_opn nat) (ia_op2 nat)) :=
  [ Make (INew 1); Call 0 (IPush 5); Call 0 (IMove 2); Call 0 (IInsert 0 6); Call 0 (IRemove 1); Call 0 (IPush 9); Call 0 IAsSlice; Kill 0 ].
Lemma p_inline_legal N : N = 3 \/ N = 4 -> all_legal (ia_spec N) p_inline ([] : list (option (list nat))).
Proof. intros [->| ->]; cbn; auto 20. Qed.
Lemma rel_last_capacity : capacity rel ex_last = 3. Proof. reflexivity. Qed.
Lemma rel_first_capacity : capacity rel ex_first = 4. Proof. reflexivity. Qed.
(** The header first or last: 8-byte elements in 32 bytes, capacity 3 as well. *)
Definition ex_small : layout := Layout 8 8 32 8 8 8 8.
Lemma rel_small : wf_layout rel ex_small. Proof. layout_wf. Qed.
Lemma rel_small_host : host_ok rel ex_small. Proof. split; num. Qed.
Definition C60_inline_case := C60_inline_behaviour_depends_on_contents nat rel rel ex_small ex_last (fun q => q + 3) p_inline [] [] [] ex_log log0
  rel_calm rel_calm rel_small rel_last rel_small_host rel_last_host eq_refl (Forall2_nil _) (Forall2_nil _) (p_inline_legal 3 (or_introl eq_refl)).

Ltac no_panic := let H := fresh in let H2 := fresh in intros (x & g & evs & H & H2); vm_compute in H; injection H as <- <- <-;
  repeat destruct H2 as [H2|H2]; try discriminate; exact H2.
Definition p_chunk : list (cmd (chunk_op0 nat) (chunk_op1 nat) (chunk_opn nat) (chunk_op2 nat)) :=
  [Make CNew; Call 0 (CExtend [Yield 1; Yield 2]); Call 0 (CPushFront 3); Spawn 0 (CFromFront 2);
   Call 0 (CInsertFrom 1 2 [Yield 8; Yield 9]); Call2 0 1 CAppend; Call 0 CAsSlice; Kill 0].
Definition p_ring : list (cmd (ring_op0 nat) (ring_op1 nat) (ring_opn nat) (ring_op2 nat)) :=
  [Make BNew; Call 0 (BPushBack 1); Call 0 (BPushBack 2); Call 0 (BPushFront 3); Spawn 0 (BFromFront 2);
   Call 0 (BInsertFrom 1 2 [Yield 8; Yield 9]); Call2 0 1 BAppend; Call 0 BContents; Kill 0].
Definition C64_chunk_case := C64_chunk_capacity_is_only_a_limit nat dbg rel 6 9 p_chunk [] [] [] ex_log log0 dbg_calm rel_calm ltac:(lia) ltac:(num) ltac:(num)
  (Forall2_nil _) (Forall2_nil _) ltac:(vm_compute; repeat split; auto; lia) ltac:(vm_compute; repeat split; auto; lia) ltac:(repeat constructor) ltac:(no_panic).
Definition C64_ring_case := C64_ring_capacity_is_only_a_limit nat dbg rel 6 9 p_ring [] [] [] ex_log log0 dbg_calm rel_calm ltac:(lia) ltac:(lia) ltac:(num) ltac:(num)
  (Forall2_nil _) (Forall2_nil _) ltac:(vm_compute; repeat split; auto; lia) ltac:(vm_compute; repeat split; auto; lia) ltac:(repeat constructor) ltac:(no_panic).
Definition C64_inline_case := C64_inline_capacity_is_only_a_limit nat rel rel ex_last ex_first p_inline [] [] [] ex_log log0 rel_calm rel_calm
  rel_last rel_first rel_last_host rel_first_host ltac:(num) (Forall2_nil _) (Forall2_nil _)
  (p_inline_legal 3 (or_introl eq_refl)) (p_inline_legal 4 (or_intror eq_refl)) ltac:(repeat constructor) ltac:(no_panic).
