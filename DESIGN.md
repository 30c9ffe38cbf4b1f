# Formal model of bodil/sized-chunks in Rocq (Coq 8.16.1)

Sources: `/repo/src` at the pinned commit.  Model and proofs: `/verif/rocq/theories`.  Properties: `properties.jsonl`;
their status: `MANIFEST.json`.

## 1. Approach

The four data structures (`Chunk`, `RingBuffer`, `SparseChunk`, `InlineArray`) are unsafe Rust over `MaybeUninit`
storage.  Each method is transcribed statement by statement as a total Gallina function in a state/outcome monad
(`Machine.v`).  The models are executable: the `Example`s next to the theorems run them with `vm_compute`.

* **Outcomes.** `Ret` (normal return), `Panic` (unwinding, *with the object as it is left behind*, because it can be used
  again after `catch_unwind` and is destroyed later in any case), `UB k` (out of bounds, use of a slot without a live value,
  clobbering), `Hang` (a loop that does not terminate; loops carry fuel that is proved sufficient, so `Hang` is reached
  exactly by non-termination), `Abort` (panic while unwinding).
* **Memory.** `nat -> option A` per object; `None` is uninitialised, moved out or dropped.  It is *linear*: `ptr::read` and
  `ptr::copy` move values out of their source, so any second use (double drop, use after move) is reported as UB;
  `ptr::write` over a live slot records the old value as leaked.  `InlineArray` is modelled one level lower, in bytes: header
  and elements are placed by pointer arithmetic from sizes and alignments, and every access is checked for bounds, alignment
  and for hitting exactly the bytes of one value.
* **Ghost log.** The values dropped (in order), the values leaked, the number of slot writes.
* **Arithmetic.** `usize` is a `nat` below the parameter `word`; `uadd`/`usub`/`umul` panic on overflow in the debug profile
  and wrap in release.  `debug_assert!` exists in the debug profile only.  Every theorem quantifies over both profiles.
* **User code.** Iterators are scripts of what successive `next()` calls do (yield, panic, end) with independent answers of
  `len()`; `Clone` is an arbitrary call-indexed partial function (a call may panic); destructors of arbitrary values may panic
  (`bomb`); comparison functions are arbitrary; `binary_search` is an oracle with its documented contract.

**Specification.**  `Spec.v`, `SparseSpec.v`, `IterSpec.v`, `IterSpec2.v`, `InlineSpec.v`, `ArbitrarySpec.v`, `RefSpec.v`: plain functions on lists
(finite maps for `SparseChunk`), which know nothing about slots.  `agrees rep res g (call) s` says: executed from log `g`, the
call does what `s` says (return with this result, contents and drops; or panic with these contents, drops and leaks).
The property theorems (`Properties*.v`) spell the list function out wherever that is readable.  Beside them stand `Example`s; `Instances.v` applies
the theorems that have none of their own to concrete data, all hypotheses discharged.

**Representation predicates.**  `Holds N c l` (chunk), `RHolds` (ring), `SHolds` (sparse), `IHolds` (inline): the
object has the contents `l` and every slot outside is dead.  They are established by every constructor and kept by every method,
so they describe exactly the reachable states; the program theorems C01–C03, C23–C25, C38–C39, C45–C46 have *no* such
hypothesis: they start from the empty store and quantify over all programs, in which every panic is caught and the
program carries on.

**Panicking destructors.**  C01–C46 assume that destructors do not panic (`calm e`); C14, C30, C39, C47 treat single calls with
panicking destructors, and C56–C59 whole programs: `Bombs.v` relates a run with an arbitrary set of panicking destructors to the calm run
of the same code (`tame`: it is the same or aborts, as soon as a panicking value is dropped on an unwinding path), `BombProgram.v` lifts this to programs.

**Where the code violates a property** the theorem `Cxx_..._refuted` exhibits it in the model, and `Cxx_..._partial` proves what
does hold, as exactly as we could.

## 2. Properties

| id | property | status | what is modelled, how it is proved | theorems |
|---|---|---|---|---|
| C01 | A program over Chunks behaves like the same program over bounded lists | proved | command language over any number of chunks (`Program.v`); every public method as a command; simulation by induction over the program from one refinement lemma per method | `C01_chunk_programs_are_list_programs` |
| C02 | Chunk never touches memory it must not touch | proved | same run; the outcome is never UB, Hang or Abort | `C02_chunk_programs_are_memory_safe` |
| C03 | Every value given to a Chunk is dropped exactly once or handed back | proved | same run; conservation of the multiset of values, by induction | `C03_chunk_values_dropped_once` |
| C04 | Chunk push and pop form a bounded double-ended queue | proved | `push_*`, `pop_*`; symbolic execution from an arbitrary represented state | `C04_chunk_push_pop` |
| C05 | Chunk insert, remove and set act at the given index whatever side is shifted | proved | `insert`, `remove`, `set`, `index`; pointwise reasoning about the slots moved | `C05_chunk_insert_remove_set` |
| C06 | Chunk insert_from with a truthful iterator splices the sequence in | proved | `insert_from` with a script that delivers what it announces | `C06_chunk_insert_from_truthful` |
| C07 | Chunk insert_from survives iterators that end early, run long or panic | proved | `insert_from` with an arbitrary script; loop invariant over the partially written gap | `C07_chunk_insert_from_misbehaving` |
| C08 | Chunk insert_from is memory safe for every safe iterator | partial | `insert_from` with two independent answers of `len()`; witnesses for UB, the exact safe condition, and (`ChunkOverflow.v`) a case analysis of the release-build overflow | `C08_chunk_insert_from_any_iterator_refuted`, `C08_chunk_insert_from_any_iterator_partial`, `C08_chunk_insert_from_two_lengths_partial`, `C08_chunk_insert_from_two_lengths_exact_partial`, `C08_chunk_insert_from_overflow_partial` |
| C09 | insert_ordered keeps a sorted chunk sorted | proved | binary search as an oracle with its documented contract; sortedness by list reasoning | `C09_chunk_insert_ordered` |
| C10 | Chunk split_off and append are inverse moves | proved | two-object methods; the composition is computed on lists | `C10_chunk_split_off_append` |
| C11 | Chunk drain_from_front and drain_from_back move exactly count elements in order | proved | two-object methods | `C11_chunk_drain_from` |
| C12 | from_front, from_back and drain_from are safe for every count | partial | both profiles; UB witness in release | `C12_chunk_from_front_back_partial`, `C12_chunk_from_front_back_refuted` |
| C13 | drop_left, drop_right and clear destroy exactly the discarded elements, in order | proved | destructor order is recorded in the log | `C13_chunk_drop_left_right_clear` |
| C14 | A panicking element destructor never causes a double drop in Chunk | partial | destructors that panic (`bomb`); witness of the double drop | `C14_chunk_destroy_with_panicking_drop_partial`, `C14_chunk_panicking_drop_refuted` |
| C15 | Chunk clone is faithful and panic safe | proved | `Clone` as a call-indexed partial function; induction over the elements | `C15_chunk_clone` |
| C16 | Chunk consuming and draining iterators yield each element once from either end | proved | arbitrary scripts of next / next_back / size_hint, by induction | `C16_chunk_iterators` |
| C17 | Chunk as io::Write and io::Read is a bounded byte FIFO | proved | `write`/`read` on bytes; FIFO law by induction over a history of reads and writes | `C17_chunk_io` |
| C18 | Chunk equality, ordering and hashing depend only on the contents | proved | observers; a hasher is the list of what it is fed | `C18_chunk_eq_cmp_hash` |
| C19 | A Chunk or InlineArray can be looked up by slice in a hash map | partial | hash of the container against hash of the slice; witness | `C19_chunk_borrow_hash_refuted`, `C19_inline_borrow_hash_refuted` |
| C20 | Chunk::from(InlineArray) moves the elements over | proved | both memories, byte level for InlineArray | `C20_chunk_from_inline_array` |
| C21 | Chunk collect_from, from_iter and extend take items in order and stop at the capacity | proved | iterator scripts; induction over the script | `C21_chunk_collect_extend` |
| C22 | Pushing in one direction never shifts; RingBuffer pushes and pops are O(1) | proved | slot-write counter in the log; exact counts | `C22_chunk_push_costs`, `C22_ring_costs` |
| C23 | A program over RingBuffers behaves like the same program over bounded lists | proved | as C01, for RingBuffer, capacity > 0 | `C23_ring_programs_are_list_programs` |
| C24 | RingBuffer never touches memory it must not touch | proved | as C02 | `C24_ring_programs_are_memory_safe` |
| C25 | Every value given to a RingBuffer is dropped exactly once or handed back | proved | as C03 | `C25_ring_values_dropped_once` |
| C26 | RingBuffer insert, remove and insert_from act at the given index whatever side is shifted and wherever the ring wraps | proved | loops over wrapped indices; invariant per loop | `C26_ring_insert_remove`, `C26_ring_insert_ordered` |
| C27 | RingBuffer insert_from survives iterators that end early, run long or panic | proved | as C07 | `C27_ring_insert_from_misbehaving` |
| C28 | RingBuffer bulk moves between two buffers are correct for every pair of wrap positions | proved | recursive `copy_from`, all pairs of origins | `C28_ring_bulk_moves` |
| C29 | RingBuffer push and pop form a bounded double-ended queue | proved | as C04 | `C29_ring_push_pop` |
| C30 | RingBuffer drop_left, drop_right and clear destroy exactly the discarded elements; a panicking destructor never causes a double drop | partial | as C13/C14 | `C30_ring_drop_left_right_clear_partial`, `C30_ring_panicking_drop_refuted` |
| C31 | RingBuffer iterators yield the sequence from both ends, wherever it wraps | proved | as C16, the item is the slot and the value | `C31_ring_iterators`, `C31_pulls_partition` |
| C32 | RingBuffer slices view exactly the requested range | partial | slices as ranges; all bounds; nested slicing | `C32_ring_slices_partial`, `C32_ring_slice_iterators`, `C32_ring_slice_overflow_refuted` |
| C33 | Indexing a RingBuffer slice outside its length panics | partial | exact behaviour and witness | `C33_ring_slice_index_partial`, `C33_ring_slice_index_refuted` |
| C34 | RingBuffer io::Write and io::Read form a bounded byte FIFO | partial | as C17; witness for the debug assertion | `C34_ring_io_partial`, `C34_ring_io_write_refuted` |
| C35 | RingBuffer works for every capacity including zero | partial | witness for N = 0 | `C35_ring_capacity_zero_refuted`, `C35_ring_positive_capacity_partial` |
| C36 | RingBuffer clone, equality, ordering and hashing depend only on the contents; clone is panic safe | proved | as C15/C18 | `C36_ring_clone_eq_cmp_hash`, `C36_ring_slice_eq_cmp_hash`, `C36_ring_collect_extend` |
| C37 | RingBuffer raw index arithmetic is arithmetic modulo the capacity | proved | the `while` loops of `index.rs` with fuel | `C37_ring_index_of_indices`, `C37_ring_index_iterator`, `C37_ring_index_arithmetic` |
| C38 | A program over SparseChunks behaves like finite maps with keys below N | proved | as C01 with maps; `bitmaps` by contract | `C38_sparse_programs_are_array_programs`, `C38_sparse_insert_remove` |
| C39 | SparseChunk is memory safe and drops every value exactly once | proved | as C02/C03 and panicking destructors | `C39_sparse_programs_are_memory_safe`, `C39_sparse_values_dropped_once`, `C39_sparse_destructor_panics`, `C39_sparse_assign_panics` |
| C40 | SparseChunk iteration visits the entries in increasing index order | proved | iterator scripts | `C40_entries_meaning`, `C40_sparse_iterators`, `C40_sparse_draining_iterators`, `C40_served_items` |
| C41 | SparseChunk equality is equality of maps | proved | equality of finite maps | `C41_sparse_equality`, `C41_sparse_equality_any`, `C41_sparse_equality_with_map` |
| C42 | SparseChunk built from an iterator of options holds the values at their positions | proved | iterator scripts of options | `C42_sparse_from_iter`, `C42_sparse_from_iter_panics` |
| C43 | InlineArray's header and elements fit, are aligned and do not overlap | proved | byte offsets, sizes, alignments: divisibility arithmetic | `C43_inline_layout` |
| C44 | InlineArray's CAPACITY is the documented maximum | partial | maximality of the capacity, exact panics of `new` | `C44_inline_capacity_partial`, `C44_inline_new_documentation_refuted` |
| C45 | A program over InlineArrays behaves like the same program over bounded lists | proved | as C01 at byte level, at any address | `C45_inline_programs_are_list_programs`, `C45_inline_hosts` |
| C46 | InlineArray is memory safe and drops every value exactly once | proved | as C02/C03 | `C46_inline_programs_are_memory_safe`, `C46_inline_values_dropped_once` |
| C47 | A panicking element destructor never causes a double drop in InlineArray | partial | as C14 | `C47_inline_destroy_with_panicking_drop_partial`, `C47_inline_clear_with_panicking_drop_refuted` |
| C48 | InlineArray iterators, equality, ordering and hashing depend only on the contents | proved | as C16/C18 | `C48_inline_iterators`, `C48_inline_eq_cmp_hash`, `C48_inline_any_contents` |
| C49 | Generated (Arbitrary) containers are always valid and hold a prefix of the generated items | proved | generator scripts | `C49_arbitrary_chunk`, `C49_arbitrary_ring`, `C49_arbitrary_inline`, `C49_arbitrary_sparse` |
| C50 | Pool constructors produce the same values as the ordinary ones | proved | pool slots with arbitrary previous content | `C50_chunk_pool_constructors`, `C50_ring_pool_constructors`, `C50_sparse_pool_constructors` |
| C51 | RingBuffer insert_from terminates for every announced length | partial | wrapping addition, `Hang`; `RingOverflow.v`: the loop state is periodic modulo the word size, so the fuel `word` decides termination; outcome of every overflowing call | `C51_ring_insert_from_ends_partial`, `C51_ring_insert_from_overflow_partial`, `C51_ring_subtraction_ends_partial`, `C51_ring_insert_from_overflow_refuted` |
| C52 | The byte bounds announced for generated containers are CAPACITY times the item's | partial | wrapping multiplication | `C52_arbitrary_size_hint_partial`, `C52_arbitrary_size_hint_refuted` |
| C53 | The halves of SliceMut::split_at never give access to the same element | partial | references as slot numbers; all nestings of cuts | `C53_ring_split_at_disjoint_partial`, `C53_ring_get_mut_points_to_its_element`, `C53_ring_split_at_index_mut_refuted` |
| C54 | Debug output depends only on the contents | proved | what is fed to the formatter | `C54_debug_output`, `C54_inline_debug_output` |
| C55 | Mutating through mutable references and iterators changes exactly the addressed elements | proved | mutation through references obtained by scripts | `C55_ring_mutation`, `C55_ring_mutation_at`, `C55_mutated_meaning`, `C55_sparse_mutation` |
| C56 | Chunk: programs stay safe when destructors panic | proved | simulation between the code with any set of panicking destructors and the calm code (Bombs.v), then induction over the program | `C56_chunk_panicking_destructors` |
| C57 | RingBuffer: programs stay safe when destructors panic | proved | as C56 | `C57_ring_panicking_destructors` |
| C58 | SparseChunk: every program is safe when destructors panic | proved | as C56, with direct proofs for the calls that drop on their normal path | `C58_sparse_panicking_destructors` |
| C59 | InlineArray: programs stay safe when destructors panic | proved | as C56 | `C59_inline_panicking_destructors` |
| C60 | Behaviour depends on contents only | proved | both runs refine one specification program (Portable.v) | `C60_chunk_behaviour_depends_on_contents`, `C60_ring_behaviour_depends_on_contents`, `C60_sparse_behaviour_depends_on_contents`, `C60_inline_behaviour_depends_on_contents` |
| C61 | Iterators that never end | proved | the outcome on p ++ rest does not depend on rest | `C61_chunk_endless_iterators`, `C61_ring_endless_iterators`, `C61_sparse_endless_iterators`, `C61_inline_endless_iterators` |
| C62 | Chunk and RingBuffer are interchangeable | proved | translation of programs; both specifications run alike (Interchange.v) | `C62_chunk_and_ring_interchangeable` |
| C63 | Amortised cost of Chunk as a deque | proved | potential function: whether the chunk leans on the wrong end of its buffer | `C63_chunk_deque_cost` |
| C64 | The capacity is only a limit | proved | the two specifications agree as long as the smaller one does not panic (Capacity.v) | `C64_chunk_capacity_is_only_a_limit`, `C64_ring_capacity_is_only_a_limit`, `C64_inline_capacity_is_only_a_limit`, `C64_sparse_capacity_is_only_a_limit` |
| C65 | Methods that take &self change nothing, under any interleaving | proved | every shared method is built from reads (ReadOnly.v); induction over the schedule | `C65_chunk_shared_methods_change_nothing`, `C65_ring_shared_methods_change_nothing`, `C65_sparse_shared_methods_change_nothing`, `C65_inline_shared_methods_change_nothing` |
| C66 | Capacities near usize::MAX | partial | symbolic execution of the witnesses for every word size; the other direction from C01 and C23 | `C66_chunk_huge_capacity_refuted`, `C66_ring_huge_capacity_refuted`, `C66_sized_elements_partial` |
| C67 | The documented cost of every operation, in slots written | proved | Model: the write counter of the ghost log, incremented by every slot write, slot move and transfer (Machine.v, InlineModel.v). Proof: symbolic execution for the exact counts; a compositional bound `within`, valid in every state and for every outcome, for loops over foreign iterators and for dropping (BulkCost.v, RingCost.v, InlineCost.v). Not counted: reads, comparisons and destructor calls. | `C67_chunk_bulk_costs`, `C67_chunk_shift_costs`, `C67_ring_bulk_costs`, `C67_ring_insert_from_costs`, `C67_inline_costs`, `C67_sparse_costs`, `C67_dropping_writes_nothing` |
| C68 | Comparing, hashing and printing with element functions that panic or contradict themselves | proved | Model: CallbackModel.v, versions of the comparison, hashing and printing methods that ask an oracle indexed by the number of the call, the calls being recorded in the state; iterators step by step. Specification: CallbackSpec.v. Proof: induction over the two sequences; the specification is shown to determine calls and result, and to give element-wise equality and the lexicographic order if the answers are consistent. | `C68_chunk_callbacks`, `C68_inline_callbacks`, `C68_ring_callbacks`, `C68_ring_slice_callbacks`, `C68_sparse_callbacks`, `C68_specification_is_complete`, `C68_consistent_answers` |
| C69 | Slices are only built over initialised elements | partial | Model: slots_peek is from_raw_parts with its contract; RawPartsModel.v repeats the SparseChunk methods with the contract enforced at every call of values()/values_mut(). Proof: symbolic execution from the representation predicates. | `C69_raw_parts_partial`, `C69_sparse_raw_parts_refuted`, `C69_sparse_drop_refuted` |
| C70 | No pointer or reference is used after Rust's aliasing rules have invalidated it | partial | Model: BorrowModel.v, the two machines and, for every unsafe function, the sequence of reborrows and accesses it performs; BorrowSpec.v: which histories and scripts are fine. Proof: each call leaves the stack (tree) of every place in a known state, from which the next call is accepted; the exact conditions by induction over the script (BorrowProofs*.v). BorrowLink.v, BorrowLink2.v: the arguments of the calls and the slots of the items are those computed by the other models. BorrowModel2.v, BorrowModel3.v, BorrowLink4.v to BorrowLink8.v: the same for programs on any number of RingBuffers, SparseChunks and InlineArrays; what the listed steps leave in the slots, replayed one after the other, is what the container model says the method leaves there. | `C70_calls_follow_tree_borrows`, `C70_calls_accesses`, `C70_calls_stacked_borrows_partial`, `C70_chunk_programs_partial`, `C70_chunk_calls_meaning`, `C70_ring_iter_mut`, `C70_sparse_iter_mut_partial`, `C70_split_at_partial`, `C70_clients_access`, `C70_aliasing_refuted`, `C70_ring_programs`, `C70_ring_calls_meaning`, `C70_ring_blocks_meaning`, `C70_sparse_programs`, `C70_sparse_calls_meaning`, `C70_array_programs_partial`, `C70_array_calls_meaning`, `C70_steps_accesses` |
| C71 | Containers can be the keys of maps and the subject of sorting | proved | Spec: KeySpec.v states the laws for an arbitrary type of values and partial comparison functions. Proof: KeyProofs.v shows that lexicographic comparison, element-wise equality and concatenated hashing of lists preserve the laws, and transfers the laws through the (already proved) results of each container's methods; KeyProofs2.v: clones. | `C71_chunk_key_laws`, `C71_ring_key_laws`, `C71_ring_slice_key_laws`, `C71_inline_key_laws`, `C71_sparse_eq_laws`, `C71_clones_are_equal` |
| C72 | Moving a container preserves it | partial | Model: MoveModel.v, a move keeps the bytes of the byte-level InlineArray model except the padding of the host type; every array returned by a call is moved. Spec: MoveSpec.v, where header and elements lie. Proof: MoveProofs.v, a harmless move preserves the invariant IHolds, hence the refinement of C45 carries over; otherwise reading the length or the slice meets an uninitialised byte. | `C72_inline_moves_partial`, `C72_inline_move_exact_partial`, `C72_inline_padded_host_refuted`, `C72_slots_survive_moves` |
| C73 | The project's fuzz targets never fail | proved | Model: FuzzModel.v transcribes the four fuzz targets as programs over the models of the containers and guide lists / finite maps, where a failed assertion, an unexpected panic, a missing panic, UB, a hang or an abort is a failure. Spec: FuzzSpec.v, which inputs Rust's types allow, and what success means. Proof: FuzzProofs.v, FuzzProofs2.v, FuzzProofs3.v, weakest preconditions with the invariant that container and guide hold the same, using the per-operation lemmas of C01, C23, C38, C45. | `C73_fuzz_sized_chunk`, `C73_fuzz_ring_buffer`, `C73_fuzz_sparse_chunk`, `C73_fuzz_inline_array` |
| C74 | The unsafe unchecked accessors do exactly what their safety section promises | proved | the accessors of RingModel.v, RefModel.v and SparseModel.v as written (no bounds check); in bounds they are shown equal to `get`/`get_mut`; outside, their exact outcome is computed with the index taken mod N (`raw_add_mod`), for every index that does not overflow. | `C74_ring_unchecked_in_bounds`, `C74_ring_unchecked_everywhere`, `C74_slice_unchecked`, `C74_sparse_unchecked` |
| C75 | Chunk<u8> and RingBuffer<u8> are byte streams that lose, invent and reorder nothing | proved | StreamModel.v models the provided methods of the two io traits over the crate's `write`/`read` and programs of calls with caught panics; StreamSpec.v is a queue of bytes. The single calls are C17/C34; the loops are proved by induction generically for both containers, and conservation of bytes is proved of the queue specification by induction over histories. | `C75_chunk_stream`, `C75_ring_stream`, `C75_no_byte_lost` |
| C76 | Containers filled from live iterators, the crate's own drains included, take exactly what they keep or drop | proved | LiveModel.v has the loops of the containers with the iterator as an object of its own (state, next, size_hint, log) instead of a script; LiveSpec.v says what delivering a list means and what each method must do. The crate's iterators are shown to deliver (LiveProofs3.v); the loops are proved by induction, insert_from by a simulation of the scripted version (`follows`). SparseChunk's collect: LiveSparseModel.v, LiveSparse.v (`sp_collects`), PropertiesLive3.v. | `C76_sources`, `C76_extend`, `C76_from_iter`, `C76_collect_from`, `C76_insert_from`, `C76_ring_into_chunk`, `C76_option_drain`, `C76_sparse_from_iter` |
| C77 | Iterators that panic, stop early, never end or lie about their length do to a container exactly what is documented, and nothing else | proved | LiveModel.v as for C76. LiveSpec.v: `scripted`, what an iterator will do, with nothing assumed of it after it has returned None, and arbitrary effects on its own state and log. LiveProofs4.v and LiveProofs5.v: a simulation (`sim`) between the live loops and the scripted ones of the other models, for every outcome (return, panic, UB, hang, abort); with it the theorems about scripts (C06, C07, C08, C21, C27) hold of live iterators. Endless iterators by induction on the room left. SparseChunk's collect: LiveSparse.v. | `C77_extend`, `C77_from_iter`, `C77_collect_from`, `C77_insert_from`, `C77_insert_from_two_lengths`, `C77_endless`, `C77_sparse_from_iter`, `C77_sparse_endless` |
| C78 | Programs that mix all four kinds of container behave as lists and arrays would, and lose, duplicate and double-drop nothing | proved | MixModel.v: a container of any kind, `mobj`; `mix_kit`, the union of the four kits of ChunkProgram.v, RingProgram.v, SparseProgram.v and InlineProgram.v, with the operations on two kinds written over the live loops of LiveModel.v and a `next`/`size_hint` that dispatches on the kind of the source; collecting into a SparseChunk is the loop of LiveSparseModel.v over the same sources. Capacities and layouts carry the side conditions of the other programs; a call that does not type-check is illegal. MixSpec.v: what the calls should do on lists and arrays. MixProofs.v: every container is a source that delivers its elements, and after n of them is the specified container. MixProgram.v: `mix_refines`; MixBalance.v: `mix_balanced`; ProgramEnd.v: the end of the scope. | `C78_mixed_programs`, `C78_mixed_programs_conserve`, `C78_scope_end` |
| C79 | Send, Sync and subtyping: values cross threads and stand for each other only when that is sound | proved | TypesModel.v writes down the fields of the twenty public structs, Rust's rules for Send, Sync and subtyping, and the signatures through which clients reach elements; the theorems compare what the fields imply with what the signatures need, for every assignment of markers and every subtype relation. Not modelled: other auto traits (Unpin, UnwindSafe), drop check. | `C79_send_sync`, `C79_variance` |
| C80 | O(1) amortised push and pop at both ends, as the README says | partial | Amortised.v: exact cost of one push or pop as a function of the two registers; potential argument (pushes since the last shift plus room left) for one-sided use; explicit worst-case histories for the refutation. RingAmortised.v: one write per push. | `C80_ring_amortised_constant`, `C80_chunk_amortised_constant_partial`, `C80_chunk_amortised_constant_refuted` |
| C81 | Programs over several kinds of container survive panicking destructors | proved | MixBombSpec.v: C78's programs with the specifications of C56-C59 for the single containers and "abort if a value dropped by unwinding has a panicking destructor" for the calls between containers; MixBombs.v: simulation (refinement of the calmed run, Bombs.v) for every call, balance and completeness, then BombProgram.v's induction over programs. | `C81_mixed_panicking_destructors` |
| C82 | Giving a container away to a call | proved | TempModel.v adds to any kit of operations the same operations on a temporary taken with mem::take; TempProofs.v: if the kit refines and conserves (with or without panicking destructors), so does the extended one; TempMix.v instantiates it with the four containers of C78 and C81. | `C82_temporaries`, `C82_scope_end`, `C82_temporaries_panicking_destructors` |
| C83 | Consuming a container by value | proved | OwnModel.v: the from_iter functions of LiveModel.v and LiveSparseModel.v on an iterator that owns its container, which is dropped when the loop is left, before the unfinished result; OwnProofs.v derives what they drop, in order, from the loop lemmas of C76 and, for panicking destructors, from the tamed/brisk calculus of Bombs.v; OwnMix.v adds the calls to the programs of C82. | `C83_by_value`, `C83_scope_end`, `C83_by_value_panicking_destructors` |
| C84 | Standard iterator methods on draining iterators | proved | Model: WalkModel.v, the loops of the standard library's provided methods (transcribed, trusted: none of the crate's iterators overrides them) over the crate's next and next_back, as further methods of the containers of C83; the caller's predicates are arbitrary functions of the call number and the element, which may panic. WalkSpec.v: what each call does to the list of elements, written with the position of the first element at which it stops. Proof: by induction over the elements left, for any iterator that delivers a list (LiveSpec.v, feeds), which every container's does; then the general theorems on programs, with and without panicking destructors. C84_find, C84_position, C84_nth, C84_take state single calls without the specification's helpers. | `C84_iterator_methods`, `C84_scope_end`, `C84_iterator_methods_panicking_destructors`, `C84_find`, `C84_position`, `C84_nth`, `C84_take` |
| C85 | Containers of containers | proved | Model: NestModel.v: the code of the outer container is the kit of MixModel.v at the element type `container`, run on a log of its own; the inner containers that log says are dropped are then destroyed by their own destructors, in that order; x[i].method() is the method run on the element in its slot and what is left written back to the slot. Spec: NestSpec.v, lists of lists. Proof: the outer kit refines its specification for elements that are objects (C78, for every element type); that specification does not look at its elements, so it commutes with replacing objects by their contents (NestNature.v); together with C84 for the inner ones this is a refinement of the nested specification (NestProofs.v), lifted to programs; conservation in NestBalance.v. | `C85_nested_containers`, `C85_scope_end`, `C85_drop`, `C85_push`, `C85_element`, `C85_no_element`, `C85_put`, `C85_take`, `C85_clear`, `C85_drop_left`, `C85_drop_right`, `C85_len`, `C85_move`, `C85_split_off`, `C85_drain_from`, `C85_append`, `C85_extend`, `C85_collect`, `C85_collect_sparse`, `C85_sparse_put`, `C85_sparse_remove`, `C85_sparse_pop`, `C85_new` |
| C86 | Containers of containers of values whose destructors panic | proved | Model: that of C85; destroying the inner containers the outer code drops goes on when one of them panics (what unwinding does), and the outer code itself is run with the destructor of an element panicking when one of the elements inside has a panicking destructor. Spec: NestBombSpec.v. Proof: the outer specification with panicking destructors (C81, for every element type) treats elements alike if their destructors do (NestBombs.v), so it can be read on lists of lists; the destructions of the inner ones are those of C81; conservation and completeness in NestBombBalance.v. C86_drop_slices and C86_replace state single calls. | `C86_nested_panicking_destructors`, `C86_drop_slices`, `C86_replace` |
| C87 | Comparing and cloning containers of containers | proved | Model: NestCopyModel.v, the outer container's own ==, partial_cmp and clone (the definitions of the single containers, at an element type that is a container) calling the inner one's for each element, the calls to the elements' own trait methods logged in the order made. Spec: NestCopySpec.v, on lists of lists. Proof: the outer operation is a loop over the elements; induction over the elements of the outer list, with the theorems on single containers for each inner one (NestCopyProofs.v). A clone that panics drops the inner clones made so far and, when an outer or inner InlineArray is the one being filled, leaks them. | `C87_eq`, `C87_partial_cmp`, `C87_clone`, `C87_clone_is_equal` |
| C88 | Hashing and printing containers of containers | partial | Model: NestShowModel.v, the outer container's own Hash and Debug at an element type that is a container, calling the inner one's for each element. Spec: NestShowSpec.v (shows, inside, prefix_free). Proof: the theorems on single containers at both depths, induction over the lists. The demand of std on Hash is proved for containers of the same sizes and refuted in general by two chunks of chunks that a program makes. | `C88_hash`, `C88_equal_hash`, `C88_prefix_free_partial`, `C88_debug`, `C88_debug_tells_apart`, `C88_prefix_free_refuted` |
| C89 | A closure called on every element of a mutable iterator leaves exactly what it did, even if it panics | proved | Model: VisitModel.v, client code: one pull of the iterator (the crate's next/next_back; core's slice::IterMut over the slice the crate hands out, for Chunk and InlineArray) per entry of a script, then the closure's effect on the slot the reference points to, an assignment storing the new value and then running the old one's destructor. Spec: VisitSpec.v (visited), a recursion on the list of elements not yet given. Proof: VisitProofs.v, once for any iterator that keeps the invariant (given at the front, still to come, given at the back) before and after a replacement; VisitProofs2.v: the five iterators do. VisitSpecProofs.v: what the specification says about loops from the front, in closed form. | `C89_chunk`, `C89_ring_slice`, `C89_ring`, `C89_sparse`, `C89_sparse_options`, `C89_inline`, `C89_forward_meaning` |
| C90 | Shared iterators used at the same time do not disturb each other | proved | ManyModel.v: client code makes iterators and calls next/next_back on them in any order; each keeps registers of its own, the container is one. Spec: ManySpec.v: each iterator's answers are those of an iterator that is alone (IterSpec.v). Proof: ManyProofs.v, induction over the calls with one invariant per iterator; no call changes the container, so the invariants of the others survive. | `C90_ring_shared_iterators`, `C90_sparse_shared_iterators`, `C90_interleaving_is_irrelevant` |

### What is missing from the partial ones

* **C08** (Chunk insert_from is memory safe for every safe iterator): The full statement is false of the code (refuted: release overflow of len+len, len() growing or shrinking between the two calls); the safe part, and the exact outcome for every pair of lengths whose sum with the capacity does not overflow usize (undefined iff more items come than there are slots behind the gap), are proved; when the sum does overflow in a release build the call never returns: it is undefined or panics leaving an empty chunk.
* **C12** (from_front, from_back and drain_from are safe for every count): Proved for every count in debug builds and for count<=len in release builds; refuted (undefined behaviour) for larger counts in release builds.
* **C14** (A panicking element destructor never causes a double drop in Chunk): Destroying a chunk is proved; after a panicking drop_left/drop_right/clear the elements are dropped twice (refuted).
* **C19** (A Chunk or InlineArray can be looked up by slice in a hash map): Refuted for Chunk and InlineArray: Hash feeds no length prefix, the slice does.
* **C30** (RingBuffer drop_left, drop_right and clear destroy exactly the discarded elements; a panicking destructor never causes a double drop): Destroying a buffer and the calls without panicking destructors are proved; after a panicking clear/drop_left/drop_right the elements are dropped twice (refuted).
* **C32** (RingBuffer slices view exactly the requested range): Proved for all supported ranges and for slice iteration; ..=usize::MAX yields an empty slice in release builds instead of a panic, exclusive starts are unimplemented (refuted).
* **C33** (Indexing a RingBuffer slice outside its length panics): Refuted: Index of slices is checked against the buffer, not the slice. The exact behaviour is proved.
* **C34** (RingBuffer io::Write and io::Read form a bounded byte FIFO): Proved for release builds and for debug builds when the write does not wrap; refuted for wrapping writes in debug builds (debug assertion fails).
* **C35** (RingBuffer works for every capacity including zero): Refuted for capacity 0 (panics in debug, never terminates in release); proved for every other capacity.
* **C44** (InlineArray's CAPACITY is the documented maximum): The capacity and the exact condition under which new panics are proved; the documented condition is false in two cases (refuted).
* **C47** (A panicking element destructor never causes a double drop in InlineArray): Destroying an array is proved; after a panicking clear the elements are dropped a second time (refuted).
* **C51** (RingBuffer insert_from terminates for every announced length): Refuted: in release builds the sum of the lengths wraps and the index arithmetic can loop for ever. Proved (terminates in a valid state) for every other case: no overflow, or debug build, or index at or beyond the end.
* **C52** (The byte bounds announced for generated containers are CAPACITY times the item's): Proved when the product is a usize; refuted otherwise.
* **C53** (The halves of SliceMut::split_at never give access to the same element): Proved for get_mut and iter_mut over all nestings of slice/split_at; refuted for index_mut, which is checked against the whole buffer and so reaches into the other half.
* **C66** (Capacities near usize::MAX): Refuted for zero-sized elements with capacity usize::MAX in debug builds; proved for every capacity that elements of a non-zero size can have.
* **C69** (Slices are only built over initialised elements): Proved for Chunk, InlineArray and full SparseChunks; refuted for every SparseChunk with a vacant slot (slices of all N slots are built; the code relies on not reading the vacant ones).
* **C70** (No pointer or reference is used after Rust's aliasing rules have invalidated it): Proved: every history of calls is accepted by Tree Borrows; RingBuffer::iter_mut (also of slices) is accepted by both models however the references are used. Exact conditions for the rest: Stacked Borrows rejects exactly the histories that move elements inside a Chunk or remove an inner InlineArray element; which uses of SparseChunk::iter_mut items and of split_at halves are accepted. Refuted in full.
* **C72** (Moving a container preserves it): Proved for Chunk, RingBuffer, SparseChunk (their slots) and for InlineArrays whose host has no padding under the header or under bytes elements use (exact condition proved). Refuted for other hosts.
* **C80** (O(1) amortised push and pop at both ends, as the README says): Proved for RingBuffer and for one-sided use of Chunk with room left; refuted for Chunk in general (both ends in turn; a nearly full queue). The README claim is too strong.
* **C88** (Hashing and printing containers of containers): Proved: what is fed to the hasher and printed, equal containers hash alike, Debug tells unequal ones apart. The documented demand that unequal values never feed the same sequence (or one that begins with the other) is proved for containers of the same sizes at both depths and refuted in general: no length is hashed.

## 3. Findings (behaviour of the unchanged code that contradicts its documentation or safe-API expectations)

* `Chunk::insert_from` trusts `ExactSizeIterator::len()` (a safe trait) twice: if the second answer is larger, or the sum of lengths
  overflows in release builds, it writes out of bounds / drops values it does not have (C08).
* `Chunk::from_front`, `from_back` check `count` only with `debug_assert!`: UB in release builds for `count > len` (C12).
* A destructor that panics inside `drop_left`/`drop_right`/`clear` of `Chunk`, `RingBuffer`, or `clear` of `InlineArray` leads to a
  double drop when the container is dropped later (C14, C30, C47).
* `Hash` of `Chunk` and `InlineArray` does not feed the length prefix that `[A]` feeds, although both implement
  `Borrow<[A]>`: lookups by slice fail (C19).
* `Index`/`IndexMut` of ring buffer slices are checked against the buffer, not the slice (C33); the two halves of
  `SliceMut::split_at` give mutable access to the same element through `IndexMut` (C53).
* `RingBuffer` `io::Write::write` fails a debug assertion whenever the write wraps around (C34).
* `RingBuffer` of capacity 0 panics (debug) or loops for ever (release) (C35).
* `RingBuffer::insert_from` with an announced length near `usize::MAX` loops for ever in release builds (C51).
* `..=usize::MAX` gives an empty slice in release builds (C32).
* `InlineArray::new` on over-aligned sized elements yields capacity 0 where the documentation promises a panic (C44).
* `Arbitrary::size_hint` overflows (C52).
* `SparseChunk::values`/`values_mut` call `from_raw_parts` on slots that are not initialised, against its contract (C69).
* Stacked Borrows: `Chunk::force_copy` and `InlineArray::remove` use a pointer that the `&mut` made after it has invalidated; Stacked and
  Tree Borrows: `SparseChunk::iter_mut` re-borrows the whole chunk in every `next`, and the halves of `SliceMut::split_at` are two
  `&mut` to the same buffer (C70).
* An `InlineArray` in a host type with padding bytes loses what lies on them when it is moved (C72).
* `Debug` for `InlineArray` prints the name `Chunk` (C54).

## 4. Trusted base

* Coq 8.16.1's kernel, and `vm_compute` in the `Example`s.
* `Print Assumptions` stands under every property theorem and answers `Closed under the global context` for all of them: no
  axiom is used.  (`coqchk` on the whole development lists in addition the axioms contained in libraries that std++ merely loads:
  `Coq.ssr.ssrunder.Under_rel.*`; no theorem depends on them.)
* No axioms, `Admitted`, functors, module types, plugins or disabled kernel checks are used.
* The transcription of the Rust code into Gallina.  Every definition cites file and lines; section 6 lists every function of
  the crate with the definitions that model it.
* `Machine.v` as semantics of the Rust used, with the simplifications below.  `Litmus.v` proves that its checks miss nothing: when an
  operation of the slot, byte or pointer machine reports no undefined behaviour, the access was in bounds, aligned and of live
  values, and had the stated effect; and that the aliasing machines decide the textbook cases as they should.
* Contracts assumed of code outside the crate: `core` (slice drop glue, slice comparison and hashing, `Iterator::take`, `zip`,
  `enumerate`, `cmp`, `collect::<Result>`, `fmt` builders, `binary_search`), `bitmaps::Bitmap` (a finite set of indices below
  `N`; `get`/`set` beyond `N` as described in `SparseModel.v`), `array_ops` (`binary_search`), `arbitrary` (iterators of
  results), `refpool` (hands an uninitialised slot to `default_uninit`/`clone_uninit`).

## 5. What is modelled and what is not

Modelled: every function in `src/sized_chunk`, `src/ring_buffer`, `src/sparse_chunk`, `src/inline_array`, `src/arbitrary.rs`
(section 6).  Not modelled: `lib.rs` (re-exports and documentation), `no_std`, the decoding of bytes into fuzz
inputs (derived by `arbitrary`; the targets in `fuzz/` are modelled from the decoded value on).
The unit tests and documentation examples of the crate are run on the models in `RepoTests.v` (validation of the transcription, not
proof).

Simplifications:

* References are slot numbers, and two mutable references may not point to the same slot (C53).  Rust's aliasing rules are checked in a
  model of their own (`BorrowModel.v`, C70): our rendering of Stacked Borrows and Tree Borrows, at the granularity of slots, without
  protectors and two-phase borrows; the pointers each unsafe function makes and uses are transcribed, what it computes is an argument
  (tied to the other models for programs on all four containers and for the mutable iterators; for `InlineArray` the tie is the length and the panics, not the slots).  `SparseChunk::values()` builds a slice over uninitialised slots, which is an event
  only in `RawPartsModel.v` (C69): elsewhere the model of `SparseChunk` looks at the slot wanted.
* `N + N < word`: true of every type of non-zero size (at most `isize::MAX` bytes); it excludes chunks of zero-sized elements
  with more than `usize::MAX/2` slots.  (For `InlineArray` zero-sized elements are modelled, as an indistinguishable bag.)
* Moving an object copies all its bytes, except in `MoveModel.v` (C72), where the padding of the host type of an `InlineArray` is lost.
* One flag switches overflow checks and debug assertions, as Cargo's default profiles do.
* Iterator scripts are finite; an endless iterator is covered through its prefixes (C61: what comes behind the prefix
  consumed has no influence).  `SparseChunk::from_iter` on endless `None`s does not end (C77).
* When a call that consumes an iterator panics, what is left in the iterator is dropped by code outside the crate and is not counted.
* Allocation (`RingBuffer` and `Chunk` are inline; `refpool` allocates) cannot fail.
* The identity of dropped values is observed, not the time of the drop relative to other effects, except for their order.
* Threads: there are no atomics or interior mutability in the crate; all mutation is through `&mut`.  Which values may cross threads
  is decided in `TypesModel.v` (C79) by our rendering of Rust's rules for `Send`, `Sync` and variance, from the fields of the structs.
* `Debug` prints through core's builders; the output is represented by the name and the list of items.

## 6. Coverage: every function of the crate and the definitions that model it

Generated from the citations in the model files (function whose line lies in the cited range).
Functions without a citation: none.

| file | line | function | model definitions |
|---|---|---|---|
| arbitrary.rs | 19 | `arbitrary` | `ArbitraryModel.arbitrary` |
| arbitrary.rs | 23 | `arbitrary_take_rest` | `ArbitraryModel.arbitrary` |
| arbitrary.rs | 27 | `size_hint` | `ArbitraryModel.arb_size_hint` |
| arbitrary.rs | 41 | `arbitrary` | `ArbitraryModel.arbitrary` |
| arbitrary.rs | 45 | `arbitrary_take_rest` | `ArbitraryModel.arbitrary` |
| arbitrary.rs | 49 | `size_hint` | `ArbitraryModel.arb_size_hint` |
| arbitrary.rs | 63 | `arbitrary` | `ArbitraryModel.arbitrary` |
| arbitrary.rs | 67 | `arbitrary_take_rest` | `ArbitraryModel.arbitrary` |
| arbitrary.rs | 71 | `size_hint` | `ArbitraryModel.arb_size_hint` |
| arbitrary.rs | 84 | `arbitrary` | `ArbitraryModel.arbitrary` |
| arbitrary.rs | 88 | `arbitrary_take_rest` | `ArbitraryModel.arbitrary` |
| arbitrary.rs | 92 | `size_hint` | `ArbitraryModel.arb_size_hint` |
| inline_array/iter.rs | 13 | `next` | `InlineModel.ia_next`, `OwnModel.m_kill` |
| inline_array/iter.rs | 17 | `size_hint` | `InlineModel.ia_next`, `OwnModel.m_kill` |
| inline_array/iter.rs | 23 | `next_back` | `InlineModel.ia_next`, `OwnModel.m_kill` |
| inline_array/iter.rs | 46 | `next` | `InlineModel.ia_next`, `MixModel.m_next` |
| inline_array/iter.rs | 50 | `size_hint` | `InlineModel.ia_next`, `MixModel.m_next` |
| inline_array/iter.rs | 56 | `next_back` | `InlineModel.ia_next`, `MixModel.m_next` |
| inline_array/mod.rs | 112 | `capacity` | `InlineModel.capacity` |
| inline_array/mod.rs | 151 | `len_const` | `BorrowModel.b_ia_len`, `InlineModel.ia_len_ptr` |
| inline_array/mod.rs | 164 | `len_mut` | `InlineModel.ia_len_ptr` |
| inline_array/mod.rs | 177 | `data` | `InlineModel.ia_data` |
| inline_array/mod.rs | 193 | `data_mut` | `InlineModel.ia_data` |
| inline_array/mod.rs | 209 | `ptr_at` | `InlineModel.ia_ptr_at` |
| inline_array/mod.rs | 216 | `ptr_at_mut` | `InlineModel.ia_ptr_at` |
| inline_array/mod.rs | 222 | `read_at` | `InlineModel.ia_read_at` |
| inline_array/mod.rs | 227 | `write_at` | `InlineModel.ia_read_at` |
| inline_array/mod.rs | 234 | `len` | `BorrowModel.b_ia_len`, `InlineModel.ia_len`, `NestModel.method_op` |
| inline_array/mod.rs | 241 | `is_empty` | `InlineModel.ia_len` |
| inline_array/mod.rs | 248 | `is_full` | `InlineModel.ia_len` |
| inline_array/mod.rs | 260 | `new` | `InlineModel.ia_new`, `MoveModel.ia_kit_moving`, `NestModel.new_op`, `TempMix.m_fresh` |
| inline_array/mod.rs | 298 | `push` | `InlineModel.ia_push`, `NestModel.put_op` |
| inline_array/mod.rs | 313 | `pop` | `InlineModel.ia_pop`, `NestModel.take_op` |
| inline_array/mod.rs | 330 | `insert` | `InlineModel.ia_insert`, `NestModel.put_op` |
| inline_array/mod.rs | 352 | `remove` | `InlineModel.ia_remove`, `NestModel.take_op` |
| inline_array/mod.rs | 373 | `split_off` | `InlineModel.ia_split_off`, `MoveModel.ia_kit_moving`, `NestModel.spawn_op` |
| inline_array/mod.rs | 389 | `drop_contents` | `InlineModel.ia_drop_contents`, `NestModel.settle` |
| inline_array/mod.rs | 396 | `clear` | `InlineModel.ia_clear`, `NestModel.method_op` |
| inline_array/mod.rs | 404 | `drain` | `InlineModel.ia_next` |
| inline_array/mod.rs | 410 | `drop` | `InlineModel.ia_destroy`, `NestModel.settle` |
| inline_array/mod.rs | 416 | `default` | `InlineModel.ia_new` |
| inline_array/mod.rs | 428 | `clone` | `InlineModel.ia_clone_loop`, `MoveModel.ia_kit_moving`, `NestCopyModel.o_clone` |
| inline_array/mod.rs | 444 | `deref` | `InlineModel.ia_deref`, `NestModel.contents`, `NestModel.o_index` |
| inline_array/mod.rs | 450 | `deref_mut` | `InlineModel.ia_deref`, `NestModel.o_index`, `NestModel.put_back`, `VisitModel.ia_visit` |
| inline_array/mod.rs | 456 | `borrow` | `InlineModel.ia_deref`, `MixModel.m_borrow` |
| inline_array/mod.rs | 462 | `borrow_mut` | `InlineModel.ia_deref` |
| inline_array/mod.rs | 468 | `as_ref` | `InlineModel.ia_deref` |
| inline_array/mod.rs | 474 | `as_mut` | `InlineModel.ia_deref` |
| inline_array/mod.rs | 483 | `eq` | `CallbackModel.inline_eq_by`, `InlineModel.ia_eq`, `InlineModel.ia_eq2`, `MixModel.m_eq_slice`, `NestCopyModel.o_eq` |
| inline_array/mod.rs | 494 | `partial_cmp` | `CallbackModel.inline_eq_by`, `InlineModel.ia_eq`, `InlineModel.ia_eq2`, `NestCopyModel.o_pcmp` |
| inline_array/mod.rs | 503 | `cmp` | `CallbackModel.inline_eq_by`, `InlineModel.ia_eq`, `InlineModel.ia_eq2` |
| inline_array/mod.rs | 512 | `fmt` | `CallbackModel.inline_eq_by`, `NestShowModel.m_fmt`, `RefModel.ia_fmt` |
| inline_array/mod.rs | 522 | `hash` | `CallbackModel.inline_eq_by`, `InlineModel.ia_eq`, `NestShowModel.m_hash` |
| inline_array/mod.rs | 535 | `into_iter` | `InlineModel.ia_next`, `OwnModel.m_into` |
| inline_array/mod.rs | 541 | `from_iter` | `InlineModel.ia_from_iter`, `LiveModel.ia_from_iter_live`, `MixModel.m_collect`, `MoveModel.ia_kit_moving`, `OwnModel.m_into` |
| inline_array/mod.rs | 556 | `into_iter` | `InlineModel.ia_deref` |
| inline_array/mod.rs | 564 | `into_iter` | `InlineModel.ia_deref`, `VisitModel.ia_visit` |
| inline_array/mod.rs | 575 | `extend` | `InlineModel.ia_extend`, `MixModel.m_extend` |
| inline_array/mod.rs | 594 | `extend` | `InlineModel.ia_extend` |
| ring_buffer/index.rs | 13 | `clone` | `RingModel.raw_from` |
| ring_buffer/index.rs | 23 | `to_usize` | `RingModel.raw_from` |
| ring_buffer/index.rs | 30 | `inc` | `RingModel.raw_inc` |
| ring_buffer/index.rs | 39 | `dec` | `RingModel.raw_dec` |
| ring_buffer/index.rs | 48 | `from` | `RingModel.raw_from` |
| ring_buffer/index.rs | 57 | `eq` | `RingModel.raw_from` |
| ring_buffer/index.rs | 68 | `add` | `RefModel.raw_add_raw` |
| ring_buffer/index.rs | 77 | `add` | `RingModel.raw_add` |
| ring_buffer/index.rs | 88 | `add_assign` | `RingModel.raw_add_assign` |
| ring_buffer/index.rs | 100 | `sub` | `RefModel.raw_sub_raw` |
| ring_buffer/index.rs | 109 | `sub` | `RingModel.raw_sub` |
| ring_buffer/index.rs | 120 | `sub_assign` | `RingModel.raw_sub_assign` |
| ring_buffer/index.rs | 137 | `next` | `RefModel.ii_next`, `RingModel.for_range` |
| ring_buffer/index.rs | 148 | `size_hint` | `RefModel.ii_size_hint` |
| ring_buffer/index.rs | 155 | `next_back` | `RefModel.ii_next_back` |
| ring_buffer/iter.rs | 22 | `next` | `CallbackModel.ring_next`, `ManyModel.ring_pull`, `RingModel.it_next`, `RingModel.rb_contents` |
| ring_buffer/iter.rs | 33 | `size_hint` | `RingModel.it_size_hint` |
| ring_buffer/iter.rs | 39 | `next_back` | `ManyModel.ring_pull`, `RingModel.it_next_back` |
| ring_buffer/iter.rs | 66 | `new` | `RingModel.rb_iter` |
| ring_buffer/iter.rs | 70 | `new_slice` | `BorrowModel.b_ring_iter_mut`, `RingModel.rb_iter` |
| ring_buffer/iter.rs | 84 | `mut_ptr` | `RingModel.rb_iter` |
| ring_buffer/iter.rs | 95 | `next` | `BorrowModel.b_ring_iter_mut`, `RingModel.it_next`, `VisitModel.rm_pull` |
| ring_buffer/iter.rs | 107 | `size_hint` | `RingModel.it_size_hint`, `VisitModel.rm_pull` |
| ring_buffer/iter.rs | 116 | `next_back` | `BorrowModel.b_ring_iter_mut`, `RingModel.it_next_back`, `VisitModel.rm_pull` |
| ring_buffer/iter.rs | 140 | `next` | `MixModel.m_next` |
| ring_buffer/iter.rs | 146 | `size_hint` | `MixModel.m_next`, `RingModel.rb_size_hint` |
| ring_buffer/iter.rs | 153 | `next_back` | `MixModel.m_next` |
| ring_buffer/iter.rs | 171 | `next` | `OwnModel.m_kill` |
| ring_buffer/iter.rs | 177 | `size_hint` | `OwnModel.m_kill`, `RingModel.rb_size_hint` |
| ring_buffer/iter.rs | 184 | `next_back` | `OwnModel.m_kill` |
| ring_buffer/mod.rs | 68 | `drop` | `NestModel.settle`, `RingModel.rb_drop` |
| ring_buffer/mod.rs | 81 | `len` | `NestModel.method_op`, `RingModel.rb_len` |
| ring_buffer/mod.rs | 89 | `get` | `RingModel.rb_get` |
| ring_buffer/mod.rs | 101 | `get_mut` | `RefModel.rb_get_mut`, `RingModel.rb_get` |
| ring_buffer/mod.rs | 116 | `raw` | `RingModel.raw` |
| ring_buffer/mod.rs | 121 | `ptr` | `BorrowModel.b_ring_read`, `RingModel.ptr` |
| ring_buffer/mod.rs | 127 | `mut_ptr` | `BorrowModel.b_ring_read`, `RefModel.rb_get_unchecked_mut`, `RingModel.ptr` |
| ring_buffer/mod.rs | 134 | `force_drop` | `BorrowModel2.ring_call`, `RingModel.rb_force_drop` |
| ring_buffer/mod.rs | 140 | `force_read` | `BorrowModel.b_ring_read`, `BorrowModel2.ring_call`, `RingModel.rb_force_read` |
| ring_buffer/mod.rs | 146 | `force_write` | `BorrowModel2.ring_call`, `RingModel.rb_force_write` |
| ring_buffer/mod.rs | 151 | `copy_from` | `BorrowModel2.copy_to`, `RingModel.copy_from_` |
| ring_buffer/mod.rs | 159 | `force_copy_to` | `BorrowModel2.copy_to`, `RingModel.copy_from_`, `RingModel.rb_force_copy_to` |
| ring_buffer/mod.rs | 190 | `copy_from_slice` | `RingModel.copy_from_slice` |
| ring_buffer/mod.rs | 214 | `range` | `RefModel.rb_index_range`, `RingModel.rb_range` |
| ring_buffer/mod.rs | 225 | `new` | `NestModel.new_op`, `RingModel.ring0`, `TempMix.m_fresh` |
| ring_buffer/mod.rs | 236 | `unit` | `RingModel.rb_unit` |
| ring_buffer/mod.rs | 252 | `pair` | `RingModel.rb_pair` |
| ring_buffer/mod.rs | 272 | `drain_from` | `NestModel.spawn_op`, `RingModel.rb_from_front` |
| ring_buffer/mod.rs | 283 | `collect_from` | `LiveModel.rb_take_loop_live`, `MixModel.m_collect_from`, `RingModel.rb_take_loop` |
| ring_buffer/mod.rs | 299 | `from_front` | `RingModel.rb_from_front` |
| ring_buffer/mod.rs | 310 | `from_back` | `RingModel.rb_from_front` |
| ring_buffer/mod.rs | 319 | `is_full` | `RingModel.rb_is_full` |
| ring_buffer/mod.rs | 327 | `iter` | `ManyModel.ring_open`, `NestModel.contents`, `RingModel.rb_contents`, `RingModel.rb_iter` |
| ring_buffer/mod.rs | 340 | `iter_mut` | `RingModel.rb_iter`, `VisitModel.rb_visit` |
| ring_buffer/mod.rs | 345 | `parse_range` | `RingModel.rb_slice` |
| ring_buffer/mod.rs | 366 | `slice` | `RingModel.rb_slice` |
| ring_buffer/mod.rs | 375 | `slice_mut` | `RingModel.rb_slice` |
| ring_buffer/mod.rs | 388 | `get_unchecked` | `BorrowModel2.ring_call`, `RingModel.rb_get_unchecked` |
| ring_buffer/mod.rs | 398 | `get_unchecked_mut` | `BorrowModel2.ring_call`, `RefModel.rb_get_unchecked_mut`, `RingModel.rb_get_unchecked` |
| ring_buffer/mod.rs | 407 | `push_back` | `NestModel.put_op`, `RingModel.rb_push_back` |
| ring_buffer/mod.rs | 421 | `push_front` | `NestModel.put_op`, `RingModel.rb_push_front` |
| ring_buffer/mod.rs | 436 | `pop_back` | `NestModel.take_op`, `RingModel.rb_pop_back` |
| ring_buffer/mod.rs | 450 | `pop_front` | `NestModel.take_op`, `RingModel.rb_pop_front` |
| ring_buffer/mod.rs | 465 | `drop_left` | `NestModel.method_op`, `RingModel.rb_drop_left` |
| ring_buffer/mod.rs | 483 | `drop_right` | `NestModel.method_op`, `RingModel.rb_drop_right` |
| ring_buffer/mod.rs | 504 | `split_off` | `NestModel.spawn_op`, `RingModel.rb_split_off` |
| ring_buffer/mod.rs | 527 | `append` | `NestModel.merge_op`, `RingModel.rb_append` |
| ring_buffer/mod.rs | 538 | `drain_from_front` | `RingModel.rb_drain_from_front` |
| ring_buffer/mod.rs | 560 | `drain_from_back` | `RingModel.rb_drain_from_back` |
| ring_buffer/mod.rs | 582 | `insert` | `NestModel.put_op`, `RingModel.rb_insert` |
| ring_buffer/mod.rs | 626 | `insert_ordered` | `RingModel.rb_peek_all_` |
| ring_buffer/mod.rs | 648 | `insert_from` | `LiveModel.rb_insert_from_live`, `MixModel.m_insert_from`, `RingModel.rb_insert_from` |
| ring_buffer/mod.rs | 715 | `remove` | `NestModel.take_op`, `RingModel.rb_remove` |
| ring_buffer/mod.rs | 745 | `drain` | `RingModel (comment)` |
| ring_buffer/mod.rs | 752 | `clear` | `NestModel.method_op`, `RingModel.rb_clear` |
| ring_buffer/mod.rs | 764 | `default` | `RingModel.ring0` |
| ring_buffer/mod.rs | 770 | `clone` | `NestCopyModel.o_clone`, `RingModel.rb_clone_loop` |
| ring_buffer/mod.rs | 789 | `index` | `NestModel.o_index`, `RingModel.rb_index` |
| ring_buffer/mod.rs | 803 | `index_mut` | `NestModel.o_index`, `NestModel.put_back`, `RefModel.rb_index_mut`, `RingModel.rb_index` |
| ring_buffer/mod.rs | 818 | `eq` | `CallbackModel.ring_eq_by`, `NestCopyModel.o_eq`, `RingModel.rb_eq` |
| ring_buffer/mod.rs | 830 | `eq` | `CallbackModel.ring_eq_by`, `MixModel.m_eq_slice`, `RingModel.rb_eq_list` |
| ring_buffer/mod.rs | 840 | `eq` | `RingModel.sl_eq` |
| ring_buffer/mod.rs | 849 | `eq` | `RingModel.sl_eq` |
| ring_buffer/mod.rs | 859 | `partial_cmp` | `CallbackModel.ring_eq_by`, `NestCopyModel.o_pcmp`, `RingModel.rb_partial_cmp` |
| ring_buffer/mod.rs | 867 | `cmp` | `CallbackModel.ring_eq_by`, `RingModel.rb_cmp` |
| ring_buffer/mod.rs | 874 | `extend` | `LiveModel.extend_live`, `MixModel.m_extend`, `RingModel.rb_extend` |
| ring_buffer/mod.rs | 883 | `extend` | `RingModel.rb_extend` |
| ring_buffer/mod.rs | 891 | `fmt` | `CallbackModel.ring_eq_by`, `NestShowModel.m_fmt`, `RefModel.rb_fmt` |
| ring_buffer/mod.rs | 899 | `hash` | `CallbackModel.ring_eq_by`, `NestShowModel.m_hash`, `RingModel.rb_hash` |
| ring_buffer/mod.rs | 908 | `write` | `RingModel.rb_io_write` |
| ring_buffer/mod.rs | 919 | `flush` | `RingModel.rb_io_write` |
| ring_buffer/mod.rs | 926 | `read` | `RingModel.rb_io_read_loop` |
| ring_buffer/mod.rs | 941 | `from_iter` | `LiveModel.rb_from_iter_live`, `MixModel.m_collect`, `OwnModel.m_into`, `RingModel.rb_from_iter` |
| ring_buffer/mod.rs | 954 | `into_iter` | `OwnModel.m_into` |
| ring_buffer/mod.rs | 965 | `into_iter` | `RingModel.rb_iter` |
| ring_buffer/mod.rs | 976 | `into_iter` | `RingModel.rb_iter`, `VisitModel.rb_visit` |
| ring_buffer/refpool.rs | 9 | `default_uninit` | `RefpoolModel.ring_default_uninit` |
| ring_buffer/refpool.rs | 22 | `clone_uninit` | `RefpoolModel.ring_clone_uninit_loop` |
| ring_buffer/slice.rs | 29 | `len` | `RingModel.sl_len` |
| ring_buffer/slice.rs | 38 | `get` | `RingModel.sl_get` |
| ring_buffer/slice.rs | 54 | `get_unchecked` | `RingModel.sl_get_unchecked` |
| ring_buffer/slice.rs | 61 | `iter` | `ManyModel.ring_open`, `RingModel.sl_iter` |
| ring_buffer/slice.rs | 75 | `slice` | `RingModel.sl_slice` |
| ring_buffer/slice.rs | 102 | `split_at` | `RingModel.sl_split_at` |
| ring_buffer/slice.rs | 128 | `to_owned` | `RingModel.sl_to_owned` |
| ring_buffer/slice.rs | 139 | `from` | `RingModel.rb_slice` |
| ring_buffer/slice.rs | 153 | `clone` | `RingModel.rb_slice` |
| ring_buffer/slice.rs | 166 | `index` | `RingModel.sl_index` |
| ring_buffer/slice.rs | 174 | `eq` | `CallbackModel.rslice_eq_by`, `RingModel.sl_eq` |
| ring_buffer/slice.rs | 182 | `eq` | `CallbackModel.rslice_eq_by`, `RingModel.sl_eq` |
| ring_buffer/slice.rs | 190 | `eq` | `RingModel.sl_eq` |
| ring_buffer/slice.rs | 201 | `eq` | `CallbackModel.rslice_eq_by`, `RingModel.sl_eq_list` |
| ring_buffer/slice.rs | 212 | `partial_cmp` | `CallbackModel.rslice_eq_by`, `RingModel.sl_partial_cmp` |
| ring_buffer/slice.rs | 220 | `cmp` | `CallbackModel.rslice_eq_by`, `RingModel.sl_partial_cmp` |
| ring_buffer/slice.rs | 226 | `fmt` | `CallbackModel.rslice_eq_by`, `RefModel.sl_fmt` |
| ring_buffer/slice.rs | 234 | `hash` | `CallbackModel.rslice_eq_by`, `RingModel.sl_partial_cmp` |
| ring_buffer/slice.rs | 247 | `into_iter` | `RingModel.sl_iter` |
| ring_buffer/slice.rs | 264 | `len` | `RingModel.sl_len` |
| ring_buffer/slice.rs | 273 | `get` | `BorrowModel.use`, `RingModel.sl_get` |
| ring_buffer/slice.rs | 286 | `get_mut` | `BorrowModel.use`, `RefModel.sl_get_mut`, `RingModel.sl_get` |
| ring_buffer/slice.rs | 299 | `unmut` | `RingModel.rb_slice` |
| ring_buffer/slice.rs | 312 | `get_unchecked` | `BorrowModel.use`, `RingModel.sl_get_unchecked` |
| ring_buffer/slice.rs | 322 | `get_unchecked_mut` | `BorrowModel.use`, `RefModel.sl_get_unchecked_mut`, `RingModel.sl_get_unchecked` |
| ring_buffer/slice.rs | 329 | `iter` | `RingModel.sl_iter` |
| ring_buffer/slice.rs | 342 | `iter_mut` | `RingModel.sl_iter`, `VisitModel.sl_visit` |
| ring_buffer/slice.rs | 356 | `slice` | `RefModel.cut`, `RingModel.sl_slice` |
| ring_buffer/slice.rs | 383 | `split_at` | `BorrowModel.use`, `RefModel.cut`, `RingModel.sl_split_at` |
| ring_buffer/slice.rs | 410 | `to_owned` | `RingModel.sl_to_owned` |
| ring_buffer/slice.rs | 420 | `from` | `RingModel.rb_slice` |
| ring_buffer/slice.rs | 434 | `into` | `RingModel.rb_slice` |
| ring_buffer/slice.rs | 444 | `index` | `RingModel.sl_index` |
| ring_buffer/slice.rs | 452 | `index_mut` | `RefModel.sl_index_mut`, `RingModel.sl_index` |
| ring_buffer/slice.rs | 460 | `eq` | `CallbackModel.rslice_eq_by`, `RingModel.sl_eq` |
| ring_buffer/slice.rs | 468 | `eq` | `CallbackModel.rslice_eq_by`, `RingModel.sl_eq` |
| ring_buffer/slice.rs | 476 | `eq` | `RingModel.sl_eq` |
| ring_buffer/slice.rs | 487 | `eq` | `CallbackModel.rslice_eq_by`, `RingModel.sl_eq_list` |
| ring_buffer/slice.rs | 498 | `partial_cmp` | `CallbackModel.rslice_eq_by`, `RingModel.sl_partial_cmp` |
| ring_buffer/slice.rs | 506 | `cmp` | `CallbackModel.rslice_eq_by`, `RingModel.sl_partial_cmp` |
| ring_buffer/slice.rs | 512 | `fmt` | `CallbackModel.rslice_eq_by`, `RefModel.sl_fmt` |
| ring_buffer/slice.rs | 520 | `hash` | `CallbackModel.rslice_eq_by`, `RingModel.sl_partial_cmp` |
| ring_buffer/slice.rs | 533 | `into_iter` | `RingModel.sl_iter` |
| ring_buffer/slice.rs | 544 | `into_iter` | `RingModel.sl_iter`, `VisitModel.sl_visit` |
| sized_chunk/iter.rs | 12 | `next` | `ChunkModel.iter_next`, `OwnModel.m_kill` |
| sized_chunk/iter.rs | 20 | `size_hint` | `ChunkModel.size_hint`, `OwnModel.m_kill` |
| sized_chunk/iter.rs | 26 | `next_back` | `ChunkModel.iter_next_back`, `OwnModel.m_kill` |
| sized_chunk/iter.rs | 56 | `next` | `ChunkModel.iter_next`, `MixModel.m_next` |
| sized_chunk/iter.rs | 64 | `size_hint` | `ChunkModel.size_hint`, `MixModel.m_next` |
| sized_chunk/iter.rs | 73 | `next_back` | `ChunkModel.iter_next_back`, `MixModel.m_next` |
| sized_chunk/mod.rs | 100 | `drop` | `ChunkModel.drop_`, `NestModel.settle` |
| sized_chunk/mod.rs | 109 | `clone` | `ChunkModel.clone_loop`, `NestCopyModel.o_clone` |
| sized_chunk/mod.rs | 129 | `new` | `ChunkModel.new`, `NestModel.new_op`, `TempMix.m_fresh` |
| sized_chunk/mod.rs | 138 | `unit` | `ChunkModel.unit_` |
| sized_chunk/mod.rs | 152 | `pair` | `ChunkModel.pair_` |
| sized_chunk/mod.rs | 170 | `drain_from` | `ChunkModel.drain_from`, `NestModel.spawn_op` |
| sized_chunk/mod.rs | 181 | `collect_from` | `ChunkModel.collect_loop`, `LiveModel.collect_loop_live`, `MixModel.m_collect_from` |
| sized_chunk/mod.rs | 200 | `from_front` | `ChunkModel.from_front` |
| sized_chunk/mod.rs | 214 | `from_back` | `ChunkModel.from_back` |
| sized_chunk/mod.rs | 226 | `len` | `BorrowModel.b_fields`, `ChunkModel.len`, `NestModel.method_op` |
| sized_chunk/mod.rs | 232 | `is_empty` | `ChunkModel.is_empty` |
| sized_chunk/mod.rs | 238 | `is_full` | `ChunkModel.is_full` |
| sized_chunk/mod.rs | 243 | `ptr` | `BorrowModel.b_ptr`, `ChunkModel.as_slice` |
| sized_chunk/mod.rs | 249 | `mut_ptr` | `BorrowModel.b_ptr`, `ChunkModel.as_slice` |
| sized_chunk/mod.rs | 255 | `force_read` | `BorrowModel.b_force_read`, `ChunkModel.force_read` |
| sized_chunk/mod.rs | 262 | `force_write` | `BorrowModel.b_force_write`, `ChunkModel.force_write` |
| sized_chunk/mod.rs | 268 | `force_copy` | `BorrowModel.b_force_copy`, `ChunkModel.force_copy` |
| sized_chunk/mod.rs | 289 | `write_from_iter` | `ChunkModel.write_from_iter`, `LiveModel.write_from_iter_live` |
| sized_chunk/mod.rs | 319 | `force_copy_to` | `BorrowModel.b_force_copy_to`, `ChunkModel.force_copy_to` |
| sized_chunk/mod.rs | 336 | `push_front` | `ChunkModel.push_front`, `NestModel.put_op` |
| sized_chunk/mod.rs | 357 | `push_back` | `ChunkModel.push_back`, `NestModel.put_op` |
| sized_chunk/mod.rs | 378 | `pop_front` | `ChunkModel.pop_front`, `NestModel.take_op` |
| sized_chunk/mod.rs | 393 | `pop_back` | `ChunkModel.pop_back`, `NestModel.take_op` |
| sized_chunk/mod.rs | 407 | `drop_left` | `ChunkModel.drop_left`, `NestModel.method_op` |
| sized_chunk/mod.rs | 419 | `drop_right` | `ChunkModel.drop_right`, `NestModel.method_op` |
| sized_chunk/mod.rs | 433 | `split_off` | `ChunkModel.split_off`, `NestModel.spawn_op` |
| sized_chunk/mod.rs | 454 | `append` | `ChunkModel.append`, `NestModel.merge_op` |
| sized_chunk/mod.rs | 478 | `drain_from_front` | `ChunkModel.drain_from_front` |
| sized_chunk/mod.rs | 500 | `drain_from_back` | `ChunkModel.drain_from_back` |
| sized_chunk/mod.rs | 520 | `set` | `ChunkModel.set` |
| sized_chunk/mod.rs | 530 | `insert` | `ChunkModel.insert`, `NestModel.put_op` |
| sized_chunk/mod.rs | 573 | `insert_ordered` | `ChunkModel.insert_ordered` |
| sized_chunk/mod.rs | 595 | `insert_from` | `ChunkModel.insert_from`, `LiveModel.insert_from_live`, `MixModel.m_insert_from` |
| sized_chunk/mod.rs | 649 | `remove` | `ChunkModel.remove`, `NestModel.take_op` |
| sized_chunk/mod.rs | 668 | `drain` | `ChunkModel.iter_next` |
| sized_chunk/mod.rs | 675 | `clear` | `ChunkModel.clear`, `NestModel.method_op` |
| sized_chunk/mod.rs | 682 | `as_slice` | `BorrowModel.b_slice_read`, `ChunkModel.as_slice`, `NestModel.contents` |
| sized_chunk/mod.rs | 692 | `as_mut_slice` | `BorrowModel.b_slice_read`, `ChunkModel.as_slice`, `VisitModel.ch_visit` |
| sized_chunk/mod.rs | 703 | `default` | `ChunkModel.new` |
| sized_chunk/mod.rs | 713 | `index` | `ChunkModel.index`, `NestModel.o_index` |
| sized_chunk/mod.rs | 722 | `index_mut` | `ChunkModel.assign`, `ChunkModel.index`, `NestModel.o_index`, `NestModel.put_back` |
| sized_chunk/mod.rs | 731 | `fmt` | `CallbackModel.chunk_eq_by`, `NestShowModel.m_fmt`, `RefModel.chunk_fmt` |
| sized_chunk/mod.rs | 741 | `hash` | `CallbackModel.chunk_eq_by`, `ChunkModel.hash`, `NestShowModel.m_hash` |
| sized_chunk/mod.rs | 756 | `eq` | `CallbackModel.chunk_eq_by`, `ChunkModel.eq_`, `FuzzModel.chunk_is`, `MixModel.m_eq_slice`, `NestCopyModel.o_eq` |
| sized_chunk/mod.rs | 767 | `partial_cmp` | `CallbackModel.chunk_eq_by`, `ChunkModel.partial_cmp`, `NestCopyModel.o_pcmp` |
| sized_chunk/mod.rs | 776 | `cmp` | `CallbackModel.chunk_eq_by`, `ChunkModel.cmp_` |
| sized_chunk/mod.rs | 783 | `write` | `ChunkModel.io_write` |
| sized_chunk/mod.rs | 789 | `flush` | `ChunkModel.io_write` |
| sized_chunk/mod.rs | 796 | `read` | `ChunkModel.io_read_loop` |
| sized_chunk/mod.rs | 811 | `from` | `InlineModel.chunk_from` |
| sized_chunk/mod.rs | 817 | `from` | `BorrowModel.b_chunk_from_inline` |
| sized_chunk/mod.rs | 835 | `borrow` | `ChunkModel.as_slice`, `MixModel.m_borrow` |
| sized_chunk/mod.rs | 841 | `borrow_mut` | `ChunkModel.as_slice` |
| sized_chunk/mod.rs | 847 | `as_ref` | `ChunkModel.as_slice` |
| sized_chunk/mod.rs | 853 | `as_mut` | `ChunkModel.as_slice` |
| sized_chunk/mod.rs | 861 | `deref` | `ChunkModel.as_slice`, `ChunkModel.write_back` |
| sized_chunk/mod.rs | 867 | `deref_mut` | `ChunkModel.as_slice`, `ChunkModel.write_back` |
| sized_chunk/mod.rs | 873 | `from_iter` | `ChunkModel.from_iter`, `LiveModel.from_iter_live`, `MixModel.m_collect`, `OwnModel.m_into` |
| sized_chunk/mod.rs | 888 | `into_iter` | `ChunkModel.as_slice` |
| sized_chunk/mod.rs | 896 | `into_iter` | `ChunkModel.as_slice`, `VisitModel.ch_visit` |
| sized_chunk/mod.rs | 907 | `extend` | `ChunkModel.extend`, `MixModel.m_extend` |
| sized_chunk/mod.rs | 926 | `extend` | `ChunkModel.extend` |
| sized_chunk/mod.rs | 940 | `into_iter` | `ChunkModel.iter_next`, `OwnModel.m_into` |
| sized_chunk/refpool.rs | 8 | `default_uninit` | `RefpoolModel.chunk_default_uninit` |
| sized_chunk/refpool.rs | 21 | `clone_uninit` | `RefpoolModel.chunk_clone_uninit_loop` |
| sparse_chunk/iter.rs | 20 | `next` | `ManyModel.sparse_pull`, `SparseModel.it_next_index` |
| sparse_chunk/iter.rs | 24 | `size_hint` | `SparseModel.it_size_hint` |
| sparse_chunk/iter.rs | 44 | `next` | `BorrowModel.b_sp_iter_mut`, `SparseModel.im_next`, `VisitModel.sp_visit` |
| sparse_chunk/iter.rs | 56 | `size_hint` | `SparseModel.it_size_hint`, `VisitModel.sp_visit` |
| sparse_chunk/iter.rs | 78 | `next` | `MixModel.m_next`, `OwnModel.m_kill`, `SparseModel.dr_next` |
| sparse_chunk/iter.rs | 82 | `size_hint` | `MixModel.m_next`, `OwnModel.m_kill`, `SparseModel.dr_next` |
| sparse_chunk/iter.rs | 106 | `next` | `ManyModel.sparse_pull`, `SparseModel.oi_next` |
| sparse_chunk/iter.rs | 116 | `size_hint` | `SparseModel.oi_size_hint` |
| sparse_chunk/iter.rs | 142 | `next` | `BorrowModel.b_sp_iter_mut`, `SparseModel.om_next` |
| sparse_chunk/iter.rs | 159 | `size_hint` | `SparseModel.oi_size_hint` |
| sparse_chunk/iter.rs | 185 | `next` | `OwnModel.m_into_cells`, `SparseModel.od_next` |
| sparse_chunk/iter.rs | 195 | `size_hint` | `OwnModel.m_into_cells`, `SparseModel.oi_size_hint` |
| sparse_chunk/mod.rs | 63 | `drop` | `NestModel.settle`, `RawPartsModel.raw_drop_loop`, `SparseModel.sp_drop_loop` |
| sparse_chunk/mod.rs | 77 | `clone` | `NestCopyModel.o_clone`, `SparseModel.sp_clone_loop` |
| sparse_chunk/mod.rs | 94 | `values` | `BorrowModel.b_values`, `RawPartsModel.raw_values` |
| sparse_chunk/mod.rs | 99 | `values_mut` | `BorrowModel.b_values`, `RawPartsModel.raw_values` |
| sparse_chunk/mod.rs | 105 | `force_read` | `BorrowModel3.sparse_call`, `RawPartsModel.raw_force_read`, `SparseModel.sp_force_read` |
| sparse_chunk/mod.rs | 111 | `force_write` | `BorrowModel3.sparse_call`, `RawPartsModel.raw_force_read`, `SparseModel.sp_force_write` |
| sparse_chunk/mod.rs | 116 | `new` | `NestModel.new_op`, `SparseModel.sparse0`, `TempMix.m_fresh` |
| sparse_chunk/mod.rs | 124 | `unit` | `SparseModel.sp_unit` |
| sparse_chunk/mod.rs | 131 | `pair` | `SparseModel.sp_pair` |
| sparse_chunk/mod.rs | 140 | `len` | `NestModel.method_op`, `SparseModel.sp_len` |
| sparse_chunk/mod.rs | 146 | `is_empty` | `SparseModel.sp_len` |
| sparse_chunk/mod.rs | 152 | `is_full` | `SparseModel.sp_len` |
| sparse_chunk/mod.rs | 159 | `insert` | `NestModel.put_op`, `RawPartsModel.raw_insert`, `SparseModel.sp_insert` |
| sparse_chunk/mod.rs | 174 | `remove` | `NestModel.take_op`, `RawPartsModel.raw_remove`, `SparseModel.sp_remove` |
| sparse_chunk/mod.rs | 188 | `pop` | `NestModel.take_op`, `SparseModel.sp_pop` |
| sparse_chunk/mod.rs | 193 | `get` | `RawPartsModel.raw_get`, `SparseModel.sp_get` |
| sparse_chunk/mod.rs | 205 | `get_mut` | `SparseModel.sp_get` |
| sparse_chunk/mod.rs | 222 | `get_unchecked` | `BorrowModel3.sparse_call`, `RawPartsModel.raw_get`, `SparseModel.sp_get_unchecked` |
| sparse_chunk/mod.rs | 232 | `get_unchecked_mut` | `BorrowModel3.sparse_call`, `SparseModel.sp_get_unchecked` |
| sparse_chunk/mod.rs | 237 | `indices` | `SparseModel.sp_indices` |
| sparse_chunk/mod.rs | 242 | `first_index` | `SparseModel.sp_first_index` |
| sparse_chunk/mod.rs | 247 | `iter` | `ManyModel.sview`, `SparseModel.it_next_index` |
| sparse_chunk/mod.rs | 256 | `iter_mut` | `BorrowModel.b_sp_iter_mut`, `SparseModel.sp_iter_mut_assign`, `VisitModel.sp_visit` |
| sparse_chunk/mod.rs | 264 | `drain` | `SparseModel.dr_next` |
| sparse_chunk/mod.rs | 270 | `entries` | `CallbackModel.sparse_entry_next`, `ManyModel.sview`, `SparseModel.en_next` |
| sparse_chunk/mod.rs | 278 | `option_iter` | `ManyModel.sview`, `SparseModel.oi_next` |
| sparse_chunk/mod.rs | 289 | `option_iter_mut` | `SparseModel.oi_next`, `VisitModel.om_flat` |
| sparse_chunk/mod.rs | 300 | `option_drain` | `MixModel.m_collect_cells`, `NestModel.contents`, `OwnModel.m_into_cells`, `SparseModel.od_calls`, `SparseModel.oi_next` |
| sparse_chunk/mod.rs | 312 | `default` | `SparseModel.sparse0` |
| sparse_chunk/mod.rs | 324 | `index` | `NestModel.o_index`, `SparseModel.sp_index` |
| sparse_chunk/mod.rs | 334 | `index_mut` | `NestModel.o_index`, `NestModel.put_back`, `SparseModel.sp_assign` |
| sparse_chunk/mod.rs | 347 | `into_iter` | `OwnModel.m_into`, `SparseModel.dr_next` |
| sparse_chunk/mod.rs | 356 | `from_iter` | `LiveSparseModel.sp_fill_live`, `MixModel.map_some`, `OwnModel.m_into_sparse`, `SparseModel.sp_from_iter_loop` |
| sparse_chunk/mod.rs | 375 | `eq` | `CallbackModel.sparse_eq_loop_by`, `NestCopyModel.o_eq`, `SparseModel.opt_eqb` |
| sparse_chunk/mod.rs | 394 | `eq` | `CallbackModel.sparse_eq_map_loop_by`, `FuzzModel.sparse_is`, `SparseModel.sp_eq_map_loop` |
| sparse_chunk/mod.rs | 413 | `eq` | `CallbackModel.sparse_eq_map_loop_by`, `SparseModel.sp_eq_map_loop` |
| sparse_chunk/mod.rs | 438 | `fmt` | `CallbackModel.sparse_entry_next`, `NestShowModel.m_fmt`, `RefModel.sp_fmt` |
| sparse_chunk/refpool.rs | 13 | `default_uninit` | `SparseModel.sp_default_uninit` |
| sparse_chunk/refpool.rs | 25 | `clone_uninit` | `SparseModel.sp_clone_uninit_loop` |
