{
 "claims": [
  {
   "property": "C01",
   "status": "proved",
   "theorems": [
    "C01_chunk_programs_are_list_programs"
   ],
   "note": ""
  },
  {
   "property": "C02",
   "status": "proved",
   "theorems": [
    "C02_chunk_programs_are_memory_safe"
   ],
   "note": ""
  },
  {
   "property": "C03",
   "status": "proved",
   "theorems": [
    "C03_chunk_values_dropped_once"
   ],
   "note": ""
  },
  {
   "property": "C04",
   "status": "proved",
   "theorems": [
    "C04_chunk_push_pop"
   ],
   "note": ""
  },
  {
   "property": "C05",
   "status": "proved",
   "theorems": [
    "C05_chunk_insert_remove_set"
   ],
   "note": ""
  },
  {
   "property": "C06",
   "status": "proved",
   "theorems": [
    "C06_chunk_insert_from_truthful"
   ],
   "note": ""
  },
  {
   "property": "C07",
   "status": "proved",
   "theorems": [
    "C07_chunk_insert_from_misbehaving"
   ],
   "note": ""
  },
  {
   "property": "C08",
   "status": "partial",
   "theorems": [
    "C08_chunk_insert_from_any_iterator_refuted",
    "C08_chunk_insert_from_any_iterator_partial",
    "C08_chunk_insert_from_two_lengths_partial",
    "C08_chunk_insert_from_two_lengths_exact_partial",
    "C08_chunk_insert_from_overflow_partial"
   ],
   "note": "The full statement is false of the code (refuted: release overflow of len+len, len() growing or shrinking between the two calls); the safe part, and the exact outcome for every pair of lengths whose sum with the capacity does not overflow usize (undefined iff more items come than there are slots behind the gap), are proved; when the sum does overflow in a release build the call never returns: it is undefined or panics leaving an empty chunk."
  },
  {
   "property": "C09",
   "status": "proved",
   "theorems": [
    "C09_chunk_insert_ordered"
   ],
   "note": ""
  },
  {
   "property": "C10",
   "status": "proved",
   "theorems": [
    "C10_chunk_split_off_append"
   ],
   "note": ""
  },
  {
   "property": "C11",
   "status": "proved",
   "theorems": [
    "C11_chunk_drain_from"
   ],
   "note": ""
  },
  {
   "property": "C12",
   "status": "partial",
   "theorems": [
    "C12_chunk_from_front_back_partial",
    "C12_chunk_from_front_back_refuted"
   ],
   "note": "Proved for every count in debug builds and for count<=len in release builds; refuted (undefined behaviour) for larger counts in release builds."
  },
  {
   "property": "C13",
   "status": "proved",
   "theorems": [
    "C13_chunk_drop_left_right_clear"
   ],
   "note": ""
  },
  {
   "property": "C14",
   "status": "partial",
   "theorems": [
    "C14_chunk_destroy_with_panicking_drop_partial",
    "C14_chunk_panicking_drop_refuted"
   ],
   "note": "Destroying a chunk is proved; after a panicking drop_left/drop_right/clear the elements are dropped twice (refuted)."
  },
  {
   "property": "C15",
   "status": "proved",
   "theorems": [
    "C15_chunk_clone"
   ],
   "note": ""
  },
  {
   "property": "C16",
   "status": "proved",
   "theorems": [
    "C16_chunk_iterators"
   ],
   "note": ""
  },
  {
   "property": "C17",
   "status": "proved",
   "theorems": [
    "C17_chunk_io"
   ],
   "note": ""
  },
  {
   "property": "C18",
   "status": "proved",
   "theorems": [
    "C18_chunk_eq_cmp_hash"
   ],
   "note": ""
  },
  {
   "property": "C19",
   "status": "partial",
   "theorems": [
    "C19_chunk_borrow_hash_refuted",
    "C19_inline_borrow_hash_refuted"
   ],
   "note": "Refuted for Chunk and InlineArray: Hash feeds no length prefix, the slice does."
  },
  {
   "property": "C20",
   "status": "proved",
   "theorems": [
    "C20_chunk_from_inline_array"
   ],
   "note": ""
  },
  {
   "property": "C21",
   "status": "proved",
   "theorems": [
    "C21_chunk_collect_extend"
   ],
   "note": ""
  },
  {
   "property": "C22",
   "status": "proved",
   "theorems": [
    "C22_chunk_push_costs",
    "C22_ring_costs"
   ],
   "note": ""
  },
  {
   "property": "C23",
   "status": "proved",
   "theorems": [
    "C23_ring_programs_are_list_programs"
   ],
   "note": ""
  },
  {
   "property": "C24",
   "status": "proved",
   "theorems": [
    "C24_ring_programs_are_memory_safe"
   ],
   "note": ""
  },
  {
   "property": "C25",
   "status": "proved",
   "theorems": [
    "C25_ring_values_dropped_once"
   ],
   "note": ""
  },
  {
   "property": "C26",
   "status": "proved",
   "theorems": [
    "C26_ring_insert_remove",
    "C26_ring_insert_ordered"
   ],
   "note": ""
  },
  {
   "property": "C27",
   "status": "proved",
   "theorems": [
    "C27_ring_insert_from_misbehaving"
   ],
   "note": ""
  },
  {
   "property": "C28",
   "status": "proved",
   "theorems": [
    "C28_ring_bulk_moves"
   ],
   "note": ""
  },
  {
   "property": "C29",
   "status": "proved",
   "theorems": [
    "C29_ring_push_pop"
   ],
   "note": ""
  },
  {
   "property": "C30",
   "status": "partial",
   "theorems": [
    "C30_ring_drop_left_right_clear_partial",
    "C30_ring_panicking_drop_refuted"
   ],
   "note": "Destroying a buffer and the calls without panicking destructors are proved; after a panicking clear/drop_left/drop_right the elements are dropped twice (refuted)."
  },
  {
   "property": "C31",
   "status": "proved",
   "theorems": [
    "C31_ring_iterators",
    "C31_pulls_partition"
   ],
   "note": ""
  },
  {
   "property": "C32",
   "status": "partial",
   "theorems": [
    "C32_ring_slices_partial",
    "C32_ring_slice_iterators",
    "C32_ring_slice_overflow_refuted"
   ],
   "note": "Proved for all supported ranges and for slice iteration; ..=usize::MAX yields an empty slice in release builds instead of a panic, exclusive starts are unimplemented (refuted)."
  },
  {
   "property": "C33",
   "status": "partial",
   "theorems": [
    "C33_ring_slice_index_partial",
    "C33_ring_slice_index_refuted"
   ],
   "note": "Refuted: Index of slices is checked against the buffer, not the slice. The exact behaviour is proved."
  },
  {
   "property": "C34",
   "status": "partial",
   "theorems": [
    "C34_ring_io_partial",
    "C34_ring_io_write_refuted"
   ],
   "note": "Proved for release builds and for debug builds when the write does not wrap; refuted for wrapping writes in debug builds (debug assertion fails)."
  },
  {
   "property": "C35",
   "status": "partial",
   "theorems": [
    "C35_ring_capacity_zero_refuted",
    "C35_ring_positive_capacity_partial"
   ],
   "note": "Refuted for capacity 0 (panics in debug, never terminates in release); proved for every other capacity."
  },
  {
   "property": "C36",
   "status": "proved",
   "theorems": [
    "C36_ring_clone_eq_cmp_hash",
    "C36_ring_slice_eq_cmp_hash",
    "C36_ring_collect_extend"
   ],
   "note": ""
  },
  {
   "property": "C37",
   "status": "proved",
   "theorems": [
    "C37_ring_index_of_indices",
    "C37_ring_index_iterator",
    "C37_ring_index_arithmetic"
   ],
   "note": ""
  },
  {
   "property": "C38",
   "status": "proved",
   "theorems": [
    "C38_sparse_programs_are_array_programs",
    "C38_sparse_insert_remove"
   ],
   "note": ""
  },
  {
   "property": "C39",
   "status": "proved",
   "theorems": [
    "C39_sparse_programs_are_memory_safe",
    "C39_sparse_values_dropped_once",
    "C39_sparse_destructor_panics",
    "C39_sparse_assign_panics"
   ],
   "note": ""
  },
  {
   "property": "C40",
   "status": "proved",
   "theorems": [
    "C40_entries_meaning",
    "C40_sparse_iterators",
    "C40_sparse_draining_iterators",
    "C40_served_items"
   ],
   "note": ""
  },
  {
   "property": "C41",
   "status": "proved",
   "theorems": [
    "C41_sparse_equality",
    "C41_sparse_equality_any",
    "C41_sparse_equality_with_map"
   ],
   "note": ""
  },
  {
   "property": "C42",
   "status": "proved",
   "theorems": [
    "C42_sparse_from_iter",
    "C42_sparse_from_iter_panics"
   ],
   "note": ""
  },
  {
   "property": "C43",
   "status": "proved",
   "theorems": [
    "C43_inline_layout"
   ],
   "note": ""
  },
  {
   "property": "C44",
   "status": "partial",
   "theorems": [
    "C44_inline_capacity_partial",
    "C44_inline_new_documentation_refuted"
   ],
   "note": "The capacity and the exact condition under which new panics are proved; the documented condition is false in two cases (refuted)."
  },
  {
   "property": "C45",
   "status": "proved",
   "theorems": [
    "C45_inline_programs_are_list_programs",
    "C45_inline_hosts"
   ],
   "note": "Moves in these programs copy all bytes of the host; C72 is about hosts whose padding bytes get lost."
  },
  {
   "property": "C46",
   "status": "proved",
   "theorems": [
    "C46_inline_programs_are_memory_safe",
    "C46_inline_values_dropped_once"
   ],
   "note": "Destructors do not panic (see C47 and C59 for those that do)."
  },
  {
   "property": "C47",
   "status": "partial",
   "theorems": [
    "C47_inline_destroy_with_panicking_drop_partial",
    "C47_inline_clear_with_panicking_drop_refuted"
   ],
   "note": "Destroying an array is proved; after a panicking clear the elements are dropped a second time (refuted)."
  },
  {
   "property": "C48",
   "status": "proved",
   "theorems": [
    "C48_inline_iterators",
    "C48_inline_eq_cmp_hash",
    "C48_inline_any_contents"
   ],
   "note": ""
  },
  {
   "property": "C49",
   "status": "proved",
   "theorems": [
    "C49_arbitrary_chunk",
    "C49_arbitrary_ring",
    "C49_arbitrary_inline",
    "C49_arbitrary_sparse"
   ],
   "note": "RingBuffer: for capacities > 0. The iterators of the crate arbitrary are modelled as any sequence of items, errors and panics."
  },
  {
   "property": "C50",
   "status": "proved",
   "theorems": [
    "C50_chunk_pool_constructors",
    "C50_ring_pool_constructors",
    "C50_sparse_pool_constructors"
   ],
   "note": ""
  },
  {
   "property": "C51",
   "status": "partial",
   "theorems": [
    "C51_ring_insert_from_ends_partial",
    "C51_ring_insert_from_overflow_partial",
    "C51_ring_subtraction_ends_partial",
    "C51_ring_insert_from_overflow_refuted"
   ],
   "note": "Refuted: in release builds the sum of the lengths wraps and the index arithmetic can loop for ever. Proved (terminates in a valid state) for every other case: no overflow, or debug build, or index at or beyond the end."
  },
  {
   "property": "C52",
   "status": "partial",
   "theorems": [
    "C52_arbitrary_size_hint_partial",
    "C52_arbitrary_size_hint_refuted"
   ],
   "note": "Proved when the product is a usize; refuted otherwise."
  },
  {
   "property": "C53",
   "status": "partial",
   "theorems": [
    "C53_ring_split_at_disjoint_partial",
    "C53_ring_get_mut_points_to_its_element",
    "C53_ring_split_at_index_mut_refuted"
   ],
   "note": "Proved for get_mut and iter_mut over all nestings of slice/split_at; refuted for index_mut, which is checked against the whole buffer and so reaches into the other half."
  },
  {
   "property": "C54",
   "status": "proved",
   "theorems": [
    "C54_debug_output",
    "C54_inline_debug_output"
   ],
   "note": ""
  },
  {
   "property": "C55",
   "status": "proved",
   "theorems": [
    "C55_ring_mutation",
    "C55_ring_mutation_at",
    "C55_mutated_meaning",
    "C55_sparse_mutation"
   ],
   "note": "Chunk and InlineArray hand out their contents as a slice (deref_mut); see C01/C45."
  },
  {
   "property": "C56",
   "status": "proved",
   "theorems": [
    "C56_chunk_panicking_destructors"
   ],
   "note": ""
  },
  {
   "property": "C57",
   "status": "proved",
   "theorems": [
    "C57_ring_panicking_destructors"
   ],
   "note": ""
  },
  {
   "property": "C58",
   "status": "proved",
   "theorems": [
    "C58_sparse_panicking_destructors"
   ],
   "note": ""
  },
  {
   "property": "C59",
   "status": "proved",
   "theorems": [
    "C59_inline_panicking_destructors"
   ],
   "note": ""
  },
  {
   "property": "C60",
   "status": "proved",
   "theorems": [
    "C60_chunk_behaviour_depends_on_contents",
    "C60_ring_behaviour_depends_on_contents",
    "C60_sparse_behaviour_depends_on_contents",
    "C60_inline_behaviour_depends_on_contents"
   ],
   "note": ""
  },
  {
   "property": "C61",
   "status": "proved",
   "theorems": [
    "C61_chunk_endless_iterators",
    "C61_ring_endless_iterators",
    "C61_sparse_endless_iterators",
    "C61_inline_endless_iterators"
   ],
   "note": ""
  },
  {
   "property": "C62",
   "status": "proved",
   "theorems": [
    "C62_chunk_and_ring_interchangeable"
   ],
   "note": ""
  },
  {
   "property": "C63",
   "status": "proved",
   "theorems": [
    "C63_chunk_deque_cost"
   ],
   "note": ""
  },
  {
   "property": "C64",
   "status": "proved",
   "theorems": [
    "C64_chunk_capacity_is_only_a_limit",
    "C64_ring_capacity_is_only_a_limit",
    "C64_inline_capacity_is_only_a_limit",
    "C64_sparse_capacity_is_only_a_limit"
   ],
   "note": ""
  },
  {
   "property": "C65",
   "status": "proved",
   "theorems": [
    "C65_chunk_shared_methods_change_nothing",
    "C65_ring_shared_methods_change_nothing",
    "C65_sparse_shared_methods_change_nothing",
    "C65_inline_shared_methods_change_nothing"
   ],
   "note": ""
  },
  {
   "property": "C66",
   "status": "partial",
   "theorems": [
    "C66_chunk_huge_capacity_refuted",
    "C66_ring_huge_capacity_refuted",
    "C66_sized_elements_partial"
   ],
   "note": "Refuted for zero-sized elements with capacity usize::MAX in debug builds; proved for every capacity that elements of a non-zero size can have."
  },
  {
   "property": "C67",
   "status": "proved",
   "theorems": [
    "C67_chunk_bulk_costs",
    "C67_chunk_shift_costs",
    "C67_ring_bulk_costs",
    "C67_ring_insert_from_costs",
    "C67_inline_costs",
    "C67_sparse_costs",
    "C67_dropping_writes_nothing"
   ],
   "note": ""
  },
  {
   "property": "C68",
   "status": "proved",
   "theorems": [
    "C68_chunk_callbacks",
    "C68_inline_callbacks",
    "C68_ring_callbacks",
    "C68_ring_slice_callbacks",
    "C68_sparse_callbacks",
    "C68_specification_is_complete",
    "C68_consistent_answers"
   ],
   "note": ""
  },
  {
   "property": "C69",
   "status": "partial",
   "theorems": [
    "C69_raw_parts_partial",
    "C69_sparse_raw_parts_refuted",
    "C69_sparse_drop_refuted"
   ],
   "note": "Proved for Chunk, InlineArray and full SparseChunks; refuted for every SparseChunk with a vacant slot (slices of all N slots are built; the code relies on not reading the vacant ones)."
  },
  {
   "property": "C70",
   "status": "partial",
   "theorems": [
    "C70_calls_follow_tree_borrows",
    "C70_calls_accesses",
    "C70_calls_stacked_borrows_partial",
    "C70_chunk_programs_partial",
    "C70_chunk_calls_meaning",
    "C70_ring_iter_mut",
    "C70_sparse_iter_mut_partial",
    "C70_split_at_partial",
    "C70_clients_access",
    "C70_aliasing_refuted",
    "C70_ring_programs",
    "C70_ring_calls_meaning",
    "C70_ring_blocks_meaning",
    "C70_sparse_programs",
    "C70_sparse_calls_meaning",
    "C70_array_programs_partial",
    "C70_array_calls_meaning",
    "C70_steps_accesses"
   ],
   "note": "Proved: every history of calls is accepted by Tree Borrows; RingBuffer::iter_mut (also of slices) is accepted by both models however the references are used. Exact conditions for the rest: Stacked Borrows rejects exactly the histories that move elements inside a Chunk or remove an inner InlineArray element; which uses of SparseChunk::iter_mut items and of split_at halves are accepted. Refuted in full."
  },
  {
   "property": "C71",
   "status": "proved",
   "theorems": [
    "C71_chunk_key_laws",
    "C71_ring_key_laws",
    "C71_ring_slice_key_laws",
    "C71_inline_key_laws",
    "C71_sparse_eq_laws",
    "C71_clones_are_equal"
   ],
   "note": ""
  },
  {
   "property": "C72",
   "status": "partial",
   "theorems": [
    "C72_inline_moves_partial",
    "C72_inline_move_exact_partial",
    "C72_inline_padded_host_refuted",
    "C72_slots_survive_moves"
   ],
   "note": "Proved for Chunk, RingBuffer, SparseChunk (their slots) and for InlineArrays whose host has no padding under the header or under bytes elements use (exact condition proved). Refuted for other hosts."
  },
  {
   "property": "C73",
   "status": "proved",
   "theorems": [
    "C73_fuzz_sized_chunk",
    "C73_fuzz_ring_buffer",
    "C73_fuzz_sparse_chunk",
    "C73_fuzz_inline_array"
   ],
   "note": ""
  },
  {
   "property": "C74",
   "status": "proved",
   "theorems": [
    "C74_ring_unchecked_in_bounds",
    "C74_ring_unchecked_everywhere",
    "C74_slice_unchecked",
    "C74_sparse_unchecked"
   ],
   "note": ""
  },
  {
   "property": "C75",
   "status": "proved",
   "theorems": [
    "C75_chunk_stream",
    "C75_ring_stream",
    "C75_no_byte_lost"
   ],
   "note": ""
  },
  {
   "property": "C76",
   "status": "proved",
   "theorems": [
    "C76_sources",
    "C76_extend",
    "C76_from_iter",
    "C76_collect_from",
    "C76_insert_from",
    "C76_ring_into_chunk",
    "C76_option_drain",
    "C76_sparse_from_iter"
   ],
   "note": ""
  },
  {
   "property": "C77",
   "status": "proved",
   "theorems": [
    "C77_extend",
    "C77_from_iter",
    "C77_collect_from",
    "C77_insert_from",
    "C77_insert_from_two_lengths",
    "C77_endless",
    "C77_sparse_from_iter",
    "C77_sparse_endless"
   ],
   "note": ""
  },
  {
   "property": "C78",
   "status": "proved",
   "theorems": [
    "C78_mixed_programs",
    "C78_mixed_programs_conserve",
    "C78_scope_end"
   ],
   "note": ""
  },
  {
   "property": "C79",
   "status": "proved",
   "theorems": [
    "C79_send_sync",
    "C79_variance"
   ],
   "note": ""
  },
  {
   "property": "C80",
   "status": "partial",
   "theorems": [
    "C80_ring_amortised_constant",
    "C80_chunk_amortised_constant_partial",
    "C80_chunk_amortised_constant_refuted"
   ],
   "note": "Proved for RingBuffer and for one-sided use of Chunk with room left; refuted for Chunk in general (both ends in turn; a nearly full queue). The README claim is too strong."
  },
  {
   "property": "C81",
   "status": "proved",
   "theorems": [
    "C81_mixed_panicking_destructors"
   ],
   "note": ""
  },
  {
   "property": "C82",
   "status": "proved",
   "theorems": [
    "C82_temporaries",
    "C82_scope_end",
    "C82_temporaries_panicking_destructors"
   ],
   "note": ""
  },
  {
   "property": "C83",
   "status": "proved",
   "theorems": [
    "C83_by_value",
    "C83_scope_end",
    "C83_by_value_panicking_destructors"
   ],
   "note": ""
  },
  {
   "property": "C84",
   "status": "proved",
   "theorems": [
    "C84_iterator_methods",
    "C84_scope_end",
    "C84_iterator_methods_panicking_destructors",
    "C84_find",
    "C84_position",
    "C84_nth",
    "C84_take"
   ],
   "note": ""
  },
  {
   "property": "C85",
   "status": "proved",
   "theorems": [
    "C85_nested_containers",
    "C85_scope_end",
    "C85_drop",
    "C85_push",
    "C85_element",
    "C85_no_element",
    "C85_put",
    "C85_take",
    "C85_clear",
    "C85_drop_left",
    "C85_drop_right",
    "C85_len",
    "C85_move",
    "C85_split_off",
    "C85_drain_from",
    "C85_append",
    "C85_extend",
    "C85_collect",
    "C85_collect_sparse",
    "C85_sparse_put",
    "C85_sparse_remove",
    "C85_sparse_pop",
    "C85_new"
   ],
   "note": ""
  },
  {
   "property": "C86",
   "status": "proved",
   "theorems": [
    "C86_nested_panicking_destructors",
    "C86_drop_slices",
    "C86_replace"
   ],
   "note": ""
  },
  {
   "property": "C87",
   "status": "proved",
   "theorems": [
    "C87_eq",
    "C87_partial_cmp",
    "C87_clone",
    "C87_clone_is_equal"
   ],
   "note": ""
  },
  {
   "property": "C88",
   "status": "partial",
   "theorems": [
    "C88_hash",
    "C88_equal_hash",
    "C88_prefix_free_partial",
    "C88_debug",
    "C88_debug_tells_apart",
    "C88_prefix_free_refuted"
   ],
   "note": "Proved: what is fed to the hasher and printed, equal containers hash alike, Debug tells unequal ones apart. The documented demand that unequal values never feed the same sequence (or one that begins with the other) is proved for containers of the same sizes at both depths and refuted in general: no length is hashed."
  },
  {
   "property": "C89",
   "status": "proved",
   "theorems": [
    "C89_chunk",
    "C89_ring_slice",
    "C89_ring",
    "C89_sparse",
    "C89_sparse_options",
    "C89_inline",
    "C89_forward_meaning"
   ],
   "note": ""
  },
  {
   "property": "C90",
   "status": "proved",
   "theorems": [
    "C90_ring_shared_iterators",
    "C90_sparse_shared_iterators",
    "C90_interleaving_is_irrelevant"
   ],
   "note": ""
  }
 ]
}