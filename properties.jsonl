{"id": "C01", "title": "A program over Chunks behaves like the same program over bounded lists", "statement": "Run any finite program of Chunk calls (constructors, push/pop at both ends, insert, insert_from, insert_ordered, remove, set, drop_left/right, split_off, append, drain_from_front/back, from_front/back, clear, extend, clone, destroying a chunk), over any number of chunks of capacity N, catching every panic and carrying on. Every call returns exactly what it would return on a list of length at most N, panics exactly when the list model says it must, and afterwards every chunk's slice is the list model's list.", "quantifier": "every capacity N, element type, finite program, every argument, both build profiles", "why_tests_cant": "the physical layout (left, right) reachable at a call depends on the entire history; tests sample a few histories at capacity 64", "anchors": ["src/sized_chunk/mod.rs: Chunk", "fuzz/fuzz_targets/sized_chunk.rs"]}
{"id": "C02", "title": "Chunk never touches memory it must not touch", "statement": "In every such program no call reads a slot that is uninitialised, moved out or already dropped, accesses a slot at or beyond the capacity, overflows or underflows usize, hangs or aborts: every call either returns or panics in a documented case. Holds in debug and in release builds.", "quantifier": "every program of C01, every reachable layout, both profiles", "why_tests_cant": "out-of-bounds and uninitialised accesses in unsafe code need not show in a test; absence must be shown for every layout", "anchors": ["src/sized_chunk/mod.rs: force_copy, force_write, force_read, force_copy_to, write_from_iter"]}
{"id": "C03", "title": "Every value given to a Chunk is dropped exactly once or handed back", "statement": "For every program of C01 that ends by destroying all chunks, the values passed in are, as a multiset, exactly the values returned plus the values dropped: nothing is dropped twice and nothing is leaked (when no user callback panics or misreports its length).", "quantifier": "every program ending with all chunks destroyed", "why_tests_cant": "double drops and leaks depend on which side of the live range an element sits on after an arbitrary history", "anchors": ["src/sized_chunk/mod.rs: Drop, drop_left, drop_right, clear, set, pop_front, pop_back, append"]}
{"id": "C04", "title": "Chunk push and pop form a bounded double-ended queue", "statement": "push_front/push_back on a non-full chunk prepend/append exactly the value and change nothing else; on a full chunk they panic, the chunk is unchanged and the rejected value is dropped once. pop_front/pop_back return the first/last element and leave the rest; on an empty chunk they panic and change nothing.", "quantifier": "every capacity, every reachable layout, every value", "why_tests_cant": "whether the contents must be shifted depends on the layout, which has quadratically many values for each N", "anchors": ["src/sized_chunk/mod.rs: push_front, push_back, pop_front, pop_back"]}
{"id": "C05", "title": "Chunk insert, remove and set act at the given index whatever side is shifted", "statement": "insert(i,v) with i<=len on a non-full chunk yields the list with v at position i; otherwise panics with the contents unchanged and v dropped once. remove(i) with i<len returns element i and closes the gap; otherwise panics, unchanged. set(i,v) with i<len returns the old element and replaces it, chunk[i] = v replaces it and drops the old one; otherwise both panic with v dropped.", "quantifier": "every capacity, layout, index and value", "why_tests_cant": "the shorter side is shifted depending on left, right and index: too many combinations to enumerate for every N", "anchors": ["src/sized_chunk/mod.rs: insert, remove, set"]}
{"id": "C06", "title": "Chunk insert_from with a truthful iterator splices the sequence in", "statement": "If the iterator reports its exact length, insert_from(i, it) with i<=len and len+|it|<=N yields the list with the iterator's items spliced in at i, in order, dropping nothing; otherwise it panics leaving the contents unchanged.", "quantifier": "every capacity, layout, index and finite sequence (in release builds: whose length added to the chunk's does not overflow usize; for the rest see C08)", "why_tests_cant": "three different relocation strategies are selected by layout and sizes", "anchors": ["src/sized_chunk/mod.rs: insert_from, write_from_iter"]}
{"id": "C07", "title": "Chunk insert_from survives iterators that end early, run long or panic", "statement": "For an iterator whose reported length is the same at both calls but which yields fewer items than reported, or panics at any step, insert_from panics, no slot is read or dropped invalidly, the chunk is left empty and usable, nothing is dropped twice, and the only values lost are the old contents and the values already yielded. If it yields more items than reported only the reported number is taken.", "quantifier": "every capacity, layout, index, every panic point of the iterator and every reported length (in release builds: that added to the chunk's length does not overflow usize; for the rest see C08)", "why_tests_cant": "the panic can occur at any step with any hole position in the array", "anchors": ["src/sized_chunk/mod.rs: write_from_iter (lines 274-315)", "src/sized_chunk/mod.rs: issue_11_testcase3b, iterator_too_long, iterator_too_short1"]}
{"id": "C08", "title": "Chunk insert_from is memory safe for every safe iterator", "statement": "insert_from never causes undefined behaviour, whatever a safe ExactSizeIterator implementation reports from len() (ExactSizeIterator is a safe trait, so a wrong len() must not break memory safety).", "quantifier": "every capacity, layout, index, and every pair of reported lengths", "why_tests_cant": "needs an adversarial iterator; the tests only use iterators whose len() is constant and small", "anchors": ["src/sized_chunk/mod.rs: insert_from (len() called at line 601 and again at line 302; unchecked sum at line 602)"]}
{"id": "C09", "title": "insert_ordered keeps a sorted chunk sorted", "statement": "On a non-full sorted chunk insert_ordered(v) yields a sorted chunk holding exactly the old elements plus v, with the old elements in their old relative order; on an unsorted one v is still inserted somewhere. On a full chunk it panics, contents unchanged. If the comparison panics the contents are unchanged.", "quantifier": "every capacity, layout, total preorder, value, and every correct binary search", "why_tests_cant": "depends on all element orders and on the unspecified choice among equal elements", "anchors": ["src/sized_chunk/mod.rs: insert_ordered"]}
{"id": "C10", "title": "Chunk split_off and append are inverse moves", "statement": "split_off(i) with i<=len keeps the first i elements and returns the rest; otherwise panics, unchanged. append moves all elements of the other chunk to the back and leaves it empty; if the sum exceeds N it panics with both unchanged. Appending the split-off part back restores the contents.", "quantifier": "every capacity, both layouts, every index", "why_tests_cant": "interaction of two independent layouts", "anchors": ["src/sized_chunk/mod.rs: split_off, append"]}
{"id": "C11", "title": "Chunk drain_from_front and drain_from_back move exactly count elements in order", "statement": "drain_from_front(other,k) appends other's first k elements; drain_from_back(other,k) prepends other's last k elements in order; the other chunk keeps the rest. Panics, with both unchanged, iff len+k>N or other.len()<k, for every usize k.", "quantifier": "every capacity, both layouts, every usize count", "why_tests_cant": "two layouts, a count and usize overflow in the check", "anchors": ["src/sized_chunk/mod.rs: drain_from_front, drain_from_back"]}
{"id": "C12", "title": "from_front, from_back and drain_from are safe for every count", "statement": "from_front(other,k)/from_back(other,k) with k<=other.len() move exactly the first/last k elements into a new chunk. With k>other.len() they must panic rather than read memory that holds no element.", "quantifier": "every capacity, layout and count, both profiles", "why_tests_cant": "the guard is a debug_assert, so debug-profile tests cannot see the release behaviour", "anchors": ["src/sized_chunk/mod.rs: from_front, from_back, drain_from"]}
{"id": "C13", "title": "drop_left, drop_right and clear destroy exactly the discarded elements, in order", "statement": "drop_left(i), i<=len, drops elements 0..i in order and keeps the rest; drop_right(i) drops i.. in order and keeps the first i; clear drops all in order. Out-of-range indices panic and drop nothing.", "quantifier": "every capacity, layout and index", "why_tests_cant": "tests count drops for one history", "anchors": ["src/sized_chunk/mod.rs: drop_left, drop_right, clear"]}
{"id": "C14", "title": "A panicking element destructor never causes a double drop in Chunk", "statement": "If dropping one element panics, then destroying the chunk still drops every element exactly once; and after a panicking drop_left/drop_right/clear the chunk can still be destroyed without dropping any element twice.", "quantifier": "every capacity, layout, position of the panicking element", "why_tests_cant": "requires a panicking Drop at each position; unsound reuse need not crash", "anchors": ["src/sized_chunk/mod.rs: Drop, drop_left, drop_right, clear"]}
{"id": "C15", "title": "Chunk clone is faithful and panic safe", "statement": "clone returns a chunk with the clones of the elements in order and does not change the source. If the k-th clone call panics, exactly the k-1 clones already made are dropped, once each, and the source is unchanged.", "quantifier": "every capacity, layout, clone function (also stateful) and panic point", "why_tests_cant": "the panic may occur at any element of any layout", "anchors": ["src/sized_chunk/mod.rs: Clone (lines 105-122)", "src/sized_chunk/mod.rs: issue_11_testcase3a"]}
{"id": "C16", "title": "Chunk consuming and draining iterators yield each element once from either end", "statement": "For any interleaving of next and next_back, Drain and into_iter yield the list from its two ends with no element repeated or skipped, size_hint is exact at every step, after exhaustion they return None forever, and dropping them early drops (Iter) or leaves in the chunk (Drain) exactly the elements not yielded.", "quantifier": "every capacity, layout and interleaving of next/next_back", "why_tests_cant": "exponentially many interleavings", "anchors": ["src/sized_chunk/iter.rs: Iter, Drain"]}
{"id": "C17", "title": "Chunk as io::Write and io::Read is a bounded byte FIFO", "statement": "write(buf) appends the longest prefix of buf that fits and returns its length; read(buf) moves min(len, buf.len()) bytes from the front into the start of buf, leaves the tail of buf unchanged, and returns the count. Neither ever panics or fails.", "quantifier": "every capacity, layout and buffer", "why_tests_cant": "all combinations of buffer and layout", "anchors": ["src/sized_chunk/mod.rs: io::Write, io::Read"]}
{"id": "C18", "title": "Chunk equality, ordering and hashing depend only on the contents", "statement": "eq, partial_cmp, cmp and hash of chunks are those of the element sequences (lexicographic for ordering), independent of layout; equal chunks feed a hasher the same sequence.", "quantifier": "every pair of layouts holding any contents", "why_tests_cant": "the same contents has many layouts", "anchors": ["src/sized_chunk/mod.rs: PartialEq, PartialOrd, Ord, Hash"]}
{"id": "C19", "title": "A Chunk or InlineArray can be looked up by slice in a hash map", "statement": "Because Chunk and InlineArray implement Borrow<[A]>, a chunk must hash exactly like the slice it borrows as (the Borrow contract), so that a HashMap keyed by chunks can be queried with a slice.", "quantifier": "every contents", "why_tests_cant": "a test that never queries by slice cannot see it; the contract is about every hasher", "anchors": ["src/sized_chunk/mod.rs: Hash (737-749), Borrow (834-838)", "src/inline_array/mod.rs: Hash (518-530), Borrow (455-459)"]}
{"id": "C20", "title": "Chunk::from(InlineArray) moves the elements over", "statement": "Conversion yields a chunk with the array's elements in order and leaves the array empty; it panics, without losing or double dropping anything, iff the array holds more elements than N.", "quantifier": "every pair of capacities and contents", "why_tests_cant": "two capacities and a length", "anchors": ["src/sized_chunk/mod.rs: From<InlineArray>, From<&mut InlineArray>"]}
{"id": "C21", "title": "Chunk collect_from, from_iter and extend take items in order and stop at the capacity", "statement": "collect_from(it,k) takes exactly the first k items, leaves the iterator at item k+1, and panics if there are fewer or k>N; from_iter/extend append all items in order and panic on the first that does not fit, keeping (extend) or dropping once (from_iter, collect_from) those already taken. If the iterator panics nothing is dropped twice or leaked.", "quantifier": "every capacity, layout, iterator script and panic point", "why_tests_cant": "every prefix length and panic point", "anchors": ["src/sized_chunk/mod.rs: collect_from, FromIterator, Extend"]}
{"id": "C22", "title": "Pushing in one direction never shifts; RingBuffer pushes and pops are O(1)", "statement": "Any number of push_back calls (or push_front calls) on a fresh chunk writes each element exactly once; a push writes at most len+1 slots. Every RingBuffer push writes exactly one slot and every pop none. insert/remove in a RingBuffer write at most min(i, len-i)+1 slots.", "quantifier": "every capacity, contents and number of pushes", "why_tests_cant": "complexity for all sizes is not observable from tests", "anchors": ["src/sized_chunk/mod.rs: push_back, push_front (Time: comments)", "src/ring_buffer/mod.rs: push_back, push_front, pop_back, pop_front, insert, remove"]}
{"id": "C23", "title": "A program over RingBuffers behaves like the same program over bounded lists", "statement": "As C01, for RingBuffer: any finite program of RingBuffer calls over any number of buffers of capacity N>0, with panics caught, returns the same results and leaves the same sequences as the list model.", "quantifier": "every N>0, element type, program and argument, both profiles", "why_tests_cant": "wrap-around position depends on the whole history", "anchors": ["src/ring_buffer/mod.rs: RingBuffer", "fuzz/fuzz_targets/ring_buffer.rs"]}
{"id": "C24", "title": "RingBuffer never touches memory it must not touch", "statement": "In every such program no call accesses a slot at or beyond the capacity or one that holds no live element, overflows usize, fails an internal debug assertion, hangs or aborts.", "quantifier": "every program of C23, both profiles", "why_tests_cant": "see C02", "anchors": ["src/ring_buffer/mod.rs: copy_from, force_read, force_write, force_drop", "src/ring_buffer/index.rs: RawIndex"]}
{"id": "C25", "title": "Every value given to a RingBuffer is dropped exactly once or handed back", "statement": "As C03, for RingBuffer.", "quantifier": "every program of C23 ending with all buffers destroyed", "why_tests_cant": "see C03", "anchors": ["src/ring_buffer/mod.rs: Drop, clear, drop_left, drop_right"]}
{"id": "C26", "title": "RingBuffer insert, remove and insert_from act at the given index whatever side is shifted and wherever the ring wraps", "statement": "insert(i,v), remove(i) and insert_from(i,it) with a truthful iterator act as on a list, and panic exactly when the index is out of range or the result would not fit, leaving the contents unchanged.", "quantifier": "every N>0, origin, length, index, inserted sequence (insert_from in release builds: lengths whose sum does not overflow usize; for the rest see C51)", "why_tests_cant": "two shift directions times wrap positions", "anchors": ["src/ring_buffer/mod.rs: insert, remove, insert_from"]}
{"id": "C27", "title": "RingBuffer insert_from survives iterators that end early, run long or panic", "statement": "As C07 for RingBuffer: a short or panicking iterator makes insert_from panic leaving a valid buffer, nothing dropped twice and nothing read invalidly, for every position of the panic; when inserting at the end the items already taken are kept.", "quantifier": "every N>0, origin, length, index, reported length, panic point (in release builds: lengths whose sum does not overflow usize; for the rest see C51)", "why_tests_cant": "see C07", "anchors": ["src/ring_buffer/mod.rs: insert_from (lines 648-705)"]}
{"id": "C28", "title": "RingBuffer bulk moves between two buffers are correct for every pair of wrap positions", "statement": "append, drain_from_front(k), drain_from_back(k), split_off(i), from_front(k), from_back(k), drain_from move exactly the stated elements in order; they panic, both buffers unchanged, iff capacity or length would be exceeded.", "quantifier": "every N>0, both origins and lengths, every count", "why_tests_cant": "four wrap combinations times sizes", "anchors": ["src/ring_buffer/mod.rs: copy_from, drain_from_front, drain_from_back, split_off, append, from_front, from_back"]}
{"id": "C29", "title": "RingBuffer push and pop form a bounded double-ended queue", "statement": "As C04, but pop on an empty buffer returns None.", "quantifier": "every N>0, origin, length", "why_tests_cant": "see C04", "anchors": ["src/ring_buffer/mod.rs: push_back, push_front, pop_back, pop_front"]}
{"id": "C30", "title": "RingBuffer drop_left, drop_right and clear destroy exactly the discarded elements; a panicking destructor never causes a double drop", "statement": "The discarded elements are dropped once, in order. If one destructor panics, no element is dropped twice when the buffer is later destroyed.", "quantifier": "every N>0, origin, length, index, position of the panicking element", "why_tests_cant": "see C14", "anchors": ["src/ring_buffer/mod.rs: drop_left, drop_right, clear, Drop"]}
{"id": "C31", "title": "RingBuffer iterators yield the sequence from both ends, wherever it wraps", "statement": "Iter, IterMut, Drain and OwnedIter yield for any interleaving of next/next_back the elements from the two ends, each once, with exact size_hint, and fuse; IterMut never yields the same element twice.", "quantifier": "every N>0, origin, length, interleaving", "why_tests_cant": "exponentially many interleavings", "anchors": ["src/ring_buffer/iter.rs", "src/ring_buffer/index.rs: IndexIter"]}
{"id": "C32", "title": "RingBuffer slices view exactly the requested range", "statement": "slice(range), Slice::slice and split_at give a view whose length, get and iteration are those of the corresponding sublist; ranges that do not fit panic; nested slices compose.", "quantifier": "every N>0, origin, length, range and nesting", "why_tests_cant": "nesting and wrap positions", "anchors": ["src/ring_buffer/mod.rs: slice, slice_mut, parse_range", "src/ring_buffer/slice.rs: Slice::slice, split_at, get, iter"]}
{"id": "C33", "title": "Indexing a RingBuffer slice outside its length panics", "statement": "slice[i] and slice_mut[i] with i >= slice.len() panic, as for any slice, and the two halves of SliceMut::split_at can never give access to the same element.", "quantifier": "every buffer, range and index", "why_tests_cant": "tests only index inside the slice", "anchors": ["src/ring_buffer/slice.rs: Index (161-169), Index/IndexMut for SliceMut (439-455), split_at (383-405)"]}
{"id": "C34", "title": "RingBuffer io::Write and io::Read form a bounded byte FIFO", "statement": "As C17 for RingBuffer<u8>: write never panics, appends the longest fitting prefix and returns its length, wherever the ring wraps, in both profiles.", "quantifier": "every N>0, origin, length, buffer, profile", "why_tests_cant": "the unit test only writes where no wrap is needed", "anchors": ["src/ring_buffer/mod.rs: io::Write, io::Read, copy_from_slice (debug_assert at line 192)"]}
{"id": "C35", "title": "RingBuffer works for every capacity including zero", "statement": "A RingBuffer of capacity 0 is an always empty, always full buffer: construction, iteration, and destruction terminate.", "quantifier": "capacity 0, both profiles", "why_tests_cant": "non-termination needs a proof", "anchors": ["src/ring_buffer/index.rs: Add::add (line 79)", "src/ring_buffer/mod.rs: iter, range, new"]}
{"id": "C36", "title": "RingBuffer clone, equality, ordering and hashing depend only on the contents; clone is panic safe", "statement": "clone yields the clones in order without changing the source; a panic in the k-th clone drops exactly the clones made. eq/cmp/hash are those of the element sequence.", "quantifier": "every N>0, origin, clone function, panic point", "why_tests_cant": "see C15, C18", "anchors": ["src/ring_buffer/mod.rs: Clone, PartialEq, PartialOrd, Ord, Hash"]}
{"id": "C37", "title": "RingBuffer raw index arithmetic is arithmetic modulo the capacity", "statement": "Adding, subtracting, incrementing and decrementing raw indices always yields an index below N, congruent to the exact result modulo N, and terminates for every operand that does not overflow usize.", "quantifier": "every N>0, index below N, operand", "why_tests_cant": "loops over all operands", "anchors": ["src/ring_buffer/index.rs: RawIndex, IndexIter"]}
{"id": "C38", "title": "A program over SparseChunks behaves like finite maps with keys below N", "statement": "Any finite program of SparseChunk calls (insert, remove, pop, get, get_mut, unit, pair, from_iter, clone, drains) returns what a finite map with keys < N returns; insert/remove at an index >= N panic leaving the map unchanged; len is the number of keys.", "quantifier": "every N, element type, program and index", "why_tests_cant": "all histories of occupied positions", "anchors": ["src/sparse_chunk/mod.rs: SparseChunk", "fuzz/fuzz_targets/sparse_chunk.rs"]}
{"id": "C39", "title": "SparseChunk is memory safe and drops every value exactly once", "statement": "No call reads an unoccupied slot; every value is dropped or returned exactly once, also when a clone panics at any point or the chunk is destroyed; a replaced value is returned, not dropped.", "quantifier": "every program of C38", "why_tests_cant": "see C02, C03", "anchors": ["src/sparse_chunk/mod.rs: Drop, insert, remove, clone"]}
{"id": "C40", "title": "SparseChunk iteration visits the entries in increasing index order", "statement": "indices, iter, iter_mut, entries, drain and into_iter visit exactly the occupied indices in increasing order; option_iter, option_iter_mut and option_drain yield N options, the i-th being the value at i; first_index is the least occupied index and pop removes it; size hints are valid bounds at every step.", "quantifier": "every N and occupation pattern", "why_tests_cant": "2^N patterns", "anchors": ["src/sparse_chunk/mod.rs: indices, iter, entries, first_index, pop", "src/sparse_chunk/iter.rs"]}
{"id": "C41", "title": "SparseChunk equality is equality of maps", "statement": "Two sparse chunks are equal iff they have the same indices and equal values; comparison with a BTreeMap/HashMap is true iff the map holds exactly the same entries (also when the map has keys >= N).", "quantifier": "every pair of contents", "why_tests_cant": "all pairs of occupation patterns", "anchors": ["src/sparse_chunk/mod.rs: PartialEq (three impls)"]}
{"id": "C42", "title": "SparseChunk built from an iterator of options holds the values at their positions", "statement": "from_iter places the i-th item at index i iff it is Some, ignores None at any position, and panics (dropping everything taken exactly once) iff some Some occurs at a position >= N.", "quantifier": "every N and sequence of options", "why_tests_cant": "all sequences", "anchors": ["src/sparse_chunk/mod.rs: FromIterator"]}
{"id": "C43", "title": "InlineArray's header and elements fit, are aligned and do not overlap", "statement": "For every element and host type for which InlineArray::new succeeds, the length header and every element slot below CAPACITY lie within the host's bytes, are aligned for their types, and are pairwise disjoint.", "quantifier": "every size/alignment of A, T, usize and u64 that Rust allows (alignments are powers of two, sizes multiples of them)", "why_tests_cant": "infinitely many type pairs; misalignment is UB that usually works", "anchors": ["src/inline_array/mod.rs: capacity, HEADER_SKIP, ELEMENT_SKIP, len_const, data, new"]}
{"id": "C44", "title": "InlineArray's CAPACITY is the documented maximum", "statement": "CAPACITY is (size_of T - size_of usize) / size_of A when A's alignment can be met, and one more element could not fit; it is 0 when the alignment cannot be met and usize::MAX for zero-sized A. new() panics iff the host is too small for the header, as documented, or the alignment of a zero-sized element cannot be met.", "quantifier": "every size/alignment combination", "why_tests_cant": "infinitely many type pairs", "anchors": ["src/inline_array/mod.rs: capacity, new (lines 112-126, 260-291)"]}
{"id": "C45", "title": "A program over InlineArrays behaves like the same program over bounded lists", "statement": "push, pop, insert, remove, split_off, clear, extend, from_iter, clone, drain act as on a list bounded by CAPACITY; push/insert panic exactly when full or out of range, remove/pop return None out of range.", "quantifier": "every layout of C43, every program", "why_tests_cant": "all histories and layouts", "anchors": ["src/inline_array/mod.rs: InlineArray"]}
{"id": "C46", "title": "InlineArray is memory safe and drops every value exactly once", "statement": "No call touches bytes outside the host, the header, or an element slot that holds no element; every value is dropped or returned exactly once, except that a panicking Clone leaks the clones already made (never double drops).", "quantifier": "every program of C45", "why_tests_cant": "see C02, C03", "anchors": ["src/inline_array/mod.rs: Drop, clear, clone, insert, remove, split_off"]}
{"id": "C47", "title": "A panicking element destructor never causes a double drop in InlineArray", "statement": "If an element's destructor panics in clear(), destroying the array afterwards drops no element twice; destroying an array with a panicking element drops every element exactly once.", "quantifier": "every contents, position of the panicking element", "why_tests_cant": "see C14", "anchors": ["src/inline_array/mod.rs: clear, drop_contents, Drop"]}
{"id": "C48", "title": "InlineArray iterators, equality, ordering and hashing depend only on the contents", "statement": "Drain and into_iter yield the elements from both ends, each once, for any interleaving, with exact size_hint; eq/cmp/hash are those of the element sequence.", "quantifier": "every contents and interleaving", "why_tests_cant": "see C16", "anchors": ["src/inline_array/iter.rs", "src/inline_array/mod.rs: PartialEq, Ord, Hash"]}
{"id": "C49", "title": "Generated (Arbitrary) containers are always valid and hold a prefix of the generated items", "statement": "The arbitrary constructors take at most CAPACITY items, so they never panic, and the container holds exactly the generated items in order, cut at CAPACITY; an error while generating is propagated and nothing leaks.", "quantifier": "every capacity and item sequence", "why_tests_cant": "all sequences", "anchors": ["src/arbitrary.rs"]}
{"id": "C50", "title": "Pool constructors produce the same values as the ordinary ones", "statement": "default_uninit initialises a slot to an empty container; clone_uninit initialises it to a container with the same contents as clone, without reading the slot's previous contents.", "quantifier": "every container, layout, prior slot contents", "why_tests_cant": "depends on prior uninitialised memory", "anchors": ["src/sized_chunk/refpool.rs", "src/ring_buffer/refpool.rs", "src/sparse_chunk/refpool.rs"]}
{"id": "C51", "title": "RingBuffer insert_from terminates for every announced length", "statement": "insert_from panics, leaving the contents unchanged, whenever the announced length does not fit; in particular it terminates also when len() + announced length overflows usize.", "quantifier": "every capacity, layout, index and announced length, both profiles", "why_tests_cant": "the offending lengths are near usize::MAX and exist only for adversarial or lazily infinite-like iterators; a test that runs for ever does not fail", "anchors": ["src/ring_buffer/mod.rs: insert_from", "src/ring_buffer/index.rs: SubAssign"]}
{"id": "C52", "title": "The byte bounds announced for generated containers are CAPACITY times the item's", "statement": "Arbitrary::size_hint of a container returns (0, Some(upper * CAPACITY)), an upper bound computed from the item's, or no bound, and never panics or announces less.", "quantifier": "every capacity and item bound, both profiles", "why_tests_cant": "the overflow needs capacities near usize::MAX (zero-sized elements) or huge bounds", "anchors": ["src/arbitrary.rs: size_hint"]}
{"id": "C53", "title": "The halves of SliceMut::split_at never give access to the same element", "statement": "After SliceMut::split_at(k), and after cutting both halves up further with slice and split_at in any way, no mutable reference obtained from a piece of the left half (get_mut, index_mut, iter_mut from either end) refers to the same element as one obtained from a piece of the right half; each reference refers to the element at its position.", "quantifier": "every capacity, buffer contents and wrap position, slice, split point, pair of cutting sequences, and pair of references obtained", "why_tests_cant": "Aliasing must be excluded for every pair of references over every nesting of cuts and every wrap position; a violation is undefined behaviour that a test may not show.", "anchors": ["src/ring_buffer/slice.rs: SliceMut::split_at, slice, get_mut, get_unchecked_mut, iter_mut, index_mut", "src/ring_buffer/iter.rs: IterMut"]}
{"id": "C54", "title": "Debug output depends only on the contents", "statement": "Formatting a container with {:?} writes its name followed by its elements in logical order (for SparseChunk: the index/value entries in increasing order); two containers with equal contents print the same whatever their internal offsets, and formatting changes nothing.", "quantifier": "every container type, capacity, contents and internal position of the contents", "why_tests_cant": "Needs every internal offset and wrap position for every contents.", "anchors": ["src/sized_chunk/mod.rs: Debug for Chunk", "src/ring_buffer/mod.rs: Debug for RingBuffer", "src/ring_buffer/slice.rs: Debug for Slice, SliceMut", "src/sparse_chunk/mod.rs: Debug for SparseChunk", "src/inline_array/mod.rs: Debug for InlineArray"]}
{"id": "C55", "title": "Mutating through mutable references and iterators changes exactly the addressed elements", "statement": "Replacing every element obtained from iter_mut (of a RingBuffer, a SliceMut or a SparseChunk; next and next_back in any order), option_iter_mut, get_mut or index_mut by f of it leaves a container whose contents are the old ones with exactly those elements mapped; nothing is dropped or leaked.", "quantifier": "every function f, contents, capacity, wrap position, range and sequence of next/next_back calls", "why_tests_cant": "All interleavings of the two ends over all wrap positions; unbounded.", "anchors": ["src/ring_buffer/mod.rs: iter_mut, get_mut, index_mut", "src/ring_buffer/iter.rs: IterMut", "src/ring_buffer/slice.rs: SliceMut::iter_mut, get_mut", "src/sparse_chunk/iter.rs: IterMut, OptionIterMut"]}
{"id": "C56", "title": "Chunk: programs stay safe when destructors panic", "statement": "For every program over any number of chunks whose elements' destructors may panic (any set of elements): as long as no clear, drop_left or drop_right is called that drops such an element, the program never reaches undefined behaviour and never hangs; it finishes (every call returning or panicking exactly as on lists) or aborts exactly when a destructor panics during unwinding; every value handed over is, at the end, in one chunk, returned, dropped once, or leaked as specified, never twice.", "quantifier": "every set of panicking destructors, every program (any calls, panics caught and continued), capacity, profile", "why_tests_cant": "the position of the panicking destructor interacts with every path that unwinds; unbounded programs", "anchors": ["src/sized_chunk/mod.rs: all methods, Drop", "src/sized_chunk/iter.rs"]}
{"id": "C57", "title": "RingBuffer: programs stay safe when destructors panic", "statement": "The same for ring buffers of positive capacity; assigning through an index stores the new value even when the old value's destructor panics; destroying a buffer drops its elements in order up to the first panicking one and leaks the rest.", "quantifier": "every set of panicking destructors, every program, positive capacity, origin, profile", "why_tests_cant": "as C56", "anchors": ["src/ring_buffer/mod.rs: all methods, Drop, IndexMut", "src/ring_buffer/iter.rs"]}
{"id": "C58", "title": "SparseChunk: every program is safe when destructors panic", "statement": "For every program over sparse chunks, with any set of panicking destructors and no side condition at all, the program finishes as specified on arrays of options or aborts exactly when a destructor panics during unwinding: no undefined behaviour, no hang, nothing dropped twice; an assignment or an iter_mut loop interrupted by a panicking destructor leaves a valid chunk with the assignments made so far.", "quantifier": "every set of panicking destructors, every program, capacity, profile", "why_tests_cant": "as C56", "anchors": ["src/sparse_chunk/mod.rs: all methods, Drop, IndexMut, FromIterator", "src/sparse_chunk/iter.rs: IterMut, Drain"]}
{"id": "C59", "title": "InlineArray: programs stay safe when destructors panic", "statement": "The same for inline arrays, down to bytes and at any addresses, as long as clear is not called on an array that holds an element with a panicking destructor.", "quantifier": "every set of panicking destructors, layout, program, address, profile", "why_tests_cant": "as C56", "anchors": ["src/inline_array/mod.rs: all methods, Drop", "src/inline_array/iter.rs"]}
{"id": "C60", "title": "Behaviour depends on contents only", "statement": "Run the same program on two sets of containers with the same contents, however these contents came about and wherever they are in the buffer, in a debug and a release build, or on machines with different word sizes (for InlineArray also with different host types or headers that give the same capacity, and at other addresses): the calls return the same values, panic at the same places, drop the same values in the same order and leave the same contents.", "quantifier": "every program, every pair of layouts of the same contents, profiles, word sizes, addresses", "why_tests_cant": "the same contents have many layouts, each the result of a history; tests see a few histories on one machine and profile", "anchors": ["src/sized_chunk/mod.rs: left, right, all methods", "src/ring_buffer/mod.rs: origin, length, all methods", "src/sparse_chunk/mod.rs", "src/inline_array/mod.rs: CAPACITY, header offsets"]}
{"id": "C61", "title": "Iterators that never end", "statement": "extend and collect on an endless iterator do not hang: they take items until the container is full, then panic with the first item that does not fit, leaving a full valid container (extend) or dropping what was collected. insert_from and collect_from take only as many items as announced or asked for. SparseChunk's from_iter stops exactly at the first occupied item at or behind the capacity.", "quantifier": "every iterator, finite or endless, every container, capacity, profile", "why_tests_cant": "no test runs an endless iterator to its end; it must hold for whatever comes behind the items consumed", "anchors": ["src/sized_chunk/mod.rs: Extend, FromIterator, insert_from, collect_from, write_from_iter", "src/ring_buffer/mod.rs: Extend, FromIterator, insert_from, collect_from", "src/sparse_chunk/mod.rs: FromIterator", "src/inline_array/mod.rs: Extend, FromIterator"]}
{"id": "C62", "title": "Chunk and RingBuffer are interchangeable", "statement": "A program that uses only methods both containers offer (constructors, push, insert, insert_from with an honest iterator, insert_ordered, remove, indexing, assignment, drain, drop_left/right, split_off, append, drain_from_*, from_front/back, clear, extend, comparison, clone, observers) gives the same results, panics, drops and contents with RingBuffer in place of Chunk (capacity > 0).", "quantifier": "every such program, capacity, pair of profiles", "why_tests_cant": "two implementations of one interface must agree on every history, including the panicking ones", "anchors": ["src/sized_chunk/mod.rs", "src/ring_buffer/mod.rs"]}
{"id": "C63", "title": "Amortised cost of Chunk as a deque", "statement": "In any history of push_front, push_back, pop_front and pop_back on a Chunk (including calls that panic because it is full or empty), each push writes its value once and, besides that, at most N-1 values are moved for each change from one end to the other (plus once at the start). So a Chunk used as a stack at either end moves its contents at most once, ever; pops and panicking calls move nothing.", "quantifier": "every history of pushes and pops, every starting chunk, every capacity and profile", "why_tests_cant": "an amortised bound speaks about all histories of any length", "anchors": ["src/sized_chunk/mod.rs: push_front, push_back, pop_front, pop_back, force_copy"]}
{"id": "C64", "title": "The capacity is only a limit", "statement": "A program in which no call panics, and which does not ask whether a container is full, gives the same results, drops and contents when run with a larger capacity (for InlineArray: with any host type and element layout whose capacity is at least as large). For SparseChunk, whose capacity is the number of its cells, the larger array has in addition empty cells at the end (the program must not ask option_drain for cells beyond the smaller capacity).", "quantifier": "every such program, every pair of capacities N1 <= N2, profiles, starting containers with the same contents", "why_tests_cant": "all programs times all pairs of capacities", "anchors": ["src/sized_chunk/mod.rs", "src/ring_buffer/mod.rs", "src/inline_array/mod.rs", "src/sparse_chunk/mod.rs"]}
{"id": "C65", "title": "Methods that take &self change nothing, under any interleaving", "statement": "Calls of the shared-reference methods (len, is_empty, is_full, indexing, slices, hashing, Debug, comparison, iterators, sub-slices) leave the container exactly as it was, down to its representation, and drop, leak or write no value, also when they panic. So when any number of threads share a container by reference, any interleaving of their calls gives each thread the answers it would get alone. clone leaves its source exactly as it was, also when the clone of an element panics.", "quantifier": "every container state, every interleaved schedule of such calls by any number of threads, every profile", "why_tests_cant": "the number of schedules and states is unbounded; the claim underlies Sync", "anchors": ["src/sized_chunk/mod.rs: Index, as_slice, Clone, Hash", "src/ring_buffer/mod.rs: Index, slice, Iter", "src/ring_buffer/slice.rs: Slice", "src/sparse_chunk/mod.rs: get, first_index, Clone", "src/inline_array/mod.rs: len, Deref, Clone"]}
{"id": "C66", "title": "Capacities near usize::MAX", "statement": "Whatever the capacity N, a call that has room for its values does not panic. (False of the code for zero-sized elements with N close to usize::MAX in debug builds: Chunk::append panics with an arithmetic overflow although the values fit, and iterating over or dropping a RingBuffer panics; it holds for every capacity that elements of a non-zero size can have.)", "quantifier": "every capacity, word size and program", "why_tests_cant": "no test enumerates the capacities; the failures appear only at the end of the range", "anchors": ["src/sized_chunk/mod.rs: append", "src/ring_buffer/index.rs: Add<usize>", "src/ring_buffer/mod.rs: range, iter, Drop"]}
{"id": "C67", "title": "The documented cost of every operation, in slots written", "statement": "Moving k values between two RingBuffers (append, drain_from_front/back, from_front/back, split_off) writes exactly k slots. Between two Chunks it writes k slots, plus at most one shift of the receiver's own contents, and no shift if the receiver has room at that end. Chunk::insert moves the values on one side of the position by one (the shorter side if both ends have room); Chunk::remove always the shorter side; insert_from moves every old value at most once and writes every new one once (RingBuffer: only the shorter side moves, whatever the iterator does); extend by n values writes n slots plus at most one shift. InlineArray push 1, pop 0, insert len-i+1, remove len-1-i, split_off len-i. SparseChunk insert 1, remove/pop/get 0. drop_left, drop_right and clear write nothing, also if a destructor panics.", "quantifier": "every capacity, contents, layout and position, count and inserted list", "why_tests_cant": "a bound on the work for all sizes and layouts is not observable from finitely many runs", "anchors": ["src/sized_chunk/mod.rs: append, drain_from_front, drain_from_back, from_front, from_back, split_off, insert, insert_from, remove, extend, drop_left, drop_right, clear (Time: comments)", "src/ring_buffer/mod.rs: the same methods", "src/inline_array/mod.rs: push, pop, insert, remove, split_off (Time: comments)", "src/sparse_chunk/mod.rs: insert, remove, pop, get"]}
{"id": "C68", "title": "Comparing, hashing and printing with element functions that panic or contradict themselves", "statement": "==, cmp and partial_cmp on Chunk, RingBuffer, ring slices, InlineArray and SparseChunk call the elements' own comparison on the pairs of elements at equal positions, left operand first, in order and at most once per pair, stopping at the first answer that decides or at a panic; the result is that answer, or what the lengths decide. == calls it not at all if the lengths (SparseChunk: the sets of occupied indices; against a map: the numbers of keys) differ. hash and Debug call the element's function once per element in order, and stop at a panic (Debug: or at an error). Whatever these calls answer, consistently or not, the containers and all elements are afterwards exactly as before; nothing is dropped or lost, also when a call panics.", "quantifier": "every pair of containers in every internal layout, every sequence of answers and every panic point", "why_tests_cant": "the answers are an arbitrary function of the history of calls; tests try consistent comparisons and a few panic points", "anchors": ["src/sized_chunk/mod.rs: Hash, PartialEq, PartialOrd, Ord, Debug", "src/ring_buffer/mod.rs, src/ring_buffer/slice.rs: the same traits", "src/sparse_chunk/mod.rs: PartialEq (SparseChunk, BTreeMap, HashMap), Debug", "src/inline_array/mod.rs: Hash, PartialEq, PartialOrd, Ord, Debug"]}
{"id": "C69", "title": "Slices are only built over initialised elements", "statement": "Whenever a method builds a slice with core::slice::from_raw_parts(_mut), every element of that slice is initialised, as from_raw_parts demands: as_slice/as_mut_slice and everything that goes through them (Deref, Borrow, AsRef, iteration) for Chunk, Deref for InlineArray, and insert, remove, get and drop for SparseChunk. (False for SparseChunk unless all its slots are occupied: its methods make a slice of all N slots.)", "quantifier": "every reachable state of every container, every index", "why_tests_cant": "a slice over uninitialised memory has no effect a test can observe until the compiler exploits it", "anchors": ["src/sized_chunk/mod.rs: as_slice, as_mut_slice", "src/inline_array/mod.rs: Deref, DerefMut", "src/sparse_chunk/mod.rs: values, values_mut, insert, remove, get, Drop"]}
{"id": "C70", "title": "No pointer or reference is used after Rust's aliasing rules have invalidated it", "statement": "Whatever safe calls a program makes, and however it uses the references it got from them within their lifetimes (in particular all items of a mutable iterator, kept and used in any order, and both halves of SliceMut::split_at), no memory access of the crate or of the client goes through a pointer or reference that an earlier conflicting access has invalidated, as Stacked Borrows and Tree Borrows demand. (True of the RingBuffer iterators in both models and of all histories of calls in Tree Borrows; false for Chunk methods that move elements and InlineArray::remove in Stacked Borrows, and for SparseChunk::iter_mut/option_iter_mut and SliceMut::split_at in both.)", "quantifier": "every history of calls on any number of objects, every program on Chunks, RingBuffers, SparseChunks or InlineArrays, every iterator script and every order of reads and writes through the references obtained, every capacity", "why_tests_cant": "a violation has no effect that a test can observe until the compiler exploits it, and it depends on the order in which references are created and used", "anchors": ["src/sized_chunk/mod.rs: force_copy, force_copy_to, ptr, mut_ptr, as_mut_slice", "src/ring_buffer/iter.rs: IterMut", "src/ring_buffer/slice.rs: SliceMut::split_at", "src/sparse_chunk/iter.rs: IterMut, OptionIterMut", "src/inline_array/mod.rs: insert, remove, split_off"]}
{"id": "C71", "title": "Containers can be the keys of maps and the subject of sorting", "statement": "If the element type obeys the laws the standard library demands of PartialEq and PartialOrd, then so do Chunk, RingBuffer, the slices of a RingBuffer and InlineArray: == is symmetric and transitive, partial_cmp is Some(Equal) exactly for equal containers, a < b iff b > a, < is transitive, equal containers compare alike, and no comparison panics. If the elements are Eq, Ord and Hash lawfully, the containers are too: reflexive ==, cmp total and the same as partial_cmp, equal containers feed every hasher the same bytes, whatever their layouts, histories and addresses. SparseChunk obeys the laws of PartialEq and Eq. A clone that returns is equal to its source if the clones of the elements are equal to theirs.", "quantifier": "every element type and every lawful ==, partial_cmp, cmp, hash and clone on it, every capacity and layout, all triples of valid containers", "why_tests_cant": "the laws range over all triples of containers of all layouts, and over all user-supplied comparison functions that are lawful", "anchors": ["src/sized_chunk/mod.rs: impl PartialEq, Eq, PartialOrd, Ord, Hash, Clone for Chunk", "src/ring_buffer/mod.rs: impl PartialEq, Eq, PartialOrd, Ord, Hash, Clone for RingBuffer", "src/ring_buffer/slice.rs: impl PartialEq, Eq, PartialOrd, Ord, Hash for Slice, SliceMut", "src/inline_array/mod.rs: impl PartialEq, Eq, PartialOrd, Ord, Hash, Clone for InlineArray", "src/sparse_chunk/mod.rs: impl PartialEq, Eq, Clone for SparseChunk"]}
{"id": "C72", "title": "Moving a container preserves it", "statement": "A container can be passed, returned and assigned by value at any time and to any address: its length and elements are as before, although the compiler's copy of a MaybeUninit<T> need not preserve the padding bytes of T. (True of Chunk, RingBuffer and SparseChunk, whose storage is an array of elements. For InlineArray<A, T> it is true exactly when no padding byte of T lies under the length or under a byte used by an element; for a T with padding there, e.g. (u8, u64), even new().len() reads an uninitialised usize.)", "quantifier": "every element type and host type, every layout and padding a compiler may choose, every program of calls and moves", "why_tests_cant": "whether padding survives a copy is up to the optimiser; tests see the bytes preserved until it chooses otherwise, and hosts are arbitrary types", "anchors": ["src/inline_array/mod.rs: struct InlineArray (data: MaybeUninit<T>), new, len_const, data", "src/sized_chunk/mod.rs: struct Chunk", "src/ring_buffer/mod.rs: struct RingBuffer", "src/sparse_chunk/mod.rs: struct SparseChunk"]}
{"id": "C73", "title": "The project's fuzz targets never fail", "statement": "The crate ships four fuzz targets (Chunk, RingBuffer, SparseChunk, InlineArray): each decodes its input into a constructor and a list of actions, applies them to the container and to a Vec or BTreeMap, and asserts after every action that contents, results and panics agree. On no input does a target fail: every assertion holds, only the expected calls panic, and nothing is undefined behaviour.", "quantifier": "every decoded input: any constructor, any finite sequence of actions with any u32 values, usize indices and vectors; every capacity >= 2 (the targets use 64), every layout of the InlineArray, debug and release builds", "why_tests_cant": "fuzzing samples inputs; the claim is that no input of any length makes a target fail", "anchors": ["fuzz/fuzz_targets/sized_chunk.rs: fuzz_target!, Construct::make", "fuzz/fuzz_targets/ring_buffer.rs: fuzz_target!, Construct::make", "fuzz/fuzz_targets/sparse_chunk.rs: fuzz_target!, Construct::make", "fuzz/fuzz_targets/inline_array.rs: fuzz_target!", "fuzz/fuzz_targets/assert.rs: assert_panic", "src/arbitrary.rs: Arbitrary for Chunk, RingBuffer"]}
{"id": "C74", "title": "The unsafe unchecked accessors do exactly what their safety section promises", "statement": "For an index in bounds, get_unchecked of RingBuffer and of its slices, and of an occupied cell of SparseChunk, returns the element get returns, and get_unchecked_mut the reference get_mut returns; nothing changes and nothing is dropped, and replacing the value behind the reference changes that element only. Outside the documented precondition: a ring buffer takes the index modulo its capacity (an element, or undefined behaviour when no element is there - never memory outside the buffer); a slice reads the buffer beyond its own end unchecked; an empty cell of a sparse chunk is an uninitialised read and an index past its capacity an out-of-bounds read.", "quantifier": "every capacity, element type, layout of the buffer, contents, slice and index (for the ring: index + capacity representable in a word)", "why_tests_cant": "The crate has no test of these functions, and undefined behaviour does not show in a test that passes; the claim is for every index and every rotation of the ring.", "anchors": ["src/ring_buffer/mod.rs: RingBuffer::get_unchecked, get_unchecked_mut, raw, ptr", "src/ring_buffer/slice.rs: Slice::get_unchecked, SliceMut::get_unchecked, SliceMut::get_unchecked_mut", "src/sparse_chunk/mod.rs: SparseChunk::get_unchecked, get_unchecked_mut"]}
{"id": "C75", "title": "Chunk<u8> and RingBuffer<u8> are byte streams that lose, invent and reorder nothing", "statement": "Under any program of write, write_all, flush, read, read_exact and read_to_end calls (the provided methods of std::io::Write and std::io::Read included), the container behaves as a queue of at most CAPACITY bytes: the bytes that were there followed by those the calls accepted are the bytes the calls delivered followed by those left. write_all fails exactly when not everything fits, read_exact exactly when there are too few bytes, read_to_end returns everything; every call terminates. The only panics are those of RingBuffer writes in debug builds (C34): they write nothing and leave the buffer usable.", "quantifier": "every capacity, every contents and layout, every finite sequence of calls with any buffers, any choice of buffer sizes by read_to_end, debug and release builds", "why_tests_cant": "It is a statement about all histories of calls of unbounded length; the crate's tests have one write and one read.", "anchors": ["src/sized_chunk/mod.rs: impl io::Write for Chunk<u8, N>, impl io::Read for Chunk<u8, N>", "src/ring_buffer/mod.rs: impl io::Write for RingBuffer<u8, N>, impl io::Read for RingBuffer<u8, N>, copy_from_slice"]}
{"id": "C76", "title": "Containers filled from live iterators, the crate's own drains included, take exactly what they keep or drop", "statement": "When extend, collect, collect_from or insert_from is given an iterator that is itself a running object (a drain or into_iter of another Chunk, RingBuffer, SparseChunk or InlineArray, forwards or reversed, or any iterator that delivers a list), the container ends up with exactly the items it should, the source keeps exactly the items not asked for, and every other item has been dropped exactly once. On overflow extend fills the container, drops the one item that found no room and panics; collect drops what it had collected; collect_from needs count items that fit; insert_from changes neither side if the items do not fit. Collecting optional items, an option_drain for instance, into a SparseChunk puts item number i into cell i, passes over empty items beyond the capacity, and at the first other one panics, dropping it and what was collected.", "quantifier": "every iterator that delivers a finite list, every container contents and layout on both sides, every capacity, index and count, debug and release builds", "why_tests_cant": "It relates two objects over all contents, capacities and layouts of both, including the states after a panic in the middle of the transfer.", "anchors": ["src/sized_chunk/mod.rs: Extend, FromIterator, collect_from, insert_from, write_from_iter", "src/sized_chunk/iter.rs: Iter, Drain", "src/ring_buffer/mod.rs: Extend, FromIterator, collect_from, insert_from", "src/ring_buffer/iter.rs: OwnedIter, Drain", "src/sparse_chunk/iter.rs: Drain", "src/inline_array/mod.rs: Extend, FromIterator", "src/inline_array/iter.rs: Iter, Drain"]}
{"id": "C77", "title": "Iterators that panic, stop early, never end or lie about their length do to a container exactly what is documented, and nothing else", "statement": "extend, collect, collect_from and insert_from may be given an iterator, running as an object of its own, that does anything: next may panic at any point, end early, or never end, and size_hint may be inexact, wrong, different each time, or panic. extend keeps the items taken before a panic; with too many items it fills the container, drops the one that found no room and panics, even if the iterator would never end; collect and collect_from drop what they had collected; insert_from inserts exactly the announced number of items, or changes nothing if they do not fit or len() panics, or, if fewer items come, leaves the container empty with its elements leaked (never dropped twice, never read). If a Chunk gets different answers from the two calls of len(), the outcome is the one of C08. An iterator that has returned None is not asked again. Collecting into a SparseChunk from an iterator of empty items that never ends does not return (a debug build panics when the item counter overflows).", "quantifier": "every behaviour of next and size_hint (any state machine), every container contents and layout, every capacity, index and count, debug and release builds", "why_tests_cant": "It ranges over all behaviours of foreign code called in the middle of an operation, at every point where it could panic.", "anchors": ["src/sized_chunk/mod.rs: Extend, FromIterator, collect_from, insert_from, write_from_iter", "src/ring_buffer/mod.rs: Extend, FromIterator, collect_from, insert_from", "src/inline_array/mod.rs: Extend, FromIterator"]}
{"id": "C78", "title": "Programs that mix all four kinds of container behave as lists and arrays would, and lose, duplicate and double-drop nothing", "statement": "A program may use any number of Chunks, RingBuffers, SparseChunks and InlineArrays, of any capacities and layouts, at once. It may call their methods, move elements from one to another with extend, insert_from, collect and collect_from over each other's drain() or drain().rev(), collect drain().map(Some) or a SparseChunk's option_drain() into a SparseChunk, convert &mut InlineArray into Chunk, compare one with another through Borrow<[A]>, catch panics and carry on with whatever is left. Every call returns or panics as the specification on lists (arrays of options for SparseChunk) says, with the result it says; there is no undefined behaviour, hang or abort; each element handed over is at any time in exactly one place: in one container, handed back, dropped or leaked, and none is leaked if iterators given to insert_from deliver what they announce and clone does not panic. When everything has gone out of scope each element has been handed back or dropped exactly once.", "quantifier": "every finite well-typed program over any number of containers of the four kinds, every capacity and layout, every element type whose destructor does not panic, every scripted iterator, comparison and clone function, debug and release", "why_tests_cant": "the interactions of four data structures with every panic point, wrap-around, shift and partially consumed iterator are infinitely many; a test follows one program", "anchors": ["src/sized_chunk/mod.rs: Chunk", "src/sized_chunk/iter.rs: Drain", "src/ring_buffer/mod.rs: RingBuffer", "src/ring_buffer/iter.rs: Drain", "src/sparse_chunk/mod.rs: SparseChunk", "src/sparse_chunk/iter.rs: Drain", "src/inline_array/mod.rs: InlineArray", "src/inline_array/iter.rs: Drain", "src/sparse_chunk/mod.rs: FromIterator, option_drain"]}
{"id": "C79", "title": "Send, Sync and subtyping: values cross threads and stand for each other only when that is sound", "statement": "A container, owning iterator or mutable borrow of the crate can be sent to another thread exactly when its elements can (for InlineArray also its host type), and shared exactly when they can be shared; ring Iter, Slice and the sparse Iter and OptionIter can be sent or shared exactly when the elements are Sync; RingBuffer's IterMut never. Hence a thread that receives a value gets from its methods only elements it may have there. A value for elements A and lifetime 'a is accepted where one for B and 'b is expected exactly if A is a subtype of B, for borrows 'a outlives 'b, and for mutable borrows also B is a subtype of A: no client can put an element of another or shorter-lived type into a container it has borrowed.", "quantifier": "every element and host type with every combination of Send and Sync, every subtype relation and every lifetime, all twenty public types", "why_tests_cant": "a test instantiates a few element types; missing a PhantomData or using a covariant pointer goes unnoticed until a client exploits it", "anchors": ["src/sized_chunk/mod.rs: Chunk", "src/sized_chunk/iter.rs: Iter, Drain", "src/ring_buffer/mod.rs: RingBuffer", "src/ring_buffer/iter.rs: Iter, IterMut, Drain, OwnedIter", "src/ring_buffer/slice.rs: Slice, SliceMut", "src/sparse_chunk/mod.rs: SparseChunk", "src/sparse_chunk/iter.rs: Iter, IterMut, Drain, OptionIter, OptionIterMut, OptionDrain", "src/inline_array/mod.rs: InlineArray", "src/inline_array/iter.rs: Iter, Drain"]}
{"id": "C80", "title": "O(1) amortised push and pop at both ends, as the README says", "statement": "There is a constant such that any history of push_front, push_back, pop_front and pop_back writes at most that many slots per call on average. (True of RingBuffer, with constant 1. True of Chunk if pushes happen at one end only and it never holds more than a fixed part of its capacity: with at most b of N elements each push costs at most N/(N-b) slots on average. False of Chunk otherwise: pushing at both ends in turn moves all elements at every push however much room there is, and so does a queue in a nearly full chunk.)", "quantifier": "every history of any length, every capacity, every starting state (RingBuffer) or from empty (Chunk)", "why_tests_cant": "an average over all histories; a benchmark runs a few patterns", "anchors": ["README.md: Overview", "src/sized_chunk/mod.rs: push_front, push_back, pop_front, pop_back", "src/ring_buffer/mod.rs: push_front, push_back, pop_front, pop_back"]}
{"id": "C81", "title": "Programs over several kinds of container survive panicking destructors", "statement": "Any program that uses any number of Chunks, RingBuffers, SparseChunks and InlineArrays together, calls their methods, and moves, collects, converts and compares elements between them, where dropping any value may panic and the program carries on after panics, either aborts exactly where a destructor panics during unwinding or ends with every call returning or panicking as specified, every container holding what is specified and every value in exactly one place; there is never undefined behaviour, a hang or a double drop. (The program must not let clear, drop_left or drop_right drop a value whose destructor panics: C14, C32 and C47 say what happens then.)", "quantifier": "every program, every element type, every set of values whose destructors panic, every capacity and layout", "why_tests_cant": "every interleaving of calls on several containers, with every choice of panicking destructor", "anchors": ["src/sized_chunk/mod.rs: extend, insert_from, collect_from, from_iter, From<&mut InlineArray>", "src/ring_buffer/mod.rs: extend, insert_from, collect_from, from_iter", "src/inline_array/mod.rs: extend, from_iter, drain", "src/sparse_chunk/mod.rs: from_iter, drain, option_drain"]}
{"id": "C82", "title": "Giving a container away to a call", "statement": "In any program over several kinds of container, any call that takes a second container (append, drain_from_*, extend, insert_from, ==, ...) or makes a new container out of one (split_off, clone, collecting its drain, ...) may be given a temporary, as in x.append(&mut mem::take(&mut y)) or mem::take(&mut y).split_off(3): the call does what it does otherwise, y is empty afterwards, and what the call leaves in the temporary is dropped exactly once, after all that the call itself drops, also if the call panics. If a destructor in the temporary panics then the call panics and the new container is dropped; if the call had panicked already the process aborts. Nothing is lost, dropped twice or undefined.", "quantifier": "every program, element type, capacity, layout, and set of values whose destructors panic", "why_tests_cant": "every combination of call, contents, panic and history", "anchors": ["src/sized_chunk/mod.rs: Default, Drop, append, split_off, extend, insert_from", "src/ring_buffer/mod.rs: Default, Drop, append, split_off, extend, insert_from", "src/sparse_chunk/mod.rs: Default, Drop", "src/inline_array/mod.rs: Default, Drop, split_off, extend"]}
{"id": "C83", "title": "Consuming a container by value", "statement": "In any program over several kinds of container, a new container may be made by consuming another: y.into_iter().collect(), y.into_iter().rev().collect(), y.into_iter().map(Some).collect() or y.option_drain().collect() into a SparseChunk. If everything fits, the new container holds exactly it, in iteration order (in the same cells for option_drain), and nothing is dropped. Otherwise the call panics and every element of y is dropped exactly once: first the one that did not fit, then those not yet delivered, in the order of y, and then those that had been moved. If one of those destructors panics the process aborts. Nothing is lost, dropped twice or undefined.", "quantifier": "every program, element type, pair of containers, capacity, layout, contents, direction, and set of values whose destructors panic", "why_tests_cant": "every combination of container, contents, direction, panic and history", "anchors": ["src/sized_chunk/mod.rs: from_iter, into_iter", "src/ring_buffer/mod.rs: from_iter, into_iter", "src/sparse_chunk/mod.rs: from_iter, into_iter, option_drain", "src/inline_array/mod.rs: from_iter, into_iter", "src/sized_chunk/iter.rs: Drain", "src/ring_buffer/iter.rs: OwnedIter", "src/sparse_chunk/iter.rs: Drain, OptionDrain", "src/inline_array/iter.rs: Drain"]}
{"id": "C84", "title": "Standard iterator methods on draining iterators", "statement": "In any program over several kinds of container, nth(n), find, position, any, all, count, by_ref().take(n).collect() and collect() into a Vec may be called on the draining iterator of any container, from the front or through rev(). They see the elements in order: nth returns the n-th, find the first the predicate accepts, position its index, any and all whether the predicate ever accepts or rejects, count how many there were, the last two the elements themselves. The elements passed over are dropped, in order, exactly once, as is the element a predicate was looking at when it panicked; the elements after the one where the call stopped are still in the container, in order, whatever happened. If the destructor of an element passed over panics the call panics there, and the rest is still in the container; if a destructor panics while a panicking predicate unwinds, the process aborts.", "quantifier": "every program, element type, container, capacity, layout, contents, direction, index, predicate (also one that panics) and set of values whose destructors panic", "why_tests_cant": "every combination of container, contents, direction, predicate, panic and history", "anchors": ["src/sized_chunk/iter.rs: Iter, Drain", "src/ring_buffer/iter.rs: OwnedIter, Drain", "src/sparse_chunk/iter.rs: Drain", "src/inline_array/iter.rs: Drain"]}
{"id": "C85", "title": "Containers of containers", "statement": "In any program over several kinds of container, containers may be elements of containers of any kind (Chunk<RingBuffer<T>>, SparseChunk<InlineArray<T, H>>, ...). Pushing or inserting a container into another moves it with its elements and drops nothing; if there is no room the call panics and drops the container's elements, in order; one that is replaced in a SparseChunk is dropped. Taking one out hands it back with its elements as they were. Any method called on x[i], alone, making a new container or with another container, does to that element exactly what it does to a container in a variable, also when it panics, and leaves the other elements as they are; without such an element it panics and changes nothing. clear, drop_left, drop_right, split_off, append, extend, drain_from and drain().collect() of the outer container move or drop whole elements. A container that is dropped drops the elements of its elements, in order. At the end every element, at whatever depth, was handed back or dropped, exactly once.", "quantifier": "every program, element type, pair of outer and inner kinds, capacities, layouts, contents, index, method and history", "why_tests_cant": "every combination of outer and inner kind, contents, method, panic and history", "anchors": ["src/sized_chunk/mod.rs: Chunk", "src/ring_buffer/mod.rs: RingBuffer", "src/sparse_chunk/mod.rs: SparseChunk", "src/inline_array/mod.rs: InlineArray"]}
{"id": "C86", "title": "Containers of containers of values whose destructors panic", "statement": "In the programs of C85 dropping any of the elements may panic, at either depth, and the program may carry on after each panic. Except where clear, drop_left or drop_right drop such a value (C14, C32, C47), everything that happens is determined: if a second destructor panics while the panic of the first unwinds the process aborts, and only then; otherwise every call returns or panics as specified, the containers at both depths hold what they should, the elements dropped are the specified ones in that order, and every element is in exactly one place: a container, handed back, dropped or leaked. Dropping a Chunk or InlineArray of Chunks or InlineArrays: if one element's destructor panics all the others are dropped, once, and the panic goes on; two abort, in whichever containers they are. A RingBuffer or SparseChunk in it leaks what comes after the first. Replacing a container in a SparseChunk whose elements' destructor panics: the new one is in its place.", "quantifier": "every program, element type, choice of the values whose destructors panic, pair of outer and inner kinds, contents and history", "why_tests_cant": "every distribution of panicking destructors over nested containers and every history before and after a panic", "anchors": ["src/sized_chunk/mod.rs: Drop, Chunk", "src/ring_buffer/mod.rs: Drop, RingBuffer", "src/sparse_chunk/mod.rs: Drop, SparseChunk::insert", "src/inline_array/mod.rs: Drop, InlineArray"]}
{"id": "C87", "title": "Comparing and cloning containers of containers", "statement": "== on two containers of the same type whose elements are containers of one type answers whether they have the same number of elements (a SparseChunk: in the same cells) that are equal as containers, i.e. have the same number of equal elements, however the elements lie in memory at either depth; partial_cmp is lexicographic in the elements, compared lexicographically; neither changes anything. clone calls A::clone on all the elements of the elements in order: if none panics, the clone has the same shape at both depths and holds the clones in that order, and the original is as it was; if one panics the call panics, the original is as it was, and every clone made so far is dropped exactly once, or lost if it was in, or on its way to, an InlineArray. A clone is == to the original if A's clones are.", "quantifier": "all element types, element clone/==/partial_cmp behaviours (including a clone that panics at any call), all outer kinds, inner kinds, capacities and contents at both depths, all internal layouts reachable", "why_tests_cant": "the result must not depend on the internal layout at either of the two depths, and the panicking clone can be any of unboundedly many", "anchors": ["src/sized_chunk/mod.rs: Clone for Chunk, PartialEq, PartialOrd", "src/ring_buffer/mod.rs: Clone for RingBuffer, PartialEq, PartialOrd", "src/sparse_chunk/mod.rs: Clone for SparseChunk, PartialEq", "src/inline_array/mod.rs: Clone for InlineArray, PartialEq, PartialOrd"]}
{"id": "C88", "title": "Hashing and printing containers of containers", "statement": "Hashing a container of containers (Chunk, RingBuffer, InlineArray at both depths; SparseChunk has no Hash) feeds the hasher what the innermost elements feed it, in order, and nothing else, so equal containers feed every hasher the same; Debug prints the outer container with what Debug prints of each element in its place (a SparseChunk with its indices), so containers of one type print the same exactly if they are equal; both leave everything exactly as it was. Containers that are not equal feed a hasher different sequences, neither of which begins with the other, as the documentation of std::hash::Hash demands. (The last is true of containers with the same numbers of elements at both depths, and false in general: the chunks [[1, 2], [3]] and [[1], [2, 3]] are not equal and feed every hasher exactly the same.)", "quantifier": "all contents, layouts, capacities, kinds of containers at both depths, element types and their Hash, Debug and PartialEq functions", "why_tests_cant": "contents, layouts and element types are unbounded; a test cannot show that no two unequal containers collide for every hasher, nor that equal ones never differ", "anchors": ["src/sized_chunk/mod.rs: impl Hash, Debug for Chunk", "src/ring_buffer/mod.rs: impl Hash, Debug for RingBuffer", "src/inline_array/mod.rs: impl Hash, Debug for InlineArray", "src/sparse_chunk/mod.rs: impl Debug for SparseChunk"]}
{"id": "C89", "title": "A closure called on every element of a mutable iterator leaves exactly what it did, even if it panics", "statement": "Calling a client closure on the references obtained from iter_mut of a Chunk, RingBuffer, SliceMut, SparseChunk or InlineArray, or from option_iter_mut (both ends in any order, where there are two), each call leaving the element alone, replacing it, assigning to it, or panicking: each element is given at most once, with its original value; afterwards the container holds the old contents with exactly the given elements changed as the closure changed them, in the same places; exactly the values assigned over were dropped, once each; nothing is leaked. A panic of the closure or of the destructor of an assigned-over value stops the loop and comes out, with everything done so far, including that assignment, in place.", "quantifier": "every closure (its behaviour depending on the number of the call and on the value found), set of panicking destructors, contents, capacity, wrap position, range and order of next/next_back", "why_tests_cant": "The loop can be interrupted at any element by two kinds of panics, in any interleaving of the ends and over every layout.", "anchors": ["src/ring_buffer/iter.rs: IterMut", "src/ring_buffer/slice.rs: SliceMut::iter_mut", "src/sparse_chunk/iter.rs: IterMut", "src/sized_chunk/mod.rs: as_mut_slice, IntoIterator for &mut Chunk", "src/inline_array/mod.rs: deref_mut, IntoIterator for &mut InlineArray"]}
{"id": "C90", "title": "Shared iterators used at the same time do not disturb each other", "statement": "While a RingBuffer or SparseChunk is only borrowed, any number of its shared iterators may be alive at once: iter() of the ring buffer and of any of its slices, iter(), entries() and option_iter() of the sparse chunk. Whatever the order of the calls of next (and next_back) on them, every iterator answers what it would answer if it were the only one, i.e. goes through its own list of elements from the ends it is asked for, and keeps answering None after its last; every call is answered, and afterwards the container is exactly as before, nothing having been dropped or leaked.", "quantifier": "any number and mixture of iterators and slice ranges, any interleaving of next/next_back calls of any length, including calls after the end, all capacities, contents and wrap positions", "why_tests_cant": "the number of iterators and the interleavings of their calls are unbounded", "anchors": ["src/ring_buffer/mod.rs: RingBuffer::iter", "src/ring_buffer/slice.rs: Slice::iter", "src/ring_buffer/iter.rs: Iter", "src/sparse_chunk/mod.rs: iter, entries, option_iter", "src/sparse_chunk/iter.rs: Iter, OptionIter"]}
