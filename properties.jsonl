{"id": "C01", "title": "Range intersection is set intersection", "statement": "laik_range_intersect(a,b) on two non-empty ranges of the same space returns a range whose indexes are exactly the indexes that lie in both a and b; it returns nothing exactly when a and b have no common index. (For an empty operand the documented 'return 0 if empty' is not met.)", "quantifier": "all dimensions 1..3, all pairs of ranges with arbitrary integer borders, all indexes", "why_tests_cant": "a test fixes a few concrete shapes; the claim ranges over all of them and the unchecked shapes are where off-by-one errors live", "anchors": ["src/space.c:laik_range_intersect", "src/space.c:intersectRange"]}
{"id": "C02", "title": "Range expansion is the smallest covering range", "statement": "laik_range_expand(r, other) makes r contain every index of the old r and of other, and every range that contains both also contains the new r.", "quantifier": "all dimensions, all non-empty ranges, all candidate covering ranges", "why_tests_cant": "a test fixes a few concrete shapes; the claim ranges over all of them and the unchecked shapes are where off-by-one errors live", "anchors": ["src/space.c:laik_range_expand"]}
{"id": "C03", "title": "Size, emptiness and containment agree with the index set", "statement": "laik_range_size is the number of indexes in the range, laik_range_isEmpty holds exactly when there is none, and laik_range_within_range(a,b) holds exactly when every index of a is an index of b.", "quantifier": "all dimensions and ranges; sizes below 2^64", "why_tests_cant": "a test fixes a few concrete shapes; the claim ranges over all of them and the unchecked shapes are where off-by-one errors live", "anchors": ["src/space.c:laik_range_size", "src/space.c:laik_range_isEmpty", "src/space.c:laik_range_within_range"]}
{"id": "C04", "title": "Freezing a partitioning preserves ownership", "statement": "After a partitioner has appended ranges and the partitioning is frozen, process t owns index i if and only if some range containing i was appended for t - whichever of the merge / single-index representations is used.", "quantifier": "all sequences of appended ranges, all tags, all group sizes, all flags, every sort order qsort may produce", "why_tests_cant": "depends on the order qsort chooses and on every appended sequence", "anchors": ["src/rangelist.c:laik_rangelist_freeze", "src/rangelist.c:sortRanges", "src/rangelist.c:mergeSortedRanges", "src/rangelist.c:updateOffsetsSI"]}
{"id": "C05", "title": "Range enumeration per process is exact", "statement": "On a frozen partitioning, asking for the number of ranges of process t and for its n-th range enumerates exactly the ranges of t, each once, in ascending order, and no range of another process.", "quantifier": "all frozen lists, all processes, all n", "why_tests_cant": "a test fixes a few concrete shapes; the claim ranges over all of them and the unchecked shapes are where off-by-one errors live", "anchors": ["src/rangelist.c:laik_rangelist_tidrangecount", "src/rangelist.c:laik_rangelist_tidrange", "src/rangelist.c:updateOffsets"]}
{"id": "C06", "title": "Merging leaves no overlapping or touching ranges of one process", "statement": "With LAIK_PF_Merge, after freezing, two different ranges of the same process and tag neither overlap nor touch.", "quantifier": "all 1d append sequences, all tags", "why_tests_cant": "a test fixes a few concrete shapes; the claim ranges over all of them and the unchecked shapes are where off-by-one errors live", "anchors": ["src/rangelist.c:mergeSortedRanges"]}
{"id": "C07", "title": "Map numbers group ranges by tag", "statement": "Map numbers of one process start at 0, increase by at most one from range to range, and two ranges of a process get the same map number exactly if they have the same non-zero tag.", "quantifier": "all frozen lists", "why_tests_cant": "a test fixes a few concrete shapes; the claim ranges over all of them and the unchecked shapes are where off-by-one errors live", "anchors": ["src/rangelist.c:updateOffsets", "src/rangelist.c:updateMapOffsets", "src/rangelist.c:laik_rangelist_tidmaprange"]}
{"id": "C08", "title": "Coverage check is exact", "statement": "laik_rangelist_coversSpace returns true exactly if every index of the space is in some range of the list (the list order does not matter), as long as the internal limit of pieces is not hit.", "quantifier": "all range lists in 1..3 dimensions", "why_tests_cant": "needs all overlap configurations", "anchors": ["src/rangelist.c:laik_rangelist_coversSpace"]}
{"id": "C09", "title": "isAll / isSingle / isEqual mean what they say", "statement": "laik_rangelist_isAll is true only if every process owns every index of the space; isSingle returns a task only if it alone owns ranges and owns every index; isEqual is true only if every process owns the same indexes in both.", "quantifier": "all frozen range lists", "why_tests_cant": "a test fixes a few concrete shapes; the claim ranges over all of them and the unchecked shapes are where off-by-one errors live", "anchors": ["src/rangelist.c:laik_rangelist_isAll", "src/rangelist.c:laik_rangelist_isSingle", "src/rangelist.c:laik_rangelist_isEqual"]}
{"id": "C10", "title": "Block partitioner tiles the space", "statement": "Whenever the 1d block partitioner returns, the appended ranges are inside the space, pairwise disjoint, in ascending index order, cover every index, and are assigned to the processes cyclically; this holds for any index/task weights and regardless of floating point rounding. (It does not always return: with few indexes per process it hits an assertion.)", "quantifier": "all spaces, group sizes, cycle counts, weight functions and all rounding behaviours", "why_tests_cant": "rounding of doubles and all sizes", "anchors": ["src/partitioner.c:runBlockPartitioner"]}
{"id": "C11", "title": "Bisection partitioner tiles the space", "statement": "Whenever the bisection partitioner returns, each index of the space is given to exactly one process and what a process gets is one range. In 1d, with at least as many indexes as processes, it always returns and every process gets something. (Otherwise it may abort or leave processes without indexes.)", "quantifier": "all 1..3 dimensional spaces and group sizes", "why_tests_cant": "a test fixes a few concrete shapes; the claim ranges over all of them and the unchecked shapes are where off-by-one errors live", "anchors": ["src/partitioner.c:doBisection", "src/partitioner.c:runBisectionPartitioner"]}
{"id": "C12", "title": "All, Master and Copy partitioners", "statement": "All gives every process the full space; Master gives it to process 0 only; Copy gives each process exactly the (projected) ranges it owns in the given partitioning.", "quantifier": "all spaces, groups, source partitionings", "why_tests_cant": "a test fixes a few concrete shapes; the claim ranges over all of them and the unchecked shapes are where off-by-one errors live", "anchors": ["src/partitioner.c:runAllPartitioner", "src/partitioner.c:runMasterPartitioner", "src/partitioner.c:runCopyPartitioner"]}
{"id": "C13", "title": "Corner-halo partitioner extends by the depth, clipped at the border", "statement": "Each process gets, for every range it owns in the base partitioning, exactly the range widened by the depth in all dimensions and clipped to the space.", "quantifier": "all depths, dimensions, base partitionings", "why_tests_cant": "a test fixes a few concrete shapes; the claim ranges over all of them and the unchecked shapes are where off-by-one errors live", "anchors": ["src/partitioner.c:runCornerHaloPartitioner"]}
{"id": "C14", "title": "Halo partitioner gives all direct neighbours", "statement": "Each process gets its own ranges plus every index whose distance along one axis from an own range is at most the depth and which lies in the space. (False near the border of the space.)", "quantifier": "all depths, dimensions, base partitionings", "why_tests_cant": "the failing cases are only those at distance between 1 and depth from the border", "anchors": ["src/partitioner.c:runHaloPartitioner"]}
{"id": "C15", "title": "Reassign partitioner keeps data where it is", "statement": "When processes are removed, a remaining process still owns all indexes it owned before, and every index owned before is still owned by a remaining process; nothing is owned twice.", "quantifier": "all weights, shrinks and old 1d partitionings", "why_tests_cant": "a test fixes a few concrete shapes; the claim ranges over all of them and the unchecked shapes are where off-by-one errors live", "anchors": ["src/partitioner.c:runReassignPartitioner"]}
{"id": "C16", "title": "A partitioning is only accepted if it covers its space", "statement": "Running a partitioner that does not declare itself as not fully covering, without a filter, either yields a partitioning in which every index of the space is owned or panics.", "quantifier": "all partitioners (any append sequence)", "why_tests_cant": "a test fixes a few concrete shapes; the claim ranges over all of them and the unchecked shapes are where off-by-one errors live", "anchors": ["src/partitioner.c:laik_run_partitioner"]}
{"id": "C17", "title": "Filtered partitioner runs agree with the unfiltered run", "statement": "Storing only 'own' ranges, or only ranges intersecting own ranges, gives exactly the ranges of the unfiltered run that belong to / intersect the ranges of the calling process.", "quantifier": "all partitioners, all own range sets", "why_tests_cant": "binary search over all border configurations", "anchors": ["src/partitioning.c:tidfilter", "src/partitioning.c:idxfilter_check", "src/partitioner.c:laik_append_range"]}
{"id": "C18", "title": "Migration to another group keeps data in place", "statement": "Migrating a partitioning to a parent/child group renames processes but every location keeps exactly the indexes it had; migrating there and back is the identity.", "quantifier": "all groups with parent mappings, all partitionings", "why_tests_cant": "a test fixes a few concrete shapes; the claim ranges over all of them and the unchecked shapes are where off-by-one errors live", "anchors": ["src/rangelist.c:laik_rangelist_migrate", "src/partitioning.c:laik_partitioning_migrate"]}
{"id": "C19", "title": "Shrinking a group", "statement": "laik_new_shrinked_group removes exactly the listed processes, keeps the order and locations of the others, and its to-parent/from-parent maps are inverse to each other.", "quantifier": "all groups, all removal lists (with duplicates, any order)", "why_tests_cant": "a test fixes a few concrete shapes; the claim ranges over all of them and the unchecked shapes are where off-by-one errors live", "anchors": ["src/core.c:laik_new_shrinked_group", "src/core.c:laik_clone_group"]}
{"id": "C20", "title": "Union of groups", "statement": "laik_new_union_group contains each location of either group exactly once, the parent maps are mutually inverse and preserve locations, every participant computes the same group.", "quantifier": "all pairs of groups of one instance, every sort order qsort may produce", "why_tests_cant": "qsort is not stable; all interleavings of equal location ids", "anchors": ["src/core.c:laik_new_union_group"]}
{"id": "C21", "title": "1d transition moves every needed value", "statement": "For switching between two 1d partitionings with data preservation, every index a process owns afterwards is provided to it: copied locally if the process owned it before, otherwise received from exactly one process that owned it, or delivered by a reduction that includes it; no operation writes an index the process does not own afterwards.", "quantifier": "all pairs of 1d partitionings, all groups, all processes", "why_tests_cant": "combinatorial in the relative position of borders", "anchors": ["src/space.c:do_calc_transition", "src/space.c:calcAddReductions"]}
{"id": "C22", "title": "Sends and receives of a transition match", "statement": "In the transitions independently computed by all processes for the same partitionings, the sequence of messages p sends to q equals (range by range, in order) the sequence q expects from p.", "quantifier": "all pairs of processes, all pairs of partitionings", "why_tests_cant": "a mismatch deadlocks or corrupts data only on specific geometries", "anchors": ["src/space.c:calcAddReductions", "src/space.c:do_calc_transition"]}
{"id": "C23", "title": "Reductions are agreed on by all participants", "statement": "For every index that needs a reduction, exactly the processes owning it before are inputs and exactly those owning it afterwards are outputs, and all participants have the reduction in the same order with the same range, groups and operation.", "quantifier": "all 1d partitionings, all groups", "why_tests_cant": "a test fixes a few concrete shapes; the claim ranges over all of them and the unchecked shapes are where off-by-one errors live", "anchors": ["src/space.c:calcAddReductions", "src/space.c:laik_trans_isInGroup"]}
{"id": "C24", "title": "Initialisation flow", "statement": "Switching with data flow Init generates initialisation operations that cover exactly the indexes the process owns afterwards.", "quantifier": "all partitionings", "why_tests_cant": "a test fixes a few concrete shapes; the claim ranges over all of them and the unchecked shapes are where off-by-one errors live", "anchors": ["src/space.c:do_calc_transition"]}
{"id": "C25", "title": "Multi-dimensional transitions deliver every needed value", "statement": "For 2d/3d partitionings, every index a process owns afterwards is copied locally or received, and sends match receives. (False: the skip test for already available ranges differs between sender and receiver.)", "quantifier": "all 2d/3d partitionings", "why_tests_cant": "only particular overlaps deadlock", "anchors": ["src/space.c:do_calc_transition"]}
{"id": "C26", "title": "End to end: switching partitionings preserves or reduces values", "statement": "If all processes execute their transitions, then afterwards each process holds for each of its indexes the value held before by an owner (flow preserve), or the reduction over all values held before.", "quantifier": "all partitionings, all memory contents, all processes", "why_tests_cant": "all sizes and contents", "anchors": ["src/data.c:laik_switchto_partitioning", "src/data.c:doTransition", "src/data.c:copyMaps"]}
{"id": "C27", "title": "2-phase ordering is free of deadlock", "statement": "If every process executes its matching sends and receives in the order produced by laik_aseq_sort_2phases, with fully synchronous (unbuffered) messages, then no schedule deadlocks and all messages are delivered to their counterpart.", "quantifier": "all message sets, any number of processes, all schedules", "why_tests_cant": "schedule dependent", "anchors": ["src/action.c:laik_aseq_sort_2phases", "src/action.c:cmp2phase"]}
{"id": "C28", "title": "Rank-digit ordering is free of deadlock", "statement": "The same for laik_aseq_sort_rankdigits on sequences of sends and receives. (It aborts when the sequence has any other action.)", "quantifier": "all message sets, any number of processes, all schedules", "why_tests_cant": "schedule dependent", "anchors": ["src/action.c:laik_aseq_sort_rankdigits", "src/action.c:cmp_rankdigits"]}
{"id": "C29", "title": "Sorting actions only reorders as promised", "statement": "Sorting by rounds or phases keeps every action, orders rounds ascending, keeps the original order of actions between the same two peers in a round, and compresses round numbers without merging or swapping rounds.", "quantifier": "all action sequences, every result qsort may give", "why_tests_cant": "a test fixes a few concrete shapes; the claim ranges over all of them and the unchecked shapes are where off-by-one errors live", "anchors": ["src/action.c:addResorted", "src/action.c:laik_aseq_sort_rounds"]}
{"id": "C30", "title": "Combining messages delivers the same data", "statement": "laik_aseq_combineActions replaces the messages to one peer in a round by one message whose content is the concatenation of theirs, and the receiver distributes it back so that every destination gets the bytes it would have got without combining; temporary areas do not overlap.", "quantifier": "all action sequences and memory contents", "why_tests_cant": "all interleavings of partners/rounds", "anchors": ["src/action.c:laik_aseq_combineActions"]}
{"id": "C31", "title": "Temporary buffers never overlap or overflow", "statement": "laik_aseq_allocBuffer places all reservations of a sequence into one buffer of exactly the summed size; different reservations are disjoint and all accesses stay within their reservation.", "quantifier": "all action sequences", "why_tests_cant": "a test fixes a few concrete shapes; the claim ranges over all of them and the unchecked shapes are where off-by-one errors live", "anchors": ["src/action.c:laik_aseq_allocBuffer"]}
{"id": "C32", "title": "Splitting a group reduction computes the reduction", "statement": "Executing the actions generated for a group reduction on all processes leaves, in the output buffer of every output process, the reduction of the inputs of all input processes, and changes nothing elsewhere.", "quantifier": "all input/output groups up to the limit of 32 inputs, all values, any associative and commutative operation", "why_tests_cant": "all group combinations", "anchors": ["src/action.c:laik_aseq_addReduce2Rounds", "src/action.c:laik_aseq_addReduce3Rounds", "src/action.c:laik_aseq_splitReduce"]}
{"id": "C33", "title": "Asynchronous transformation waits for everything", "statement": "After the MPI asynchronous transformation every started send/receive is waited for exactly once after it was started, receives are waited for at the position of the original receive, sends at the end, and the other actions keep their order. If no action writes what an earlier message sends and no action before a receive uses its buffer, then however MPI completes the requests each run ends, with the same memory and the same bytes sent and received as with blocking messages.", "quantifier": "all action sequences (rounds below 253), all memory contents, all bytes received, all orders of completion", "why_tests_cant": "a test fixes a few concrete shapes; the claim ranges over all of them and the unchecked shapes are where off-by-one errors live", "anchors": ["src/backend-mpi.c:laik_mpi_asyncSendRecv"]}
{"id": "C34", "title": "Lexicographic layout is a dense bijection", "statement": "The lexicographic layout maps the indexes of each section one-to-one onto offsets 0..size-1 of the section, in lexicographic order.", "quantifier": "all 1..3 dimensional ranges, all section lists", "why_tests_cant": "a test fixes a few concrete shapes; the claim ranges over all of them and the unchecked shapes are where off-by-one errors live", "anchors": ["src/layout_lex.c:offset_lex", "src/layout_lex.c:laik_new_layout_lex"]}
{"id": "C35", "title": "Packing and unpacking are inverse, for any buffer size", "statement": "Packing a range in chunks with any buffer sizes (each at least one element) yields the values of the range in lexicographic order, independent of the chunking, and unpacking these chunks into any mapping restores the value of every index and changes nothing else. (The specialised functions do this only for sections with the extents of section 0, see C36.)", "quantifier": "all ranges, dimensions, chunk size sequences, memory contents", "why_tests_cant": "all chunk boundaries", "anchors": ["src/layout_lex.c:pack_lex", "src/layout_lex.c:unpack_lex", "src/layout.c:laik_layout_pack_gen", "src/layout.c:laik_layout_unpack_gen"]}
{"id": "C36", "title": "Specialised and generic pack/copy agree", "statement": "The lexicographic-layout implementation of pack/unpack/copy has the same effect as the generic implementation. (False for sections other than 0 with different extents.)", "quantifier": "all layouts, sections, ranges", "why_tests_cant": "a test fixes a few concrete shapes; the claim ranges over all of them and the unchecked shapes are where off-by-one errors live", "anchors": ["src/layout_lex.c:copy_lex", "src/layout_lex.c:pack_lex", "src/layout.c:laik_layout_copy_gen"]}
{"id": "C37", "title": "Reuse of mapping memory keeps values in place", "statement": "When a new mapping reuses the memory of an old one, every index of the new mapping lies in the old allocation at the same address as before. For any history of switches, every new mapping either reuses the memory of one old mapping this way or gets a new block of exactly the required size; mappings never overlap. (Not so if memory is provided by the user.)", "quantifier": "all layouts/sections/ranges, all histories of switches", "why_tests_cant": "a test fixes a few concrete shapes; the claim ranges over all of them and the unchecked shapes are where off-by-one errors live", "anchors": ["src/layout_lex.c:reuse_lex", "src/data.c:checkMapReuse", "src/data.c:initEmbeddedMapping"]}
{"id": "C38", "title": "Predefined reductions are associative and commutative", "statement": "Sum, product, min, max, and, or of the integer types are associative and commutative (unsigned types and char with wrap-around; int32/int64 sums and products as long as no intermediate result overflows, which is undefined), so results are independent of the order in which inputs are combined; a reduction changes only the output elements, which may be the same memory as an input.", "quantifier": "all values", "why_tests_cant": "2^64 values", "anchors": ["src/type.c:laik_int32_reduce", "src/type.c:laik_int64_reduce"]}
{"id": "C39", "title": "Initial values are neutral", "statement": "Initialising for a reduction writes the neutral element: reducing it with any value gives this value. (False for min and max.)", "quantifier": "all values, types and operations", "why_tests_cant": "all values", "anchors": ["src/type.c:laik_int32_init", "src/type.c:laik_double_init"]}
{"id": "C40", "title": "Reduction with fewer inputs", "statement": "Reducing with one missing input copies the other; with both missing it writes the neutral element into all elements. (False for several types.)", "quantifier": "all counts, values, types", "why_tests_cant": "a test fixes a few concrete shapes; the claim ranges over all of them and the unchecked shapes are where off-by-one errors live", "anchors": ["src/type.c:laik_int32_reduce"]}
{"id": "C41", "title": "Key-value store behaves as a map", "statement": "laik_kvs_get returns the last value set for the key and nothing for other keys, over any history of set/get/sort. (False for values that are proper prefixes of the old one; removals are not seen by count.)", "quantifier": "all histories of operations", "why_tests_cant": "unbounded histories", "anchors": ["src/kvs.c:laik_kvs_set", "src/kvs.c:laik_kvs_entry", "src/kvs.c:laik_kvs_sort"]}
{"id": "C42", "title": "Synchronisation makes stores agree", "statement": "After laik_kvs_sync on all processes with non-conflicting changes, all processes hold the same entries: the old ones updated by the changes of all processes, independent of the order of processes.", "quantifier": "all change sets, any number of processes", "why_tests_cant": "all distributions of changes", "anchors": ["src/kvs.c:laik_kvs_changes_merge", "src/kvs.c:laik_kvs_changes_sort", "src/kvs.c:laik_kvs_changes_apply", "src/backend-mpi.c:laik_mpi_sync"]}
{"id": "C43", "title": "Synchronisation without changes is harmless", "statement": "laik_kvs_sync may be called at any time, in particular if no process has changes or keys were removed or set twice. (False.)", "quantifier": "all histories", "why_tests_cant": "unbounded histories", "anchors": ["src/backend-mpi.c:laik_mpi_sync", "src/kvs.c:laik_kvs_remove"]}
{"id": "C44", "title": "Serialised spaces are restored", "statement": "A space published via the space store is restored with the same dimension and borders by every process that parses the string. The encoder never writes beyond its buffer. (The latter is false for 3d.)", "quantifier": "all spaces with 64-bit borders", "why_tests_cant": "all borders", "anchors": ["src/space.c:laik_space_serialize", "src/space.c:laik_space_set"]}
{"id": "C45", "title": "Global/local index translation is inverse", "statement": "laik_maplocal2global_1d undoes laik_global2maplocal_1d; the latter finds a mapping exactly for the indexes covered by the own maps.", "quantifier": "all mappings, all indexes", "why_tests_cant": "a test fixes a few concrete shapes; the claim ranges over all of them and the unchecked shapes are where off-by-one errors live", "anchors": ["src/data.c:laik_global2maplocal_1d", "src/data.c:laik_maplocal2global_1d"]}
{"id": "C46", "title": "Element addresses", "statement": "laik_get_map_addr returns distinct addresses inside the allocation for distinct owned indexes, the same address where transitions put the value. (False for mappings embedded in a larger allocation.)", "quantifier": "all mappings, indexes", "why_tests_cant": "a test fixes a few concrete shapes; the claim ranges over all of them and the unchecked shapes are where off-by-one errors live", "anchors": ["src/data.c:laik_get_map_addr", "src/data.c:initEmbeddedMapping"]}
{"id": "C47", "title": "Reservations", "statement": "After allocating a reservation for a set of partitionings, each of them gets mappings in the memory of the reservation when switching to it. There is one allocation per tag, just covering all own ranges with this tag in all of the partitionings, so an index in ranges with the same tag has the same address in all of them; elements with different tags or indexes do not overlap. Switching between reserved partitionings neither allocates nor frees memory nor moves values. Freeing the reservation should release its memory (this is false: it releases nothing).", "quantifier": "all sets of reserved partitionings with tagged own ranges, all element sizes, address choices of the allocator, and switches between any two of them", "why_tests_cant": "mappings of different partitionings are merged by tag and embedded in one another by address arithmetic; a test fixes a few shapes, but aliasing must be right for every pair of ranges in every pair of partitionings", "anchors": ["src/data.c:laik_reservation_alloc", "src/data.c:laik_reservation_free"]}
{"id": "C48", "title": "Grid partitioner tiles the space", "statement": "Whenever the 3d grid partitioner returns, each index of the space is given to exactly one process and each process gets one block. (Due to rounding of doubles it loses the last index for some sizes and the program ends.)", "quantifier": "all spaces and block counts per dimension", "why_tests_cant": "rounding of doubles goes wrong only for rare combinations of size and block count, such as 61 indexes in 7 blocks", "anchors": ["src/partitioner.c:runGridPartitioner"]}
{"id": "C49", "title": "Knowing only intersecting ranges is enough for a transition", "statement": "A process that stores only those ranges of two 1d partitionings that intersect one of its own ranges calculates exactly the same copies, messages and reductions (ranges, partners, groups, order) as a process that stores all ranges, and aborts in the same cases.", "quantifier": "all pairs of 1d partitionings, all groups, all processes", "why_tests_cant": "a range dropped wrongly shows only for particular overlaps of three or more processes", "anchors": ["src/space.c:calcAddReductions", "src/partitioning.c:laik_rangefilter_add_idxfilter", "src/partitioning.c:laik_partitioning_interranges"]}
{"id": "C50", "title": "Memory of a container is released exactly once", "statement": "In any history of switches, the memory blocks allocated and not yet freed are those of the active mappings; each block given to free is in use, is freed once and is not used by the new mappings. (laik_free does not release the memory of the active mappings.)", "quantifier": "all histories of switches between any partitionings, any addresses returned by the allocator", "why_tests_cant": "depends on the whole history: whether a block is freed depends on which later switches took it over", "anchors": ["src/data.c:freeMap", "src/data.c:freeMappingList", "src/data.c:checkMapReuse", "src/data.c:doTransition", "src/data.c:laik_free"]}
{"id": "C51", "title": "TCP messages do not depend on how bytes arrive", "statement": "Over a TCP connection between two processes, commands and binary frames are handled each exactly once, in the order sent and unchanged, no matter in which pieces the bytes arrive and how reads interleave with what the program does; after each read exactly the commands and elements read completely were handled; each read makes progress and no byte is lost. (A command of 8192 bytes or more ends the program.)", "quantifier": "all sequences of commands and frames, all ways to split the byte stream into reads, all behaviours of the program in between", "why_tests_cant": "how TCP splits a stream is decided by the network; a bug shows only if a read ends inside of a header, an element or at a full buffer", "anchors": ["src/backend-tcp2.c:process_rbuf", "src/backend-tcp2.c:got_bytes", "src/backend-tcp2.c:got_cmd", "src/backend-tcp2.c:got_binary_data"]}
{"id": "C52", "title": "Transfer of a range over TCP", "statement": "After permission was given, the values of a range sent by one process arrive at the other: the receive ends exactly when all bytes were read, each index of the range then has the value at the sender (or the reduction of the old value with it), and other memory is unchanged. This holds in binary and text mode, for all layouts of both mappings and all ways in which bytes arrive. (Elements of more than 8189 bytes abort in binary mode and those of 30 bytes or more overflow a buffer in text mode; ranges of 2^31 indexes abort.)", "quantifier": "all ranges in 1 to 3 dimensions, all mappings, values, reductions and ways to split the byte stream", "why_tests_cant": "depends on range sizes relative to buffer sizes, on shapes of both mappings and on how the stream is split", "anchors": ["src/backend-tcp2.c:send_range", "src/backend-tcp2.c:recv_range", "src/backend-tcp2.c:send_data_bin", "src/backend-tcp2.c:send_data", "src/backend-tcp2.c:got_data", "src/backend-tcp2.c:got_allowsend"]}
{"id": "C53", "title": "Switching with the TCP2 backend delivers all values and cannot deadlock", "statement": "When all processes of a group switch a 1d container to another partitioning with the TCP2 backend, then however the processes are scheduled none of them fails, and if each process gets its turn again and again all of them finish (no deadlock); all data sent was received. Afterwards each process has memory for all its indexes, and each index has the value its only owner had before, or the reduction of the values of all its owners; nothing else is changed. (Needs: an owner before for each index used afterwards; somebody using each index with several owners before; elements of at most 8189 bytes, 9 in text mode.)", "quantifier": "all group sizes, pairs of 1d partitionings, types, reductions, previous memory contents and reuse of memory, and all schedules of the processes", "why_tests_cant": "deadlocks and races depend on schedules and on the pattern of messages between processes; a test sees a few of both", "anchors": ["src/backend-tcp2.c:tcp2_exec", "src/backend-tcp2.c:exec_reduce", "src/backend-tcp2.c:send_range", "src/backend-tcp2.c:recv_range", "src/action.c:laik_aseq_sort_2phases", "src/data.c:laik_switchto_partitioning"]}
{"id": "C54", "title": "Synchronisation of stores with the TCP2 backend merges the changes of all processes and cannot deadlock", "statement": "Processes connected by TCP2 set string values in a store and call laik_kvs_sync, any number of rounds. However they are scheduled, and whenever messages are handled, none of them fails. A process sees the values set by all processes before its last synchronisation, and its own newer ones. If each process gets its turn again and again, all of them finish; then all stores have the contents of one store on which all values were set round by round, with the same entries at the same positions, and no message is left. (Needs: within a round, processes setting a key set the same value; names up to 29 characters, keys up to 30, key and value up to 89, values not empty and without blank at the begin or line ends; no removals.)", "quantifier": "all numbers of processes, numbers of rounds, keys, values and sequences of operations of each process, and all schedules of processes and message handling", "why_tests_cant": "fast processes enter the next synchronisation while slow ones still receive the changes of the last one, so failures depend on schedules; the protocol sends changes as text of limited size, so they depend on keys and values too", "anchors": ["src/backend-tcp2.c:tcp2_sync", "src/backend-tcp2.c:got_kvs", "src/backend-tcp2.c:got_kvs_allow", "src/backend-tcp2.c:got_kvs_changes", "src/backend-tcp2.c:got_kvs_data", "src/kvs.c:laik_kvs_sync", "src/kvs.c:laik_kvs_sets"]}
{"id": "C55", "title": "Switching a 2d or 3d container with the TCP2 backend delivers all values and cannot deadlock", "statement": "When all processes of a group switch a 2d or 3d container, preserving values, to another partitioning with the TCP2 backend, then however the processes are scheduled none of them fails, and if each process gets its turn again and again all of them finish; all data sent was received. Afterwards each process has memory for all its ranges (including overlapping ones such as halos), each index of each of them has the value which its only owner had before, at the address calculated from laik_get_map_2d / laik_get_map_3d, and memory outside the new mappings is not changed. (Needs: no index with two owners before; for each pair of processes, one range of the sender before or one range of the receiver afterwards; elements of at most 8189 bytes, in text mode 9 and 2d.)", "quantifier": "all group sizes, pairs of 2d or 3d partitionings, element sizes, previous memory contents and reuse of memory, and all schedules of the processes", "why_tests_cant": "the pattern of messages depends on the geometry of both partitionings, deadlocks and wrong matches of messages depend on schedules and on the numbers of ranges; a test sees a few of them", "anchors": ["src/backend-tcp2.c:tcp2_exec", "src/backend-tcp2.c:send_range", "src/backend-tcp2.c:recv_range", "src/action.c:laik_aseq_sort_2phases", "src/data.c:laik_switchto_partitioning", "src/transition.c:do_calc_transition", "src/data.c:laik_get_map_2d", "src/data.c:laik_get_map_3d"]}
{"id": "C56", "title": "A switch with the MPI backend and blocking messages delivers all values and needs no message buffering", "statement": "When all processes of a group switch a 1d container to another partitioning with the MPI backend without asynchronous messages, each index having one owner before, preparing the messages succeeds on each process (combining messages through buffers, sorting by rounds and phases, ...) and results in at most one message from each process to each other. Then, however the processes are scheduled, none of them fails and all of them can finish, even if from some point on MPI does not buffer messages and each send waits for its receive; all data sent was received. Afterwards each process has memory for all its indexes, each index has the value its only owner had before, and nothing else is changed except for the buffers reserved during preparation, which are not larger than the data moved.", "quantifier": "all group sizes, pairs of 1d partitionings with one owner per index before, types, previous memory contents and reuse of memory, results of qsort and malloc, and all schedules of the processes", "why_tests_cant": "which messages get combined, their order and thereby possible deadlocks depend on the pattern of messages among all processes and on the schedule; a test sees a few of both", "anchors": ["src/backend-mpi.c:laik_mpi_prepare", "src/backend-mpi.c:laik_mpi_exec", "src/action.c:laik_aseq_combineActions", "src/action.c:laik_aseq_allocBuffer", "src/action.c:laik_aseq_sort_2phases", "src/data.c:laik_switchto_partitioning"]}
{"id": "C57", "title": "A switch with the MPI backend and asynchronous messages delivers all values, however MPI progresses", "statement": "When all processes of a group switch a 1d container to another partitioning with the MPI backend and asynchronous messages, each index having one owner before, preparing the messages succeeds on each process and results in at most one message from each process to each other. Then, however the processes are scheduled and whenever MPI reads the buffers of started sends and writes the buffers of started receives, every execution is finite, no process fails, and all of them can finish, even if from some point on MPI does not buffer messages and completes a send only after its receive was started. When all are done, every request was completed and every message was received; each process has memory for all its indexes, each index has the value its only owner had before, and nothing else is changed except for the buffers reserved during preparation, which are not larger than the data moved.", "quantifier": "all group sizes, pairs of 1d partitionings with one owner per index before, types, previous memory contents and reuse of memory, results of qsort and malloc, all schedules of the processes and all times at which MPI completes requests, with or without buffering", "why_tests_cant": "when MPI reads and writes buffers of pending messages depends on the MPI library and timing; a buffer used too early or a cyclic wait shows only in some of the interleavings", "anchors": ["src/backend-mpi.c:laik_mpi_prepare", "src/backend-mpi.c:laik_mpi_asyncSendRecv", "src/backend-mpi.c:laik_mpi_exec", "src/action.c:laik_aseq_sort_rounds", "src/data.c:laik_switchto_partitioning"]}
{"id": "C58", "title": "Resizing the world with the TCP2 backend: all processes agree on the new world, nobody fails or waits forever", "statement": "Processes may ask to join at any time, and removal of processes may be asked for at any time (cutoff). When the master and all members of the world call laik_allow_world_resize, the resize takes place: the new world consists of the members not to be removed in their order, followed by one process per join request, each with a location ID not used before. However commands travel between the processes and however they are scheduled, no process fails; every process which is in the application sees the world of its epoch, its own rank in it (-1 if removed), the number of locations, and, until the resize is finished, the previous world with the ranks in both directions; members in the application are in the same epoch and phase. What is left to do for the library always ends, and then no process waits, except for members whose call is ahead of the call of another member or the master, and for joining processes until the next resize. Calls of removed processes return at once. A cutoff asks for the removal of exactly the matching members, and each registered process is asked for with the next call. If resizes are such that removals are not asked for twice, at most 100 requests are pending, and if any process joins, not more processes leave than join.", "quantifier": "all numbers of processes at start up to 256, any sequence of resizes with any joins and removals, all interleavings of the processes and of the delivery of commands on the connections, all contents of fresh memory, all phases handed to the calls other than -1", "why_tests_cant": "the protocol runs between all processes at once with joins and removals arriving at any moment; a test sees a few schedules of a few resizes", "anchors": ["src/core.c:laik_allow_world_resize", "src/core.c:laik_finish_world_resize", "src/core.c:laik_add_remove_req", "src/backend-tcp2.c:tcp2_resize", "src/backend-tcp2.c:tcp2_finish_resize", "src/backend-tcp2.c:got_cutoff", "src/backend-tcp2.c:got_register", "src/backend-tcp2.c:laik_init_tcp2"]}
{"id": "C59", "title": "Startup with the TCP2 backend: the world is complete, ranks are given in the order of registration, nobody fails or waits forever", "statement": "A master is started with LAIK_SIZE=n, and other processes are started at any time and in any order, possibly more than needed. No process fails. As soon as n-1 other processes are started, the master always finishes initialisation, and sees a world of n processes with rank 0 for itself, in epoch 0 and phase 0. Without any further call, the n-1 processes which registered first finish initialisation too: the k-th one to register sees the same world with rank k, in the same epoch and phase. All processes which registered later keep waiting; they take part in the next world resize (C58, which starts with the states reached here).", "quantifier": "all n from 1 to 256, all numbers of further processes, all interleavings of the processes, their starting times and the delivery of commands, all contents of fresh memory", "why_tests_cant": "depends on the order in which registrations and confirmations from all processes arrive; tests on one machine see mostly one order", "anchors": ["src/backend-tcp2.c:laik_init_tcp2", "src/backend-tcp2.c:startup_master", "src/backend-tcp2.c:got_register", "src/backend-tcp2.c:got_ok", "src/backend-tcp2.c:got_getready", "src/core.c:laik_new_instance"]}
{"id": "C60", "title": "Location strings: after laik_sync_location every process gets the location string of every process", "statement": "All processes call laik_sync_location. MPI backend: the first call succeeds in all processes, and afterwards laik_group_location returns in every process, for every process, exactly the location string that process has, and NULL for location IDs without process. TCP2 backend: any number of calls by all processes succeed, whatever the order in which processes run and messages arrive; in every fair execution all calls end, and afterwards laik_group_location returns in every process, for every process, exactly its location string; no access outside of the array with the strings happens. (Refuted and thus findings: a second call with the MPI backend; calls after the world has grown.)", "quantifier": "all numbers of processes up to 10^9, all location strings (C strings, not empty; for TCP2 short enough for a message and without line ends), all sort functions meeting the specification of qsort, for TCP2 all numbers of calls and all schedules of processes and messages", "why_tests_cant": "the result depends on the order of messages and of merging for every number of processes, and on the content of all strings", "anchors": ["src/core.c:laik_sync_location", "src/core.c:laik_group_location", "src/core.c:update_location", "src/core.c:locationkey", "src/kvs.c:laik_kvs_set", "src/kvs.c:laik_kvs_reg_callbacks"]}
{"id": "C61", "title": "Shared index spaces: after laik_sync_spaces all processes have the same spaces with the changed borders", "statement": "Processes publish index spaces by name, get them and change their borders, in any number of rounds which each end with laik_sync_spaces (MPI backend). After every round laik_spacestore_get works in every process for every name, and all processes get a space with the same dimension and borders, or all get none. A space published or changed by a process in the round is what all processes get afterwards; spaces nobody changed stay as they are. If two processes change a space differently, the synchronisation does not succeed. A process sees its own change at once, with the new borders, and no other space changes for it. If one process changes an existing space, the synchronisation succeeds. Space objects a process got before stay the same objects and show the changes. (Refuted and thus a finding: synchronisation without any change.)", "quantifier": "all numbers of processes, all histories of calls in all rounds, all names and all 64-bit borders (3d: borders short enough for the buffer, see C44), all contents of fresh memory, all sort functions meeting the specification of qsort", "why_tests_cant": "the merged result depends on all calls of all processes and on the contents of all stores before; every history and number of processes has to be covered", "anchors": ["src/space.c:update_space", "src/space.c:laik_spacestore_set", "src/space.c:laik_spacestore_get", "src/space.c:laik_sync_spaces", "src/space.c:laik_change_space_1d", "src/space.c:laik_change_space_2d", "src/space.c:laik_change_space_3d", "src/kvs.c:laik_kvs_sync"]}
{"id": "C62", "title": "A container over its life behaves like private copies combined by switches, and like one array if each index is written by its only owner", "statement": "A 1d container is used by a group of processes: in any order, processes write elements of their own part, addressed by laik_get_map_1d and laik_maplocal2global_1d, and all processes switch the container to other partitionings, with data flow none, init or preserve and any reduction. At every time, each process can access every index it owns, and has one value for it. Every switch succeeds, however the processes are scheduled. The values are those of a simple machine with a private copy per process and index: a write changes one copy and no other; a switch which preserves gives each new owner the reduction of the copies of all old owners, an init gives the neutral element. If each index is only written by its single owner (or copies of several owners are combined by minimum, maximum, and, or), the container behaves like one array: every process finds in its own part the values written last, wherever they were written. laik_global2maplocal_1d gives the place of the value of an own index if the maps of the process do not overlap. The first switch of a new container provides the memory, and init sets all elements. (Refuted and thus findings: an initialisation with indexes of 2^31 and more; the translation of an index if the index intervals of the maps of a process overlap.)", "quantifier": "all group sizes, all partitionings of a 1d space with own disjoint ranges (limits of C26), all histories of writes and switches of any length, all schedules of the messages of each switch, all memory contents, all addresses given by the allocator, all predefined types", "why_tests_cant": "the value read at the end depends on the complete history of writes, partitionings, memory reuse and message orders; every history of any length has to be covered", "anchors": ["src/data.c:laik_switchto_partitioning", "src/data.c:laik_switchto_flow", "src/data.c:laik_exec_transition", "src/data.c:doTransition", "src/data.c:initMaps", "src/data.c:laik_get_map_1d", "src/data.c:laik_maplocal2global_1d", "src/data.c:laik_global2maplocal_1d"]}
{"id": "C63", "title": "Queries on a partitioning give the same answers whichever range lists it stores", "statement": "A program creates a partitioning and calls, in any order and any number of times, laik_partitioning_store_allranges, store_myranges and store_intersectranges, and the queries laik_my_rangecount, laik_my_range, laik_my_range_1d/2d/3d, laik_my_mapcount, laik_my_maprangecount, laik_my_maprange, laik_partitioning_rangecount, get_taskrange, isAll, isSingle and coversSpace. Every answer is the one for the ranges the partitioner asks for, ordered by process, tag and first coordinate: the own ranges are enumerated completely and in this order, neighbours with the same non-zero tag share a map and all others have their own map, enumeration by map numbers gives exactly the own ranges of this map, borders are those of the range (0 if there is none). So answers about own ranges do not depend on which lists are stored, which queries came before, and which sorting function is used. Own queries are answered after a run storing own or all ranges, and queries about all processes after a run storing all ranges; otherwise the program aborts. A process outside of the group has no ranges. isAll, isSingle and coversSpace are only true if the ranges asked for are so. (Needed, with a counterexample: two own ranges with the same tag and first coordinate do not differ, otherwise their order depends on qsort.)", "quantifier": "all spaces of 1 to 3 dimensions, groups, deterministic partitioners adding ranges without merging (tags other than -1, see C07), all sequences of store calls and queries of any length, all correct sorting functions", "why_tests_cant": "the answer of a query depends on the stored lists, their order and cached map offsets left by earlier queries; every sequence of calls and every partitioner has to be covered", "anchors": ["src/partitioning.c:laik_partitioning_store_allranges", "src/partitioning.c:laik_partitioning_store_myranges", "src/partitioning.c:laik_partitioning_store_intersectranges", "src/partitioning.c:laik_my_range", "src/partitioning.c:laik_my_maprange", "src/partitioning.c:laik_my_range_1d", "src/partitioning.c:laik_partitioning_isAll", "src/rangelist.c:laik_rangelist_tidmaprange"]}
{"id": "C64", "title": "Log messages are printed completely and only if they should be", "statement": "A program calls laik_log_begin, laik_log_append, laik_log_flush, laik_log, laik_panic and laik_set_loglevel in any order. Exactly the messages whose level is at least the minimal level are printed, and only by processes within the location filter of LAIK_LOG; each message is the text given since the last laik_log_begin or flush. A printed message is complete: its lines, without prefix and added indentation, give every character of the message once and in order. A line ends at a newline of the message or, if the next word would pass column 100, at a space; continuation lines are indented by 4 more; only the last word of a line may pass column 100; this determines the output. It does not matter in which pieces the message was given. laik_panic prints its message and ends the program, and no other call ends it. (Needed, with counterexamples: pieces after the first are shorter than 1024 characters, words have up to 90 characters and indentation up to 100; for laik_panic: the message is shown at all and not empty.)", "quantifier": "all sequences of calls of any length, all texts within the bounds, all levels and filters, all prefixes of up to 40 characters (location, counters, time)", "why_tests_cant": "lengths of pieces against the growing message buffer, of words and indentation against line length and the line buffer: any text and any history of calls has to be covered", "anchors": ["src/logging.c:laik_log_begin", "src/logging.c:log_append", "src/logging.c:log_flush", "src/logging.c:laik_log_flush", "src/logging.c:laik_log", "src/logging.c:laik_panic"]}
{"id": "C65", "title": "MPI ranks in the communicator of a group are the process numbers of the group", "statement": "With the MPI backend, a group made from the world by any sequence of calls of laik_new_shrinked_group (called by all processes with the same lists) gets a communicator. All calls return in all processes, also in those removed before: no assertion fails and no process waits forever in MPI_Comm_split. Every process sees the same group of the processes left over, in order, and its own number in it (-1 if removed). In the communicator of a process of the group, the MPI rank of each process is its number in the group, there are no other processes, and all processes have the same communicator; so data sent to process t of the group reaches the location of t. (laik_new_union_group always ends the program with this backend if it has to make a new group.)", "quantifier": "all world sizes, all sequences of shrinks of any length with any lists (any order, duplicates, all processes removed), all processes", "why_tests_cant": "the order of ranks follows from keys computed by each process alone; every size, list and chain of groups has to be covered, and a missing participant of the collective call shows as a hang", "anchors": ["src/backend-mpi.c:laik_mpi_updateGroup", "src/backend-mpi.c:laik_init_mpi", "src/core.c:laik_new_shrinked_group", "src/core.c:laik_new_union_group"]}
{"id": "C66", "title": "A program with one process switches without communication", "statement": "In a program with one process (single-process backend), a switch which preserves data from one partitioning of a container to another sends and receives nothing. In 1d, if the process owns no index afterwards which it did not own before - so always if the old partitioning was made by a partitioner without LAIK_PF_NoFullCoverage - the switch returns with every reduction operation known to laik, nothing is left to the backend, every index owned afterwards is copied exactly once and nothing else is written. Without reduction, a 1d switch to an index without value ends the program. In 2d and 3d, a switch without reduction always returns, leaves nothing to the backend, and copies exactly the indexes owned before and afterwards. Switches which do not preserve data (initialisation, no data flow, first and last switch) copy nothing and leave nothing to the backend, with any number of processes. (With reductions: in 2d and 3d every such switch ends the program; in 1d, new indexes get the values of other indexes, or memory outside of the old mapping is read.)", "quantifier": "all spaces, all pairs of partitionings with one process (any ranges; non-empty, in 1d not overlapping), all reduction operations, all contents of memory", "why_tests_cant": "the cases where something is left to the backend depend on the positions of all ranges of both partitionings; the usual examples (All, Block with one process) never reach them", "anchors": ["src/backend-single.c:laik_single_exec", "src/data.c:doTransition", "src/space.c:do_calc_transition", "src/partitioner.c:laik_run_partitioner"]}
{"id": "C67", "title": "All processes choose the same reductions to be done by collective operations", "statement": "When a 1d switch with a reduction is prepared by the MPI backend, a reduction over a range to which all processes contribute is replaced by one collective operation (MPI_Allreduce or MPI_Reduce), if all processes or exactly one process need the result. Every process decides this from its own calculation of the switch. Any two processes choose the same ranges, with the same operation and the same root, in the same order; so no process waits in a collective operation another process does not call. A range is chosen exactly if all processes own its indexes before, and all (no root) or exactly one process, the root, own them afterwards. The replaced action keeps round, buffers, number of elements and operation; other reductions are kept. In 2d and 3d this does not hold: a reduction is never turned into a collective operation or messages, and the MPI backend ends the program when it has to execute it.", "quantifier": "all pairs of 1d partitionings with any ranges and up to 65536 processes, all reduction operations, all pairs of processes; 2d/3d: all action sequences", "why_tests_cant": "group numbers are local to a process and depend on the order in which groups are met; a different choice in one process shows as a hang for particular ownerships only", "anchors": ["src/action.c:laik_aseq_replaceWithAllReduce", "src/space.c:calcAddReductions", "src/space.c:getTaskGroup", "src/space.c:laik_trans_taskInGroup", "src/backend-mpi.c:laik_mpi_prepare"]}
