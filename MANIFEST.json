{
 "claims": [
  {
   "property": "C01",
   "status": "proved",
   "theorems": [
    "C01_intersect",
    "C01_intersect_any",
    "C01_empty_operand_refuted"
   ],
   "note": "space.c laik_range_intersect, dims 1..3. The documented NULL for an empty result fails for empty operands (refuted)."
  },
  {
   "property": "C02",
   "status": "proved",
   "theorems": [
    "C02_expand"
   ],
   "note": "space.c laik_range_expand"
  },
  {
   "property": "C03",
   "status": "proved",
   "theorems": [
    "C03_isEmpty",
    "C03_size",
    "C03_size_wraps",
    "C03_size_abort",
    "C03_within_sound",
    "C03_within_exact",
    "C03_within_empty_refuted",
    "C03_isEqual",
    "C03_other_space",
    "C03_within_space"
   ],
   "note": "containment is exact for non-empty left operands; refuted for empty ones"
  },
  {
   "property": "C04",
   "status": "proved",
   "theorems": [
    "C04_freeze_ownership",
    "C04_freeze_succeeds",
    "C04_freeze_merge_aborts",
    "C04_freeze_single_indexes"
   ],
   "note": "Ranges in any order, any tags, with/without merge, and single-index lists. Merging requires 1d and at least one range (otherwise the code aborts: C04_freeze_merge_aborts)."
  },
  {
   "property": "C05",
   "status": "proved",
   "theorems": [
    "C05_enumeration",
    "C05_enumeration_consistent"
   ],
   "note": ""
  },
  {
   "property": "C06",
   "status": "proved",
   "theorems": [
    "C06_merge"
   ],
   "note": ""
  },
  {
   "property": "C07",
   "status": "proved",
   "theorems": [
    "C07_map_numbers",
    "C07_map_enumeration",
    "C07_tag_minus_one_refuted"
   ],
   "note": "Tag -1 excluded: for it the claim is false of the code (C07_tag_minus_one_refuted)."
  },
  {
   "property": "C08",
   "status": "partial",
   "theorems": [
    "C08_coverage_sound",
    "C08_coverage_complete",
    "C08_coverage_1d_complete",
    "C08_empty_range_refuted",
    "C08_coverage_abort_refuted"
   ],
   "note": "Soundness for every list. Completeness for lists without empty ranges when the check returns; in 1d it always returns. The full claim is false of the code: C08_empty_range_refuted, C08_coverage_abort_refuted."
  },
  {
   "property": "C09",
   "status": "proved",
   "theorems": [
    "C09_isAll",
    "C09_isSingle",
    "C09_isEqual",
    "C09_isEqual_ownership"
   ],
   "note": ""
  },
  {
   "property": "C10",
   "status": "proved",
   "theorems": [
    "C10_block_structure",
    "C10_block_ownership",
    "C10_block_1d_accepted",
    "C10_block_exact",
    "C10_block_exact_balanced",
    "C10_block_abort_refuted",
    "C10_zero_cycles_refuted"
   ],
   "note": "All weights, any arithmetic (so any rounding); exact block borders and balance for exact arithmetic. The partitioner aborts for some inputs (C10_block_abort_refuted, C10_zero_cycles_refuted); without weights in 1d the result of a finished run is always accepted."
  },
  {
   "property": "C11",
   "status": "proved",
   "theorems": [
    "C11_bisection",
    "C11_bisection_1d_total",
    "C11_bisection_abort_refuted",
    "C11_bisection_empty_refuted"
   ],
   "note": "1d with at least as many indexes as processes always succeeds; otherwise it may abort or leave a process without indexes (refuted theorems)."
  },
  {
   "property": "C12",
   "status": "proved",
   "theorems": [
    "C12_all",
    "C12_master",
    "C12_all_master_total",
    "C12_copy"
   ],
   "note": ""
  },
  {
   "property": "C13",
   "status": "proved",
   "theorems": [
    "C13_cornerhalo"
   ],
   "note": "Base partitioning without empty ranges."
  },
  {
   "property": "C14",
   "status": "partial",
   "theorems": [
    "C14_halo_sound",
    "C14_halo_complete_partial",
    "C14_halo_border_refuted",
    "C14_halo_on_block_refuted"
   ],
   "note": "Soundness is proved in full; completeness only for base ranges that touch the border of the space or are more than depth away from it. Without that the claim is false of the code (C14_halo_border_refuted). The halo partitioner aborts on untagged ranges (C14_halo_on_block_refuted)."
  },
  {
   "property": "C15",
   "status": "proved",
   "theorems": [
    "C15_reassign",
    "C15_reassign_total"
   ],
   "note": "1d, as the code requires. Any index weights and any arithmetic."
  },
  {
   "property": "C16",
   "status": "proved",
   "theorems": [
    "C16_accepted_covers",
    "C16_run_ownership",
    "C16_accept_1d",
    "C16_run_defined"
   ],
   "note": "For all partitioners, seen as functions from parameters to append calls."
  },
  {
   "property": "C17",
   "status": "proved",
   "theorems": [
    "C17_own_ranges",
    "C17_intersecting_ranges",
    "C17_ascending",
    "C17_own_merge_abort_refuted",
    "C17_no_own_ranges_refuted",
    "C17_tags_refuted"
   ],
   "note": "Holds if the process owns something and its ranges are ascending; the three other cases are refuted."
  },
  {
   "property": "C18",
   "status": "proved",
   "theorems": [
    "C18_migrate",
    "C18_migrate_abort",
    "C18_shrink",
    "C18_back",
    "C18_union",
    "C18_unrelated",
    "C18_own_ranges",
    "C18_there_and_back",
    "C18_removed_own_list_refuted",
    "C18_map_query_refuted",
    "C18_list_migrate"
   ],
   "note": "any stored lists (full, own, intersecting), to shrunk groups, back to the parent, to and from unions; there and back is the identity; abort if a removed process has ranges. Findings: own list of a removed process makes the way back undefined; cached map offsets are stale after migration."
  },
  {
   "property": "C19",
   "status": "proved",
   "theorems": [
    "C19_shrink",
    "C19_shrink_abort",
    "C19_shrink_agree"
   ],
   "note": "all groups and removal lists; all processes compute the same group"
  },
  {
   "property": "C20",
   "status": "proved",
   "theorems": [
    "C20_union",
    "C20_union_agree"
   ],
   "note": "all groups, every qsort, any fresh memory; all processes compute the same group"
  },
  {
   "property": "C21",
   "status": "proved",
   "theorems": [
    "C21_transition",
    "C21_delivered_once",
    "C21_wide_space_refuted",
    "C21_overlap_refuted",
    "C21_empty_range_refuted"
   ],
   "note": "1d; requires at most 65536 processes, a space smaller than 2^31, no empty ranges, own ranges not overlapping (each restriction is needed: three refutations; more processes abort). Which calculations abort is characterised exactly (Handled)."
  },
  {
   "property": "C22",
   "status": "proved",
   "theorems": [
    "C22_messages_match"
   ],
   "note": "1d, same restrictions as C21; each process may use its own qsort"
  },
  {
   "property": "C23",
   "status": "proved",
   "theorems": [
    "C23_reductions_agree",
    "C23_groups",
    "C23_group_queries"
   ],
   "note": "1d, same restrictions as C21"
  },
  {
   "property": "C24",
   "status": "proved",
   "theorems": [
    "C24_init"
   ],
   "note": "all dimensions; without a reduction the calculation aborts if the process owns anything"
  },
  {
   "property": "C25",
   "status": "partial",
   "theorems": [
    "C25_transition_partial",
    "C25_messages_match_partial",
    "C25_reduction",
    "C25_unmatched_send_refuted",
    "C25_message_order_refuted"
   ],
   "note": "Proved for a unique owner before and no empty ranges; messages match as multisets, and in order if one end has one range. The full claim is false of the code (two refutations)."
  },
  {
   "property": "C26",
   "status": "partial",
   "theorems": [
    "C26_switch_partial",
    "C26_single_owner",
    "C26_determined",
    "C26_integers",
    "C26_floats"
   ],
   "note": "1d containers on the backend with the plan of messages and reductions (flatten/combine/buffer/async/all-reduce passes are C27-C33 and not composed); 2d/3d switches only piecewise (C25, C36, C37)"
  },
  {
   "property": "C27",
   "status": "proved",
   "theorems": [
    "C27_no_deadlock",
    "C27_delivery"
   ],
   "note": "any sort algorithm; executions with messages unbuffered or buffered at will; every reachable state can go on without buffering, executions are finite, and messages meet their counterparts in order"
  },
  {
   "property": "C28",
   "status": "proved",
   "theorems": [
    "C28_no_deadlock",
    "C28_delivery",
    "C28_total",
    "C28_other_action_refuted"
   ],
   "note": "as C27, for up to 2^31 processes; returns for sequences of messages only; aborts with another action in the round of a message (proved)"
  },
  {
   "property": "C29",
   "status": "proved",
   "theorems": [
    "C29_rounds",
    "C29_2phases",
    "C29_rankdigits"
   ],
   "note": "for all three sort functions: ascending rounds, same actions, order between partners, order of the other actions, rounds renumbered strictly monotonic without gaps; unchanged if reported so"
  },
  {
   "property": "C30",
   "status": "proved",
   "theorems": [
    "C30_semantics",
    "C30_messages_only",
    "C30_one_message",
    "C30_areas",
    "C30_no_abort",
    "C30_unchanged",
    "C30_late_round_refuted",
    "C30_large_refuted"
   ],
   "note": "C30_semantics: for any memory, incoming streams and other actions, the sequence before and after combining is stuck or not together, and ends with the same outgoing streams, remaining input and memory outside the new buffer (C30_messages_only: the same with elementary conditions for sequences of messages); C30_one_message: one message per partner and round with all elements; C30_areas: temporary areas are disjoint and inside the reservation; C30_no_abort, C30_unchanged. Preconditions found necessary: rounds below 85 (C30_late_round_refuted) and less than 4 GB of messages (C30_large_refuted)."
  },
  {
   "property": "C31",
   "status": "proved",
   "theorems": [
    "C31_allocation",
    "C31_no_abort",
    "C31_detected",
    "C31_large_refuted",
    "C31_check_refuted"
   ],
   "note": "C31_allocation: buffer of exactly the summed size, reservations inside and disjoint, every action kept with the resulting address, accesses inside their reservation, execution unchanged; C31_no_abort, C31_detected. Preconditions found necessary: sums and accesses below 4 GB (C31_large_refuted, C31_check_refuted). For copy entries the code only checks the number of entries, so their positions are not covered here (C30_areas covers what combining generates)."
  },
  {
   "property": "C32",
   "status": "proved",
   "theorems": [
    "C32_split",
    "C32_value",
    "C32_integers",
    "C32_sequence",
    "C32_new_buffers",
    "C32_limit_refuted",
    "C32_same_everywhere_refuted"
   ],
   "note": "Sequences of any length; groups of up to 32 inputs (more abort: C32_limit_refuted); messages with buffered sends, any schedule. Floating point sums may differ between processes (C32_same_everywhere_refuted)."
  },
  {
   "property": "C33",
   "status": "proved",
   "theorems": [
    "C33_sequence",
    "C33_unchanged",
    "C33_requests",
    "C33_result",
    "C33_ends",
    "C33_race_refuted",
    "C33_late_round_refuted"
   ],
   "note": "C33_sequence: the exact program after transformation and sorting (never aborts below round 253); C33_requests: every request is started once, waited for once, afterwards; C33_result: under AsyncSafe every run (any order of completion) has the effect of the blocking one and can always go on; C33_ends: all runs are finite. Refuted beyond: C33_race_refuted (in-place group reduction: a buffer is overwritten while an asynchronous send may still read it), C33_late_round_refuted."
  },
  {
   "property": "C34",
   "status": "proved",
   "theorems": [
    "C34_create",
    "C34_create_empty",
    "C34_offsets",
    "C34_rank",
    "C34_section",
    "C34_outside_refuted"
   ],
   "note": "sections of at most 2^64-1 indexes; indexes outside the section are not rejected (C34_outside_refuted)"
  },
  {
   "property": "C35",
   "status": "proved",
   "theorems": [
    "C35_pack_step",
    "C35_pack_any_chunks",
    "C35_unpack_step",
    "C35_roundtrip"
   ],
   "note": "for the generic functions, and for the specialised functions when the section has the extents of section 0; for other sections the specialised functions are wrong (C36_pack_refuted)"
  },
  {
   "property": "C36",
   "status": "proved",
   "theorems": [
    "C36_pack_agree",
    "C36_unpack_agree",
    "C36_copy_agree",
    "C36_pack_refuted",
    "C36_copy_refuted"
   ],
   "note": "agreement for sections with the extents of section 0; refuted otherwise"
  },
  {
   "property": "C37",
   "status": "proved",
   "theorems": [
    "C37_own_ranges",
    "C37_switch",
    "C37_history",
    "C37_provided_memory_refuted",
    "C37_reuse_offsets",
    "C37_reuse_decides"
   ],
   "note": "layout level and container level, any history of switches without memory provided by the user and without reservations; with provided memory values can be lost (refuted)"
  },
  {
   "property": "C38",
   "status": "proved",
   "theorems": [
    "C38_reduce_elements",
    "C38_reduced_unique",
    "C38_reduced_exact",
    "C38_overflow",
    "C38_unsupported",
    "C38_order_independent",
    "C38_order_total",
    "C38_signed_order_refuted",
    "C38_float_minmax",
    "C38_float_comm",
    "C38_float_order_refuted"
   ],
   "note": "element-wise effect on memory for all integer types; order independence over arbitrary combination trees; float sums/minima shown order dependent"
  },
  {
   "property": "C39",
   "status": "proved",
   "theorems": [
    "C39_neutral",
    "C39_minmax_refuted",
    "C39_float_neutral",
    "C39_float_minmax_refuted"
   ],
   "note": "sum, product, and, or of all integer types and sum, product of float/double; min/max refuted for all types (absorbing value is written)"
  },
  {
   "property": "C40",
   "status": "proved",
   "theorems": [
    "C40_one_missing",
    "C40_one_missing_float",
    "C40_both_missing",
    "C40_both_missing_uchar",
    "C40_both_missing_refuted",
    "C40_uchar_min_refuted"
   ],
   "note": "one missing input copies; both missing correct for char, float, double and (except min/max) uchar; refuted for the other integer types"
  },
  {
   "property": "C41",
   "status": "proved",
   "theorems": [
    "C41_map",
    "C41_iterate",
    "C41_strings",
    "C41_blocks",
    "C41_prefix_refuted",
    "C41_overread_refuted",
    "C41_removed_refuted"
   ],
   "note": "map behaviour for every history of set/sets/remove/clean/sort/sync (single) over prefix-free value classes; enumeration and order; refuted for values that are prefixes of each other (dropped / over-read) and for counting of removed keys"
  },
  {
   "property": "C42",
   "status": "proved",
   "theorems": [
    "C42_agree",
    "C42_result",
    "C42_conflict_detected",
    "C42_order",
    "C42_total"
   ],
   "note": "MPI backend sync as in laik_mpi_sync: agreement after any number of rounds, exact result, conflicts detected, independence of process order, and success for non-conflicting single changes"
  },
  {
   "property": "C43",
   "status": "proved",
   "theorems": [
    "C43_no_changes_refuted",
    "C43_no_changes",
    "C43_removal",
    "C43_twice",
    "C43_short_refuted",
    "C43_single"
   ],
   "note": "refuted as stated: MPI sync aborts without changes, after any removal, after two changes of a key, and for a single minimal change; the failing cases are proved in general; for the single backend sync is always harmless"
  },
  {
   "property": "C44",
   "status": "proved",
   "theorems": [
    "C44_roundtrip",
    "C44_distinct",
    "C44_fits",
    "C44_get",
    "C44_published",
    "C44_set_is_op",
    "C44_3d_refuted",
    "C44_usable_refuted"
   ],
   "note": "encoding and decoding of all spaces with 64-bit borders, composed with the store synchronisation of C42. The claim that the encoder never writes beyond its buffer is false for 3d (C44_3d_refuted), and restored space objects are not fully initialised (C44_usable_refuted)"
  },
  {
   "property": "C45",
   "status": "proved",
   "theorems": [
    "C45_global2local",
    "C45_own_found",
    "C45_local2global"
   ],
   "note": "for active mappings of any history of switches"
  },
  {
   "property": "C46",
   "status": "proved",
   "theorems": [
    "C46_map_1d",
    "C46_map_2d",
    "C46_map_3d",
    "C46_distinct",
    "C46_no_map",
    "C46_addr",
    "C46_addr_refuted"
   ],
   "note": "laik_get_map_1d/2d/3d in general; laik_get_map_addr for maps which did not take over memory of a map with another start, refuted for these"
  },
  {
   "property": "C47",
   "status": "proved",
   "theorems": [
    "C47_reservable",
    "C47_reserved",
    "C47_address",
    "C47_blocks",
    "C47_switch",
    "C47_free_refuted",
    "C47_leak_refuted",
    "C47_retag_refuted",
    "C47_untagged_refuted"
   ],
   "note": "For own ranges with tags > 0 (C47_reservable; untagged ranges are allowed if a process has only one mapping, see Reservable). False parts are refuted: freeing releases nothing (C47_free_refuted for every reservation, C47_leak_refuted), values of an index which changes its tag are lost (C47_retag_refuted), untagged ranges in several mappings and tag -1 stop the program (C47_untagged_refuted)."
  },
  {
   "property": "C48",
   "status": "partial",
   "theorems": [
    "C48_grid_partial",
    "C48_grid_rounding_refuted"
   ],
   "note": "Proved for every border computation that starts and ends at the border of the space and does not decrease; the double arithmetic of the code misses that for some sizes (C48_grid_rounding_refuted)."
  },
  {
   "property": "C49",
   "status": "proved",
   "theorems": [
    "C49_filtered_transition"
   ],
   "note": "1d"
  },
  {
   "property": "C50",
   "status": "proved",
   "theorems": [
    "C50_no_leak",
    "C50_frees",
    "C50_free_refuted"
   ],
   "note": "no reservations, no provided memory; laik_free releasing nothing is a refutation"
  },
  {
   "property": "C51",
   "status": "proved",
   "theorems": [
    "C51_framing",
    "C51_any_split",
    "C51_carriage_return",
    "C51_long_command_refuted"
   ],
   "note": "For all sequences of commands/frames and all arrival patterns. Hypothesis on the program: a started receive is left alone (recv_range does)."
  },
  {
   "property": "C52",
   "status": "proved",
   "theorems": [
    "C52_permission",
    "C52_late_data",
    "C52_transfer",
    "C52_binary_total",
    "C52_text_total",
    "C52_large_elements_refuted",
    "C52_text_elements_refuted",
    "C52_large_ranges_refuted"
   ],
   "note": "Binary and text mode, all dimensions, any reduction operator on bytes. Restrictions are refuted limits (element size, range size)."
  },
  {
   "property": "C53",
   "status": "proved",
   "theorems": [
    "C53_switch",
    "C53_self_copy",
    "C53_nobody_after_refuted",
    "C53_nobody_before_refuted"
   ],
   "note": "All group sizes, pairs of 1d partitionings and schedules. The hypotheses on owners and element size are refuted limits. memcpy from an area to itself is taken to change nothing (C53_self_copy)."
  },
  {
   "property": "C54",
   "status": "proved",
   "theorems": [
    "C54_sync",
    "C54_agree",
    "C54_terminates",
    "C54_remove_refuted",
    "C54_set_remove_refuted",
    "C54_binary_refuted",
    "C54_long_key_refuted",
    "C54_long_value_refuted",
    "C54_blank_refuted",
    "C54_conflict_refuted",
    "C54_long_name_refuted",
    "C54_empty_refuted"
   ],
   "note": "C54_sync: no failure under any schedule, and what a running process sees; C54_agree: contents at the end; C54_terminates: fair schedules end. Removals, long keys/values, empty values, conflicts refuted with witnesses."
  },
  {
   "property": "C55",
   "status": "proved",
   "theorems": [
    "C55_switch_nd",
    "C55_message_order_refuted"
   ],
   "note": "For all 2d and 3d switches preserving values where, for each pair of processes, the sender has one range before or the receiver one afterwards; without that values can be interchanged (C55_message_order_refuted)."
  },
  {
   "property": "C56",
   "status": "proved",
   "theorems": [
    "C56_blocking"
   ],
   "note": "For all 1d switches with one owner per index before (no reductions; those are C26) with less than 4 GB moved per process. The buffers must not overlap with memory in use, as malloc guarantees."
  },
  {
   "property": "C57",
   "status": "proved",
   "theorems": [
    "C57_async"
   ],
   "note": "1d containers with one owner per index before (no reductions), all transformations of laik_mpi_prepare with LAIK_MPI_ASYNC=1; MPI requests complete at any time; one step of MPI reads or writes a whole buffer"
  },
  {
   "property": "C58",
   "status": "proved",
   "theorems": [
    "C58_safe",
    "C58_agree",
    "C58_call",
    "C58_terminates",
    "C58_rest",
    "C58_cutoff",
    "C58_join",
    "C58_leave_more_than_join_refuted",
    "C58_cutoff_twice_refuted",
    "C58_cutoff_removed_refuted",
    "C58_many_requests_refuted",
    "C58_cutoff_forgotten_refuted"
   ],
   "note": "safety, agreement, calls, rest states, termination and requests of the resize protocol for all runs, starting with the states reached by startup (C59); the conditions on requests are necessary (refuted theorems). Connections do not break and sending does not block in the model; release of the previous group (reference counts) is not part of it."
  },
  {
   "property": "C59",
   "status": "proved",
   "theorems": [
    "C59_safe",
    "C59_terminates",
    "C59_rest",
    "C59_master",
    "C59_started",
    "C59_later_safe",
    "C59_later_terminates",
    "C59_negative_size_refuted"
   ],
   "note": "safety, termination, rest states of startup, and what master and other processes see afterwards. Connections do not break and sending does not block in the model; a cutoff command during startup is not modelled."
  },
  {
   "property": "C60",
   "status": "proved",
   "theorems": [
    "C60_mpi",
    "C60_mpi_again_refuted",
    "C60_tcp2_safe",
    "C60_tcp2",
    "C60_tcp2_terminates",
    "C60_growth_refuted",
    "C60_newcomer_refuted"
   ],
   "note": "MPI: first call; TCP2: any number of calls and any schedule. The second call with MPI and calls after a growth of the world are refuted (findings). Removal callback not modelled (never called here)."
  },
  {
   "property": "C61",
   "status": "proved",
   "theorems": [
    "C61_agree",
    "C61_change",
    "C61_unchanged",
    "C61_conflict",
    "C61_own",
    "C61_one_change",
    "C61_in_place",
    "C61_idle_refuted"
   ],
   "note": "MPI backend. C61_agree: all processes get the same spaces after every round; C61_change, C61_unchanged, C61_conflict: effect of a round; C61_own: effect of a change before the synchronisation; C61_one_change: success; C61_in_place: object identity. C61_idle_refuted: a finding (synchronisation without changes aborts)"
  },
  {
   "property": "C62",
   "status": "proved",
   "theorems": [
    "C62_access",
    "C62_progress",
    "C62_history",
    "C62_array",
    "C62_first",
    "C62_integers",
    "C62_floats",
    "C62_same_copies",
    "C62_global2local",
    "C62_global2local_refuted",
    "C62_init_refuted"
   ],
   "note": "C62_access: each own index has an address and one value; C62_progress: every switch succeeds, for all schedules; C62_history: private copies combined by switches; C62_array: one array; C62_first: the first switch; C62_integers, C62_floats, C62_same_copies: the predefined types meet the conditions; C62_global2local: index translation. 1d containers, action sequence of C26 (MPI backend); the next operation starts when all processes finished the switch. C62_init_refuted, C62_global2local_refuted: findings (initialisation with indexes which do not fit into an int; index translation with overlapping maps)."
  },
  {
   "property": "C63",
   "status": "proved",
   "theorems": [
    "C63_answers",
    "C63_order",
    "C63_defined",
    "C63_same",
    "C63_new",
    "C63_by_map",
    "C63_ties_refuted"
   ],
   "note": "partitioning.c store calls and queries over any history; non-merging partitioners which add ranges. Needs distinct (tag, first coordinate) per process, refuted without."
  },
  {
   "property": "C64",
   "status": "proved",
   "theorems": [
    "C64_messages",
    "C64_complete",
    "C64_unique",
    "C64_pieces",
    "C64_pieces_refuted",
    "C64_word_refuted",
    "C64_panic_refuted",
    "C64_panic"
   ],
   "note": "C64_messages covers all sequences of calls; C64_unique shows that the specification determines the output. Bounds on pieces and words are needed (refuted otherwise); laik_panic may return (refuted)"
  },
  {
   "property": "C65",
   "status": "proved",
   "theorems": [
    "C65_ranks",
    "C65_same",
    "C65_invalid",
    "C65_union_refuted"
   ],
   "note": "C65_ranks covers all chains of shrinks; MPI_Comm_split is modelled by the MPI standard. C65_union_refuted: uniting groups aborts with this backend"
  },
  {
   "property": "C66",
   "status": "proved",
   "theorems": [
    "C66_local",
    "C66_backend_idle",
    "C66_covering",
    "C66_missing",
    "C66_messages",
    "C66_local_nd",
    "C66_no_data",
    "C66_reduction_nd_refuted",
    "C66_misplaced_refuted",
    "C66_outside_refuted",
    "C66_nothing_before_refuted"
   ],
   "note": "1d, 2d and 3d, one process. C66_local, C66_backend_idle, C66_covering, C66_missing, C66_messages, C66_local_nd, C66_no_data; the defects of reductions with this backend are the theorems _refuted."
  },
  {
   "property": "C67",
   "status": "proved",
   "theorems": [
    "C67_same",
    "C67_meaning",
    "C67_replaced",
    "C67_nd_refuted"
   ],
   "note": "C67_same, C67_meaning (exactly when), C67_replaced for 1d; C67_nd_refuted: 2d and 3d reductions stay in the sequence, and the MPI backend has no case for them."
  }
 ]
}