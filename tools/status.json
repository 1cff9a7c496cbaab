{
 "C01": [
  "proved",
  "space.c laik_range_intersect, dims 1..3. The documented NULL for an empty result fails for empty operands (refuted)."
 ],
 "C02": [
  "proved",
  "space.c laik_range_expand"
 ],
 "C03": [
  "proved",
  "containment is exact for non-empty left operands; refuted for empty ones"
 ],
 "C04": [
  "proved",
  "Ranges in any order, any tags, with/without merge, and single-index lists. Merging requires 1d and at least one range (otherwise the code aborts: C04_freeze_merge_aborts)."
 ],
 "C05": [
  "proved",
  ""
 ],
 "C06": [
  "proved",
  ""
 ],
 "C07": [
  "proved",
  "Tag -1 excluded: for it the claim is false of the code (C07_tag_minus_one_refuted)."
 ],
 "C08": [
  "partial",
  "Soundness for every list. Completeness for lists without empty ranges when the check returns; in 1d it always returns. The full claim is false of the code: C08_empty_range_refuted, C08_coverage_abort_refuted."
 ],
 "C09": [
  "proved",
  ""
 ],
 "C10": [
  "proved",
  "All weights, any arithmetic (so any rounding); exact block borders and balance for exact arithmetic. The partitioner aborts for some inputs (C10_block_abort_refuted, C10_zero_cycles_refuted); without weights in 1d the result of a finished run is always accepted."
 ],
 "C11": [
  "proved",
  "1d with at least as many indexes as processes always succeeds; otherwise it may abort or leave a process without indexes (refuted theorems)."
 ],
 "C12": [
  "proved",
  ""
 ],
 "C13": [
  "proved",
  "Base partitioning without empty ranges."
 ],
 "C14": [
  "partial",
  "Soundness is proved in full; completeness only for base ranges that touch the border of the space or are more than depth away from it. Without that the claim is false of the code (C14_halo_border_refuted). The halo partitioner aborts on untagged ranges (C14_halo_on_block_refuted)."
 ],
 "C15": [
  "proved",
  "1d, as the code requires. Any index weights and any arithmetic."
 ],
 "C16": [
  "proved",
  "For all partitioners, seen as functions from parameters to append calls."
 ],
 "C17": [
  "proved",
  "Holds if the process owns something and its ranges are ascending; the three other cases are refuted."
 ],
 "C18": [
  "proved",
  "any stored lists (full, own, intersecting), to shrunk groups, back to the parent, to and from unions; there and back is the identity; abort if a removed process has ranges. Findings: own list of a removed process makes the way back undefined; cached map offsets are stale after migration."
 ],
 "C19": [
  "proved",
  "all groups and removal lists; all processes compute the same group"
 ],
 "C20": [
  "proved",
  "all groups, every qsort, any fresh memory; all processes compute the same group"
 ],
 "C21": [
  "proved",
  "1d; requires at most 65536 processes, a space smaller than 2^31, no empty ranges, own ranges not overlapping (each restriction is needed: three refutations; more processes abort). Which calculations abort is characterised exactly (Handled)."
 ],
 "C22": [
  "proved",
  "1d, same restrictions as C21; each process may use its own qsort"
 ],
 "C23": [
  "proved",
  "1d, same restrictions as C21"
 ],
 "C24": [
  "proved",
  "all dimensions; without a reduction the calculation aborts if the process owns anything"
 ],
 "C25": [
  "partial",
  "Proved for a unique owner before and no empty ranges; messages match as multisets, and in order if one end has one range. The full claim is false of the code (two refutations)."
 ],
 "C26": [
  "partial",
  "1d containers on the backend with the plan of messages and reductions (flatten/combine/buffer/async/all-reduce passes are C27-C33 and not composed); 2d/3d switches only piecewise (C25, C36, C37)"
 ],
 "C27": [
  "proved",
  "any sort algorithm; executions with messages unbuffered or buffered at will; every reachable state can go on without buffering, executions are finite, and messages meet their counterparts in order"
 ],
 "C28": [
  "proved",
  "as C27, for up to 2^31 processes; returns for sequences of messages only; aborts with another action in the round of a message (proved)"
 ],
 "C29": [
  "proved",
  "for all three sort functions: ascending rounds, same actions, order between partners, order of the other actions, rounds renumbered strictly monotonic without gaps; unchanged if reported so"
 ],
 "C30": [
  "proved",
  "C30_semantics: for any memory, incoming streams and other actions, the sequence before and after combining is stuck or not together, and ends with the same outgoing streams, remaining input and memory outside the new buffer (C30_messages_only: the same with elementary conditions for sequences of messages); C30_one_message: one message per partner and round with all elements; C30_areas: temporary areas are disjoint and inside the reservation; C30_no_abort, C30_unchanged. Preconditions found necessary: rounds below 85 (C30_late_round_refuted) and less than 4 GB of messages (C30_large_refuted)."
 ],
 "C31": [
  "proved",
  "C31_allocation: buffer of exactly the summed size, reservations inside and disjoint, every action kept with the resulting address, accesses inside their reservation, execution unchanged; C31_no_abort, C31_detected. Preconditions found necessary: sums and accesses below 4 GB (C31_large_refuted, C31_check_refuted). For copy entries the code only checks the number of entries, so their positions are not covered here (C30_areas covers what combining generates)."
 ],
 "C32": [
  "proved",
  "Sequences of any length; groups of up to 32 inputs (more abort: C32_limit_refuted); messages with buffered sends, any schedule. Floating point sums may differ between processes (C32_same_everywhere_refuted)."
 ],
 "C33": [
  "proved",
  "C33_sequence: the exact program after transformation and sorting (never aborts below round 253); C33_requests: every request is started once, waited for once, afterwards; C33_result: under AsyncSafe every run (any order of completion) has the effect of the blocking one and can always go on; C33_ends: all runs are finite. Refuted beyond: C33_race_refuted (in-place group reduction: a buffer is overwritten while an asynchronous send may still read it), C33_late_round_refuted."
 ],
 "C34": [
  "proved",
  "sections of at most 2^64-1 indexes; indexes outside the section are not rejected (C34_outside_refuted)"
 ],
 "C35": [
  "proved",
  "for the generic functions, and for the specialised functions when the section has the extents of section 0; for other sections the specialised functions are wrong (C36_pack_refuted)"
 ],
 "C36": [
  "proved",
  "agreement for sections with the extents of section 0; refuted otherwise"
 ],
 "C37": [
  "proved",
  "layout level and container level, any history of switches without memory provided by the user and without reservations; with provided memory values can be lost (refuted)"
 ],
 "C38": [
  "proved",
  "element-wise effect on memory for all integer types; order independence over arbitrary combination trees; float sums/minima shown order dependent"
 ],
 "C39": [
  "proved",
  "sum, product, and, or of all integer types and sum, product of float/double; min/max refuted for all types (absorbing value is written)"
 ],
 "C40": [
  "proved",
  "one missing input copies; both missing correct for char, float, double and (except min/max) uchar; refuted for the other integer types"
 ],
 "C41": [
  "proved",
  "map behaviour for every history of set/sets/remove/clean/sort/sync (single) over prefix-free value classes; enumeration and order; refuted for values that are prefixes of each other (dropped / over-read) and for counting of removed keys"
 ],
 "C42": [
  "proved",
  "MPI backend sync as in laik_mpi_sync: agreement after any number of rounds, exact result, conflicts detected, independence of process order, and success for non-conflicting single changes"
 ],
 "C43": [
  "proved",
  "refuted as stated: MPI sync aborts without changes, after any removal, after two changes of a key, and for a single minimal change; the failing cases are proved in general; for the single backend sync is always harmless"
 ],
 "C44": [
  "proved",
  "encoding and decoding of all spaces with 64-bit borders, composed with the store synchronisation of C42. The claim that the encoder never writes beyond its buffer is false for 3d (C44_3d_refuted), and restored space objects are not fully initialised (C44_usable_refuted)"
 ],
 "C45": [
  "proved",
  "for active mappings of any history of switches"
 ],
 "C46": [
  "proved",
  "laik_get_map_1d/2d/3d in general; laik_get_map_addr for maps which did not take over memory of a map with another start, refuted for these"
 ],
 "C47": [
  "proved",
  "For own ranges with tags > 0 (C47_reservable; untagged ranges are allowed if a process has only one mapping, see Reservable). False parts are refuted: freeing releases nothing (C47_free_refuted for every reservation, C47_leak_refuted), values of an index which changes its tag are lost (C47_retag_refuted), untagged ranges in several mappings and tag -1 stop the program (C47_untagged_refuted)."
 ],
 "C48": [
  "partial",
  "Proved for every border computation that starts and ends at the border of the space and does not decrease; the double arithmetic of the code misses that for some sizes (C48_grid_rounding_refuted)."
 ],
 "C49": [
  "proved",
  "1d"
 ],
 "C50": [
  "proved",
  "no reservations, no provided memory; laik_free releasing nothing is a refutation"
 ],
 "C51": [
  "proved",
  "For all sequences of commands/frames and all arrival patterns. Hypothesis on the program: a started receive is left alone (recv_range does)."
 ],
 "C52": [
  "proved",
  "Binary and text mode, all dimensions, any reduction operator on bytes. Restrictions are refuted limits (element size, range size)."
 ],
 "C53": [
  "proved",
  "All group sizes, pairs of 1d partitionings and schedules. The hypotheses on owners and element size are refuted limits. memcpy from an area to itself is taken to change nothing (C53_self_copy)."
 ],
 "C54": [
  "proved",
  "C54_sync: no failure under any schedule, and what a running process sees; C54_agree: contents at the end; C54_terminates: fair schedules end. Removals, long keys/values, empty values, conflicts refuted with witnesses."
 ],
 "C55": [
  "proved",
  "For all 2d and 3d switches preserving values where, for each pair of processes, the sender has one range before or the receiver one afterwards; without that values can be interchanged (C55_message_order_refuted)."
 ],
 "C56": [
  "proved",
  "For all 1d switches with one owner per index before (no reductions; those are C26) with less than 4 GB moved per process. The buffers must not overlap with memory in use, as malloc guarantees."
 ],
 "C57": [
  "proved",
  "1d containers with one owner per index before (no reductions), all transformations of laik_mpi_prepare with LAIK_MPI_ASYNC=1; MPI requests complete at any time; one step of MPI reads or writes a whole buffer"
 ],
 "C58": [
  "proved",
  "safety, agreement, calls, rest states, termination and requests of the resize protocol for all runs, starting with the states reached by startup (C59); the conditions on requests are necessary (refuted theorems). Connections do not break and sending does not block in the model; release of the previous group (reference counts) is not part of it."
 ],
 "C59": [
  "proved",
  "safety, termination, rest states of startup, and what master and other processes see afterwards. Connections do not break and sending does not block in the model; a cutoff command during startup is not modelled."
 ],
 "C60": [
  "proved",
  "MPI: first call; TCP2: any number of calls and any schedule. The second call with MPI and calls after a growth of the world are refuted (findings). Removal callback not modelled (never called here)."
 ],
 "C61": [
  "proved",
  "MPI backend. C61_agree: all processes get the same spaces after every round; C61_change, C61_unchanged, C61_conflict: effect of a round; C61_own: effect of a change before the synchronisation; C61_one_change: success; C61_in_place: object identity. C61_idle_refuted: a finding (synchronisation without changes aborts)"
 ],
 "C62": [
  "proved",
  "C62_access: each own index has an address and one value; C62_progress: every switch succeeds, for all schedules; C62_history: private copies combined by switches; C62_array: one array; C62_first: the first switch; C62_integers, C62_floats, C62_same_copies: the predefined types meet the conditions; C62_global2local: index translation. 1d containers, action sequence of C26 (MPI backend); the next operation starts when all processes finished the switch. C62_init_refuted, C62_global2local_refuted: findings (initialisation with indexes which do not fit into an int; index translation with overlapping maps)."
 ],
 "C63": [
  "proved",
  "partitioning.c store calls and queries over any history; non-merging partitioners which add ranges. Needs distinct (tag, first coordinate) per process, refuted without."
 ],
 "C64": [
  "proved",
  "C64_messages covers all sequences of calls; C64_unique shows that the specification determines the output. Bounds on pieces and words are needed (refuted otherwise); laik_panic may return (refuted)"
 ],
 "C65": [
  "proved",
  "C65_ranks covers all chains of shrinks; MPI_Comm_split is modelled by the MPI standard. C65_union_refuted: uniting groups aborts with this backend"
 ],
 "C66": [
  "proved",
  "1d, 2d and 3d, one process. C66_local, C66_backend_idle, C66_covering, C66_missing, C66_messages, C66_local_nd, C66_no_data; the defects of reductions with this backend are the theorems _refuted."
 ],
 "C67": [
  "proved",
  "C67_same, C67_meaning (exactly when), C67_replaced for 1d; C67_nd_refuted: 2d and 3d reductions stay in the sequence, and the MPI backend has no case for them."
 ]
}