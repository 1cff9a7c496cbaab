# Formal model of LAIK (envelope-project/laik) in Coq 8.16

## Approach

The C code in /repo/src is modelled function by function as total, computable
Gallina functions (`theories/Model_*.v`). Loops become structural recursion
over lists or recursion with explicit fuel; arrays become lists; pointers to
objects become the values or list positions. Every definition cites the file
and lines it models and says where it simplifies.

* **Outcomes.** A C function which may fail an `assert`, call
  `laik_panic`, or leave defined behaviour returns
  `outcome A := Ok a | Abort | Panic | UB | NoFuel` (`NoFuel`: a loop was given
  too little fuel; theorems show that it does not happen or quantify over it). Asserts are active in the default
  build (no `NDEBUG` in Makefile; CMake uses `-UNDEBUG`), so `Abort` is a real
  outcome of the shipped program.
* **Integers.** Borders are `int64_t`; the model uses unbounded `Z` except where
  the property is about wrap-around (type.c) or about buffer sizes
  (serialisation). `laik_range_size` is modelled with the wrap-around of
  `uint64_t`: theorems that speak about sizes mention the bound.
* **qsort** is not stable and its result is unspecified for equal keys. It is
  modelled as a relation: any sorted permutation. Theorems quantify over all of them.
* **Floating point.** Where doubles decide a border (block/grid partitioner),
  the model is parametric in the arithmetic (an arbitrary type with arbitrary
  operations), so that theorems hold for each rounding; the concrete IEEE
  instance uses the standard library's `SpecFloat` and gives counterexamples.
* **Multi-process properties** are stated over the vector of all processes, each
  running the model with its own id.
* **Refuted claims.** When the English claim is false for the faithful model we
  prove `..._refuted` with a concrete witness and prove the strongest corrected
  statement beside it. These are listed under "Findings".

## Layout

* `theories/Base.v` outcomes, list lemmas.
* `theories/Model_X.v` model of X; `theories/Spec_X.v` small independent
  specification vocabulary; `theories/Proof_X.v` proofs;
  `theories/Prop_X.v` the property theorems, each followed by a non-vacuity
  example and `Print Assumptions`.

## Plan per property

| id | modelled | proof method |
|----|----------|--------------|
| C01-C03 | index and range functions of space.c, dims 1..3 | case analysis + lia; size by counting the enumerated index list |
| C04-C07 | rangelist.c append/sort/merge/updateOffsets/SI/map offsets | sorted-permutation relation, invariant over the merge loop, invariant over the offset loop |
| C08 | rangelist.c coversSpace incl. the 100 entry limit | loop invariant: not-covered pieces = space minus processed ranges |
| C09 | isAll, isSingle, isEqual | induction over the list |
| C10 | block partitioner parametric in arithmetic; SpecFloat instance for the abort | loop invariant (contiguity) |
| C11 | doBisection with fuel | induction on task count, tiling lemma |
| C12-C15 | the other partitioners | list lemmas |
| C16 | laik_run_partitioner | composition of C04 and C08 |
| C17 | range filters | binary search invariant |
| C18-C20 | core.c groups, rangelist migrate | list/array invariants |
| C21-C24 | calcAddReductions sweep, do_calc_transition (1d) | sweep invariant: active input/output sets at each border |
| C25 | do_calc_transition for 2d/3d | counterexample + local part |
| C26 | first part of doTransition, the action sequence of a transition, its split into messages, execution by all processes at the same time, copyMaps/initMaps/freeing (Model_Switch, Model_Data, Model_Net) | a stage lemma for each segment of indexes between two borders (all processes go through it, in any schedule), induction over segments, then the local copies |
| C27, C28 | comparators, sorting, rendezvous semantics | global order on messages; well-founded progress |
| C29 | addResorted, sort_rounds | permutation, monotone compression |
| C30-C32 | combineActions, allocBuffer, reduce splitting with byte memory | memory semantics, disjointness |
| C33 | laik_mpi_asyncSendRecv | list invariants |
| C34-C37 | layout.c/layout_lex.c with flat memory | arithmetic, induction over enumeration |
| C38-C40 | type.c integer instances with wrap-around; uses 8/32/64 bit | modular arithmetic |
| C41-C43 | kvs.c store and journal, mpi sync | refinement to finite map, merge invariants |
| C44 | laik_space_serialize / laik_space_set on character lists | decimal print/parse round trip |
| C45, C46, C50 | data.c mappings, allocation, reuse, freeing (Model_Data) | invariant over all histories of switches |
| C47 | reservations (data.c:875-1186, Model_Reservation) | sorting by tag and numbering; smallest boxes; addresses from the layout offsets |
| C48 | runGridPartitioner, parametric in the border computation; SpecFloat instance for the failing case | tiling lemma |
| C49 | do_calc_transition on filtered lists (1d) | the sweep does not depend on ranges away from own indexes |
| C51, C52 | framing of the TCP streams, sending and receiving ranges (backend-tcp2.c, Model_Tcp2) | position in the stream as invariant of the read loop, for all splits; enumeration of the range on both sides |
| C53 | `tcp2_exec`, `exec_reduce` (Model_Tcp2Exec) and a network of processes which take turns in any order | the steps of all processes are the projections of one list of transfers; every schedule executes this list up to order of independent transfers; a measure decreases, so fair schedules end; then C26's specification for the effect |
| C54 | `tcp2_sync`, the handlers of its messages, and a network of processes executing any programs of set operations and synchronisations (Model_Tcp2Sync) | invariant: LID 0 collects changes one process after the other, every other process is ahead by at most entering the next round; the changes still to be received cover all differences to the merged contents; lexicographic measure for fair schedules |
| C55 | the same functions as C53, for 2d and 3d containers with several ranges per process (no new model; vocabulary in Spec_SwitchNd) | the transition of each process is the projection of one list of box transfers (C25); the network theorem of C53; each transfer copies the elements of its box between the two layouts (C51, C52) |
| C56 | Model_MpiPrepare.v: laik_mpi_prepare (backend-mpi.c:1001-1053) as the composition of the transformations modelled for C26 to C34, and doTransition up to the execution; executions as in C26 (Model_Net) | each transformation keeps what a process does given all its input (C30 to C34), outside of the buffers; two-phase sorting gives all messages of a group a common order, so that executions with and without buffering end (minimal message); the result then follows from the network of single messages |
| C57 | the same preparation with LAIK_MPI_ASYNC; Model_AsyncNet.v: all processes executing MpiReq, MpiIsend, MpiIrecv, MpiWait (backend-mpi.c:745-785) at the same time, with events for MPI completing a request of a process | each process is simulated by the process alone of C33, given what it will receive; the messages still keep the common order of C56, so that a process waiting for the smallest message can go on; a measure bounds all executions |
| C58 | `laik_allow_world_resize`, `laik_finish_world_resize`, `tcp2_resize` and the command handlers it uses, initialisation of a joining process (Model_Resize): one master, any number of processes, FIFO connections; events are calls of the application, joins, cutoffs, handled commands, ended waits | invariant per connection: handling the commands which are still on the way leads the process to the state which the master assumes (sessions); the world as fold of the handled requests; measure for termination |
| C59 | `startup_master`, the commands it handles, the initialisation of the other processes (Model_Startup, with Model_Resize) with any number of processes starting at any time, any order of commands | invariant of the two waits of the master (registration, confirmations); the state when the master is done is the start state of C58, so both compose |
| C60 | `laik_sync_location`, `laik_group_location` and the store callbacks (Model_Location, on top of the store synchronisation of C42 and C54) | invariant: the array of strings of a process is what its store holds for the location keys, preserved by every callback; with C42/C54 all stores agree at the end |
| C61 | space objects of all processes and their publishing, changing and synchronisation by the space store with its callback (Model_SpaceSync, on top of C42, C44 and the callbacks of C60), MPI backend | invariant: every space object of a process encodes to the value its store holds for the name, preserved by calls and callbacks; if the stores can be synchronised, so can the objects; with the agreement of stores (C42) and the round trip of the encoding (C44) |
| C62 | the state of a container on all processes (ranges, mappings, memory), writes of the program to the address of an own index, complete switches including the first one (Model_Container, on top of C26 and C37) | invariant: each process has memory for each own index, preserved by writes and switches; simulation of a machine with one copy per process and index, and of one array; the step of a preserving switch is C26, a switch without messages is done directly. A process starts its next operation when all processes are done with the switch: simplification, as a process only touches its own memory between two switches |
| C63 | the partitioning object over its life: store calls, queries about own ranges and about all ranges (Model_Parting, on top of Model_Group and Model_Partitioner); a query by map number changes the cached map offsets of the list it uses. A range handed out is a static object in C, overwritten by the next query: the model reads it at once | invariant over all sequences of calls: every stored list holds the ranges asked for (all or own) in the one possible order; the map numbers are those of a small specification |
| C64 | the message buffer with its growth, filtering by level and location, breaking into lines with the offsets of the code, the size of the line buffer, sequences of all calls (Model_Log). The text a format expands to is a parameter of a call; location, counters and time in the prefix of a line are a parameter. Parsing of LAIK_LOG is not modelled | invariant relating the buffer to the user's message; the printed lines are a layout of the message (Spec_Log), which is shown to be unique |
| C65 | all processes of a world, each with its view of a group and the communicator of this group; `laik_mpi_updateGroup` in each of them and `MPI_Comm_split` as collective operation by the MPI standard: members of one colour ordered by key and old rank, returning only if all processes of the communicator take part (Model_MpiComm, on top of Model_Group). A group made from an earlier one of a chain is covered by the chain up to it | invariant over all chains of shrinks; the keys are the positions in the new group, so the sorted order is unique |
| C66 | `laik_single_exec` (assertions, the copy of every reduction from the start of the old to the start of the new mapping, out of bounds as undefined behaviour), the call of the backend in `doTransition`, after the calculation of the transition (C21, C25) with one process. | From C21/C25: with one process no message is possible; reductions only over indexes not owned before. |
| C67 | the choice in `laik_aseq_replaceWithAllReduce` (Model_ActionTrans) for the reductions of a calculated transition (Model_Transition). Not: the combination of several collective operations into one afterwards, the operations of MPI themselves | invariant of the calculation: a group of all processes always has number -1; with it the choice is a function of the members of the groups, which agree by C23 |

## Findings

Each line is a theorem in the files `Prop_*.v` (suffix `_refuted`) with a concrete
witness, checked by computation, unless it says "not proved". The English
property is false of the code in these cases; the positive theorems exclude
exactly them.

Ranges, range lists, partitioners
* C01 `laik_range_intersect` with an empty operand may return a (wrong) non-NULL result.
* C03 containment for an empty range says no although the set inclusion holds.
* C07 ranges with tag -1 first in a list get map number -1 .. instead of 0.
* C08 the coverage check says "not covered" with an empty range in the list; it aborts with more than 100 uncovered pieces.
* C10 the block partitioner aborts for 2 indexes on 5 processes, and for 0 cycles.
* C11 the bisection partitioner aborts for 2 indexes on 5 processes; on 2x2 indexes and 3 processes one gets nothing.
* C14 the halo partitioner loses the halo of ranges near (not at) the border of the space; on multi-range (cyclic) partitionings it aborts.
* C17 filtering for own ranges with merging aborts; own list empty is undefined behaviour; wrong if tags are not ascending.
* C18 a removed process dereferences a freed list; map queries after migration abort.
* C48 the grid partitioner in double arithmetic misses the last index for e.g. 61 indexes in 7 blocks.

Transitions
* C21 spaces of 2^31 or more indexes (borders are compared as int); overlapping own ranges; empty ranges.
* C25 in 2d/3d there are sends without matching receives, and messages between two processes in different orders.
* Not proved: an index with 0 or >= 2 owners before and reduction None aborts; 2d/3d reductions other than
  all -> all / all -> one abort; range numbers of operations differ in meaning between 1d and 2d/3d.

Action sequences
* C28 another action in a round of messages aborts the rank-digit sort.
* C30 combining: rounds >= 85 abort; 4 GB wrap. C31: 4 GB wrap of buffer sizes, access check in 32 bit.
* C32 more than 32 inputs abort; sums of floating point values differ between the processes of one reduction.
* C33 an action between start and end of an asynchronous message sees a race; rounds >= 253 abort.
* Not proved: a custom reduction with one input aborts; combining messages with all counts 0 aborts; the
  check for CopyFrom/ToRBuf uses the number of entries instead of bytes; outCount of a split reduction is
  calculated from the input group; a 3-round reduction of more than 8 inputs which nobody wants aborts.

Layouts, types, memory
* C34 an index outside of the section is not rejected. C36 the specialised pack/copy functions use the strides of section 0.
* C37 values are lost with memory provided by the user. C46 `laik_get_map_addr` is wrong for maps which took over memory
  from a map with another start. C50 `laik_free` releases no mapping memory.
* C47 freeing a reservation releases no memory; an index whose tag changes between reserved partitionings loses its
  value; untagged ranges in more than one mapping, or tag -1, stop the program when allocating.
* C38 signed overflow depends on order; floats depend on order. C39 min/max are initialised with the absorbing
  value. C40 both inputs missing, and minimum of uchar.
* Not proved: switching to NULL partitioning dereferences NULL; a process outside of the group calling switch
  dereferences NULL; `laik_maplocal2global_1d` does not check the map number.

Key-value stores and spaces
* C41 a value which is a prefix of the old one is dropped, compared beyond its end; removed keys are counted.
* C43 a synchronisation without changes aborts (4 kinds).
* C44 3d spaces with long borders overflow the static buffer of 100 bytes; a restored space has an uninitialised `range.space`.

TCP
* C51 a command of 8192 bytes or more ends the program (the receive buffer is full).
* C52 elements of more than 8189 bytes abort in binary mode; elements of 30 bytes or more overflow `str[100]` in text mode;
  ranges of 2^31 to 2^32-1 indexes abort.
* C53 with TCP2, a reduction over an index with several owners which nobody uses afterwards aborts (`C53_nobody_after_refuted`);
  an index without owner before gets whatever is in fresh memory, not the neutral element (`C53_nobody_before_refuted`);
  with reused memory `exec_reduce` calls `memcpy` from an area to itself, undefined in C (`C53_self_copy`); the model takes it to change nothing.
* C54 with TCP2, removals are not propagated, so stores differ after synchronising (`C54_remove_refuted`), and NULL is printed for a
  key set and removed since the last synchronisation (`C54_set_remove_refuted`); values which are not C strings are read beyond their end;
  keys of more than 30 characters are cut (`C54_long_key_refuted`); key and value of more than 89 characters overflow `msg[100]`
  (`C54_long_value_refuted`); an empty value blocks all processes forever (`C54_empty_refuted`); a value with a blank at its begin stops
  the program as a conflict of the process with itself (`C54_blank_refuted`); names of more than 29 characters abort.
* C58 with TCP2, if more processes leave than join in one resize and one joins, the group arrays of the joining process are too short: it writes
  `fromParent` beyond its end into `toParent` and so sees wrong previous ranks (`C58_leave_more_than_join_refuted`; with few remaining processes the write leaves the allocation).
* C58 the master aborts if a process is asked to be removed twice before it is (`C58_cutoff_twice_refuted`), if a cutoff matches a process already removed by a resize not finished yet
  (`C58_cutoff_removed_refuted`), and if more than 100 requests are pending (`C58_many_requests_refuted`).
* C58 a cutoff which arrives while the master waits for confirmations is silently dropped (`C58_cutoff_forgotten_refuted`).
* C58 (not proved) phase -1 is the marker for "no phase yet": a call with phase -1 does not wait in processes other than the master; a host name longer than 30 characters makes a joining process fail.
* C59 a negative LAIK_SIZE is accepted, and the master then waits forever (`C59_negative_size_refuted`). (Not proved: with more than 256 processes the master aborts.)
* C60 with the MPI backend a second call of `laik_sync_location` aborts in an assertion, as nothing changed (`C60_mpi_again_refuted`, see C43). After the world has grown, the array of location strings is too small: strings of new processes are written behind its end (`C60_growth_refuted`). Also with a larger array, new processes never get the strings of the processes that were there before (`C60_newcomer_refuted`).
* C61 `laik_sync_spaces` aborts with the MPI backend if no process changed or published a space since the last call (`C61_idle_refuted`, see C43). Processes changing a space differently end the program (`C61_conflict_example`), there is no error which the caller could handle.
* C62 a switch with `LAIK_DF_Init` aborts if indexes do not fit into an `int`: `initMaps` stores the 64-bit borders of the range to initialise in `int` variables (`C62_init_refuted`: one process, indexes 2^31 to 2^31+4, the assertion on the required range fails). If ranges of a process with different tags interleave, `laik_global2local_1d` and `laik_global2maplocal_1d` give the first map whose covering range has the index, which may be a map the value is not in (`C62_global2local_refuted`: [0,2) and [8,20) with one tag, [2,8) with another; switches never transfer index 4 to the place given).
* C63 the order of two own ranges with the same tag and the same first coordinate is left to `qsort`, which need not be stable: two runs of the same partitioner may enumerate them differently (`C63_ties_refuted`). `laik_my_maprangecount` aborts for a map number which does not exist, while `laik_my_maprange` returns NULL (part of `C63_defined`).
* C64 `log_append` enlarges the message buffer to the double size or to the size of the new piece, not counting the text already there: a message of 600 characters to which 1500 are appended fails an assertion, so a debug message ends the program (`C64_pieces_refuted`). `log_flush` writes a line into a buffer of 250 bytes before it checks the length: a word of 300 characters overflows it (`C64_word_refuted`). `laik_panic` returns, without any output, in a process outside of the location filter of `LAIK_LOG`, if the minimal level is above 5, or if the text is empty (`C64_panic_refuted`); other code relies on it never to return. Outcome `Panic` in the other models assumes that the message is shown.
* C65 with the MPI backend, `laik_new_union_group` ends the program whenever it has to make a new group: `laik_mpi_updateGroup` asserts that the new group is not larger than its first parent, but a union which is none of the two groups always is (`C65_union_refuted`, for all pairs of groups).
* C66 with the single-process backend, every 2d/3d switch with a reduction ends the program (`assert(d->space->dims == 1)` in `laik_single_exec`), also from All to All, where the values should just be kept: `C66_reduction_nd_refuted`.
* C67 with the MPI backend, a 2d/3d reduction stays in the action sequence as it is (`laik_aseq_flattenPacking` handles 1d only, `laik_aseq_replaceWithAllReduce` and `laik_aseq_splitReduce` have no case for it), and `laik_mpi_exec` ends the program for it ("no idea how to exec action"): `C67_nd_refuted`. So for 2d/3d reductions C25 is about the calculated operations only.
* C66 with the single-process backend in 1d, a switch with a reduction to indexes not owned before (possible with LAIK_PF_NoFullCoverage) copies from the start of the old mapping to the start of the new one, whatever the range of the reduction is: new indexes get values of other indexes (`C66_misplaced_refuted`), memory outside of the old mapping is read (`C66_outside_refuted`), and if nothing was owned before, an assertion fails (`C66_nothing_before_refuted`).
* C55 messages have no tags and are sent in the order of the old ranges but received in the order of the new ones: if the sender has
  several ranges before and the receiver several afterwards, values are silently interchanged (`C55_message_order_refuted`, 4x4 elements,
  2 column ranges of one process to 2 row ranges of another).

## Trusted base

* The kernel of Coq 8.16.1 (and the VM, used by `vm_compute` in examples and
  counterexamples).
* `Print Assumptions` says "Closed under the global context" for every theorem
  and example in `Prop_*.v` (each is followed by the command): no axioms are used.
  Files of the project declare none.
* `coqchk` lists 7 axioms of the loaded standard library module
  `Coq.ssr.ssrunder` (`Under_rel`, `Under_rel_from_rel`, `Under_relE`, `Over_rel`,
  `over_rel`, `over_rel_done`, `under_rel_done`). No theorem depends on them.
* The model itself: that the Gallina functions do what the cited C lines do. The
  abstractions are the ones listed under "Approach" and in the comments at each definition.
* The semantics given to the environment: `qsort` (any sorted permutation), `malloc`
  (any address of a block away from blocks in use; never fails), fresh memory
  (arbitrary), MPI messages (between two processes in order, otherwise any
  schedule; sends buffered for C26/C32/C33, buffered or not at will for C27/C28),
  MPI collectives used by the store synchronisation.

## What is modelled

By source file; the definitions cite the lines.

* `space.c`: index and range functions, spaces and their encoding in the store, shared spaces (publish, get, change, synchronise; of a space object only ID, dimension and borders; changes by `laik_change_space_*` only for objects the store points to), transitions (`do_calc_transition` and all it uses), task groups.
* `rangelist.c`: all but freeing.
* `partitioner.c`: all run functions and `laik_run_partitioner`. Constructors of partitioner objects are parameters of the models.
* `partitioning.c`: filters, queries, migration, lists known to a process. Not: naming, freeing.
* `core.c`: groups (create, clone, union, shrink), location strings, world resize and start-up as far as C58 and C59 need them. Not: phases set by the user, finalisation, checks of group relations.
* `type.c`: init and reduce of all predefined types.
* `layout.c`, `layout_lex.c`: all but `describe`.
* `data.c`: mappings, reuse, allocation, copies, initialisation, freeing, switching, reservations, address translation. Not: statistics, naming, custom allocators (every allocator behaves as the default one).
* `action.c`: adding of actions (as constructors), sorting, combining, buffer allocation, splitting of packing and reductions, splitting of transitions. Not: statistics of sequences, the effect of collective reductions (that all processes choose the same ones is C67), `laik_aseq_copySeq`.
* `backend-mpi.c`: communicators of groups, `asyncSendRecv`, the loop of `laik_mpi_exec`, `prepare` (as pipeline of C26 without combine/alloc/sort/async), `laik_mpi_sync`. Not: start-up, native MPI group reductions, chunked pack buffers of `exec_packAndSend`/`recvAndUnpack` (C35 covers pack/unpack in chunks).
* `backend-single.c`: `sync`; `laik_single_exec` for the action sequence a switch makes (one transition), with old and new mappings in separate memory. Not: statistics, log.
* `kvs.c`: all but freeing; callbacks (created, changed) as used for location strings.
* `backend-tcp2.c`: framing, the receive buffer, sending and receiving of ranges in both modes, permission to send, `tcp2_exec` with `exec_reduce` and all processes running concurrently, `tcp2_sync` and its messages, `tcp2_resize` with its commands, startup of master and other processes with registration. Not: connections, a cutoff which arrives during startup, errors of read and write, closing, the event loop (theorems hold for all orders of reads).
* `logging.c`: messages, filter, lines. Not: parsing of `LAIK_LOG`, the log file, the text of prefixes.

Not modelled at all: `backends/tcp`, `debug.c`, `profiling.c`,
`program.c`, `external.c`, memory allocation failure, the examples.
