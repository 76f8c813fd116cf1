# Formal model of shipyard: design

The model is a set of total, computable Gallina functions, one per Rust function of
interest, in `rocq/theories/*.v` (files without `Spec`, `Proofs` or `Props` in
their name).  Each definition has a comment with the file and lines of /repo it transcribes and
says what was simplified.  Panics, out-of-bounds reads and undefined behaviour are explicit
error values (`Panic`, `Ub` of Base.v), never default values.

* `*Spec.v`   - small independent specifications (finite maps, queues, sets, event logs, orders).
* `*Proofs.v` - invariants and refinement lemmas.
* `Props*.v`  - the theorems the MANIFEST points to, a concrete `Example` showing that the
  hypotheses of each can be met, and `Print Assumptions`.

Naming: `Cnn_...` is a theorem for property Cnn, `Cnn_..._partial` proves only a part, and
`Cnn_..._refuted` proves that the faithful model violates the (stronger) statement, by a concrete
witness evaluated by the kernel.

## Trusted base

* The Coq 8.16.1 kernel, including its virtual machine (`vm_compute` is used for concrete
  witnesses and examples), and the standard library.
* std++ as a library of proofs. `Print Assumptions` is run at build time under every theorem
  the manifest names; each of them answers "Closed under the global context".  A check of the whole
  development with coqchk also lists seven constants `Coq.ssr.ssrunder.Under_rel.*`; they
  come with the ssreflect part of the standard library, which std++ loads, and no theorem uses them.
* No axiom, parameter, functor or module type is declared here, no kernel check is switched off.
* The manual transcription from Rust to Gallina.  Nothing checks it mechanically; every definition
  cites the lines it transcribes.
* Machine integers are `N` with explicit wrap or overflow tests where the code can reach them.
  `usize` is 64 bits.  Overflow panics (debug profile) unless said otherwise.
* f32 arithmetic in the iterators (`sail_time`) is modelled by its IEEE 754 result
  (`round24` in Iter.v); the proofs use four bounds on it that IterFloat.v proves.
* Parameters of sections, never axioms: the type of component values, the user's closures, the
  comparison given to sort, the order in which a hash map enumerates its entries, the result of the
  library's unstable sort (any sorted permutation), the (de)serialization of a component.

## What is modelled, file by file

| model | code | left out |
|-------|------|----------|
| EntityId.v | src/entity_id/mod.rs, serde.rs: 64-bit layer (masks, shifts) and pair layer, proved equivalent | |
| Entities.v | src/entities/mod.rs: generate, bulk_generate, spawn, delete, clear, is_alive, iteration | bulk_reserve only as capacity |
| SparseSet.v, Track.v | src/sparse_set/mod.rs, sparse_array.rs, src/track/*: insert, remove, delete, apply, retain, drain, sort, clear, tracking vectors and logs, the calls of `on_insertion`/`on_removal` (their arguments are recorded) | Drop of components; callbacks that panic; memory usage (Memory.v) |
| Bulk.v | src/sparse_set/bulk_add_entity.rs | |
| Borrow.v | src/advanced/atomic_refcell*.rs, one step per atomic instruction | weak memory (atomics are sequentially consistent here; WeakBorrow.v has release/acquire memory); `mem::forget` of borrows |
| Conc.v | src/all_storages/custom_storage.rs, add_unique, remove_unique with locks, threads | contents are lists of written values; a borrow attempt is one step (justified by C25, C26) |
| Clock.v | the tracking counter and `last_run` under concurrency | one tracked storage |
| Sched.v | src/scheduler/*: workload building, batching, tags, labels, run conditions | texts of messages, system generators (WorkloadInfo: WorkloadInfo.v) |
| Run.v | src/world/run_batches.rs, run_workload: sequential, and parallel with every interleaving | which pool thread runs what; panics of systems are in RunPanic.v |
| World.v | src/all_storages/mod.rs, src/world.rs: 15 operations over any number of storages | thread-local storages (their borrow rules are in Borrow.v) |
| Views.v | windows of views, clear functions, runs of a system, add_distinct_component | |
| Unique.v | src/unique.rs and the unique views | |
| Move.v | move_entity, move_components, clone_entity_to, clone_components_to | state after a refused (panicking) move |
| CloneWorld.v | src/world.rs `Clone`, src/all_storages/mod.rs `register_clone`, `clone_storages_to`, src/all_storages/clone.rs, `try_clone` of sparse sets, entities and uniques | borrowed storages (a panic), thread-local storages, the scheduler (not cloned by the code) |
| ViewTypes.v | src/borrow/*, src/views/unique_or_*.rs, the function of a system (into_workload_system.rs): what parameters declare, track and borrow, any number of systems at a time | a borrow attempt is one step (C25-C28, C57); bodies only call `set`, `fetch`, `get_or_init`; foreign `Borrow` implementations (an `unsafe` trait) |
| Refs.v | src/advanced/get_component.rs, `World::get` (world.rs): references outside of views, with view operations in between | one thread, a call is one step; Send + Sync components; which operations views offer: `through_views` |
| Panics.v | the functions of src/sparse_set/mod.rs and src/all_storages that call callbacks or closures, when those panic and the panic is caught | a panic inside of a callback happens at its call; borrows are released by unwinding |
| UniqueCheck.v | `are_all_uniques_present_in_world` (src/scheduler/workload.rs) | unique storages are recognized by their id instead of their type name |
| RunSerial.v | no code: the spec `serial` and proofs about Run.v | - |
| RunPanic.v | the same as Run.v with systems and conditions that may panic | panics while unwinding; which of several panics is resumed |
| WeakBorrow.v | src/advanced/atomic_refcell*.rs again, under release/acquire memory: messages with timestamps, views of threads, orderings as a parameter | the check behind a fetch_add is one step with it (the process is aborted at once); `mem::forget` of borrows |
| WorkloadInfo.v | src/scheduler/info.rs and create_workload.rs again, with the fields that are only reported | names and other texts; serde |
| Extend.v | src/scheduler/system.rs: Extend for Workload | - |
| LabelTypes.v | src/scheduler/label.rs, `UniqueSystemId`, shipyard_proc/src/label_expand.rs: equality, hashing, cloning of labels; tables keyed by labels | Debug; hash maps as entries with the hash of their key |
| Derive.v | shipyard_proc/src: derive(Borrow), derive(WorldBorrow), derive(BorrowInfo), derive(Component), as functions from syntax to the meaning of the generated code | generics and lifetimes; derive(IntoIter) is DeriveIter.v |
| WeakClock.v | the tracking counter and last_run words again, under weak memory: messages with timestamps, what each thread has seen | storages (what orders threads is an action of its own); views carried by messages (no instruction on these words releases) |
| AddWorkload.v | src/scheduler/workload.rs `add_to_world`, `build`, `apply_tracking`; `enable_tracking`; what `workloads_info` lists | components with a static `Tracking` other than `Untracked`; the content of storages; `mem::swap` of storages by a system |
| StorageTypes.v | src/all_storages/custom_storage.rs, `add_unique`, `remove_unique`, `exclusive_storage_*`, `clone_storages_to`, src/storage/sbox.rs and builder.rs, `AtomicRefCell` constructors and thread rules, `World::add_custom_storage` | what is inside of a storage; the borrow flag (its answer is an input); that NonSend, NonSync and NonSendSync around a `UniqueStorage` have its layout is assumed (`same_storage`): they are not `repr(transparent)`; that `ThreadId` read as a u64 is unique (src/lib.rs 121-130) |
| ViewTrack.v | `Borrow for ViewMut` (src/borrow/mod.rs 268-400), the timestamps, `DerefMut`, `override_last_*`, `is_inserted`, `is_modified` and the tracking iterators of src/views/view_mut.rs, `new_for_custom_storage` | on top of SparseSet.v and Iter.v; the borrow flags (Borrow.v); the lookup of the storage (StorageTypes.v) |
| EmptyCond.v | run_if_storage_empty, run_if_missing_unique, skip_if_storage_empty, skip_if_missing_unique and the by_id forms (system_modificator.rs 17-96, workload_modificator.rs 20-100, 126-182), `is_empty` of all storages, which thread asks (run_batches.rs 120-125, world.rs 757-764) | storages are lists of owners (SparseSet.v has the inside); which dead slot of Entities is used again is an input; one call at a time |
| TableLock.v | RwLock, ReadGuard, WriteGuard (public_transport.rs), the calls that take the lock of the table (custom_storage.rs 215-835, all_storages/mod.rs 110-230, 1071-1100, 1643-1793) as instruction lists of threads; panics, unwinding, poisoning | the lock itself is assumed to exclude; memory ordering is that of the lock; only the ids in the table; a thread catches the panic of a call before its next one |
| Names.v | the expressions users write for workloads and their meaning by the functions of Sched.v; functions returning workloads (into_workload.rs 140-158, workload_modificator.rs 206-289), World::add_workload (workload.rs 87-113) | labels are numbers; the label of a type is given with the expression |
| Compare.v | comparisons of StorageId (storage_id.rs 4-55), TypeInfo (info.rs 101-159) and errors (error.rs 97-139, 300-328, 511-520, 689-698, 776-793, 875-914) | TypeIds are numbers ordered and hashed as such; boxed user errors are numbers; labels as in LabelTypes.v |
| Memory.v | memory_usage and detailed_memory_usage of SparseSet (sparse_set/memory_usage.rs, sparse_array.rs 30-49) and memory_usage of Entities (entities/mod.rs 433-441) | names; overflow of the sums; sizes of T and of tuples and the capacities are arguments; the Debug output of the whole report; memory of Unique |
| DeriveIter.v | derive(IntoIter): shipyard_proc/src/into_iter_expand.rs | spans, visibility, tracking parameters; identifiers are ASCII; of what the compiler checks only names, duplicates, keywords and the width of tuples |
| IterWrite.v | Mut: src/mut.rs; the handles of src/iter/captain.rs:36-38, 95-101, src/iter/sailor.rs:36-38, 89-95; a loop with a body | the positions handed out are those of the storages before the loop; a mapped Mut acts on the whole component |
| IterLive.v | the loop of src/iter/mod.rs:44-122 looking up each position in the storages as the body left them | one slice only (no `|`) |
| Iter.v, WorldIter.v | src/iter/*, src/or.rs, src/sparse_set/window.rs, src/iter_component.rs, World::iter | `rayon` adaptors beyond the split tree; chunks |
| Serde.v | src/views/serde/*, World::serialize / deserialize | the format crate: a document is what serde hands over |

Not modelled at all: the Rust memory model outside of AtomicRefCell and the tracking counter (WeakBorrow.v covers its
release/acquire fragment, with one atomic word and data accesses through borrows; WeakClock.v the words of the
clock), allocation failure,
unwinding out of user code (except: Panics.v for storages and worlds, the interrupted bulk insertion),
tracing, the visualizer.

The specifications the theorems are stated against are in EntitiesSpec.v (slots and a queue), SparseSetSpec.v (a
finite map with marks and logs), BorrowSpec.v, ConcSpec.v, ClockSpec.v (histories), SchedSpec.v
(constraints between systems), RunSpec.v (systems executed one by one), WorldSpec.v (a table), UniqueSpec.v (facts per unique),
IterSpec.v (which entities match a query, and in which order they may come).

How the theorems were tested against wrong programs is in seeded/LOG.jsonl: one line per edit of a model
definition, with the theorems that no longer prove.

## Plan per property

| id | modelled | method |
|----|----------|--------|
| C01 | `EntityId` as a 64-bit `N` with the masks and shifts of the source | bit-level lemmas, for all values |
| C02 | both serde encodings of `EntityId` | algebra on N |
| C03 C04 C06 C07 | `Entities` (slots, free list head/tail), `generate`, `bulk_generate`, `delete_unchecked`, `is_alive`, iterator | refinement to an abstract allocator: list of slots with status live/free + FIFO queue; history invariants by induction over operation lists |
| C05 | same | refuted at generation exhaustion; the part below exhaustion is proved |
| C08 | `Entities::spawn` incl. unlinking and gap filling | refinement to the same abstract allocator |
| C09 | `Entities::clear` | refuted for the callback and for exhausted slots; the part for non exhausted slots is proved |
| C10 C11 C12 C13 | `SparseArray`, `SparseSet` field by field; `insert`, `actual_remove`, ... | representation invariant + refinement to `gmap`; C13 refuted with generations 1 and 2 |
| C14 | `sort_unstable_by`: the sort of the index permutation is an abstract stable result (any sorted permutation), the in-place cycle application is modelled | loop invariant |
| C15 C16 C17 C18 | `private_apply(_mut)`, `private_retain`, `private_clear`, `private_drain`, bulk insertion | refinement to `gmap`; C18 refuted for tuples (timestamps) and empty iterators |
| C19 | timestamps, `is_within`, `last_run` | induction over the run sequence |
| C20 C21 C22 | tracking vectors and logs | refinement to maps entity -> timestamp and to event logs |
| C23 | the 16 VALUE constants | case analysis; refuted for `ModificationAndRemoval` |
| C24 C53 | world clock, `clear_all_*`, `UniqueStorage` | history invariant; refuted for the operation right after a clear and for uniques |
| C25 C26 | `BorrowState` as a transition system with one atomic step per RMW, any number of threads | inductive invariant over all traces |
| C27 C28 | storage table behind a RwLock + borrow state, threads as program counters | inductive invariant over all traces |
| C29-C34, C38 | `create_workload` and its helpers on abstract systems (borrow list, tags, before/after sets) | loop invariants, topological order arguments |
| C35 | `into_sequential_workload` label generation on top of the scheduler model | proof for non-empty parts / refutation for `Workload` and empty parts |
| C36 | `run_batches`, sequential and parallel | induction over batches; parallel = any interleaving |
| C37 | systems as state transformers with read/write footprints | commutation argument on top of C29/C31 |
| C39 | borrow-conflict check of systems and run conditions | list induction; run-if variant refuted |
| C40-C45 | `AllStorages` as allocator + list of storages | refinement to a table; C43/C45 refuted for tuples |
| C46-C51 | windows, captain/sailor selection, `Mixed`, filters, `Or`, `Shiperator` state machine, splitting | induction over positions; refutations by witness |
| C52 | serde visitors over entities and views | induction over the serialized list |
| C54 | clock increments and storage locks as a transition system | invariant / refutation |
| C55 | `Scheduler` maps | history invariant |
| C56 C57 | storage table with frees; borrow state of !Send/!Sync storages | invariant over all traces; C56 refuted |
| C58 | counter, `last_run` and borrows of concurrent runs | invariant over all traces; refuted for overlapping runs |
| C59 | loading entities, then any history | history invariant with the old handles counted as issued; refuted for free slots |
| C60 | deserialization of uniques | equality with a write; refuted for `UniqueViewMut` and missing uniques |
| C61 | `on_insertion`/`on_removal` | the whole log of insertion calls from the history; removal calls per step; refuted for clear, drain, stale handles, overwritten components and bulk insertion |
| C62 | cloning worlds | refinement: the clone of a reachable world is related to the cloned table, histories go on from there; refuted for clones of clones and for target worlds in use |
| C63 | parameters of systems: declared and borrowed | compiled to borrow programs; invariants over all interleavings of a batch of `create_workload`; refuted for parameters that declare nothing, doubled !Sync views, missing uniques, wrong wrappers |
| C64 | references from World::get | refinement of the table of C41 with locks; refuted for references taken out of their guards and for the time of the modification mark |
| C65 | storages after caught panics | refinement of the map of C10 with interrupted calls; refuted for the record of interrupted deletions and for a Drop that panics |
| C66 | worlds after caught panics | refinement: an operation is a list of small actions that a panic ends early; refuted for leftovers of interrupted deletions |
| C67 | the check for missing uniques | exact characterisation of the answer; invariants over all interleavings of ViewTypes; refuted for optional views and run conditions |
| C68 | every parallel run is a serial run of the started systems | commuting independent programs over all interleavings of Run.v; induction on the batches |
| C69 | panics of systems and conditions in workloads | runs with panics have the events of runs with errors (Run.v), so C36 and C68 apply; the outcome by induction on the batches |
| C70 | calls of run_if and skip_if | induction on how workloads are built, relating closures to a list of tests; then C36; refuted: nested workloads run as a whole, append keeps conditions |
| C71 | no data races under release/acquire memory | invariant on the history of the word (chains between stores of 0; old chains end with the high bit set) and on what borrows and messages carry; views shown equivalent to happens-before; refuted: a refusal means a live borrow |
| C72 | the report of adding a workload | the loops with the reported fields erase to those of Sched.v; each pass adds the stated notes; invariant on the entries of the ordering loop; refuted: five readings of the fields |
| C73 | workloads filled with Extend | invariant of the ordering loop for systems numbered in any way (copies of the declared systems, removed numbers belong to placed systems); least fixed point `gets_turn`; comparison with the numbering of with_system; refuted: same as with_system, explicit order kept |
| C74 | labels | equality characterised by identities, induction on nesting; histories of tables against maps from identities; an embedding into the labels of Sched.v; refuted: texts of different string types |
| C75 | derive macros | declarations = views inside; bisimulation with the system whose structs are taken apart, then C63; refuted: default in tuple structs, second track attribute |
| C76 | weak memory clock | happens-before defined on traces; invariant relating it to the modification order of the words; runs of a system partition timestamps; refuted: unsynchronised loads |
| C77 | scheduler and storages together, tracking as flags | exact characterisation of what is enabled; flags never go away under any history; every request of a system's program is covered by them; refuted in four ways |
| C78 | table of storages with types, ids, threads | invariant on cells (type under the id, Send/Sync fields true of the type, home thread) over all histories of calls; each condition shown necessary |
| C79 | exclusive view, its timestamps and the storage behind it | invariant (storage refines its history and tracks what the view asks for) over everything done through the view; exchanging the storage as the exception |
| C80 | table of storages with their owners, threads | invariant over calls relating the table to the answered calls (`since`) |
| C81 | threads, instructions, guards | guards counted in the code left to run agree with the lock (`lkinv`), what touches the table is followed by its guard (`gd`) |
| C82 | expressions of workloads | labels read off the expression agree with the built workload, by induction on it (`eval_said`); well-formedness (`eval_wf`) and the placing theorem of C31 |
| C83 | comparisons | each equality is equality of what the value stands for (`*_ident`), using C74 for labels; orders by cases on the storage id |
| C84 | memory reports | which pages are filled is followed step by step through `s_run`: only insertions change it; the rest are the lengths of C12 |
| C85 | derive(IntoIter) | the loops of the macro computed by relations on fields (`iterates`, `says`); iteration through C47 |
| C86 | loops over mutable views | positions from C46-C47, one handle refines one cell, induction over the visited items (each position once); a later iteration from the same relation (C86_next) |

Everything in the list can be expressed in the model; nothing is planned as `not_applicable`.

## Findings

Places where the code does not do what the property (usually its documentation) says.  Each has a
theorem with a witness unless marked "not proved".  Positions are files of /repo.

### Memory safety
1. `add_unique(&self)` over an existing unique frees the storage while a view of it is alive: use after free from
   safe code.  `C56_add_unique_frees_refuted`
2. `(&ids[..], &mut view).iter()` with an id twice in the slice gives two `&mut` to the same component.
   `C46_ids_refuted`
3. `(&a | &b).iter()` driven with `next` while `b` is empty reads outside of b's buffer.  `C48_empty_refuted`
4. `World::iter` uses the number of components as the length of the sparse array: entities are missed, and
   a tuple can read outside of it.  `C51_missed_refuted`, `C51_out_of_bounds_refuted`
5. Splitting an id slice or an or-iterator does not advance the right half's pointer (not used by the crate
   today).  `C50_or_refuted`
6. A panic of the iterator given to bulk_insert leaves the storage with more components than ids.
   `C18_interrupted_refuted`
7. A handle with generation 65535 made with `EntityId::from_inner` is "contained" in every storage at an
   empty slot (not proved as a theorem; excluded by `gen e < U16_MAX` in the statements).

### Entities
8. Deleting an entity of generation 65533 or above reports success and leaves it alive.
   `C05_delete_kills_refuted`, `C40_exhausted_refuted`, `C42_exhausted_refuted`
9. `Entities::clear` calls back with ids of slots that are free, and issues live handles of exhausted slots again.
   `C09_callback_refuted`, `C09_fresh_after_clear_refuted`
10. `spawn` of generation 65535 overflows.  `C08_spawn_gen_max_refuted`
11. `World::spawn` over a live handle of an older generation keeps the old entity's components.
    `C41_spawn_refuted`
12. Loading entities recreates free slots with generation 0, so handles that were dead when saving become valid.
    `C59_reissued_refuted`

### Component storages
13. Inserting for a newer generation of an occupied slot stores the bitwise or of both ids in `dense`.
    `C13_newer_generation_refuted`, `C52_older_refuted`
14. Removing or deleting through a newer handle silently drops the older component.  `C11_newer_handle_refuted`
15. The inherent `SparseSet::clear_all_removed_and_deleted` clears the removals only.  `C22_clear_all_refuted`
16. `clear_all_*_older_than` drops the entries stamped exactly at the given time.  `C22_clear_older_refuted`
17. A log switched on at run time is not cleared through the tracking type.  `C22_clear_runtime_refuted`
18. `track::ModificationAndRemoval` has VALUE 0b10: it never records removals.
    `C23_modification_and_removal_refuted`
19. `bulk_insert` of nothing panics; of tuples stamps 0 (never reported as inserted); drops a component when
    the size hint is too small; forgets recycled ids.  `C18_empty_refuted`, `C18_tuple_refuted`,
    `C18_hint_refuted`, `C18_recycled_refuted`
20. `delete_component` and `add_distinct_component` of tuples stop at the first component that counts (`||`).
    `C43_delete_component_refuted`, `C45_tuple_refuted`
21. Moving or cloning onto a live handle merges or kills it.  `C44_existing_refuted`, `C44_older_refuted`,
    `C44_exhausted_refuted`

### Tracking
22. `clear_all_inserted/modified` use the counter without advancing it: the next operation is hidden too.
    `C24_next_operation_refuted`
23. The same functions make the flags of uniques true.  `C24_unique_refuted`, `C53_clear_all_refuted`
24. A system takes its timestamp before it has the borrow, and its last run is replaced before the borrow
    succeeds: changes can be missed.  `C58_overlap_refuted`, `C58_failed_borrow_refuted`
25. Deserializing through `UniqueViewMut` is not reported as a modification.  `C60_unmarked_refuted`

### Scheduler
26. `into_sequential_workload` on a `Workload` imposes no order; an empty element breaks the chain.
    `C35_workload_refuted`, `C35_empty_element_refuted`
27. Two systems with the same TypeId (e.g. from one generic closure factory) are one function.  `C30_function_refuted`
28. `require_before`/`require_after` look at the nearest conflicts only; `require_after` is satisfied by the
    system's own tags.  `C38_require_before_refuted`, `C38_require_after_refuted`
29. `Workload::append` drops the barriers of its argument.  `C34_append_refuted`
30. Cycles through the (soft) declaration order are reported as errors.  `C32_conflicts_only_refuted`
31. The validity check of system run conditions compares only half of the pairs.  `C39_run_if_refuted`
32. Parallel and sequential runs evaluate run conditions at different times.  `C37_run_if_refuted`; a failing
    run leaves different storages.  `C37_failure_refuted`
33. Renaming a workload over an existing name replaces it, even the default.  `C55_rename_overwrites_refuted`

### Iterators and serialization
34. Nested `|`, `|` with `!` or an id list second, and `with_id().fold` over `|` miss entities or repeat them.
    `C48_nested_refuted`, `C48_not_refuted`, `C48_ids_refuted`, `C48_with_id_refuted`
35. `with_id().next_back()` reads the id one position off, the first time past the end of the buffer; or-iterators go backwards in the wrong order.
    `C49_with_id_back_refuted`, `C49_with_id_back_id_refuted`, `C49_or_back_refuted`
36. The sail-time estimate of a nested tuple with two `!&mut` overflows.  `C47_nested_refuted`
37. Views with type names cannot be read back from formats that present structs as sequences.
    `C52_type_names_refuted`
38. `UniqueOrInitViewMut` deserialization into a missing unique reports success and loses the value.
    `C60_or_init_lost_refuted`

### Callbacks
39. `clear`, `drain`, a remove/delete/insert through a newer handle and an overwriting insertion drop
    components without `on_removal`; bulk insertion never calls `on_insertion`.  `C61_clear_refuted`,
    `C61_drain_refuted`, `C61_stale_refuted`, `C61_replaced_refuted`, `C61_overwritten_refuted`, `C61_bulk_refuted`

### Cloning
40. The clone functions are not cloned: a clone of a clone loses all components.  `C62_clone_of_clone_refuted`
41. `clone_storages_to` a world in use replaces its entities but not all of its storages: leftover components
    belong to unrelated or dead entities.  `C62_ghost_refuted`, `C62_handles_refuted`

### Parameters of systems
42. `()` and `Nothing` declare nothing but borrow all storages for a moment: they are put in one batch with (or
    in one system behind) `AllStoragesViewMut` and fail, or make the other one fail.  `C63_declares_nothing_refuted`
43. Two shared views of the same component or unique that is not Sync are accepted in one system, which then
    always fails.  `C63_not_sync_twice_refuted`
44. `UniqueOrDefaultView` and `UniqueOrInitView` declare a shared borrow but may add the unique; two in one batch
    free each other's storage: use after free from safe code.  `C63_or_default_refuted`, `C63_or_init_refuted`
45. `Option<NonSend<UniqueView<T>>>` panics instead of being `None` when the unique was added with another wrapper.
    `C63_option_refuted`
46. `*world.get::<&T>(e)?` has the lifetime of the borrow of the World, not of the guard: it can be kept after the
    guard is dropped and dangles when the component is removed through views. Safe code.  `C64_dangling_refuted`
47. The closure of `RefMut::map` can store the exclusive reference: the next `get` makes a second one to the same
    component. Safe code.  `C64_aliased_refuted`
48. A write through a `RefMut` is marked with the time of the `get`; systems that ran in between never see it.
    `C64_stamp_refuted`

### Panics of user code
49. `on_removal` runs before the deletion or removal is recorded: when it panics the component is gone and no
    tracking list knows it.  `C65_recorded_refuted`
50. Inserting over the component of an older generation drops the old component between writing the new one and
    updating the ids: when that Drop panics the new component belongs to the old handle.  `C65_drop_refuted`
51. After finding 6, a bulk insertion of a tuple with the damaged storage first gives the second storage more ids
    than components; reading it is out of bounds. Safe code.  `C18_interrupted_ub_refuted`
52. `delete_entity` kills the entity before it deletes components: when a callback panics the rest of the components
    stays, readable through the dead handle, and `spawn_at` gives them back.  `C66_delete_entity_refuted`,
    `C66_spawned_refuted`.  An interrupted `add_entity` leaves an entity whose id nobody knows.
    `C66_add_entity_refuted`
53. A leftover of an interrupted deletion makes the next insertion at that index show a wrong id (generation
    `1 | 2 = 3`): iterations of tuples miss the entity, and with generations 32767 and 32768 the wrong id is the one
    of an unused slot, and the iteration reads out of bounds. Safe code.  `C66_shown_id_refuted`,
    `C66_iteration_refuted`, `C66_iteration_ub_refuted`

### Workloads and uniques
54. `are_all_uniques_present_in_world` reports uniques that are only used through `Option` or through views that add
    them, and does not look at run conditions: its Ok does not cover them.  `C67_named_refuted`, `C67_run_if_refuted`

### Running workloads
55. When the system run by the calling thread returns an error and one of the pool panics, the error is lost: the call
    unwinds.  `C69_panic_wins`

56. The condition of a nested workload is evaluated for each of its systems separately: part of the workload may run
    and part may not.  `C70_nested_refuted`
57. `Workload::append` loses the run conditions of its argument.  `C70_append_refuted`

### Borrow checking
58. Under release/acquire memory `borrow` may be refused though no borrow is alive (the thread reads an outdated
    value of the flag).  `C71_stale_refuted`
59. The `Acquire` of `read_reborrow` and the `Release` in `check_overflow` are not needed; the other five orderings are.
    `C71_orderings`

### Workload building
60. `SystemInfo::unique_id` is the index of the function in the scheduler: it is shared by systems made of one function,
    and the numbers in `after` and in `after_all` are positions in the workload instead.  `C72_unique_refuted`, `C72_numbers_refuted`
61. `conflict` ("pinpoints the type and system that made a system unable to get into a batch") may name a system of a much
    earlier batch, may be missing for a system that clashes with the batch before, and a system may be in a later batch with
    no reason given at all.  `C72_previous_batch_refuted`, `C72_clash_reported_refuted`, `C72_explained_refuted`
62. `Extend` for `Workload` does not number the added systems (they all keep the number 0): three systems without any
    constraint are refused as a cycle, and an accepted workload may reverse an explicit `after_all` between two systems that
    use the same storage.  `C73_like_with_system_refuted`, `C73_extend_iff`, `C73_order_refuted`
63. Labels made from the same text as `&str`, `String` and `Cow` are different: a workload added as `"a"` is not found as
    `String::from("a")`.  `C74_text_refuted`
64. `#[shipyard(default)]` on a field of a tuple struct is accepted and ignored by derive(Borrow), derive(WorldBorrow)
    and derive(BorrowInfo): the field is borrowed.  `C75_tuple_default_refuted`
65. Only the first `#[track(..)]` attribute of a component counts; further ones are ignored without an error.
    `C75_second_attribute_refuted`

### Weak memory
66. `get_tracking_timestamp` is a load: without other synchronisation it may return an old value, and changes
    marked with it are missed by the runs behind them.  `C76_stale_load_refuted`

### Moving entities
67. `move_entity` deletes the entity before it asks the other world: a refused move (a panic that is caught) leaves the
    entity dead in both worlds, and its components in the storages without an owner.  `C44_refused_move`, `C44_refused_refuted`

### Adding workloads
68. `Workload::add_to_world` registers the workload before it enables tracking: when a view is alive (or all
    storages are borrowed) it returns an error, the workload is there, cannot be added again and its tracking
    systems always fail.  `C77_half_added_refuted`
69. The views of conditions (`run_if`, `skip_if`) never enable tracking: `View<T, track::Insertion>` in a
    condition makes every run of the workload fail with `TrackingNotEnabled`.  `C77_condition_refuted`
70. `rename_workload` does not rename the entry of `workloads_info`.  `C77_rename_infos_refuted`
71. `clone_storages_to` keeps tracking for !Send/!Sync components, contrary to its documentation, and drops it
    for all others, so that workloads of the other world fail.  `C77_clone_over_refuted`

### Types and threads of storages
72. `remove_unique` casts the box under the id of `UniqueStorage<T>` without a check, while `World::add_custom_storage`
    and the `_by_id` functions accept any id: safe code can make it read any storage as a `UniqueStorage<T>`.
    `C78_any_id_refuted`
73. In the same way a `!Send` storage put under the id of a unique is dropped on another thread by `add_unique`.
    `C78_dropped_elsewhere_refuted`
74. `WorldBuilder::with_custom_thread_id` is safe but trusted: with `|| 0`, the example of its documentation, `!Send`
    storages are handed out exclusively on every thread.  `C78_thread_id_refuted`
75. `clone_storages_to` (feature thread_local) compares types with `Storage::any`, which is overridable: a `Send`
    storage can be cloned to a `!Send` one that is then accessible on every thread.  `C78_any_refuted`
76. `World::add_custom_storage` drops the error of the insertion: it answers Ok while a storage of another type is
    there and stays, if that one is borrowed exclusively.  `C78_add_custom_refuted`

### Tracking views and exchanged storages
77. `ViewMut` dereferences to `&mut SparseSet<T>` and `SparseSet::new_custom_storage()` is public: after
    `world.track_insertion::<T>()`, safe code can do `*view = SparseSet::new_custom_storage()` under a
    `ViewMut<T, track::Insertion>` (or swap in the storage of another world); after an insertion `is_inserted`
    panics and `inserted().iter()` reads past the end of an empty vector.  `C79_exchanged_refuted`
78. Views of `new_for_custom_storage` have all timestamps 0: what is inserted or written through them is never
    reported by any view, and a write through them erases an earlier one that was still to be reported.
    `C79_custom_refuted`

### Ready-made run conditions
79. `run_if_storage_empty::<T>` and `skip_if_storage_empty::<T>` look at `SparseSet<T>` only: components used through
    NonSend, NonSync or NonSendSync views are in another storage, so the system runs although entities have a
    `T`.  `C80_wrapped_refuted`
80. `ThreadPool::scope` runs the batches on a thread of the local pool: with `with_local_thread_pool` and the
    feature thread_local every system with AllStoragesViewMut, and every system with one of the ready-made
    conditions, fails with WrongThread; the same condition on the workload works.  `C80_pool_refuted`
81. Asked about Entities by id, the conditions say whether an entity was ever created, not whether there is one.
    `C80_entities_refuted`

### The lock of the table
82. With std's lock, a panic in the closure of `custom_storage_or_insert` (so in the code that makes
    a custom storage) or in the `Drop` of a unique that `add_unique` replaces poisons the table: from then on
    every call on the world panics, also `&mut` ones (`get_mut().unwrap()`). A custom lock is not poisoned.
    `C81_poison_refuted`
83. The same closures, and `Clone` of components under `clone_entity_to` and `clone_storages_to`, run with the lock
    held: calling back into the world from them deadlocks (a lookup from a `Clone` only when a writer waits and
    the lock prefers writers).  `C81_nested_refuted`

### Names and labels of workloads
84. `Workload::new("X").with_workload(w)` (and tags or constraints set before `merge`) loses the label: `merge` gives
    the labels of the first workload only to the systems it has by then and clears them, so a system with
    `before_all("X")` is not ordered against the systems of `w` and can share a batch with them, without an error.
    `C82_merge_refuted`
85. A function that returns a renamed workload, used in another one (`fn w2() -> Workload { w.run_if(..) }`), has its name
    replaced by the label of `w` while `overwritten_name` stays set: `add_workload(w2)` stores the workload under `w`,
    and it is found neither under the name given nor under `w2`.  `C82_name_refuted`

### Comparisons of public types
86. `GetStorage` implements `Eq`, but an error made by `GetStorage::from_custom` is not equal to itself; the same for
    `error::Serialize` and `error::Deserialize`, which derive `Eq` over it.  `C83_eq_refuted`
87. `PartialOrd<TypeId> for StorageId` puts every runtime id below every `TypeId`, the derived `Ord` above.  No code in
    the crate mixes the two.  `C83_type_id_refuted`
88. A `TypeInfo` read back with serde has the default id: it differs from the original, and all type infos read back
    with the same mutability are equal whatever their names, so `WorkloadsInfo` values read back compare equal although
    they borrow different storages.  `C83_serde_refuted`

### Memory reports
89. Pages of the sparse array are never given back: after one insertion at index 32000 and `clear`, an empty storage
    still uses 8264 bytes besides itself.  `C84_kept_refuted`
90. `component_count` of `Entities` counts slots, dead ones and the gap below a spawned handle included; with no live
    entity it can be any number.  `C84_entities_refuted`

### derive(IntoIter)
91. derive(IntoIter) panics for a struct called `View`, a field called `v_` (or `v_0`, ..) and an attribute `#[shipyard()]`
    on the struct: the trimmed name is no identifier.  `C85_panics_refuted`
92. Names can collide after trimming (`v_a` and `vm_a`) or become keywords (`v_type`); the error then points into the
    generated code.  `C85_compiles_refuted`
93. A named field whose type is not a path (a reference, a tuple) is silently not iterated, while other fields that are no
    views are errors; tuple structs refuse both and have no item_field_skip.  `C85_silent_refuted`
94. `#[shipyard(default)]`, needed by derive(Borrow) for such a field, is an unknown attribute for derive(IntoIter); only
    a second attribute after `#[shipyard(item_field_skip)]` works.  `C85_attributes_refuted`

### Mut
95. A component changed inside the closure of `Mut::map` is not reported as modified (as documented), though the closure
    gets `&mut T`; and asking for a mutable reference marks without a change.  `C86_changed_reported_refuted`,
    `C86_reported_changed_refuted`

### Seen while reading, outside of the model (not proved)
* `WorkloadSystem.after` is ignored by `append`.
* Failed shared borrows leave the borrow counter incremented while an exclusive borrow lives (harmless, C25).
* A custom thread pool runs systems that are not Send on a pool thread.
