{"id": "C01", "title": "Entity handles encode (index, generation) without loss", "statement": "For every index below 2^48-1 and every 16-bit generation, the handle built from them is a non-zero 64-bit number whose index() and gen() give back exactly those two values; two handles are equal iff both parts are equal; changing the index keeps the generation and the other way round; bumping a generation gives a strictly larger generation and the same index, or fails and changes nothing.", "quantifier": "all indices < 2^48-1 and all generations < 2^16 (2^64 handles)", "why_tests_cant": "A test samples a handful of bit patterns; masking and shifting mistakes show up only for particular carries between the two fields.", "anchors": ["src/entity_id/mod.rs: EntityId::index, gen, set_index, set_gen, bump_gen, new_from_parts, copy_index, copy_gen"]}
{"id": "C02", "title": "Serialized entity handles round-trip", "statement": "Serializing any handle and deserializing the result, in the human-readable or in the binary format, gives the same handle.", "quantifier": "all handles that the crate can hand out", "why_tests_cant": "The two formats use different encodings of the same 64-bit value; only a proof over all values excludes an off-by-one at field boundaries.", "anchors": ["src/entity_id/serde.rs: Serialize for EntityId, Deserialize for EntityId"]}
{"id": "C03", "title": "A freshly created entity never reuses a handle given out before", "statement": "Along any sequence of entity creations, bulk creations and deletions starting from an empty world, every handle returned by a creation differs from all handles returned by earlier creations.", "quantifier": "all finite histories of add_entity / bulk_add_entity / delete (any handle, live, stale or invented)", "why_tests_cant": "Freshness is a statement about the complete history; slot recycling makes a handle reappear only after particular delete/create patterns.", "anchors": ["src/entities/mod.rs: Entities::generate, bulk_generate, delete_unchecked"]}
{"id": "C04", "title": "is_alive is exactly 'created and not deleted since'", "statement": "At any point of any history of creations and deletions in which no single slot has been recycled to the end of its 16-bit generation counter, is_alive(h) is true iff h was returned by a creation and has not been the argument of a deletion since; delete(h) returns true iff h was alive, and leaves every other handle's liveness unchanged.", "quantifier": "all finite histories of creations and deletions, all handles (including invented ones)", "why_tests_cant": "Liveness depends on a linked free list threaded through the slots; tests exercise a few recycling orders only.", "anchors": ["src/entities/mod.rs: Entities::is_alive, generate, delete_unchecked"]}
{"id": "C05", "title": "Deleting an entity always makes its handle dead", "statement": "After delete_entity(h) returned true, is_alive(h) is false, for every handle h.", "quantifier": "all reachable states and all live handles, including handles in their last generation", "why_tests_cant": "Needs 65 534 recyclings of a slot (or spawning a handle with a high generation); ordinary tests never get there.", "anchors": ["src/entities/mod.rs: Entities::delete_unchecked", "src/entity_id/mod.rs: EntityId::bump_gen"]}
{"id": "C06", "title": "Slots are recycled first-in first-out and the allocator never reads out of bounds", "statement": "Creating an entity reuses the slot whose deletion is the oldest among the not yet reused ones (with the generation bumped by one), and only when there is none uses a new slot; no creation or deletion ever panics or indexes outside the slot table.", "quantifier": "all finite histories of creations, bulk creations and deletions", "why_tests_cant": "It is an invariant over the intrusive linked list (head, tail, links); a wrong link surfaces only after specific interleavings of deletes and creates.", "anchors": ["src/entities/mod.rs: Entities::generate, delete_unchecked, list"]}
{"id": "C07", "title": "Iterating entities lists exactly the live ones, once each", "statement": "The iterator over all entities returns every live handle exactly once, in slot order, and nothing else; no two live handles share an index.", "quantifier": "all finite histories of creations, bulk creations and deletions", "why_tests_cant": "Quantifies over all reachable allocator states.", "anchors": ["src/entities/iterator.rs: EntitiesIter", "src/entities/mod.rs: Entities::iter"]}
{"id": "C08", "title": "Spawning a chosen handle makes it live and disturbs nobody else", "statement": "spawn(h) returning true makes h alive, keeps every live handle with another index alive, creates no other live handle, and leaves the allocator able to continue (later creations are still never equal to a live handle); spawn(h) returning false changes nothing.", "quantifier": "all allocator states reachable by creations, deletions and spawns, all handles with generation below 65535", "why_tests_cant": "spawn unlinks from the middle of the free list or grows the table and threads the gap into the list; the cases multiply with the position of the slot in the list.", "anchors": ["src/entities/mod.rs: Entities::spawn"]}
{"id": "C09", "title": "Clearing all entities kills exactly the live ones", "statement": "After the entities are cleared no handle that was live before is alive, later creations never return a handle that was given out before the clear, and the deletion callback is called exactly for the handles that were live.", "quantifier": "all reachable allocator states", "why_tests_cant": "Depends on the mixture of live, removed and exhausted slots present at the moment of the clear.", "anchors": ["src/entities/mod.rs: Entities::clear", "src/all_storages/mod.rs: AllStorages::clear"]}
{"id": "C10", "title": "A component storage is a map from entities to components", "statement": "Along any sequence of insertions, removals, deletions and in-place writes on a storage, reading entity e gives the last value inserted or written for e if it has not been removed since, and nothing otherwise; insert returns the value it replaced and remove returns the value it took out.", "quantifier": "all finite histories of storage operations in which a handle is only inserted after the handle of an older generation with the same index was removed (what deleting an entity does)", "why_tests_cant": "The storage moves other components around on each removal (swap-remove) and recycles sparse buckets; equality with a map over all histories is a refinement statement.", "anchors": ["src/sparse_set/mod.rs: SparseSet::insert, dyn_remove, dyn_delete, actual_remove, private_get, index_of", "src/sparse_set/sparse_array.rs"]}
{"id": "C11", "title": "Stale and foreign handles never reach a component", "statement": "Reading, writing, removing or deleting through a handle that is not exactly (same index and generation) the one the component was inserted with finds nothing and changes nothing, in every reachable storage.", "quantifier": "all reachable storages, all handles with generation below 65535", "why_tests_cant": "ABA-type mistakes show up only for particular reuse patterns of an index.", "anchors": ["src/sparse_set/mod.rs: SparseSet::index_of, actual_remove, private_get", "src/sparse_set/sparse_array.rs: SparseArray::get"]}
{"id": "C12", "title": "Storages stay densely packed and internally consistent", "statement": "In every reachable storage the list of entity ids has no duplicate, has the same length as the list of components, the i-th id belongs to the i-th component, and looking an id up gives back its position; tracking metadata stays aligned with the components.", "quantifier": "all finite histories of insert, remove, delete, clear, drain, retain, sort, apply", "why_tests_cant": "A representation invariant over all histories; the unsafe iteration code reads out of bounds or the wrong component if it ever breaks.", "anchors": ["src/sparse_set/mod.rs: SparseSet::insert, actual_remove, sort_unstable_by, private_clear, private_drain, private_retain", "src/sparse_set/window.rs"]}
{"id": "C13", "title": "Inserting with a newer generation replaces the stale component", "statement": "If a storage still holds a component for an older generation of an entity, inserting for the newer generation makes the new handle own the component: iteration with ids returns the new handle, and get on it works.", "quantifier": "all storages holding an older generation at the same index", "why_tests_cant": "Depends on the bit patterns of the two generations; for generations 0 and 1 (what tests use) the defective code gives the right answer.", "anchors": ["src/sparse_set/mod.rs: SparseSet::insert", "src/entity_id/mod.rs: EntityId::copy_index_gen"]}
{"id": "C14", "title": "Sorting a storage permutes it and nothing else", "statement": "After sort_unstable_by(cmp) the components appear in an order sorted by cmp, each entity still owns its own component, and its insertion and modification marks, and no entity is lost or added.", "quantifier": "all reachable storages, all total preorders cmp", "why_tests_cant": "The permutation is applied in place by cycle-following; a wrong cycle boundary only shows for particular permutations.", "anchors": ["src/sparse_set/mod.rs: SparseSet::sort_unstable_by"]}
{"id": "C15", "title": "Swapping and copying components between entities (apply, apply_mut)", "statement": "apply(a, f, b) and apply_mut hand the two components of a and b to the callback (panicking if one is missing or a == b for the exclusive version) and leave every other entity's component unchanged.", "quantifier": "all reachable storages, all entity pairs, all callbacks", "why_tests_cant": "Quantifies over all callbacks and aliasing patterns.", "anchors": ["src/sparse_set/mod.rs: SparseSet::private_apply, private_apply_mut"]}
{"id": "C16", "title": "retain keeps exactly the components selected by the predicate", "statement": "view.retain(f) calls f exactly once for each component present at the start and afterwards the storage holds exactly the entities for which f returned true, with unchanged components; every dropped one is recorded as a deletion when deletions are tracked.", "quantifier": "all reachable storages, all predicates", "why_tests_cant": "Removal swaps the last element into the hole while iterating; skipping or double-visiting depends on which positions are dropped.", "anchors": ["src/sparse_set/mod.rs: SparseSet::private_retain, private_retain_mut"]}
{"id": "C17", "title": "clear and drain take out every component exactly once", "statement": "drain returns each (entity, component) pair present exactly once and leaves the storage empty; clear leaves it empty; afterwards no old handle finds a component, and the storage can be used again as a map.", "quantifier": "all reachable storages, any number of drained elements consumed", "why_tests_cant": "The sparse array has to be reset for every element; a forgotten one is visible only through a later lookup of a handle that the test would have to guess.", "anchors": ["src/sparse_set/mod.rs: SparseSet::private_clear, private_drain", "src/sparse_set/drain.rs"]}
{"id": "C18", "title": "Bulk insertion equals one-by-one insertion", "statement": "bulk_add_entity gives each new entity exactly the component(s) produced for it, in order, with the same tracking marks as adding the entities one at a time.", "quantifier": "all storages, all iterators of components, all tuple widths", "why_tests_cant": "Compares two code paths on all inputs, including empty iterators and inexact size hints.", "anchors": ["src/sparse_set/bulk_add_entity.rs: BulkAddEntity, BulkInsert", "src/advanced/reserve.rs"]}
{"id": "C19", "title": "A system sees each tracked change in exactly one of its runs", "statement": "If a system runs repeatedly and each run looks at changes in the window (time of its previous run, time of this run], then a change stamped at any time t up to the last run falls in exactly one of the windows.", "quantifier": "all strictly increasing sequences of run times, all change times", "why_tests_cant": "Exactly-once over unboundedly many runs is an induction over the schedule.", "anchors": ["src/advanced/tracking.rs: TrackingTimestamp::is_within", "src/scheduler/into_workload_system.rs: last_run", "src/borrow/mod.rs"]}
{"id": "C20", "title": "inserted() reports exactly the components inserted since the reference point", "statement": "On a storage that tracks insertion, is_inserted(e) for a view with window (last, current] is true iff e is present and its most recent insertion carries a timestamp in the window - after any sequence of insertions, removals, sorts and writes.", "quantifier": "all histories of storage operations with arbitrary timestamps", "why_tests_cant": "The timestamps live in a parallel array that has to be permuted in step with swap-removal and sorting.", "anchors": ["src/sparse_set/mod.rs: SparseSet::insert, actual_remove, sort_unstable_by", "src/track/*.rs: is_inserted"]}
{"id": "C21", "title": "modified() reports exactly the components written since the reference point", "statement": "On a storage that tracks modification, is_modified(e) for a window (last, current] is true iff e is present and the last write to its component (in-place or by overwriting insertion) carries a timestamp in the window; components only read are not reported.", "quantifier": "all histories of storage operations with arbitrary timestamps", "why_tests_cant": "Same as above, and a fresh insertion into a recycled position has to reset the mark of the former occupant.", "anchors": ["src/sparse_set/mod.rs: SparseSet::insert, actual_remove", "src/mut.rs: Mut::deref_mut", "src/track/*.rs: is_modified"]}
{"id": "C22", "title": "removed()/deleted() logs contain exactly the removed/deleted components", "statement": "With removal (deletion) tracking the removed (deleted) log of a storage lists, in order, exactly one entry per successful removal (deletion) with its handle and timestamp since the log was cleared; clearing entries older than t keeps exactly those with timestamp >= t.", "quantifier": "all histories of storage operations", "why_tests_cant": "The logs accumulate over the complete history.", "anchors": ["src/sparse_set/mod.rs: SparseSet::dyn_remove, dyn_delete, private_clear, private_drain, clear_all_removed_and_deleted_older_than_timestamp"]}
{"id": "C23", "title": "Every tracking configuration tracks what its name says", "statement": "For each of the 16 tracking types, insertions / modifications / deletions / removals are recorded iff the type's name contains the word.", "quantifier": "all 16 tracking configurations and the 4 event kinds", "why_tests_cant": "The 64 combinations are constants in 16 files; tests only cover some.", "anchors": ["src/track/*.rs: Tracking::VALUE", "src/advanced/tracking.rs: track_insertion, track_modification, track_deletion, track_removal"]}
{"id": "C24", "title": "clear_all_inserted/modified make exactly the earlier changes invisible", "statement": "After World::clear_all_inserted (clear_all_modified) no insertion (modification) performed before the call is reported any more, and every one performed after the call is.", "quantifier": "all histories, all storages (component and unique)", "why_tests_cant": "Off-by-one questions on logical clocks depend on which operation comes right after the clear.", "anchors": ["src/all_storages/mod.rs: clear_all_inserted, clear_all_modified", "src/world.rs", "src/unique.rs: clear_all_inserted, clear_all_modified", "src/sparse_set/mod.rs: clear_all_inserted"]}
{"id": "C25", "title": "Runtime borrow checking: a writer is always alone", "statement": "At no point of any concurrent execution do an exclusive borrow of a storage and any other borrow of the same storage exist together (read-only reborrows of the exclusive borrow itself, which suspend it, aside); a request that would break this gets an error.", "quantifier": "all interleavings of any number of threads doing shared/exclusive borrow attempts, clones and drops, below 2^62 simultaneous borrows and failed attempts", "why_tests_cant": "Race conditions: the number of interleavings is unbounded.", "anchors": ["src/advanced/atomic_refcell/borrow_state.rs: BorrowState::read, write, exclusive_read, read_reborrow, Drop", "src/advanced/atomic_refcell.rs: borrow, borrow_mut"]}
{"id": "C26", "title": "Borrow errors are justified and borrows do not leak", "statement": "An exclusive request fails only while another borrow exists; a shared request fails only while an exclusive borrow exists; once all borrows are dropped both succeed again, regardless of how many requests failed before.", "quantifier": "all interleavings of borrow attempts, clones and drops", "why_tests_cant": "A failed shared request leaves the counter incremented; whether this ever leaks depends on the order of later operations.", "anchors": ["src/advanced/atomic_refcell/borrow_state.rs"]}
{"id": "C27", "title": "Concurrent first accesses create exactly one storage", "statement": "If several threads access a component storage that does not exist yet, all of them end up with the same storage, and no component inserted through one of them is lost.", "quantifier": "all interleavings of any number of threads running storage lookup-or-create", "why_tests_cant": "Double-checked locking: the bad interleaving is a tiny window between two lock acquisitions.", "anchors": ["src/all_storages/custom_storage.rs: custom_storage_or_insert_by_id, custom_storage_or_insert_mut_by_id"]}
{"id": "C28", "title": "Removing a unique never frees it under a live view", "statement": "remove_unique succeeds only when no view of the unique exists, and no later access finds the freed storage, in every concurrent execution.", "quantifier": "all interleavings of threads borrowing, dropping and removing a unique storage", "why_tests_cant": "Use-after-free by race; needs all interleavings.", "anchors": ["src/all_storages/mod.rs: remove_unique", "src/all_storages/custom_storage.rs: custom_storage_by_id"]}
{"id": "C29", "title": "Systems in one parallel batch never conflict", "statement": "In every workload that is built successfully, two systems placed in the same batch never access the same storage with at least one exclusive access, never both need the main thread, and a system borrowing all storages exclusively is alone in its batch.", "quantifier": "all workloads (any number of systems, any borrow declarations, any ordering constraints)", "why_tests_cant": "The scheduler is a graph algorithm over arbitrary inputs.", "anchors": ["src/scheduler/workload/create_workload.rs: order_systems, check_can_go_in_parallel_batch, check_conflict"]}
{"id": "C30", "title": "A built workload contains each of its systems exactly once", "statement": "In every successfully built workload the sequential order and the parallel batches each contain every declared system occurrence exactly once, and concatenating the batches gives the sequential order up to the order inside a batch.", "quantifier": "all workloads", "why_tests_cant": "Losing or duplicating a system depends on the dependency structure.", "anchors": ["src/scheduler/workload/create_workload.rs: order_systems", "src/scheduler/batches.rs"]}
{"id": "C31", "title": "Explicit and inferred ordering constraints are respected", "statement": "If system a has to run before system b (because of before_all/after_all, a barrier, or because they conflict and a was declared first and neither opted out), then in a successfully built workload a comes earlier in the sequential order and in a strictly earlier batch than b.", "quantifier": "all workloads", "why_tests_cant": "Topological-sort correctness over all inputs.", "anchors": ["src/scheduler/workload/create_workload.rs: order_systems, propagate_implicit_hard, map_before_all_to_after, map_after_all_to_after, propagate_barriers"]}
{"id": "C32", "title": "A workload is rejected as cyclic exactly when its constraints are cyclic", "statement": "Building reports a cycle iff the ordering constraints (explicit and inferred) contain a cycle; otherwise it succeeds. The builder always terminates.", "quantifier": "all workloads", "why_tests_cant": "Needs completeness of the ordering algorithm for all graphs.", "anchors": ["src/scheduler/workload/create_workload.rs: order_systems"]}
{"id": "C33", "title": "Conflicting systems run in declaration order by default", "statement": "If no system of a workload declares before_all/after_all constraints, building succeeds and any two conflicting systems run in declaration order (strictly different batches).", "quantifier": "all workloads without explicit ordering", "why_tests_cant": "The implementation links a system only to the nearest earlier conflicting one, the property is about all pairs and needs transitivity arguments.", "anchors": ["src/scheduler/workload/create_workload.rs: propagate_implicit_hard, propagate_implicit_soft, order_systems"]}
{"id": "C34", "title": "A barrier separates the systems declared before it from those after it", "statement": "with_barrier: every system declared before the barrier is in a strictly earlier batch than every system declared after it, also after merging workloads.", "quantifier": "all workloads with any number of barriers", "why_tests_cant": "Quantifies over positions of barriers and merges.", "anchors": ["src/scheduler/workload.rs: with_barrier, merge", "src/scheduler/workload/create_workload.rs: propagate_barriers"]}
{"id": "C35", "title": "into_sequential_workload runs the systems one after the other in order", "statement": "A workload made by into_sequential_workload from (s1, ..., sn) runs s_i in a strictly earlier batch than s_{i+1}, for all i.", "quantifier": "all tuples of systems and nested workloads", "why_tests_cant": "The chain of labels has to connect for every shape of nested workload, including empty ones.", "anchors": ["src/scheduler/into_workload.rs: IntoWorkload::into_sequential_workload"]}
{"id": "C36", "title": "Running a workload executes every enabled system exactly once and stops at the first failing batch", "statement": "run_workload executes, batch by batch, every system whose run conditions hold exactly once and no other; when a system fails no system of a later batch is started and the error is reported; a disabled workload runs nothing.", "quantifier": "all workloads, all outcomes of run conditions and systems, all interleavings inside a batch", "why_tests_cant": "Failure/skip patterns are exponential in the number of systems.", "anchors": ["src/world/run_batches.rs: run_batches, run_batches_sequentially, run_single_system", "src/world.rs: run_batches"]}
{"id": "C37", "title": "Parallel execution of a workload gives the same result as sequential execution", "statement": "If each system only reads the storages it declares shared or exclusive and only writes the ones it declares exclusive, then for every interleaving of the systems inside each batch the final state is the one produced by the sequential order.", "quantifier": "all workloads, all systems respecting their declarations, all schedules inside batches", "why_tests_cant": "Determinism over all schedules.", "anchors": ["src/scheduler/workload/create_workload.rs: order_systems, check_conflict", "src/world/run_batches.rs"]}
{"id": "C38", "title": "Workload requirements are enforced", "statement": "require_in_workload(t), require_before(t), require_after(t): a workload builds only if some system with tag t is in the workload / runs before / runs after the requiring system, and is not rejected when this is the case.", "quantifier": "all workloads with any tags and constraints", "why_tests_cant": "Quantifies over graphs.", "anchors": ["src/scheduler/workload/create_workload.rs: check_require_in_workload, check_require_before, check_require_after"]}
{"id": "C39", "title": "Systems and run conditions with conflicting borrows are rejected", "statement": "A system (or run condition) whose own borrows conflict (the same storage borrowed twice with at least one exclusively, or all-storages together with anything else) is rejected when it is added; others are accepted.", "quantifier": "all lists of borrows", "why_tests_cant": "Pairwise check over lists of any length.", "anchors": ["src/scheduler/into_workload_system.rs", "src/scheduler/into_workload_run_if.rs"]}
{"id": "C40", "title": "Deleting an entity removes all its components and nothing else", "statement": "delete_entity(h) returns true iff h was alive; then h has no component in any storage, and all components of all other entities are unchanged; if it returns false nothing changes.", "quantifier": "all worlds reachable through the public operations, any number of storages", "why_tests_cant": "Quantifies over the world's history and the set of storages.", "anchors": ["src/all_storages/mod.rs: delete_entity, strip, bulk_strip"]}
{"id": "C41", "title": "A world refines a table of entities with optional components", "statement": "Along any history of add_entity, add_component, remove, delete_component, delete_entity, strip, get and writes, the world behaves as a finite map from live handles to rows of optional components; components only exist for handles that were alive when they were added, and a recycled slot never exposes a component of its former owner.", "quantifier": "all finite histories", "why_tests_cant": "Refinement of the complete API over all histories.", "anchors": ["src/all_storages/mod.rs: add_entity, add_component, delete_entity, strip", "src/add_component.rs", "src/sparse_set/mod.rs", "src/entities/mod.rs"]}
{"id": "C42", "title": "delete_any deletes exactly the entities that own one of the components", "statement": "delete_any::<(A, B, ..)>() deletes exactly the live entities that have at least one of the listed components.", "quantifier": "all reachable worlds, all tuples of storages", "why_tests_cant": "Quantifies over all worlds; the implementation works on detached id lists.", "anchors": ["src/all_storages/delete_any/mod.rs: TupleDeleteAny, CustomDeleteAny"]}
{"id": "C43", "title": "Multi-component removal and deletion act on every listed component", "statement": "world.remove::<(A, B, ..)>(e) and world.delete_component::<(A, B, ..)>(e) take all the listed components away from e.", "quantifier": "all reachable worlds, all tuples", "why_tests_cant": "Depends on which subset of the components is present.", "anchors": ["src/sparse_set/delete.rs: TupleDelete", "src/sparse_set/remove.rs: TupleRemove", "src/delete.rs", "src/remove.rs"]}
{"id": "C44", "title": "Moving and cloning entities between worlds preserves components", "statement": "move_entity transfers the entity with all its registered components to the other world and removes it from the first; clone_entity_to/clone_components_to copy the registered components and change nothing in the source; other entities of the target are unchanged.", "quantifier": "all pairs of reachable worlds", "why_tests_cant": "Quantifies over two histories.", "anchors": ["src/all_storages/mod.rs: move_entity, move_components, clone_entity_to, clone_components_to", "src/sparse_set/mod.rs: move_component_from, clone_component_to"]}
{"id": "C45", "title": "add_distinct_component inserts exactly the changed components", "statement": "add_distinct_component((a, b, ..)) stores each component that differs from the current one and leaves the equal ones untouched (not flagged as modified).", "quantifier": "all reachable storages, all tuples", "why_tests_cant": "Depends on the pattern of equal/different components in the tuple.", "anchors": ["src/add_distinct_component.rs: AddDistinctComponent"]}
{"id": "C46", "title": "Iterating several storages yields exactly the entities that have them all", "statement": "Iterating a tuple of views yields each entity owning all the components exactly once, with its own components, whichever storage the iterator chooses to drive the loop.", "quantifier": "all consistent storages, any tuple width, nested tuples", "why_tests_cant": "The driving storage is chosen at run time from the lengths; correctness has to hold for each choice.", "anchors": ["src/iter/mod.rs: Shiperator::next", "src/iter/mixed.rs: Mixed", "src/iter/into_shiperator.rs: impl_into_shiperator_tuple", "src/sparse_set/window.rs: index_of"]}
{"id": "C47", "title": "Iterator filters (not, optional, inserted, modified) select exactly what they say", "statement": "Inside a tuple, !a keeps the entities without the component, a.as_optional() keeps all and yields the component if present, a.inserted()/modified() (and their negations) keep those whose mark is (is not) in the view's window.", "quantifier": "all consistent storages, all combinations of filters", "why_tests_cant": "Combinatorial in the filters and in the driving storage.", "anchors": ["src/iter/sailor.rs", "src/iter/sailor/not.rs", "src/iter/sailor/tracking.rs", "src/optional.rs", "src/not.rs"]}
{"id": "C48", "title": "Or-iteration yields each entity with at least one of the components once", "statement": "(&a | &b).iter() yields each entity that has a or b exactly once, as One if it has a and as Two otherwise, also when a or b is itself a tuple or an or-expression, in every consumption style.", "quantifier": "all consistent storages, nested or-expressions, next/fold/with_id", "why_tests_cant": "The iterator walks two slices with mutable state; consumption styles and nesting multiply.", "anchors": ["src/or.rs", "src/iter/sailor/or.rs", "src/iter/captain/or.rs", "src/iter/into_shiperator/or.rs", "src/iter/with_id.rs"]}
{"id": "C49", "title": "All ways of consuming an iterator agree", "statement": "For every interleaving of next and next_back, the front items followed by the reversed back items are the sequence of a plain forward loop; fold and rfold visit the same sequence (reversed); with_id pairs each item with the handle that owns it, in every direction.", "quantifier": "all iterators, all interleavings of next/next_back", "why_tests_cant": "Interleavings are unbounded; the id is recomputed from the position after the fact.", "anchors": ["src/iter/mod.rs: Shiperator::next, next_back, fold, rfold", "src/iter/with_id.rs: WithId"]}
{"id": "C50", "title": "Parallel iteration visits each item exactly once", "statement": "However the work is split recursively, the pieces of par_iter together yield exactly the items of the sequential iterator, each once, hence no two tasks get the same component mutably.", "quantifier": "all split trees, all iterators", "why_tests_cant": "The split points are chosen by the thread pool at run time.", "anchors": ["src/iter/parallel.rs: UnindexedProducer::split", "src/sparse_set/window.rs: RawEntityIdAccess::split_at"]}
{"id": "C51", "title": "world.iter finds the same entities as iterating borrowed views", "statement": "world.iter::<(&A, &B)>() yields the same items as borrowing the views and iterating the tuple.", "quantifier": "all reachable worlds", "why_tests_cant": "The two entry points build their iterators in different code; the difference depends on entity indices and storage sizes.", "anchors": ["src/iter_component.rs", "src/sparse_set/window.rs: from_owned_view, new_owned"]}
{"id": "C52", "title": "Serializing and deserializing a world's entities and components restores them", "statement": "Deserializing the serialized entities into an empty world makes exactly the same handles alive, and deserializing a serialized view into an empty storage gives the same map; with override_component=false existing components win, otherwise the serialized ones win.", "quantifier": "all reachable worlds and storages", "why_tests_cant": "Entities are re-created with spawn in index order with gaps; all gap patterns matter.", "anchors": ["src/views/serde/de/entities_mut.rs", "src/views/serde/de/view_mut.rs", "src/views/serde/ser/*.rs", "src/entities/mod.rs: spawn"]}
{"id": "C53", "title": "Unique storage tracking reports exactly its insertions and writes", "statement": "is_inserted/is_modified on a unique view report the insertion and the last exclusive access iff they fall in the view's window; clear_inserted/clear_modified hide earlier ones and nothing later.", "quantifier": "all histories of unique operations", "why_tests_cant": "Logical clocks over histories.", "anchors": ["src/unique.rs", "src/views/unique_view.rs", "src/views/unique_view_mut.rs", "src/borrow/mod.rs"]}
{"id": "C54", "title": "Timestamps order operations: an operation never misses one that completed before it started", "statement": "If operation x completes before operation y starts, then y's timestamp is larger than x's; hence a later reader that has not yet passed x's timestamp sees x's changes.", "quantifier": "all concurrent executions", "why_tests_cant": "Quantifies over all interleavings of counter increments and storage accesses.", "anchors": ["src/world.rs: get_current, borrow", "src/all_storages/mod.rs: get_current", "src/scheduler/into_workload_system.rs"]}
{"id": "C55", "title": "The default workload always exists", "statement": "Once a workload has been added, run_default_workload finds a workload; set_default_workload to an unknown name fails without changing anything; renaming a workload keeps the default pointing to the same systems.", "quantifier": "all histories of add_workload, set_default_workload, rename_workload", "why_tests_cant": "History property with several interacting maps.", "anchors": ["src/scheduler/mod.rs: Scheduler::set_default, rename", "src/scheduler/workload/create_workload.rs: create_workload", "src/world.rs: rename_workload"]}
{"id": "C56", "title": "Adding a unique never frees a storage under a live view", "statement": "World::add_unique and AllStorages::add_unique (both take &self) never invalidate a view of the unique that is still alive: reading through a live view never touches freed memory.", "quantifier": "all interleavings of threads adding, viewing, dropping and removing uniques", "why_tests_cant": "Use-after-free is not observable without a sanitizer and depends on the order of calls.", "anchors": ["src/all_storages/mod.rs: add_unique", "src/storage/sbox.rs: Drop", "src/world.rs: add_unique"]}
{"id": "C57", "title": "Storages that are not Sync or not Send obey the one-borrower and home-thread rules", "statement": "A storage of a !Sync type has at most one borrow alive at any time, even shared ones; a storage of a !Send type is only ever borrowed exclusively (or, if also !Sync, at all) on the thread it was created on.", "quantifier": "all interleavings of borrow attempts, clones and drops by any number of threads", "why_tests_cant": "Soundness over all interleavings.", "anchors": ["src/advanced/atomic_refcell.rs: borrow, borrow_mut", "src/advanced/atomic_refcell/borrow_state.rs: exclusive_read"]}
{"id": "C58", "title": "A repeatedly running system sees every change exactly once, also in concurrent executions", "statement": "For a system that runs repeatedly while other threads change storages, every change is inside exactly one of the windows (last run, this run] of the system's runs that start after the change, for every interleaving of timestamp generation and storage borrow.", "quantifier": "all concurrent executions", "why_tests_cant": "The timestamp is taken before the borrow; the gap is a tiny window.", "anchors": ["src/world.rs: borrow, get_current", "src/scheduler/into_workload_system.rs: system_fn"]}
{"id": "C59", "title": "Loading a saved world never makes a dead handle valid again", "statement": "A handle that was dead when the entities were serialized stays dead after they are deserialized into a new world: no later operation of the new world gives it out.", "quantifier": "all saved worlds, all later histories of the loaded world, all handles", "why_tests_cant": "Depends on the pattern of free slots and generations at the time of saving and on the order in which the loaded world reuses slots.", "anchors": ["src/views/serde/de/entities_mut.rs: visit_seq", "src/entities/mod.rs: spawn, generate"]}
{"id": "C60", "title": "Deserializing a unique restores its value and counts as a modification", "statement": "Deserializing a serialized unique through a mutable unique view gives the view the serialized value, whether or not the unique exists, leaves the other uniques alone, and is reported by is_modified like any other write.", "quantifier": "all worlds of uniques, all values", "why_tests_cant": "Each of the views has its own implementation; the tracking effect only shows in later views.", "anchors": ["src/views/serde/de/unique_mut.rs", "src/views/serde/de/unique_or_init_mut.rs", "src/views/serde/de/unique_or_default_mut.rs"]}
{"id": "C61", "title": "The insertion and removal callbacks of a storage are called for every component that comes and goes", "statement": "on_insertion is called exactly once for every component put into the storage, in order and with its handle and value; on_removal is called exactly once for every component that leaves the storage, with its handle and value, and for nothing else.", "quantifier": "all histories of a storage, all tracking flags, all handles and components", "why_tests_cant": "Every way in and out of a storage has its own code; the stale-handle ways only exist after particular deletions.", "anchors": ["src/sparse_set/mod.rs: insert, actual_remove, dyn_delete, private_clear, private_drain, private_retain", "src/sparse_set/bulk_add_entity.rs"]}
{"id": "C62", "title": "A cloned world holds the same entities with clones of their components, and is a world of its own", "statement": "World::clone gives a world with the same live handles; every component whose clone was registered is there, cloned, under the same handle, counts as inserted and not as modified; nothing else is there. Every later history of the clone behaves as it would in a world that had been built that way, and never gives out a handle the original gave out before the clone. The same holds for clone_storages_to and for clones of clones.", "quantifier": "all reachable worlds, all sets of registered clone functions, all storage orders, all later histories", "why_tests_cant": "Depends on the allocator state, the free list and the tracking data at the time of cloning, and shows in later operations.", "anchors": ["src/world.rs: Clone", "src/all_storages/mod.rs: clone_storages_to", "src/sparse_set/mod.rs: try_clone", "src/entities/mod.rs: try_clone", "src/unique.rs: try_clone"]}
{"id": "C63", "title": "A system borrows what its parameters declare, so systems of one batch never refuse each other's views", "statement": "When the body of a system starts, it holds exactly the storages its parameters declared to the scheduler, exclusively where they said so. A system that returned, failed or panicked holds nothing. Whatever the interleaving, the systems that the scheduler put in one batch get all of their views, no view is ever freed under them, and all of them return; a view that cannot be had makes an optional parameter None.", "quantifier": "all lists of parameters (nested tuples, options, wrappers, tracking), all workloads, all batches, all interleavings", "why_tests_cant": "Needs the combination of parameter types, the batch they end up in and the interleaving of single borrows.", "anchors": ["src/borrow/mod.rs: Borrow", "src/borrow/borrow_info.rs: BorrowInfo", "src/borrow/world_borrow.rs: WorldBorrow", "src/scheduler/into_workload_system.rs: into_workload_system", "src/views/unique_or_default.rs: world_borrow", "src/views/unique_or_init.rs: world_borrow, set, get_or_init"]}
{"id": "C64", "title": "References handed out by World::get behave like locks on a table of components", "statement": "world.get::<(&T, &mut U, ..)>(entity) succeeds exactly when the entity has all of the components and no requested storage is in use by a clashing live reference or by another part of the same request; otherwise it reports the first problem and leaves nothing borrowed. It never changes what views show. While a reference lives, its entity is alive, an exclusive reference is the only one into its storage, and dereferencing gives the component that views show, whatever is done through views of other storages. A write changes that one component and marks it as modified. No reference can be used after the component is gone or while an exclusive one exists.", "quantifier": "all histories of get, drop, read, write, map, uses of views and of the exclusive World, for any number of live references, entities and component types", "why_tests_cant": "The state space is the product of histories and sets of live references; dangling and aliased references read plausible values in tests.", "anchors": ["src/advanced/get_component.rs: Ref, RefMut, GetComponent::get", "src/world.rs: get", "src/advanced/atomic_refcell.rs: borrow, borrow_mut", "src/delete.rs: Delete", "src/entities/mod.rs: add_entity, add_component"]}
{"id": "C65", "title": "A panic of user code that is caught leaves a usable storage", "statement": "When a callback of a storage, a closure given to retain, retain_mut, apply, apply_mut or sort, or the Drop of a component panics and the panic is caught, the storage is still a map from entities to components: every later call runs without undefined behaviour and answers according to the map. An insertion whose callback panicked did nothing. A removal or deletion whose callback panicked took out exactly that component. An interrupted retain did what the closure decided for the entities it was shown, and entities it was not shown keep their component, including its marks. Every removed or deleted component is recorded when tracking is on, and a component never ends up with another entity.", "quantifier": "all histories of storage operations in which any number of calls are interrupted by panics, all closures (also with memory and writes), all tracking settings", "why_tests_cant": "Each call can be interrupted at several points and the damage shows up only in later calls, as wrong components or memory errors; tests of panics inside of callbacks are rare.", "anchors": ["src/sparse_set/mod.rs: insert, actual_remove, dyn_delete, dyn_remove, private_retain, private_retain_mut, private_apply, clear, sort_unstable_by"]}
{"id": "C66", "title": "A panic of user code that is caught leaves a usable world", "statement": "When an insertion or removal callback, or the closure of a retain, panics in the middle of add_entity, add_component, remove, delete_component, delete_entity, strip, bulk_strip, retain_storage, retain or delete_any and the panic is caught, the world can still be used: no later call panics in the crate or has undefined behaviour. Each component and each entity is afterwards as before the call or as the complete call leaves it; entities the call was not about are untouched; a call that returns did exactly what it does in a world where nothing panics. An entity created later has only the components it was given. A dead entity has no components, every live entity's id was returned to somebody, and iterations show the ids that were given out.", "quantifier": "all histories of world operations in which any number of calls are interrupted by panics of callbacks or closures, all callbacks, all tracking settings", "why_tests_cant": "Each operation can be interrupted between any two of its steps, and what is left behind shows up only when the index is reused later; the wrong ids depend on the bits of the generations.", "anchors": ["src/all_storages/mod.rs: add_entity, add_component, remove, delete_component, delete_entity, strip, bulk_strip, retain_storage, retain", "src/all_storages/delete_any/mod.rs: delete_any", "src/sparse_set/mod.rs: insert, actual_remove, private_retain_mut"]}
{"id": "C67", "title": "are_all_uniques_present_in_world names the first missing unique and its Ok is a promise", "statement": "Workload::are_all_uniques_present_in_world(world) returns Err(AllStorages) exactly when all storages are exclusively borrowed. Otherwise it returns the first unique storage, in the order of the systems and their parameters, that a system of the workload borrows and that is not in the world, and Ok exactly when there is none. When it returns Ok no system of the workload is refused a unique because it is missing, in no batch, on no thread, in no interleaving. When it names a unique, a system with a view of it that is not optional never gets to its body as long as nothing running with it adds the unique. A unique that is named makes the workload fail, and a workload that gets Ok does not fail because of a missing unique.", "quantifier": "all lists of systems with any parameter types of the crate, all worlds, all batches, all interleavings of the borrow steps of the systems", "why_tests_cant": "Parameters nest (tuples, options, views that add the unique themselves), systems of a batch borrow concurrently and batches follow on each other's worlds; tests check one unique in one system.", "anchors": ["src/scheduler/workload.rs: are_all_uniques_present_in_world, check_uniques_in_systems", "src/borrow/borrow_info.rs: borrow_info", "src/scheduler/into_workload_run_if.rs", "src/views/unique_or_default.rs, unique_or_init.rs"]}
{"id": "C68", "title": "Every parallel run of a workload equals a serial run of the systems it started", "statement": "Whatever the interleaving and whatever the outcome (also when systems or conditions fail and others are left out), a parallel run of a workload leaves the storages, and gives every started system the result, of running the started systems alone, one after the other in the order in which they were started, with every condition evaluated where it was evaluated. Two parallel runs that start the same systems, in whatever order, end with the same storages and the same results, and both fail or both succeed. Without the feature parallel the same holds with the order of the systems, for any functions.", "quantifier": "all workloads, all system and condition functions that use only the storages they declare, all initial storages, all interleavings of the reads and writes of the systems, all outcomes", "why_tests_cant": "The number of interleavings is unbounded and races show up rarely; tests compare one final value after one run, mostly of runs without errors.", "anchors": ["src/world/run_batches.rs", "src/world.rs: run_workload, run_batches", "src/scheduler/create_workload.rs: batches"]}
{"id": "C69", "title": "A panic of a system or run condition unwinds out of run_workload after everything started has ended", "statement": "When a system or a run condition panics while a workload runs, the call unwinds; it unwinds for no other reason, and a panic is never lost, not even when other systems return errors. When it unwinds, no system of the workload is still running, no system was started twice, nothing of later batches happened, and the storages are those of running the started systems alone in the order of their starts, the panicking ones up to their panic. In a batch that was begun, a system is left out only when a system run by the pool failed or panicked: a panic on the calling thread alone leaves out nothing of its batch. A call that returns an error saw no panic and names a system that failed with this error; a call that returns Ok saw neither.", "quantifier": "all workloads, all system and condition functions that may panic at any point, all initial storages, all interleavings, any number of panics and errors in one run", "why_tests_cant": "Panics race with errors of other threads and with systems not yet started; a test sees one schedule and needs real threads to see any of it.", "anchors": ["src/world/run_batches.rs", "src/world.rs: run_workload, run_batches", "rayon::in_place_scope as used there"]}
{"id": "C70", "title": "run_if and skip_if calls on systems and on workloads around them combine as a conjunction, outermost first", "statement": "However a workload is built (with_system, with_workload, merge, tuples, sequential tuples, append, any nesting), a system of it runs in a successful run exactly when all functions given to run_if on the system and on the workloads it was nested in gave true and all those given to skip_if gave false, asked in the order outermost workload first, each in the order of the calls, at the time the system's condition was evaluated; the first that says no or fails decides and no later one is called. A system for which nothing was asked always runs. Whatever the outcome, no system is started unless this held. What was asked of the outermost workload is asked once, before anything: when it says no nothing runs and the run succeeds; when it fails its error is returned.", "quantifier": "all ways of building workloads to any depth, all condition functions (also ones that write or fail), all initial storages, all interleavings", "why_tests_cant": "Nesting depth and the number of calls are unbounded, and conditions are composed by closures in four different places of the code; tests try one or two calls.", "anchors": ["src/scheduler/workload_modificator.rs: run_if, skip_if", "src/scheduler/system_modificator.rs: run_if, skip_if", "src/scheduler/workload.rs: propagate, merge, append", "src/scheduler/into_workload.rs", "src/world/run_batches.rs"]}
{"id": "C71", "title": "The borrow flag of a storage prevents data races under release/acquire memory, with the orderings it uses", "statement": "However threads interleave borrow, borrow_mut, clones, reborrows and drops of one AtomicRefCell, and however outdated the values of the flag that they read (the memory model allows any value a thread has not seen overwritten), any two conflicting accesses made to the content through borrows are ordered by happens-before: there is no data race. While an exclusive borrow is alive, the only other live borrows are reborrows of it; for content that is not Sync all live shared borrows belong to one thread. The Acquire of read, exclusive_read and write and the Release of the two drops are exactly what this takes: weaken any one and some run races; the orderings of read_reborrow and of the fetch_sub in check_overflow do not matter. A call that reads the newest value of the flag is refused only if a borrow it conflicts with is alive (in runs of fewer than 2^62 steps).", "quantifier": "all numbers of threads, all runs of any length, all choices of values allowed by release/acquire memory, all combinations of the seven orderings, the three access rules (Sync; Send and not Sync; neither)", "why_tests_cant": "On x86 the weak outcomes do not occur, and on other machines they are rare; the number of runs is infinite and that an ordering is strong enough is a statement about all of them.", "anchors": ["src/advanced/atomic_refcell/borrow_state.rs: read, exclusive_read, read_reborrow, write, check_overflow, SharedBorrow::drop, ExclusiveBorrow::drop", "src/advanced/atomic_refcell.rs: borrow, borrow_mut"]}
{"id": "C72", "title": "What adding a workload reports is what will be run, and the reported reasons are real", "statement": "The WorkloadInfo of add_to_world is an error exactly when building fails, and otherwise lists, number by number, the batches that are stored for running. Each declared system has one entry, in the batch it runs in, with its borrows and the number of its function. A reported conflict names two borrows that exclude each other, one of the system and one of a system that runs in an earlier batch; a system without explicit order that conflicts with one declared before it has a conflict reported. The list `after` has exactly the systems it is directly ordered behind (explicit constraint, barrier, nearest conflicting one declared before), all of which run in an earlier batch. The lists `after_all` and `before_all` have one note for each other system with a label this one has to run after, or before, with the first such label.", "quantifier": "all workloads the public API can build, added to all schedulers", "why_tests_cant": "The report is filled along the whole of building a workload, the orders of systems and labels are unbounded, and that nothing is missing from a list or wrong in it is a statement about all of them.", "anchors": ["src/scheduler/workload/create_workload.rs: create_workload, propagate_implicit_hard_ordering, map_before_all_to_after, map_after_all_to_after, order_systems, check_can_go_in_parallel_batch, check_conflict", "src/scheduler/info.rs: WorkloadInfo, BatchInfo, SystemInfo, Conflict, BeforeAfterConstraint"]}
{"id": "C73", "title": "Workloads filled with Extend: which are accepted, and what still holds for them", "statement": "Extend does not number the systems it adds, so numbers and positions part. Without requirements and under a new name, a workload made with extend, with_system, with_barrier, append, tag and run_if is accepted exactly when every system gets its turn, where a system gets its turn if every number it waits for (position of a system it is directly ordered behind) is the number of a system that gets its turn. Building always ends. The batches of an accepted workload hold each declared system exactly once and are free of conflicting borrows. Where adding the same systems one by one with with_system is accepted, extend is accepted exactly if nothing has to come after an added system other than the first of the workload.", "quantifier": "all workloads made with extend and the listed calls, all lists of declared systems, all schedulers", "why_tests_cant": "The numbers of systems may coincide and miss in any pattern; which workloads are refused, and that no accepted one has a batch with conflicting borrows, is a statement about all of them.", "anchors": ["src/scheduler/system.rs: Extend<WorkloadSystem> for Workload", "src/scheduler/workload/create_workload.rs: insert_systems_in_scheduler, order_systems", "src/scheduler/workload.rs: with_system, append"]}
{"id": "C74", "title": "Labels: equality, hashing and cloning agree, and tables keyed by labels are maps", "statement": "Two labels are equal exactly when they have the same type and the same content, where the labels of functions count by the function's type alone and boxing does not matter; this is an equivalence. Equal labels feed the same to a hasher, labels of different types are never equal, clones are equal to the original. So a hash map keyed by labels (the scheduler's workloads), with any hash function, holds under each label what was last inserted under an equal one. The labels of the workload model (Sched.v) are these labels up to equality.", "quantifier": "all labels of the crate's label types and of types with derive(Label), nested and boxed to any depth; all histories of a table; all hash functions", "why_tests_cant": "Labels nest (sequential labels, boxed labels) and are compared across all pairs of types; agreement of Hash and Eq is a statement about all pairs.", "anchors": ["src/scheduler/label.rs: Label, impl_label_string_like, Hash and PartialEq for dyn Label, SequentialLabel, SystemLabel, WorkloadLabel", "src/scheduler/workload/create_workload.rs: UniqueSystemId", "shipyard_proc/src/label_expand.rs: expand_label", "src/scheduler/mod.rs: workloads"]}
{"id": "C75", "title": "Structs of views with derived traits declare and borrow what their fields do; derive(Component) tracks what is listed", "statement": "A struct with derive(Borrow) or derive(WorldBorrow) and derive(BorrowInfo) declares exactly what the views inside of it declare (however nested in options, tuples and structs; fields marked #[shipyard(default)] excepted), and systems behave, step by step and next to any other systems, as if its views were separate parameters: only what is declared is ever held, a refused field releases the fields before it, and the systems of one batch never refuse each other's views. A component tracks exactly what its #[track(..)] lists.", "quantifier": "all types of parameters with any nesting of structs, all attributes, all interleavings of any number of systems, all worlds; all lists in track attributes", "why_tests_cant": "The impl of BorrowInfo that derive generates is unsafe: a declaration that misses a borrow shows up only in some schedule of some workload. The macros take any struct.", "anchors": ["shipyard_proc/src/borrow_expand.rs: expand_borrow", "shipyard_proc/src/world_borrow_expand.rs: expand_world_borrow", "shipyard_proc/src/borrow_info_expand.rs: expand_borrow_info", "shipyard_proc/src/component_expand.rs: expand_component", "shipyard_proc/src/lib.rs: component"]}
{"id": "C76", "title": "Tracking timestamps follow happens-before under weak memory, and a repeating system sees each change exactly once", "statement": "On a machine with weak memory: a timestamp handed out to an operation is smaller than every timestamp handed out behind it, and no two operations get the same one. If the runs of a system do not overlap and a change's timestamp was taken before or behind the beginning of each of them, the change is seen (inserted, modified, ...) by exactly one run: the first one that begins behind it.", "quantifier": "all executions of any number of threads and systems, all choices of the memory which message an instruction reads, all synchronisation between threads, as long as the 64-bit counter does not wrap", "why_tests_cant": "x86 hides the reorderings that the orderings of these atomics permit, and the number of executions is unbounded.", "anchors": ["src/world.rs: World::get_current, World::get_tracking_timestamp", "src/all_storages/mod.rs: AllStorages::get_current, AllStorages::get_tracking_timestamp", "src/scheduler/into_workload_system.rs: IntoWorkloadSystem::into_workload_system"]}
{"id": "C77", "title": "Adding a workload is all or nothing and enables the tracking its systems need for good", "statement": "When add_to_world returns Ok the workload exists, workloads_info lists it, and exactly the tracking asked for by the views of its systems was enabled, none was lost. From then on, whatever is done to the world and whatever runs besides, no system or condition of the workload is refused a view because tracking is not enabled. When it returns an error nothing changed. workloads_info lists the workloads of the world. The same tracking guarantee holds for a built workload after apply_tracking.", "quantifier": "all workloads, all parameter types, all worlds and guards that are alive, all later histories, all interleavings", "why_tests_cant": "It is about every later moment of a world and every system that may run at the same time; the failures need a view that is alive at the moment the workload is added.", "anchors": ["src/scheduler/workload.rs: Workload::add_to_world, Workload::build, ScheduledWorkload::apply_tracking", "src/scheduler/workload/create_workload.rs: insert_systems_in_scheduler", "src/borrow/borrow_info.rs: BorrowInfo::enable_tracking", "src/scheduler/into_workload_run_if.rs: IntoRunIf::into_workload_run_if", "src/scheduler/mod.rs: Scheduler::rename"]}
{"id": "C78", "title": "Storages are handed out as the type they have, on threads that may touch them", "statement": "Storages are type-erased boxes found by an id. In every run of calls that the compiler accepts, on any number of worlds and threads: a reference to a storage, and the box that remove_unique opens, has the type of the storage; a storage that is not Send is borrowed exclusively, moved and dropped only on the thread it was made on, and one that is not Sync is shared with other threads only while nobody else holds it. A lookup by type does not panic on the type when storages were put under their own ids, and a view of a unique panics exactly when it asks for another wrapper than the one the unique was added with. A storage that is not a unique keeps its type and its threads until another one is cloned over it or the world is dropped.", "quantifier": "all programs (component, unique and user-defined storage types with any Send/Sync), all histories of calls on any number of worlds and threads, with and without the feature thread_local", "why_tests_cant": "It is a soundness claim about unsafe casts and unsafe Send/Sync for all types and thread assignments; the violations need unusual ids, generators or trait implementations and may go unnoticed when they happen.", "anchors": ["src/all_storages/custom_storage.rs: CustomStorageAccess", "src/all_storages/mod.rs: AllStorages::add_unique, AllStorages::remove_unique, AllStorages::exclusive_storage_or_insert_mut, AllStorages::clone_storages_to", "src/storage/sbox.rs: SBox", "src/advanced/atomic_refcell.rs: AtomicRefCell", "src/world.rs: World::add_custom_storage", "src/world/builder.rs: WorldBuilder::with_custom_thread_id"]}
{"id": "C79", "title": "A view that asks for tracking always finds the tracking data it reads", "statement": "An exclusive view with a tracking parameter is given out exactly when the storage tracks what it asks for. From then on, whatever is done through the view (insertions, removals, writes, sorting, turning more tracking on, overriding its timestamps), every operation goes through, is_inserted and is_modified answer exactly what the history of the storage says about the window of the view, and the iterators inserted(), modified(), inserted_or_modified() and their negations visit exactly the matching entities, once each, and read nothing out of bounds. This holds even if the storage behind the view is exchanged as a whole, when the component type itself tracks what the view asks for.", "quantifier": "all component types, all tracking parameters of component and view, all histories of the storage before and after the borrow, all exchanges of the storage through DerefMut", "why_tests_cant": "The iterators read the tracking vectors unchecked; that these are long enough depends on flags set at any earlier time and on every operation that changes the storage, including assignments through DerefMut that no test makes.", "anchors": ["src/views/view_mut.rs: DerefMut for ViewMut, ViewMut::new_for_custom_storage, ViewMut::is_inserted, ViewMut::inserted", "src/borrow/mod.rs: Borrow for ViewMut", "src/sparse_set/mod.rs: SparseSet::check_tracking, SparseSet::new_custom_storage, SparseSet::track_insertion", "src/iter/sailor/tracking.rs"]}
{"id": "C80", "title": "The ready-made run conditions answer what the history of the world says", "statement": "Asked on the thread that made the world while nobody holds a view of it, run_if_storage_empty::<T> lets a system or workload run exactly when no entity has a component T (given through plain views and not taken away since by remove, strip, delete_entity or clear), run_if_missing_unique::<T> exactly when the unique T was never added or was removed since, in whichever of its four forms it was added, and run_if_storage_empty_by_id exactly when the named storage is empty: for component storages also in the NonSend, NonSync and NonSendSync forms, for custom storages when they say so, for storages that do not exist always. The skip_if forms are the exact opposite. No storage is ever 'already borrowed' for them. Neither answer is given, and the run fails, exactly when somebody holds a view of the world or the condition is asked on a thread that did not make the world (with the feature thread_local).", "quantifier": "all histories of entities, components (plain and wrapped), uniques and custom storages by any threads, all conditions, with and without local thread pool, on systems and on workloads", "why_tests_cant": "Whether a storage exists, is empty, is wrapped, or can be looked at from a thread are four different things that depend on everything done before and by whom.", "anchors": ["src/scheduler/system_modificator.rs: run_if_storage_empty, run_if_missing_unique, run_if_storage_empty_by_id, skip_if_storage_empty, skip_if_missing_unique, skip_if_storage_empty_by_id", "src/scheduler/workload_modificator.rs: the same", "src/all_storages/custom_storage.rs: custom_storage_by_id", "src/storage/mod.rs: is_empty"]}
{"id": "C81", "title": "The lock around the table of storages is used without races, misuse or deadlock", "statement": "Whatever calls any number of threads make on the storages of a world at the same time (looking storages up, adding them, adding and removing uniques, going through all of them), with the lock of std or one given to the builder, preferring writers or not: the table of storages is never changed by a thread while another reads or changes it, and no thread releases the lock without holding it in that way, also when user code run by these calls panics or makes calls of its own. When user code run by these calls makes no calls on the same world, some thread can always go on until all calls have ended, so there is no deadlock. Then also a call panics only if user code given to that call panics, with a custom lock always, and with std's lock as long as no user code panics while the table is being changed.", "quantifier": "all numbers of threads, all programs of calls, all interleavings, all user code (calling back, panicking), both kinds of lock, both preferences", "why_tests_cant": "Deadlocks and races depend on the interleaving of the threads and on the lock's policy; a test sees a few schedules of one lock.", "anchors": ["src/public_transport.rs: RwLock, ReadGuard, WriteGuard", "src/all_storages/custom_storage.rs: custom_storage_or_insert and the others", "src/all_storages/mod.rs: add_unique, remove_unique, clone_storages_to, clone_entity_to"]}
{"id": "C82", "title": "Labels given to parts of a workload order the systems in them, and a workload is found under its name", "statement": "For every way to write a workload (systems with tags and constraints, Workload::new, tuples, sequential tuples, functions returning workloads, rename, tag, before_all, after_all, run_if, barriers, with_system, merge, append): a system of the built workload carries exactly the labels given to it and to the workloads it was nested in, and is constrained by exactly the before_all and after_all said of it and of them, provided nothing was said of a workload before others were merged into it; so when the workload is accepted, every system said to be before (or after) all of a label runs before (or after) each other system under that label. A workload added to the world is stored under the name given to it by Workload::new or the last rename, else under its function's label, provided no function takes the place of a workload already named.", "quantifier": "all workload expressions of any depth, all labels, all schedulers the workload is added to", "why_tests_cant": "How labels travel depends on the nesting and on the order of the calls; a test fixes one expression and one order.", "anchors": ["src/scheduler/workload.rs: add_workload, merge, propagate, append", "src/scheduler/workload_modificator.rs", "src/scheduler/into_workload.rs", "src/scheduler/system_modificator.rs"]}
{"id": "C83", "title": "Comparisons, orders and hashes of ids, type infos and errors keep the contracts of their traits", "statement": "StorageId and TypeInfo are totally ordered, their order says equal exactly when == does, and equal values hash alike; two TypeInfos are equal exactly when they describe the same kind of borrow of the same storage, whatever their names; comparing an id or a TypeInfo with a TypeId answers as comparing with the id of that type, except for the order of runtime ids. == on AddWorkload, ImpossibleRequirements and UniquePresence is an equivalence that holds exactly when the errors are the same up to the labels' equality. == on GetStorage, Run and the serde errors is symmetric and transitive and holds exactly when the errors are the same and neither was made by from_custom.", "quantifier": "all ids, type infos, labels and errors", "why_tests_cant": "Transitivity and agreement of order, equality and hash are about all pairs and triples of values.", "anchors": ["src/storage/storage_id.rs", "src/scheduler/info.rs: TypeInfo", "src/error.rs: PartialEq for GetStorage, AddWorkload, Run, UniquePresence, ImpossibleRequirements"]}
{"id": "C84", "title": "Memory reports follow from the history of a storage", "statement": "The component count a storage reports is the number of entities that have the component, and the bytes it reports as used are one pointer per page of 32 indices up to the highest page ever inserted into, 256 bytes for each page inserted into, for each component its handle, its size and one timestamp for each of insertion and modification that is tracked, the entries of the deletion and removal logs, and the storage itself. The bytes used never exceed the bytes allocated, the detailed report adds up to the short one, no operation lowers what the pages take, and if all handles inserted have an index below m the pages take at most 264 * (m/32 + 1) bytes. The count reported for Entities is one more than the highest index ever given out and at least the number of live entities.", "quantifier": "all histories of a storage and of the entities, all component sizes and capacities", "why_tests_cant": "The numbers depend on the whole history: which pages were ever touched, what was removed, tracked and logged.", "anchors": ["src/sparse_set/memory_usage.rs", "src/sparse_set/sparse_array.rs: used_memory, reserved_memory", "src/entities/mod.rs: memory_usage"]}
{"id": "C85", "title": "derive(IntoIter) iterates the views of a struct under the names of its fields", "statement": "For a struct with named fields the macro succeeds exactly when the struct has a lifetime and fields, every field is left out (item_field_skip, or not a path type) or is a View or ViewMut, the first shipyard attribute of each has known items only and all names are identifiers; the item type and its fields get the given names, or the own ones without View, v_ or vm_. If the generated code compiles, iterating the struct visits exactly the entities that have the components of all iterated fields, each once, and the item's field of each view holds that entity's component; nothing is reachable from two items. The code is for &mut Struct exactly when a ViewMut is iterated. A tuple struct is iterated as the tuple of its fields, all of which have to be views.", "quantifier": "all structs (names, attributes, fields) and all reachable worlds", "why_tests_cant": "A macro acts on any struct; its output is used with any world.", "anchors": ["shipyard_proc/src/into_iter_expand.rs"]}
{"id": "C86", "title": "A loop over mutable views changes exactly the components it was given, and marks those it asked to write", "statement": "Iterate any combination of views (tuples, optionals, filters, alternatives) in which no mutably viewed component type occurs twice, with any body working on the Mut handles of each item (reading, deref_mut, as_mut, Mut::map). The loop completes. Afterwards a component differs from before only if its entity was visited, its type was viewed mutably and the item offered it; it then holds what the body's changes to it, in order, made of it. Its modification time is the time of the view if the body asked for a mutable reference to it (even to a part of it, after Mut::map), and otherwise the old one; insertion times, entities and all other components are as before. Everything done with the world later answers accordingly.", "quantifier": "all reachable worlds, all allowed iterations, all bodies", "why_tests_cant": "A test runs one body over one world; that no other entity, type or mark is touched is a statement about all of them.", "anchors": ["src/mut.rs", "src/iter/captain.rs:86-122", "src/iter/sailor.rs:80-112", "src/iter/mod.rs:44-122"]}
