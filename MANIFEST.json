{
 "claims": [
  {
   "property": "C01",
   "status": "proved",
   "theorems": [
    "C01_handle_encoding",
    "C01_handle_equality",
    "C01_set_index",
    "C01_bump_gen",
    "C01_copy",
    "C01_pair_layer_exact"
   ],
   "note": "bit-level model of the 64-bit handle"
  },
  {
   "property": "C02",
   "status": "proved",
   "theorems": [
    "C02_serde_roundtrip",
    "C02_serde_range"
   ],
   "note": "both encodings, for every handle with a valid index part"
  },
  {
   "property": "C03",
   "status": "proved",
   "theorems": [
    "C03_fresh_handles",
    "C03_all_distinct"
   ],
   "note": "histories may also contain spawns and clears; hypotheses: fewer than 2^48-2 slots, no spawn of generation 65535, no exhausted slot when the world is cleared"
  },
  {
   "property": "C04",
   "status": "proved",
   "theorems": [
    "C04_is_alive_exact",
    "C04_delete_answer"
   ],
   "note": "histories may also contain spawns and clears"
  },
  {
   "property": "C05",
   "status": "partial",
   "theorems": [
    "C05_delete_kills_refuted",
    "C05_delete_kills_partial"
   ],
   "note": "refuted for handles in generation >= 65533 (deletion reports success, handle stays alive); proved below"
  },
  {
   "property": "C06",
   "status": "proved",
   "theorems": [
    "C06_fifo_allocator",
    "C06_recycles_oldest"
   ],
   "note": "refinement to a FIFO-queue specification, no panic, no out-of-bounds"
  },
  {
   "property": "C07",
   "status": "proved",
   "theorems": [
    "C07_iteration",
    "C07_iteration_history"
   ],
   "note": ""
  },
  {
   "property": "C08",
   "status": "proved",
   "theorems": [
    "C08_spawn",
    "C08_creation_after_spawn",
    "C08_spawn_gen_max_refuted"
   ],
   "note": "generation 65535 excluded by the property; C08_spawn_gen_max_refuted records why"
  },
  {
   "property": "C09",
   "status": "partial",
   "theorems": [
    "C09_clear_partial",
    "C09_callback_refuted",
    "C09_fresh_after_clear_refuted"
   ],
   "note": "refuted: callback gets bogus handles for free slots; a live handle of the last generation is issued again after clear. Proved: nothing alive afterwards, freshness without exhaustion (with C03_fresh_handles)"
  },
  {
   "property": "C10",
   "status": "proved",
   "theorems": [
    "C10_map_reads",
    "C10_map_answers",
    "C10_get_or_insert"
   ],
   "note": "histories of 15 operations (insert, remove, delete, write, clear, drain, retain, sort, apply, apply_mut, tracking switches, log clearing); also get_or_insert_with"
  },
  {
   "property": "C11",
   "status": "partial",
   "theorems": [
    "C11_read_write",
    "C11_one_owner",
    "C11_remove_delete_partial",
    "C11_newer_handle_refuted"
   ],
   "note": "reading and writing proved in full; removal/deletion through a handle newer than the stored one drops the older component silently (refuted), proved when no older component is left"
  },
  {
   "property": "C12",
   "status": "proved",
   "theorems": [
    "C12_packed"
   ],
   "note": "all 15 operations; alignment of components and tracking data with the ids"
  },
  {
   "property": "C13",
   "status": "partial",
   "theorems": [
    "C13_newer_generation_partial",
    "C13_newer_generation_refuted"
   ],
   "note": "refuted: the id kept for the component is the bitwise or of both generations; get on the new handle proved for all cases"
  },
  {
   "property": "C14",
   "status": "proved",
   "theorems": [
    "C14_sort",
    "C14_order_exists"
   ],
   "note": "for every sorted permutation the library sort may return; such an order exists for every total comparison"
  },
  {
   "property": "C15",
   "status": "proved",
   "theorems": [
    "C15_apply",
    "C15_apply_mut",
    "C15_apply_panics"
   ],
   "note": ""
  },
  {
   "property": "C16",
   "status": "proved",
   "theorems": [
    "C16_retain_mut",
    "C16_retain"
   ],
   "note": "closures may depend on all their earlier calls; retain_mut included"
  },
  {
   "property": "C17",
   "status": "proved",
   "theorems": [
    "C17_drain",
    "C17_clear"
   ],
   "note": "any number of drained elements consumed"
  },
  {
   "property": "C18",
   "status": "partial",
   "theorems": [
    "C18_one_partial",
    "C18_tuple_partial",
    "C18_unit_partial",
    "C18_view_partial",
    "C18_empty_refuted",
    "C18_same_as_one_by_one",
    "C18_tuple_refuted",
    "C18_hint_refuted",
    "C18_recycled_refuted",
    "C18_interrupted_refuted",
    "C18_interrupted_ub_refuted"
   ],
   "note": "For every world reached by any history of world operations and bulk insertions: items become new entities in order (returned ids, dense order, components, marks) for one type, tuples, (), and through views with an exact size hint; agreement with one-at-a-time insertion in contents and marks. False parts proved: empty iterator panics, tuples are stamped 0 (not reported as inserted), a too small size hint drops an item and omits recycled ids from the returned iterator, a panicking iterator leaves a storage that shows wrong components."
  },
  {
   "property": "C19",
   "status": "proved",
   "theorems": [
    "C19_exactly_one",
    "C19_reported_once"
   ],
   "note": "windows of is_within for any increasing run times; and for a component of a world with arbitrary histories (operations, borrows, clears) between the runs of the system"
  },
  {
   "property": "C20",
   "status": "proved",
   "theorems": [
    "C20_inserted"
   ],
   "note": "component storages; timestamps unbounded naturals"
  },
  {
   "property": "C21",
   "status": "proved",
   "theorems": [
    "C21_modified"
   ],
   "note": "component storages; timestamps unbounded naturals"
  },
  {
   "property": "C22",
   "status": "partial",
   "theorems": [
    "C22_logs",
    "C22_queries",
    "C22_clear_older_partial",
    "C22_clear_older_refuted",
    "C22_clear_all_refuted",
    "C22_clear_storage",
    "C22_clear_tracking",
    "C22_clear_runtime_refuted"
   ],
   "note": "logs proved along all histories; the '>= t' part is false (entries stamped exactly t are dropped), and the inherent clear_all_removed_and_deleted keeps deleted components"
  },
  {
   "property": "C23",
   "status": "partial",
   "theorems": [
    "C23_flags_partial",
    "C23_reports_partial",
    "C23_modification_and_removal_refuted"
   ],
   "note": "ModificationAndRemoval has VALUE 0b10 and never records removals (refuted); the fifteen others proved over all histories"
  },
  {
   "property": "C24",
   "status": "partial",
   "theorems": [
    "C24_unique_refuted",
    "C24_clear_all_partial",
    "C24_clear_all_frame",
    "C24_view_clear",
    "C24_next_operation_refuted"
   ],
   "note": "component storages: World::clear_all_* hides everything stamped before and shows everything stamped after the call; refuted for the very next operation, which gets the same timestamp; the clears of a view are exact. Unique storages: refuted (the clear makes the flag true)"
  },
  {
   "property": "C25",
   "status": "proved",
   "theorems": [
    "C25_exclusive_alone",
    "C25_refused_while_exclusive",
    "C25_exclusive_refused_while_borrowed"
   ],
   "note": "step-by-step model of the atomic counter, any number of threads, fewer than 2^62 simultaneous borrows and attempts"
  },
  {
   "property": "C26",
   "status": "proved",
   "theorems": [
    "C26_exclusive_error_justified",
    "C26_shared_error_justified",
    "C26_no_panic",
    "C26_free_again"
   ],
   "note": "the shared case is stated for storages that are not both !Send and !Sync (for those a second shared borrow is refused by design, C57)"
  },
  {
   "property": "C27",
   "status": "proved",
   "theorems": [
    "C27_nothing_lost",
    "C27_same_storage",
    "C27_view_usable",
    "C27_no_deadlock"
   ],
   "note": "all interleavings; contents abstracted to the list of written values; add_unique on a viewed unique excluded (that case is C56)"
  },
  {
   "property": "C28",
   "status": "proved",
   "theorems": [
    "C28_removed_unviewed",
    "C28_no_use_after_free"
   ],
   "note": "all interleavings; add_unique on a viewed unique excluded (that case is C56)"
  },
  {
   "property": "C29",
   "status": "proved",
   "theorems": [
    "C29_batch_conflict_free",
    "C29_all_storages_alone",
    "C29_workers_only_get_safe_systems"
   ],
   "note": "workloads built by any use of the public builders (inductive predicate built), any scheduler state; a batch with an all-storages system may also hold systems that borrow nothing"
  },
  {
   "property": "C30",
   "status": "partial",
   "theorems": [
    "C30_each_system_once",
    "C30_stored_indices",
    "C30_function_partial",
    "C30_function_refuted"
   ],
   "note": "each declared occurrence exactly once, in both orders, with its run condition; refuted: two closures of the same type are one registered function (the second never runs); proved when a type has one function"
  },
  {
   "property": "C31",
   "status": "proved",
   "theorems": [
    "C31_constraints_respected"
   ],
   "note": "explicit constraints, barriers and all conflicting pairs in declaration order"
  },
  {
   "property": "C32",
   "status": "proved",
   "theorems": [
    "C32_terminates",
    "C32_cycle_iff",
    "C32_accepted_iff",
    "C32_conflicts_only_refuted"
   ],
   "note": "termination, and cycle reported iff order_edge is cyclic; order_edge includes the purely sequential declaration order; counting only what restricts parallelism (must_precede) the claim is false: C32_conflicts_only_refuted"
  },
  {
   "property": "C33",
   "status": "proved",
   "theorems": [
    "C33_accepted",
    "C33_declaration_order"
   ],
   "note": "sequential order is exactly the declaration order"
  },
  {
   "property": "C34",
   "status": "partial",
   "theorems": [
    "C34_barrier_separates",
    "C34_merged_barrier",
    "C34_append_refuted"
   ],
   "note": "also inside merged workloads and for anything declared later; refuted for Workload::append, which drops the barriers of its argument"
  },
  {
   "property": "C35",
   "status": "partial",
   "theorems": [
    "C35_adjacent",
    "C35_all_pairs",
    "C35_empty_element_refuted",
    "C35_workload_refuted"
   ],
   "note": "tuples: adjacent elements always, all pairs if no element is empty; refuted: empty middle element; into_sequential_workload on a Workload imposes no order"
  },
  {
   "property": "C36",
   "status": "proved",
   "theorems": [
    "C36_success",
    "C36_only_enabled",
    "C36_batches_in_order",
    "C36_failure_stops",
    "C36_error_reported",
    "C36_disabled",
    "C36_default",
    "C36_run_exists",
    "C36_seq_success",
    "C36_seq_only_enabled",
    "C36_seq_failure"
   ],
   "note": "parallel and sequential runner; arbitrary terminating systems and run conditions; every interleaving of storage accesses inside a batch; skipping of unstarted systems after a pool error included"
  },
  {
   "property": "C37",
   "status": "partial",
   "theorems": [
    "C37_parallel_is_sequential",
    "C37_declared_functions",
    "C37_schedule_independent",
    "C37_run_if_refuted",
    "C37_failure_refuted"
   ],
   "note": "proved for successful runs when run conditions are pure and independent of what the systems write; refuted when a run condition reads a storage written by a system of its batch, and for the storages left by a failing run"
  },
  {
   "property": "C38",
   "status": "partial",
   "theorems": [
    "C38_require_in",
    "C38_require_before_sound",
    "C38_require_before_complete_partial",
    "C38_require_after_sound_partial",
    "C38_require_after_complete_partial",
    "C38_require_before_refuted",
    "C38_require_after_refuted"
   ],
   "note": "require_in exact; require_before sound; both not complete (only nearest conflicts are followed: refuted); require_after counts the own tags of the system (refuted), sound otherwise"
  },
  {
   "property": "C39",
   "status": "partial",
   "theorems": [
    "C39_system_valid_iff",
    "C39_run_if_partial",
    "C39_run_if_refuted"
   ],
   "note": "systems and workload run conditions exact; system run conditions compare only half of the pairs (refuted), never refuse a valid one"
  },
  {
   "property": "C40",
   "status": "partial",
   "theorems": [
    "C40_delete_entity_partial",
    "C40_strip",
    "C40_bulk_strip",
    "C40_exhausted_refuted"
   ],
   "note": "Proved for every world reachable by the modelled operations (any number of storages, any enumeration order of the storages) when the deleted handle is not of the last generation; C40_exhausted_refuted shows that there the handle stays alive. Other entities keep aliveness, values and tracking marks."
  },
  {
   "property": "C41",
   "status": "partial",
   "theorems": [
    "C41_refines_partial",
    "C41_only_live",
    "C41_fresh_row",
    "C41_add_to_dead",
    "C41_dead_handle",
    "C41_spawn_refuted"
   ],
   "note": "Refinement of a table proved along all histories of 15 operations (values, tracking marks and answers agree, no panic, no UB). Preconditions: index space not exhausted, handles not newer than the live one at their index (every handle ever issued qualifies), deleted generations below the last one. C41_spawn_refuted: spawning a newer handle over a live one leaves the components of the old one visible."
  },
  {
   "property": "C42",
   "status": "partial",
   "theorems": [
    "C42_delete_any_partial",
    "C42_order_exists",
    "C42_exhausted_refuted"
   ],
   "note": "Proved for all reachable worlds whose live generations are below the last one; C42_exhausted_refuted otherwise."
  },
  {
   "property": "C43",
   "status": "partial",
   "theorems": [
    "C43_remove",
    "C43_view_delete",
    "C43_delete_component_partial",
    "C43_delete_one_partial",
    "C43_delete_component_refuted"
   ],
   "note": "remove and the view-level delete act on every listed component (proved); AllStorages::delete_component stops at the first one present (C43_delete_component_partial says exactly what it does, C43_delete_component_refuted is a witness)."
  },
  {
   "property": "C44",
   "status": "partial",
   "theorems": [
    "C44_move_entity_partial",
    "C44_move_entity_panics",
    "C44_move_components",
    "C44_clone_entity_partial",
    "C44_clone_components",
    "C44_dead_panics",
    "C44_returns",
    "C44_refused_unchanged",
    "C44_clock",
    "C44_refused_move",
    "C44_existing_refuted",
    "C44_older_refuted",
    "C44_exhausted_refuted",
    "C44_refused_refuted"
   ],
   "note": "For every pair of worlds reached by any interleaving of single-world histories (all world operations, views, clears) and moves/clones in both directions: move_entity, move_components, clone_entity_to and clone_components_to transfer exactly the stated components with fresh tracking marks, leave all other entities of both worlds unchanged, and panic on dead entities. Partial: the entity's generation must be below 65533 and the target must not hold the same or an older live handle at the index; outside that the claim is false (C44_exhausted_refuted, C44_existing_refuted, C44_older_refuted). Refused (panicking) calls: nothing changes (C44_refused_unchanged), except that a move_entity refused by the target kills the entity in the source and leaves its components behind (C44_refused_move, C44_refused_refuted)."
  },
  {
   "property": "C45",
   "status": "partial",
   "theorems": [
    "C45_tuple_partial",
    "C45_single",
    "C45_dead",
    "C45_tuple_refuted"
   ],
   "note": "single component exact; tuples stop at the first component that differs (refuted), what they do store is characterised exactly"
  },
  {
   "property": "C46",
   "status": "partial",
   "theorems": [
    "C46_tuple",
    "C46_ids_refuted"
   ],
   "note": "All reachable worlds, all tuples of shared/mutable views of any width and nesting (up to 2048 nodes): each entity with all components once, own components, no component reachable twice. False part proved: a list of ids with a duplicate in the tuple yields two mutable references to one component."
  },
  {
   "property": "C47",
   "status": "partial",
   "theorems": [
    "C47_filters_partial",
    "C47_nested_refuted"
   ],
   "note": "All reachable worlds and windows, all usable nestings of filters (not, optional, inserted, modified, or, negations, id lists without duplicates). Missing: nested tuples of several mutable not-filters, where the sail-time estimate overflows (proved)."
  },
  {
   "property": "C48",
   "status": "partial",
   "theorems": [
    "C48_or_partial",
    "C48_empty_refuted",
    "C48_nested_refuted",
    "C48_not_refuted",
    "C48_ids_refuted",
    "C48_with_id_refuted"
   ],
   "note": "Proved for or-expressions of storages that are not empty and whose parts are single storages or captains that the implementation treats correctly. False parts proved: empty second storage with next (undefined behaviour), nested or, not as second part, id lists, with_id fold."
  },
  {
   "property": "C49",
   "status": "partial",
   "theorems": [
    "C49_styles_partial",
    "C49_size_hint",
    "C49_with_id_back_refuted",
    "C49_with_id_back_id_refuted",
    "C49_or_back_refuted"
   ],
   "note": "Every interleaving of next and next_back, fold, rfold, with_id, nth on or-free expressions; size hints. False parts proved: with_id backwards, or backwards."
  },
  {
   "property": "C50",
   "status": "partial",
   "theorems": [
    "C50_split",
    "C50_or_refuted"
   ],
   "note": "All split trees of or-free iterators. False part proved: an or-iterator split into pieces (crate does not do this today; latent)."
  },
  {
   "property": "C51",
   "status": "partial",
   "theorems": [
    "C51_single",
    "C51_dense_partial",
    "C51_small_partial",
    "C51_missed_refuted",
    "C51_out_of_bounds_refuted"
   ],
   "note": "Single storage: same sequence always. Tuples: same sequence when the indices are below 32 or the storages are dense enough (sparse pages not more than components). False parts proved: entities missed, and a read outside the sparse array."
  },
  {
   "property": "C52",
   "status": "partial",
   "theorems": [
    "C52_handles",
    "C52_entities",
    "C52_written",
    "C52_view_partial",
    "C52_view_into_empty",
    "C52_world",
    "C52_older_refuted",
    "C52_type_names_refuted"
   ],
   "note": "For every format (human readable or not, maps or sequences), with and without type names: entities, handles, views and whole worlds read back; the loaded world refines the saved table in all later histories. Views into another world: both values of override, newer entities refused; partial because the target must not hold an older generation at the same slot (C52_older_refuted). Type names in sequence formats are refused (C52_type_names_refuted). The format itself is not modelled."
  },
  {
   "property": "C53",
   "status": "partial",
   "theorems": [
    "C53_reports_partial",
    "C53_cleared",
    "C53_clear_all_refuted"
   ],
   "note": "all histories of add, remove, borrow, write, view clears, get_or_init; refuted for histories that contain World::clear_all_inserted/modified"
  },
  {
   "property": "C54",
   "status": "proved",
   "theorems": [
    "C54_timestamps_ordered",
    "C54_later_reader_sees"
   ],
   "note": "all interleavings while the 64-bit counter does not wrap"
  },
  {
   "property": "C55",
   "status": "partial",
   "theorems": [
    "C55_default_exists",
    "C55_added_stays",
    "C55_set_default",
    "C55_rename_keeps_partial",
    "C55_add_keeps",
    "C55_rename_overwrites_refuted"
   ],
   "note": "renaming over an existing name replaces that workload, even the default one (refuted); proved for a fresh name"
  },
  {
   "property": "C56",
   "status": "partial",
   "theorems": [
    "C56_add_unique_frees_refuted",
    "C56_add_unviewed_partial"
   ],
   "note": "refuted: add_unique drops the previous storage even while it is viewed (use after free from safe code); proved when no view exists"
  },
  {
   "property": "C57",
   "status": "proved",
   "theorems": [
    "C57_not_sync_one_borrower",
    "C57_not_send_home_thread"
   ],
   "note": "all interleavings"
  },
  {
   "property": "C58",
   "status": "partial",
   "theorems": [
    "C58_exactly_once_partial",
    "C58_overlap_refuted",
    "C58_failed_borrow_refuted"
   ],
   "note": "refuted: the timestamp is taken before the borrow, so a change that lands after a run of the system but carries an older timestamp is never seen; the window is also lost when the borrow of a run fails. Proved (exactly once) for systems whose runs do not overlap operations that may change the storage"
  },
  {
   "property": "C59",
   "status": "partial",
   "theorems": [
    "C59_old_handles_partial",
    "C59_reissued_refuted"
   ],
   "note": "True for handles of slots that were alive when saving; false for free slots (C59_reissued_refuted)."
  },
  {
   "property": "C60",
   "status": "partial",
   "theorems": [
    "C60_value_partial",
    "C60_or_init_partial",
    "C60_or_init_none",
    "C60_unmarked_refuted",
    "C60_or_init_lost_refuted"
   ],
   "note": "The value is restored; UniqueOrInitViewMut of an existing unique behaves as a write. False: UniqueViewMut does not mark the modification, UniqueOrInitViewMut loses the value of a missing unique."
  },
  {
   "property": "C61",
   "status": "partial",
   "theorems": [
    "C61_on_insertion",
    "C61_on_removal_partial",
    "C61_clear_refuted",
    "C61_drain_refuted",
    "C61_stale_refuted",
    "C61_replaced_refuted",
    "C61_overwritten_refuted",
    "C61_bulk_refuted"
   ],
   "note": "Insertion calls: complete, as a function of the history (single insertions). Removal calls: only for leaving components, once, and for all of them on remove, delete and retain. False: clear, drain, stale handles and overwriting drop components without a call; bulk insertion makes no insertion call."
  },
  {
   "property": "C62",
   "status": "partial",
   "theorems": [
    "C62_clone",
    "C62_registered",
    "C62_clone_to_partial",
    "C62_unique",
    "C62_unique_into",
    "C62_clone_of_clone_refuted",
    "C62_ghost_refuted",
    "C62_handles_refuted"
   ],
   "note": "World::clone: complete, for all reachable worlds. clone_storages_to: when the target has no components in storages that are not replaced. False: clones of clones (clone functions are not copied), targets in use (leftover components attach to other entities)."
  },
  {
   "property": "C63",
   "status": "partial",
   "theorems": [
    "C63_held_is_declared",
    "C63_finished_holds_nothing",
    "C63_accepted",
    "C63_batch_never_refused_partial",
    "C63_every_schedule_ends",
    "C63_declares_nothing_refuted",
    "C63_not_sync_twice_refuted",
    "C63_or_default_refuted",
    "C63_or_init_refuted",
    "C63_option_refuted"
   ],
   "note": "what a system borrows is what its parameters declare (complete for the parameter types of the crate); finished systems hold nothing; schedules end. Batches of create_workload never refuse each other: partial, needs that every parameter declares something, no system views the same !Sync content twice, and the uniques are present. All three conditions are shown to be needed (refuted without)."
  },
  {
   "property": "C64",
   "status": "partial",
   "theorems": [
    "C64_refines",
    "C64_exclusive",
    "C64_live",
    "C64_get",
    "C64_write",
    "C64_dangling_refuted",
    "C64_aliased_refuted",
    "C64_stamp_refuted"
   ],
   "note": "guards (Ref, RefMut) are proved to behave like locks on the table, for all histories. Refuted: the reference inside of a guard can be copied or moved out by safe code (dangling and aliased references), and a write is marked with the time of the get instead of the write. Not modelled: !Send and !Sync components, AllStorages::get."
  },
  {
   "property": "C65",
   "status": "partial",
   "theorems": [
    "C65_storage_survives",
    "C65_insert_did_nothing",
    "C65_removal_done",
    "C65_retain_decided",
    "C65_recorded_refuted",
    "C65_drop_refuted"
   ],
   "note": "Proved for all histories with any number of caught panics (callbacks, closures, Drop), except: a deletion or removal interrupted by its callback is not recorded (C65_recorded_refuted), and when the Drop of an older generation's component panics the new component stays under the handle of the old entity (C65_drop_refuted). Insertions over a component of an older generation that are not interrupted are excluded as in C10 (see C13, C66)."
  },
  {
   "property": "C66",
   "status": "partial",
   "theorems": [
    "C66_world_survives",
    "C66_returned",
    "C66_returns",
    "C66_before_or_after",
    "C66_others_untouched",
    "C66_new_entity",
    "C66_delete_entity_refuted",
    "C66_spawned_refuted",
    "C66_add_entity_refuted",
    "C66_shown_id_refuted",
    "C66_iteration_refuted",
    "C66_iteration_ub_refuted"
   ],
   "note": "Proved for all histories with any number of caught panics: C66_world_survives (refinement of PanicsWorldSpec, no panic or UB of the modelled calls), C66_returned/returns, C66_before_or_after, C66_others_untouched, C66_new_entity. Refuted: components of an entity whose deletion was interrupted stay readable (C66_delete_entity_refuted) and come back with spawn (C66_spawned_refuted), an interrupted add_entity leaves an unknown entity (C66_add_entity_refuted), and leftovers lead to wrong ids in later iterations, even to out of bounds reads (C66_shown_id_refuted, C66_iteration_refuted, C66_iteration_ub_refuted)."
  },
  {
   "property": "C67",
   "status": "partial",
   "theorems": [
    "C67_answer",
    "C67_never_missing",
    "C67_named_never_runs",
    "C67_named_refuted",
    "C67_run_if_refuted"
   ],
   "note": "The answer is characterised exactly (C67_answer); Ok means that no system is refused a missing unique in any execution (C67_never_missing); a system that cannot do without a named unique never reaches its body (C67_named_never_runs). Refuted: uniques behind Option or UniqueOrDefaultView are named though the systems run (C67_named_refuted); run conditions are not looked at, so Ok does not cover them (C67_run_if_refuted)."
  },
  {
   "property": "C68",
   "status": "proved",
   "theorems": [
    "C68_serial",
    "C68_determined",
    "C68_serial_seq"
   ],
   "note": "Proved for every interleaving and outcome under the only assumption that functions use what they declare; C68_undeclared shows that the assumption is needed (a lost update)."
  },
  {
   "property": "C69",
   "status": "proved",
   "theorems": [
    "C69_same_runs",
    "C69_unwinds",
    "C69_workload_condition",
    "C69_returns",
    "C69_nothing_left",
    "C69_left_out",
    "C69_serial",
    "C69_seq"
   ],
   "note": "Proved for the model of rayon's in_place_scope and try_for_each stated in RunPanic.v (panics are caught per job, all jobs are waited for, a panic wins over errors). Not covered: panics while unwinding (abort) and which of several payloads is resumed."
  },
  {
   "property": "C70",
   "status": "proved",
   "theorems": [
    "C70_conditions",
    "C70_success",
    "C70_only",
    "C70_workload",
    "C70_success_seq",
    "C70_all",
    "C70_nested_refuted",
    "C70_append_refuted"
   ],
   "note": "Proved against a separate spec of what the calls ask for (asks, says, tests). Refuted: a nested workload's condition is evaluated per system, so a nested workload can run in part (C70_nested_refuted); append loses the other workload's conditions (C70_append_refuted)."
  },
  {
   "property": "C71",
   "status": "proved",
   "theorems": [
    "C71_race_free",
    "C71_orderings",
    "C71_exclusive",
    "C71_not_sync",
    "C71_refused_borrow",
    "C71_refused_borrow_mut",
    "C71_stale_refuted"
   ],
   "note": "Data races are defined from the steps of a run with program order, synchronizes-with and release sequences (WeakBorrowSpec.v), not from the views of the model. What Rust guarantees of callers (a reference reaches another thread only through synchronisation, &T of non-Sync T does not) are guards of the steps. Refuted: a refused call means that a borrow is alive; it may have read an outdated value (C71_stale_refuted)."
  },
  {
   "property": "C72",
   "status": "proved",
   "theorems": [
    "C72_errors",
    "C72_entries",
    "C72_conflict",
    "C72_conflict_noted",
    "C72_after",
    "C72_all_lists",
    "C72_ids_partial",
    "C72_unique_refuted",
    "C72_numbers_refuted",
    "C72_previous_batch_refuted",
    "C72_explained_refuted",
    "C72_clash_reported_refuted"
   ],
   "note": "Numbers of functions equal positions only for new, distinct functions (C72_ids_partial). Refuted: unique_id is unique (C72_unique_refuted); the numbers in `after` are unique_ids (C72_numbers_refuted); a conflict is with the batch right before (C72_previous_batch_refuted); being kept out of the first batch is always explained (C72_explained_refuted); a clash with the batch right before is always reported (C72_clash_reported_refuted). Not modelled: the texts (type names, names of labels), serde, and the methods of TypeInfo and DedupedLabels beyond what building uses."
  },
  {
   "property": "C73",
   "status": "proved",
   "theorems": [
    "C73_terminates",
    "C73_accepted_turns",
    "C73_accepted_iff",
    "C73_batch_conflict_free",
    "C73_each_once",
    "C73_extend_refused",
    "C73_extend_iff",
    "C73_like_with_system_refuted",
    "C73_order_refuted"
   ],
   "note": "Refuted: extend behaves like with_system for each system (C73_like_with_system_refuted: three systems without constraints are refused as a cycle); an accepted workload keeps explicit orders (C73_order_refuted: a system declared after another, conflicting one runs in an earlier batch)."
  },
  {
   "property": "C74",
   "status": "proved",
   "theorems": [
    "C74_eq",
    "C74_equivalence",
    "C74_hash",
    "C74_types",
    "C74_clone",
    "C74_functions",
    "C74_sched",
    "C74_table",
    "C74_text_refuted",
    "C74_name_refuted"
   ],
   "note": "Refuted: labels with the same text are equal (C74_text_refuted: &str, String and Cow are different labels, a workload named by one is not found by another); the name of a function's label matters (C74_name_refuted). A derived label's own Eq and Hash are taken to agree; Debug is not modelled."
  },
  {
   "property": "C75",
   "status": "partial",
   "theorems": [
    "C75_skipped_fields",
    "C75_declares",
    "C75_declares_apart",
    "C75_runs_apart",
    "C75_held_is_declared",
    "C75_finished_holds_nothing",
    "C75_batch_never_refused_partial",
    "C75_component_partial",
    "C75_component_errors",
    "C75_modification_and_removal_refuted",
    "C75_second_attribute_refuted",
    "C75_tuple_default_refuted"
   ],
   "note": "Partial: as for C63, the batch theorem does not cover parameters that declare nothing, two views of the same content that is not Sync in one system, missing uniques (C75_batch_never_refused_partial). #[track(Modification, Removal)] does not track removals (C75_modification_and_removal_refuted, from C23), a second track attribute has no effect (C75_second_attribute_refuted), #[shipyard(default)] on a field of a tuple struct has no effect (C75_tuple_default_refuted). derive(IntoIter) is C85."
  },
  {
   "property": "C76",
   "status": "proved",
   "theorems": [
    "C76_ordered",
    "C76_unique",
    "C76_every_run",
    "C76_seen_iff",
    "C76_exactly_one",
    "C76_fetched_in_order",
    "C76_fetched_seen_iff",
    "C76_stale_load_refuted"
   ],
   "note": "The counter is assumed not to wrap (short). Outside of the statement: a timestamp that is only read (get_tracking_timestamp) by a thread without synchronisation may be old, such a change can be missed by every run behind it (C76_stale_load_refuted). For timestamps of get_current no synchronisation is needed (C76_fetched_in_order, C76_fetched_seen_iff)."
  },
  {
   "property": "C77",
   "status": "partial",
   "theorems": [
    "C77_added",
    "C77_never_unreachable",
    "C77_refused_unchanged_partial",
    "C77_tracking_bounds",
    "C77_tracking_stays_partial",
    "C77_scheduled_partial",
    "C77_build_as_added",
    "C77_infos_list_workloads_partial",
    "C77_half_added_refuted",
    "C77_condition_refuted",
    "C77_clone_over_refuted",
    "C77_rename_infos_refuted"
   ],
   "note": "Partial. False and refuted: a workload refused because tracking cannot be enabled is added nevertheless, cannot be added again and can never run (C77_half_added_refuted); tracking views of conditions are not enabled (C77_condition_refuted); rename leaves workloads_info behind (C77_rename_infos_refuted); clone_storages_to over a world drops tracking (C77_clone_over_refuted). Proved: everything else."
  },
  {
   "property": "C78",
   "status": "partial",
   "theorems": [
    "C78_sound_partial",
    "C78_lookup",
    "C78_unique_views",
    "C78_stays",
    "C78_any_id_refuted",
    "C78_dropped_elsewhere_refuted",
    "C78_thread_id_refuted",
    "C78_any_refuted",
    "C78_add_custom_refuted"
   ],
   "note": "Partial: the soundness part needs three conditions that safe code can break, each refuted separately: nothing but a unique is put under the id of a unique (C78_any_id_refuted, C78_dropped_elsewhere_refuted), the generator of thread ids tells threads apart (C78_thread_id_refuted), Storage::any does not lie (C78_any_refuted). The parts on lookups, views of uniques and persistence are proved in full. add_custom_storage can answer Ok without storing anything (C78_add_custom_refuted)."
  },
  {
   "property": "C79",
   "status": "proved",
   "theorems": [
    "C79_reads",
    "C79_again",
    "C79_borrow",
    "C79_exchanged_refuted",
    "C79_custom_refuted"
   ],
   "note": "Proved as stated. Beyond the statement: with tracking turned on for one world only (World::track_insertion and the like) the storage behind a view can be exchanged, in safe code, for one that does not track; is_inserted then panics and the iterators read out of bounds (C79_exchanged_refuted, for every component type that does not itself track what the view asks for). Changes made through views of new_for_custom_storage are never reported (C79_custom_refuted)."
  },
  {
   "property": "C80",
   "status": "proved",
   "theorems": [
    "C80_components",
    "C80_uniques",
    "C80_custom",
    "C80_fails",
    "C80_wrapped_refuted",
    "C80_entities",
    "C80_entities_refuted",
    "C80_pool_refuted"
   ],
   "note": "run_if_storage_empty does not look at wrapped storages, so it runs although entities have the component (C80_wrapped_refuted); asked about Entities the conditions say whether an entity was ever created (C80_entities, C80_entities_refuted); on a system of a world with a local thread pool they always fail (C80_pool_refuted). These go beyond the statement. The inside of storages is abstracted to their owners; moving and cloning between worlds and loading are not calls of this model."
  },
  {
   "property": "C81",
   "status": "proved",
   "theorems": [
    "C81_race_free",
    "C81_no_misuse",
    "C81_no_deadlock",
    "C81_custom_not_poisoned",
    "C81_std_not_poisoned",
    "C81_own_panic_custom",
    "C81_own_panic_std",
    "C81_poisoned_refuted",
    "C81_poison_refuted",
    "C81_nested_refuted"
   ],
   "note": "Beyond the statement: user code that calls back into the world deadlocks (C81_nested_refuted), and a panic of user code while the table is changed poisons std's lock, after which every call on the world panics, including those with exclusive access (C81_poison_refuted with C81_poisoned_refuted). The inside of std's RwLock and of the custom lock is assumed (mutual exclusion, may prefer writers); only the ids in the table are kept."
  },
  {
   "property": "C82",
   "status": "proved",
   "theorems": [
    "C82_before_all",
    "C82_after_all",
    "C82_exact",
    "C82_sequential_before_all",
    "C82_sequential_after_all",
    "C82_merge_refuted",
    "C82_stored",
    "C82_name_refuted"
   ],
   "note": "Both provisos are needed: C82_merge_refuted (a name given before merging is lost) and C82_name_refuted (a workload stored under neither of the two names). Labels are compared by identity as in Sched.v."
  },
  {
   "property": "C83",
   "status": "proved",
   "theorems": [
    "C83_storage_id",
    "C83_type_id",
    "C83_type_id_refuted",
    "C83_type_info",
    "C83_serde_refuted",
    "C83_workload_errors",
    "C83_borrow_errors",
    "C83_eq_refuted"
   ],
   "note": "Exceptions shown by C83_type_id_refuted (mixed order of runtime ids), C83_eq_refuted (GetStorage implements Eq but custom errors differ from themselves), C83_serde_refuted (deserialized type infos lose their id)."
  },
  {
   "property": "C84",
   "status": "proved",
   "theorems": [
    "C84_report",
    "C84_allocated",
    "C84_pages_kept",
    "C84_bounded",
    "C84_kept_refuted",
    "C84_entities",
    "C84_entities_refuted"
   ],
   "note": "False and refuted: memory of pages goes back when the components are gone (C84_kept_refuted), the component count of Entities is that of the live ones (C84_entities_refuted)."
  },
  {
   "property": "C85",
   "status": "proved",
   "theorems": [
    "C85_named",
    "C85_tuple",
    "C85_iterates",
    "C85_panics_refuted",
    "C85_compiles_refuted",
    "C85_silent_refuted",
    "C85_attributes_refuted"
   ],
   "note": "False and refuted: the macro never panics (C85_panics_refuted), what it produces compiles (C85_compiles_refuted), fields that are no views are refused (C85_silent_refuted), attributes of derive(Borrow) can be mixed in (C85_attributes_refuted)."
  },
  {
   "property": "C86",
   "status": "proved",
   "theorems": [
    "C86_live",
    "C86_next",
    "C86_next_modified",
    "C86_loop",
    "C86_changed_reported_refuted",
    "C86_reported_changed_refuted"
   ],
   "note": "False and refuted: what changed is reported as modified (C86_changed_reported_refuted, through Mut::map), what is reported as modified changed (C86_reported_changed_refuted). In C86_loop the positions are those handed out on the storages before the loop; C86_live shows, for expressions without |, that looking each one up during the loop, in the storages as the body left them, gives the same world. C86_next_modified: a later modified() yields exactly the components the body asked to write."
  }
 ]
}