{
 "claims": [
  {
   "property": "C01",
   "status": "proved",
   "theorems": [
    "C01_bool_column_is_vec_bool"
   ],
   "note": ""
  },
  {
   "property": "C02",
   "status": "proved",
   "theorems": [
    "C02_find_exact",
    "C02_no_spurious_failure",
    "C02_contents",
    "C02_no_write"
   ],
   "note": "Column level, for every call history; the last representable row is the subject of C04."
  },
  {
   "property": "C03",
   "status": "proved",
   "theorems": [
    "C03_range_exact"
   ],
   "note": "Same exception as C04 for the last representable row when it holds hi."
  },
  {
   "property": "C04",
   "status": "partial",
   "theorems": [
    "C04_find_last_row_refuted",
    "C04_only_last_row_missed"
   ],
   "note": "REFUTED: find misses the row whose id is the maximum of the row-id type; proved that no other row is ever missed."
  },
  {
   "property": "C05",
   "status": "proved",
   "theorems": [
    "C05_range_operations_agree",
    "C05_on",
    "C05_empty",
    "C05_next",
    "C05_prev"
   ],
   "note": ""
  },
  {
   "property": "C06",
   "status": "partial",
   "theorems": [
    "C06_offset_outside_refuted",
    "C06_offset_exact"
   ],
   "note": "REFUTED: offset(len) answers the end of the range; the exact answers are proved."
  },
  {
   "property": "C07",
   "status": "partial",
   "theorems": [
    "C07_intersects_empty_refuted",
    "C07_intersects_exact"
   ],
   "note": "REFUTED for empty ranges; exact for non-empty ranges."
  },
  {
   "property": "C08",
   "status": "proved",
   "theorems": [
    "C08_checked_iter",
    "C08_uncheck"
   ],
   "note": ""
  },
  {
   "property": "C09",
   "status": "proved",
   "theorems": [
    "C09_join",
    "C09_join_next"
   ],
   "note": ""
  },
  {
   "property": "C10",
   "status": "proved",
   "theorems": [
    "C10_iteration_exact",
    "C10_with_deleted"
   ],
   "note": "All table kinds and builds. Row ids not used up (a table using its last row id cannot be iterated). with_deleted: C10_with_deleted."
  },
  {
   "property": "C11",
   "status": "partial",
   "theorems": [
    "C11_columns_in_step",
    "C11_bag_release_refuted",
    "C11_undefined_exactly",
    "C11_undefined_runs"
   ],
   "note": "REFUTED for one case: in a release build, selecting a row of a bag twice and flushing with a removal event accesses columns out of bounds. Proved for every other history of calls; C11_undefined_exactly is the exact condition (an iff over all reachable states and calls)."
  },
  {
   "property": "C12",
   "status": "proved",
   "theorems": [
    "C12_push",
    "C12_push_succeeds"
   ],
   "note": ""
  },
  {
   "property": "C13",
   "status": "proved",
   "theorems": [
    "C13_push_array"
   ],
   "note": ""
  },
  {
   "property": "C14",
   "status": "partial",
   "theorems": [
    "C14_empty_array_refuted",
    "C14_iterable_iff"
   ],
   "note": "REFUTED: the range returned for an empty array on an empty table cannot be iterated; exact condition proved."
  },
  {
   "property": "C15",
   "status": "proved",
   "theorems": [
    "C15_delete_flush",
    "C15_find_exact"
   ],
   "note": "Flush whose trackers do not touch the table itself; trackers are the subject of C32-C37."
  },
  {
   "property": "C16",
   "status": "partial",
   "theorems": [
    "C16_deletion_lost_refuted",
    "C16_push_lost_refuted",
    "C16_deletion_kept_iff"
   ],
   "note": "REFUTED: flush does not compare the event with what was done, so a deletion flushed with a non-removal event is dropped (and a push flushed with a removal event is undone); exact condition proved."
  },
  {
   "property": "C17",
   "status": "partial",
   "theorems": [
    "C17_cleared_not_new_refuted",
    "C17_cleared"
   ],
   "note": "REFUTED when rows had been deleted before (stale free list); exact behaviour proved."
  },
  {
   "property": "C18",
   "status": "partial",
   "theorems": [
    "C18_clear_refuted",
    "C18_clear"
   ],
   "note": "REFUTED for sorted and list tables (clear does nothing); proved for the other kinds."
  },
  {
   "property": "C19",
   "status": "proved",
   "theorems": [
    "C19_unflushed_panics"
   ],
   "note": ""
  },
  {
   "property": "C20",
   "status": "proved",
   "theorems": [
    "C20_C21_visit"
   ],
   "note": "Row ids not used up."
  },
  {
   "property": "C21",
   "status": "proved",
   "theorems": [
    "C20_C21_visit",
    "C22_retain"
   ],
   "note": ""
  },
  {
   "property": "C22",
   "status": "proved",
   "theorems": [
    "C22_retain"
   ],
   "note": "Row ids not used up."
  },
  {
   "property": "C23",
   "status": "proved",
   "theorems": [
    "C23_merge",
    "C23_merge_vec"
   ],
   "note": ""
  },
  {
   "property": "C24",
   "status": "partial",
   "theorems": [
    "C24_unstable_refuted",
    "C24_merge_order"
   ],
   "note": "REFUTED: the first merged row goes before existing rows equal to it; the exact order is proved."
  },
  {
   "property": "C25",
   "status": "proved",
   "theorems": [
    "C25_merge_logged",
    "C25_merge_single"
   ],
   "note": ""
  },
  {
   "property": "C26",
   "status": "proved",
   "theorems": [
    "C26_remove_rows",
    "C26_table_remove_rows"
   ],
   "note": "A panic leaves no state behind in the model, so 'changes nothing' is not stated (the lock is poisoned)."
  },
  {
   "property": "C27",
   "status": "partial",
   "theorems": [
    "C27_key_assigned_refuted",
    "C27_always_sorted"
   ],
   "note": "REFUTED: the key column can be assigned; proved for all histories that do not assign keys and give AssertSorted ascending rows."
  },
  {
   "property": "C28",
   "status": "proved",
   "theorems": [
    "C28_bag_delete"
   ],
   "note": "All builds."
  },
  {
   "property": "C29",
   "status": "proved",
   "theorems": [
    "C29_bag_iter"
   ],
   "note": "All builds; the handle is used before the next call of next (otherwise see C30)."
  },
  {
   "property": "C30",
   "status": "partial",
   "theorems": [
    "C30_stale_handle_refuted",
    "C30_current_row_deleted"
   ],
   "note": "REFUTED: the mark belongs to the iterator, so a stale handle deletes the current row; exact effect proved."
  },
  {
   "property": "C31",
   "status": "partial",
   "theorems": [
    "C31_append_retain_refuted",
    "C31_append_keeps_rows"
   ],
   "note": "REFUTED: retain is generated for append tables and removes rows; proved that only retain, visit, clearing and removal flushes do."
  },
  {
   "property": "C32",
   "status": "proved",
   "theorems": [
    "C32_integrity",
    "C32_C33_clear"
   ],
   "note": "Any acyclic universe of consistent and sorted dependents, any depth; deletion of chosen rows and clear."
  },
  {
   "property": "C33",
   "status": "proved",
   "theorems": [
    "C33_C34_C37_cascade",
    "C32_C33_clear"
   ],
   "note": "Exact set of rows lost in every table of the universe; surviving rows keep ids and contents."
  },
  {
   "property": "C34",
   "status": "partial",
   "theorems": [
    "C33_C34_C37_cascade",
    "C34_circle",
    "C34_terminates_refuted"
   ],
   "note": "REFUTED for circular references (self-referential table: witness; in general no flush in a circle ever completes); holds, with success, for every acyclic universe."
  },
  {
   "property": "C35",
   "status": "proved",
   "theorems": [
    "C35_told",
    "C35_live_told",
    "C35_C51_quiet"
   ],
   "note": "Any acyclic universe, any trackers; flush and live_flush."
  },
  {
   "property": "C36",
   "status": "partial",
   "theorems": [
    "C36_all_kinds_refuted",
    "C36_other_kinds",
    "C33_C34_C37_cascade"
   ],
   "note": "REFUTED: append, bag and list dependents make every removal panic; a sorted dependent found through an index panics if a row is deleted twice. Holds for consistent dependents, and sorted ones without repeats (C33)."
  },
  {
   "property": "C37",
   "status": "proved",
   "theorems": [
    "C33_C34_C37_cascade"
   ],
   "note": "Sorted dependents lose exactly the doomed rows and keep the order of the others."
  },
  {
   "property": "C38",
   "status": "partial",
   "theorems": [
    "C38_refuted",
    "C38_leak",
    "C38_stuck",
    "C38_flush_partial"
   ],
   "note": "REFUTED: live_flush of a table whose ids are remapped (after a restore) never gives back the read lock of the trackers; the next restore into or tracker registration on that table blocks for ever. Proved exactly which calls leak, that it is never repaired, and that without live_flush nothing leaks."
  },
  {
   "property": "C39",
   "status": "partial",
   "theorems": [
    "C39_refuted",
    "C39_clear_refuted",
    "C39_steps",
    "C39_listed_partial",
    "C39_undisturbed_partial",
    "C39_apply",
    "C39_alone"
   ],
   "note": "REFUTED: flush gives up the lock between collecting and applying, so a row another thread pushed under a reused id (C39_refuted) or after a clear (C39_clear_refuted) is removed though nobody deleted it. Exact positive part, for every interleaving of any number of threads: which steps remove rows (C39_steps), that the removed id was listed by that thread (C39_listed_partial), that the row was listed and present ever since if the others leave the listed rows alone or the lock was kept (C39_undisturbed_partial), what the second half does and when it panics (C39_apply), and that undisturbed halves make up the sequential flush (C39_alone). Missing: the full statement, which is false."
  },
  {
   "property": "C40",
   "status": "proved",
   "theorems": [
    "C40_serde_roundtrip"
   ],
   "note": "Column level; rows not in use are serialised and come back indexed."
  },
  {
   "property": "C41",
   "status": "proved",
   "theorems": [
    "C41_restore",
    "C41_selection",
    "C41_extract",
    "C41_row",
    "C41_locked"
   ],
   "note": "For all histories, selections, row-id widths, builds. Hypotheses: no foreign columns (those are C42), no earlier leaked lock (C38), event with no custom handler, at least one id left unused (C18)."
  },
  {
   "property": "C42",
   "status": "proved",
   "theorems": [
    "C42_foreign_keys",
    "C42_missing_parent"
   ],
   "note": "Both halves; other tables may be restored in between; the target tables may already hold rows. Hypotheses: the parent is consistent and has a tracker (every table named by foreign or foreign_auto does), its extraction is not empty (an empty one leaves the old remapping), identity remapping off, parent and child are different tables. Stated of restores that return; a panic is the missing-parent case."
  },
  {
   "property": "C43",
   "status": "partial",
   "theorems": [
    "C43_sorted_refuted",
    "C43_verbatim"
   ],
   "note": "REFUTED: keys of sorted tables are restored as they were saved and so refer to other rows. Proved that the rows are always inserted unmodified at their places."
  },
  {
   "property": "C44",
   "status": "partial",
   "theorems": [
    "C44_refuted",
    "C44_rejects_partial",
    "C44_accepts",
    "C44_short_panics"
   ],
   "note": "REFUTED: an extraction with fewer columns panics instead of returning an error. Proved that every other mismatch is an error that changes nothing, and that exact matches are never rejected."
  },
  {
   "property": "C45",
   "status": "proved",
   "theorems": [
    "C45_unique",
    "C45_names",
    "C45_dense",
    "C45_stable",
    "C45_given",
    "C45_only"
   ],
   "note": "All histories of registry and universe calls with panics caught. Once the registry's lock is poisoned (C57) asking for an id panics; the id itself does not change."
  },
  {
   "property": "C46",
   "status": "proved",
   "theorems": [
    "C46_shared",
    "C46_distinct",
    "C46_initial",
    "C46_readable"
   ],
   "note": "Twins share one cell whose initial value is that of the first registered; a twin declared with another type panics when it reads (stated in C46_initial)."
  },
  {
   "property": "C47",
   "status": "proved",
   "theorems": [
    "C47_set",
    "C47_apart",
    "C47_kept",
    "C47_add_values",
    "C47_add_rows",
    "C47_add_twice"
   ],
   "note": "C47_set is unconditional; C47_apart and C47_kept cover every other call provided that it does not poison the registry's lock (C57 says exactly which do)."
  },
  {
   "property": "C48",
   "status": "proved",
   "theorems": [
    "C48_tables",
    "C48_properties",
    "C48_same"
   ],
   "note": "The registry's contents are unchanged, but its lock is poisoned by the panic (C57)."
  },
  {
   "property": "C49",
   "status": "partial",
   "theorems": [
    "C49_again",
    "C49_other",
    "C49_property",
    "C49_imposter",
    "C49_imposter_write",
    "C49_refuted"
   ],
   "note": "REFUTED: after a universe exists registering the same table again panics, and a declaration of another kind is accepted as the same (C49_refuted). C49_again and C49_other give exactly what happens; C49_imposter*: the accepted declaration can not be used and trying to write it poisons the table."
  },
  {
   "property": "C50",
   "status": "proved",
   "theorems": [
    "C50_names"
   ],
   "note": "All lists of code points."
  },
  {
   "property": "C51",
   "status": "proved",
   "theorems": [
    "C51_defaults",
    "C51_standard",
    "C51_fallback",
    "C51_install",
    "C51_series",
    "C51_unhandled",
    "C35_C51_quiet",
    "C33_C34_C37_cascade"
   ],
   "note": "What the handlers do to tables: C33 (delete), C35_C51_quiet (nothing), C51_unhandled (panic)."
  },
  {
   "property": "C52",
   "status": "proved",
   "theorems": [
    "C52_from_possible",
    "C52_from_waits",
    "C52_from",
    "C52_typed"
   ],
   "note": "Contexts and nested tuples of contexts; std RwLock modelled by its guards. C52_from* assume unique TYPE_NAMEs (demanded by the unsafe trait, not ensured for tables that differ in types of columns only) and no unflushed lock in the old context; C52_typed assumes neither."
  },
  {
   "property": "C53",
   "status": "proved",
   "theorems": [
    "C53_downcast",
    "C53_read",
    "C53_selection",
    "C53_len"
   ],
   "note": "TypeId assumed injective."
  },
  {
   "property": "C54",
   "status": "proved",
   "theorems": [
    "C54_accepted",
    "C54_kind",
    "C54_guarantee",
    "C54_order",
    "C54_content"
   ],
   "note": "Exact set of accepted declarations (single known kind, fit attributes, at most one sort key and only if sorted, save only with Clone, columns, lookup for every foreign_auto column ...); guarantees by kind; order of attributes irrelevant; content of the output. The token level is not modelled."
  },
  {
   "property": "C55",
   "status": "partial",
   "theorems": [
    "C55_foreign_checked_id_refuted",
    "C55_checked_id"
   ],
   "note": "REFUTED: a CheckedRowId of another universe's table is not checked again: out-of-bounds access. Exact on one table."
  },
  {
   "property": "C56",
   "status": "partial",
   "theorems": [
    "C56_dependents_told_once_refuted",
    "C56_rows_told_once_partial",
    "C56_calls",
    "C56_times"
   ],
   "note": "REFUTED: clearing a table tells the trackers of a dependent table twice per level, and a dependent's trackers are called with no rows if nothing refers to the deleted rows. What holds: over all its calls a tracker of a dependent table hears of each removed row exactly once (deleted rows); the exact sequence of calls; and, with one foreign column per table, 1 call (rows deleted) or 2^d calls (cleared) d levels below."
  },
  {
   "property": "C57",
   "status": "partial",
   "theorems": [
    "C57_which",
    "C57_stuck",
    "C57_forever",
    "C57_refuted"
   ],
   "note": "REFUTED: reading an unregistered property in one universe stops every table of every universe (C57_refuted). C57_which: exactly which calls do this; C57_stuck/forever: what is left usable."
  },
  {
   "property": "C58",
   "status": "partial",
   "theorems": [
    "C58_new",
    "C58_add",
    "C58_refuted"
   ],
   "note": "REFUTED: a domain given twice to Universe::new has its trackers registered twice (C58_refuted). C58_new and C58_add give the exact list, so once each when the domains given are distinct."
  },
  {
   "property": "C59",
   "status": "partial",
   "theorems": [
    "C59_retry",
    "C59_refuted"
   ],
   "note": "REFUTED: a repeated add_domain does nothing (C59_retry), so trackers that failed to register never are (C59_refuted)."
  },
  {
   "property": "C60",
   "status": "partial",
   "theorems": [
    "C60_refuted",
    "C60_silent"
   ],
   "note": "REFUTED: a declaration that fails validate() expands to nothing without a compile error; exactly which is proved."
  },
  {
   "property": "C61",
   "status": "partial",
   "theorems": [
    "C61_registered",
    "C61_auto",
    "C61_refuted"
   ],
   "note": "REFUTED: an add_tracker attribute that is not a string is dropped; the exact list of registered trackers is proved, and that every foreign_auto lookup function exists."
  },
  {
   "property": "C62",
   "status": "proved",
   "theorems": [
    "C62_methods",
    "C62_only",
    "C62_logging",
    "C62_looking",
    "C62_deletion",
    "C62_removal"
   ],
   "note": "Methods per kind and, where versions differ, which version is written and that it is the modelled one."
  },
  {
   "property": "C63",
   "status": "proved",
   "theorems": [
    "C63_caught_panics_safe",
    "C63_same_without_panic"
   ],
   "note": "All programs that catch panics; the case of C11 (bag, release) is excluded by harmless_calls."
  },
  {
   "property": "C64",
   "status": "partial",
   "theorems": [
    "C64_ord_panic_refuted",
    "C64_ord_panic_iff",
    "C64_index_last_safe"
   ],
   "note": "REFUTED: a push during which Ord of an indexed element panics leaves columns of different lengths; UB is reachable exactly if a VecCol comes after an indexed VecCol."
  },
  {
   "property": "C65",
   "status": "partial",
   "theorems": [
    "C65_retain_panic_refuted",
    "C65_visit_panic_refuted",
    "C65_retain_interrupted",
    "C65_visit_interrupted"
   ],
   "note": "REFUTED: rows are lost (visit), doubled and brought back (retain), and a sorted table becomes unsorted. The exact content left is proved for all closures and points of panic."
  },
  {
   "property": "C66",
   "status": "partial",
   "theorems": [
    "C66_merge_panic_refuted",
    "C66_merge_interrupted"
   ],
   "note": "REFUTED: rows in the temporary queue are dropped. The exact content left, its order and the indexes are proved."
  },
  {
   "property": "C67",
   "status": "partial",
   "theorems": [
    "C67_flush_again_refuted",
    "C67_live_flush_interrupted",
    "C67_flush_interrupted"
   ],
   "note": "REFUTED: the changes are forgotten. The state left is proved for all tables and events."
  },
  {
   "property": "C68",
   "status": "proved",
   "theorems": [
    "C68_alone",
    "C68_no_deadlock",
    "C68_no_endless_run",
    "C68_all_finish"
   ],
   "note": "Threads.v: every call as a program of lock acquisitions, releases and accesses. User trackers take no locks of their own; poisoning: any acquisition may panic."
  },
  {
   "property": "C69",
   "status": "partial",
   "theorems": [
    "C69_live_restore_refuted",
    "C69_restores_refuted",
    "C69_two_columns_refuted",
    "C69_lock_order_refuted",
    "C68_no_deadlock"
   ],
   "note": "REFUTED: four ways of deadlock, each with threads that do well alone; C68_no_deadlock is the positive counterpart."
  },
  {
   "property": "C70",
   "status": "proved",
   "theorems": [
    "C70_no_undefined_behaviour"
   ],
   "note": "Release builds: without bags."
  },
  {
   "property": "C71",
   "status": "proved",
   "theorems": [
    "C71_tables",
    "C71_trackers"
   ],
   "note": ""
  },
  {
   "property": "C72",
   "status": "proved",
   "theorems": [
    "C72_reads_locked",
    "C72_order"
   ],
   "note": "All threads, interleavings and states."
  },
  {
   "property": "C73",
   "status": "proved",
   "theorems": [
    "C73_no_lost_update"
   ],
   "note": "In release builds for universes without bags (a bag's removal on an empty bag underflows, see C11)."
  },
  {
   "property": "C74",
   "status": "proved",
   "theorems": [
    "C74_never_locked",
    "C74_as_if_undone",
    "C74_no_undefined_behaviour",
    "C74_no_deadlock",
    "C74_no_endless_run",
    "C74_all_finish"
   ],
   "note": "Poison.v, simulation by Threads.v; deliberate use of a poisoned guard (into_inner) is outside"
  },
  {
   "property": "C75",
   "status": "proved",
   "theorems": [
    "C75_sorted",
    "C75_sorted_after_panics"
   ],
   "note": "All interleavings of threads, with and without panics; sessions must keep order as in C27; release builds without bags."
  },
  {
   "property": "C76",
   "status": "proved",
   "theorems": [
    "C76_one_by_one",
    "C76_alone",
    "C76_after_panics"
   ],
   "note": "every interleaving of sessions whose events remove nothing is explained by an order of whole sessions; also with panics, for tables not poisoned"
  },
  {
   "property": "C77",
   "status": "partial",
   "theorems": [
    "C77_dependents_refuted",
    "C77_one_by_one_refuted",
    "C76_one_by_one",
    "C78_result"
   ],
   "note": "REFUTED: a child pushed while a cascade is under way survives and dangles, and no order of the calls explains the outcome; without deletions every interleaving is an order of sessions (C76), and threads on separate tables do not notice each other (C78)"
  },
  {
   "property": "C78",
   "status": "proved",
   "theorems": [
    "C78_result",
    "C78_no_waiting"
   ],
   "note": "threads on disjoint, self-contained sets of tables end as they would alone, never wait for each other, and are not reached by each other's panics"
  },
  {
   "property": "C79",
   "status": "partial",
   "theorems": [
    "C79_as_one",
    "C79_syncs",
    "C79_too_late",
    "C79_unnoticed",
    "C79_unsynced_refuted"
   ],
   "note": "REFUTED: the last claim, that forgetting sync_globals is detected (C79_unsynced_refuted: a library silently reads another property). The rest of the statement is proved in full for all programs (C79_as_one, C79_syncs, C79_too_late, C79_unnoticed)."
  },
  {
   "property": "C80",
   "status": "proved",
   "theorems": [
    "C80_sound",
    "C80_integrity",
    "C80_removal",
    "C80_missing_refuted",
    "C80_handler_refuted"
   ],
   "note": "Invariant over all careful programs (IntegritySpec.careful, lives). The _refuted theorems show that the library does not enforce the care. Clearing of consistent tables, live flush and restore are not among the sessions."
  },
  {
   "property": "C81",
   "status": "proved",
   "theorems": [
    "C81_blame",
    "C81_ever",
    "C81_bystander",
    "C81_harmless",
    "C81_now_refuted"
   ],
   "note": "Blame at every step of any interleaving; C81_now_refuted shows that 'at some time' cannot be 'at the time of the loss'."
  },
  {
   "property": "C82",
   "status": "partial",
   "theorems": [
    "C82_sorted_refuted",
    "C82_apart_partial"
   ],
   "note": "REFUTED: a merge into a sorted dependent table between selection and removal makes the removal hit other rows. Holds if other threads keep off the tables (C82_apart_partial)."
  },
  {
   "property": "C83",
   "status": "proved",
   "theorems": [
    "C83_mirror",
    "C83_silent",
    "C83_direct_refuted",
    "C83_handler_refuted",
    "C83_select_refuted"
   ],
   "note": "for the programs of C80 with tidy sessions; the refuted theorems show the conditions are needed"
  },
  {
   "property": "C84",
   "status": "proved",
   "theorems": [
    "C84_calls",
    "C84_program",
    "C84_flush"
   ],
   "note": "Every call's exact success condition on a consistent table, as an iff; otherwise a panic. Excluded: emptying the columns while rows are deleted (C17), skip_fast (C10)."
  },
  {
   "property": "C85",
   "status": "proved",
   "theorems": [
    "C85_answers",
    "C85_said"
   ],
   "note": "Simulation between the table and a plain list of rows, for all kinds and all programs."
  },
  {
   "property": "C86",
   "status": "partial",
   "theorems": [
    "C86_refuted",
    "C86_named",
    "C86_complete",
    "C86_when"
   ],
   "note": "REFUTED: declared names can clash with those of the generated code; C86_named gives the exact condition. Completeness of the code is proved without condition."
  },
  {
   "property": "C87",
   "status": "partial",
   "theorems": [
    "C87_refuted",
    "C87_removed_rows_stay_refuted",
    "C87_ends",
    "C87_forever",
    "C87_turns"
   ],
   "note": "REFUTED: in a release build, on a table that uses its last row id, the loops wrap around and never end. C87_ends and C87_forever say exactly when they end."
  },
  {
   "property": "C88",
   "status": "partial",
   "theorems": [
    "C88_refuted",
    "C88_present",
    "C88_yields",
    "C88_edits"
   ],
   "note": "REFUTED: in a release build skip_fast past the largest usize goes back and deleted rows are yielded. C88_yields says what is yielded in general, C88_present that nothing goes wrong otherwise."
  },
  {
   "property": "C89",
   "status": "proved",
   "theorems": [
    "C89_answers",
    "C89_said"
   ],
   "note": "Simulation with plain lists of rows over all programs on several tables; C89_said: what the plain lists leave open."
  },
  {
   "property": "C90",
   "status": "proved",
   "theorems": [
    "C90_stable",
    "C90_stays",
    "C90_other_kinds_refuted"
   ],
   "note": "any program on any number of tables; other kinds refuted with a witness each"
  },
  {
   "property": "C91",
   "status": "partial",
   "theorems": [
    "C91_refuted",
    "C91_alike",
    "C91_cells_stay"
   ],
   "note": "REFUTED: indexing a column with the plain id of a deleted row gives the old value. Proved for all programs that do not (C91_alike); C91_cells_stay says what they would see"
  },
  {
   "property": "C92",
   "status": "proved",
   "theorems": [
    "C92_safe",
    "C92_silent",
    "C92_same_calls"
   ],
   "note": "Trackers are arbitrary well-typed code, called by flushes at any depth. One thread; release builds without bags (C11)."
  },
  {
   "property": "C93",
   "status": "partial",
   "theorems": [
    "C93_returns",
    "C93_no_deadlock",
    "C93_edit_refuted",
    "C93_live_refuted",
    "C93_register_refuted"
   ],
   "note": "REFUTED: a tracker that locks the table it is told of for editing, as documented, waits for ever in a cascade. Proved for trackers that take one lock at a time and act on tables of lower rank only."
  },
  {
   "property": "C94",
   "status": "partial",
   "theorems": [
    "C94_told_rows_valid",
    "C94_after",
    "C94_cascade_refuted",
    "C94_reused_refuted"
   ],
   "note": "REFUTED: rows deleted by a cascade are gone before their trackers are told. Proved for the flush of a table itself, with trackers that only change tables of lower rank. C94_reused_refuted: a tracker that removes the row told and pushes another into the same table loses the new row when the outer flush ends."
  },
  {
   "property": "C95",
   "status": "proved",
   "theorems": [
    "C95_by_hand"
   ],
   "note": "The derived tracker of an indexed column; C92_silent and C92_same_calls tie the model to Cascade.v and DbHist.v."
  },
  {
   "property": "C96",
   "status": "partial",
   "theorems": [
    "C96_refuted",
    "C96_get_refuted",
    "C96_tracker_refuted",
    "C96_clumsy_refuted",
    "C96_remove_refuted",
    "C96_two_refuted",
    "C96_push_refuted",
    "C96_prompt",
    "C96_aborts",
    "C96_never_returns",
    "C96_same"
   ],
   "note": "REFUTED: a lock with unflushed changes panics when a panic drops it, which aborts the process. Proved that exactly these panics abort, and that none does if each change is flushed at once and no consistent table is cleared."
  },
  {
   "property": "C97",
   "status": "partial",
   "theorems": [
    "C97_absent",
    "C97_push",
    "C97_kept",
    "C97_full_refuted",
    "C97_captured_refuted",
    "C97_clear_refuted",
    "C97_clear",
    "C97_restore_refuted",
    "C97_restore"
   ],
   "note": "REFUTED: clearing a table deletes rows of dependent tables that refer to nothing (C97_clear_refuted, C97_clear), restoring such a row panics (C97_restore_refuted, C97_restore), and in a full table the id belongs to a row (C97_full_refuted, C97_captured_refuted; documented). Proved otherwise: the id is never handed out nor accepted (C97_absent, C97_push) and rows that refer to nothing survive deletions of rows (C97_kept)."
  },
  {
   "property": "C98",
   "status": "partial",
   "theorems": [
    "C98_backup",
    "C98_new_id",
    "C98_order",
    "C98_order_refuted",
    "C98_self",
    "C98_self_refuted",
    "C98_identity_refuted"
   ],
   "note": "REFUTED: for orders of restoring in which a table comes before one it refers to (panic), for tables that refer to themselves (deadlock), and after set_identity_remap if rows were deleted (keys refer to wrong rows). Proved in full otherwise: C98_backup."
  },
  {
   "property": "C99",
   "status": "partial",
   "theorems": [
    "C99_no_ub",
    "C99_unwound",
    "C99_returns",
    "C99_as_C52",
    "C99_as_C52_waits",
    "C99_refuted",
    "C99_collision",
    "C99_aborted",
    "C99_abort_refuted",
    "C99_zeroed",
    "C99_zeroed_refuted"
   ],
   "note": "REFUTED: of lock types of one name (a zeroed guard is dropped), of two unflushed locks (abort), and by the contract of mem::zeroed; proved of all other conversions"
  },
  {
   "property": "C100",
   "status": "partial",
   "theorems": [
    "C100_same_universe",
    "C100_other_refuted",
    "C100_refuted"
   ],
   "note": "REFUTED: from accepts contexts of other universes and keeps their locks, even after that universe is dropped; proved of programs that convert contexts only with their own universe"
  },
  {
   "property": "C101",
   "status": "partial",
   "theorems": [
    "C101_loop",
    "C101_effect",
    "C101_left_behind",
    "C101_alias",
    "C101_collect_refuted",
    "C101_find_refuted",
    "C101_alias_refuted"
   ],
   "note": "REFUTED: handles dangle once the iterator is moved or dropped, and older table references alias newer ones; proved of programs that use items only until the iterator is used again"
  },
  {
   "property": "C102",
   "status": "partial",
   "theorems": [
    "C102_at_home",
    "C102_named",
    "C102_refuted",
    "C102_length_refuted",
    "C102_named_refuted"
   ],
   "note": "REFUTED: swapping columns of locks in two universes (undefined behaviour) or of one lock (values in wrong columns); proved of all programs without such swaps"
  },
  {
   "property": "C103",
   "status": "partial",
   "theorems": [
    "C103_right",
    "C103_not_past",
    "C103_past",
    "C103_skip_refuted",
    "C103_backwards_refuted"
   ],
   "note": "REFUTED: past the end size_hint panics (debug) or names a huge number (release); proved exact or bounding everywhere else"
  },
  {
   "property": "C104",
   "status": "partial",
   "theorems": [
    "C104_no_race",
    "C104_in_order",
    "C104_goes_on",
    "C104_exact",
    "C104_lookups_refuted",
    "C104_register_refuted"
   ],
   "note": "REFUTED: threads that only look properties up can race on the static of a property registered by its twin (C104_lookups_refuted), as can a lookup and a registration (C104_register_refuted). C104_exact says exactly which programs are free of races; for those C104_in_order and C104_goes_on hold."
  },
  {
   "property": "C105",
   "status": "proved",
   "theorems": [
    "C105_stable",
    "C105_clear_raw_refuted"
   ],
   "note": "While threads run; the exclusion of clear_raw is shown to be needed."
  },
  {
   "property": "C106",
   "status": "partial",
   "theorems": [
    "C106_order",
    "C106_next",
    "C106_usize",
    "C106_natural_ranges",
    "C106_natural_iters",
    "C106_access",
    "C106_strange",
    "C106_contains",
    "C106_iter",
    "C106_invalid",
    "C106_invalid_refuted",
    "C106_inner_refuted",
    "C106_on"
   ],
   "note": "REFUTED: for signed ids INVALID is -1 and contains(INVALID) panics, for ids wider than usize it differs from the default id; inner_index of a signed range can overflow. The rest is proved for all integer types, with the exact value of INVALID."
  },
  {
   "property": "C107",
   "status": "proved",
   "theorems": [
    "C107_made",
    "C107_order",
    "C107_all",
    "C107_other"
   ],
   "note": "All sequences of calls on a selection."
  },
  {
   "property": "C108",
   "status": "partial",
   "theorems": [
    "C108_in_step",
    "C108_finds",
    "C108_too_many_refuted",
    "C108_ord_refuted",
    "C108_torn_refuted"
   ],
   "note": "REFUTED: a caught panic of Ord of an indexed element, or pushing more rows than there are ids, leaves columns of different lengths, wrong answers of find, or torn rows; in all other cases it holds (C108_in_step, C108_finds; for find: if rows are not emptied out while some are deleted, see C17)"
  },
  {
   "property": "C109",
   "status": "proved",
   "theorems": [
    "C109_flush_lost",
    "C109_remove_lost",
    "C109_close_lost"
   ],
   "note": "equivalences, from the invariant of C108"
  },
  {
   "property": "C110",
   "status": "proved",
   "theorems": [
    "C110_same"
   ],
   "note": "simulation between tables that differ in indexes only; typed calls; find and assignment only on columns that agree"
  },
  {
   "property": "C111",
   "status": "proved",
   "theorems": [
    "C111_domain",
    "C111_table",
    "C111_property",
    "C111_added",
    "C111_others",
    "C111_given",
    "C111_proper",
    "C111_one",
    "C111_read"
   ],
   "note": "Registry.v; both directions for every reachable registry; beside: C111_case."
  },
  {
   "property": "C112",
   "status": "proved",
   "theorems": [
    "C112_account",
    "C112_wrong_row"
   ],
   "note": "Exact rule for every call; the witness shows that find can give a wrong row after a caught panic."
  },
  {
   "property": "C113",
   "status": "proved",
   "theorems": [
    "C113_lock",
    "C113_lock_unknown",
    "C113_tables",
    "C113_missing",
    "C113_new",
    "C113_prefix",
    "C113_unknown",
    "C113_more",
    "C113_readable",
    "C113_no_tables",
    "C113_shared",
    "C113_distinct",
    "C113_initial",
    "C113_apart",
    "C113_kept",
    "C113_same_tables_refuted"
   ],
   "note": "Lock exactly and nothing else; old universes keep their tables; add_properties gives missing properties their initial values; C113_same_tables_refuted is the witness that two universes may have different tables of a domain."
  },
  {
   "property": "C114",
   "status": "proved",
   "theorems": [
    "C114_new",
    "C114_add",
    "C114_others",
    "C114_once",
    "C114_order",
    "C114_usable",
    "C114_unusable",
    "C114_info",
    "C114_swap"
   ],
   "note": "In worlds with domains that may be unlocked again (C113)."
  },
  {
   "property": "C115",
   "status": "partial",
   "theorems": [
    "C115_import",
    "C115_identity_refuted",
    "C115_complete_refuted"
   ],
   "note": "REFUTED: with set_identity_remap the copies can refer to wrong rows (C115_identity_refuted), and keys whose rows are not in an extraction that has no rows are remapped by an earlier restore instead of panicking (C115_complete_refuted). C115_import proves everything else in full: with ordinary remapping and a complete selection, all restores succeed and add exact copies."
  },
  {
   "property": "C116",
   "status": "proved",
   "theorems": [
    "C116_sound",
    "C116_import",
    "C116_removal"
   ],
   "note": "Programs of careful sessions and additions of saved rows into consistent tables; the invariant of C80 together with what C115 needs is kept by both."
  },
  {
   "property": "C117",
   "status": "proved",
   "theorems": [
    "C117_pushes",
    "C117_restores",
    "C117_merges",
    "C117_mirror"
   ],
   "note": "restore compared with a session of pushes, both ways; books of trackers in programs that restore"
  },
  {
   "property": "C118",
   "status": "proved",
   "theorems": [
    "C118_same",
    "C118_self",
    "C118_fresh",
    "C118_sound",
    "C118_mirror"
   ],
   "note": "All tables and locks for the equation; programs as in C80/C83 with any number of live_flushes. Restores and live_flush together: C38."
  },
  {
   "property": "C119",
   "status": "proved",
   "theorems": [
    "C119_sound",
    "C119_mirror",
    "C119_clears",
    "C119_deleted_refuted"
   ],
   "note": "Proved with the condition that no row is deleted when the table is cleared; C119_deleted_refuted shows that it is needed."
  },
  {
   "property": "C120",
   "status": "proved",
   "theorems": [
    "C120_sound",
    "C120_mirror",
    "C120_removal",
    "C120_import",
    "C120_clears",
    "C120_includes",
    "C120_leaked_refuted"
   ],
   "note": "The exception (adding rows after live_flush of a table rows had been added to) is shown to be needed by C120_leaked_refuted."
  },
  {
   "property": "C121",
   "status": "proved",
   "theorems": [
    "C121_registers",
    "C121_since"
   ],
   "note": ""
  },
  {
   "property": "C122",
   "status": "proved",
   "theorems": [
    "C122_undo",
    "C122_stays_refuted"
   ],
   "note": "Deletion with cascade followed by restore_all of what was saved; condition on set_identity_remap shown to be needed."
  },
  {
   "property": "C123",
   "status": "proved",
   "theorems": [
    "C123_refill"
   ],
   "note": "Clearing followed by restore_all of what was saved."
  },
  {
   "property": "C124",
   "status": "proved",
   "theorems": [
    "C124_commute",
    "C124_batches",
    "C124_any_steps"
   ],
   "note": "Closed under the global context. Consistent tables and removals handled by deleting, as in C80; sorted tables take part as tables that refer to others."
  },
  {
   "property": "C125",
   "status": "proved",
   "theorems": [
    "C125_clearing",
    "C125_strays_refuted"
   ],
   "note": "Closed under the global context. C125_strays_refuted shows that the condition on references is needed."
  },
  {
   "property": "C126",
   "status": "proved",
   "theorems": [
    "C126_watching",
    "C126_sorted_refuted"
   ],
   "note": "Closed under the global context. C126_sorted_refuted: not so for trackers that ask for ids in order, as the statement says."
  },
  {
   "property": "C127",
   "status": "proved",
   "theorems": [
    "C127_deep_enough",
    "C127_deeper"
   ],
   "note": "Closed under the global context."
  },
  {
   "property": "C128",
   "status": "proved",
   "theorems": [
    "C128_layers",
    "C128_sorted_refuted"
   ],
   "note": "Closed under the global context. Arbitrary programs of C89; the tables left out that refer directly to the others are consistent, and C128_sorted_refuted shows that this is needed (only the order of rows told differs)."
  },
  {
   "property": "C129",
   "status": "proved",
   "theorems": [
    "C129_builds",
    "C129_restoring",
    "C129_alike_refuted",
    "C129_acting",
    "C129_threads",
    "C129_threads_back",
    "C129_poisoning",
    "C129_poisoning_back"
   ],
   "note": "A debug run either stops with an overflow, or equals the run in every build with a usize at least as large; also with trackers that act, and for threads in any interleaving and with poisoned locks (both directions). C129_alike_refuted: without the overflow the builds may differ."
  },
  {
   "property": "C130",
   "status": "proved",
   "theorems": [
    "C130_parts",
    "C130_whole",
    "C130_shuffle",
    "C130_refer_refuted"
   ],
   "note": "Programs on groups of tables without references between them: the whole succeeds iff each group's part does, with the same answers, so calls of different groups commute. C130_refer_refuted: references between groups must be excluded."
  },
  {
   "property": "C131",
   "status": "proved",
   "theorems": [
    "C131_fewer_columns",
    "C131_more_columns",
    "C131_order_refuted"
   ],
   "note": "C131_fewer_columns: all programs and builds, from the larger table to the smaller one. C131_more_columns: back to the larger table, for debug builds, programs of C85 and no calls only about the additional columns. C131_order_refuted: fails if the order of rows depends on an additional column."
  },
  {
   "property": "C132",
   "status": "proved",
   "theorems": [
    "C132_order_of_columns",
    "C132_any_build",
    "C132_twice_refuted"
   ],
   "note": "Debug builds and the programs of C85. C132_twice_refuted: fails for a column that is there twice. Programs that succeed in a debug build: also for all other builds (C132_any_build)."
  },
  {
   "property": "C133",
   "status": "proved",
   "theorems": [
    "C133_wider",
    "C133_any_build",
    "C133_release_refuted"
   ],
   "note": "Debug builds and the programs of C85. C133_release_refuted: fails in release builds when push_array fills the table. Programs that succeed in a debug build: also for all other builds (C133_any_build)."
  },
  {
   "property": "C134",
   "status": "proved",
   "theorems": [
    "C134_kind",
    "C134_any_build",
    "C134_close_refuted",
    "C134_delete_refuted"
   ],
   "note": "Debug builds; sorted tables left out. The refuted side theorems show that the conditions are needed. Programs that succeed in a debug build: also for all other builds (C134_any_build)."
  },
  {
   "property": "C135",
   "status": "proved",
   "theorems": [
    "C135_values",
    "C135_any_build",
    "C135_same_refuted"
   ],
   "note": "Debug builds. The refuted side theorem shows that values looked for must stay apart from others. Programs that succeed in a debug build: also for all other builds (C135_any_build)."
  },
  {
   "property": "C136",
   "status": "proved",
   "theorems": [
    "C136_columns",
    "C136_any_build"
   ],
   "note": "debug builds: both directions; any build: programs that succeed in a debug build"
  },
  {
   "property": "C137",
   "status": "proved",
   "theorems": [
    "C137_values",
    "C137_any_build",
    "C137_references_refuted"
   ],
   "note": "references must stay (C137_references_refuted shows that this is needed)"
  },
  {
   "property": "C138",
   "status": "proved",
   "theorems": [
    "C138_place",
    "C138_apart_refuted",
    "C138_acting",
    "C138_restoring",
    "C138_threads",
    "C138_threads_back"
   ],
   "note": "all builds, errors included; also with trackers that act, for saving and restoring, and for threads (both directions)"
  }
 ]
}
