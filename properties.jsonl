{"id": "C01", "title": "BoolCol behaves like a plain vector of booleans", "statement": "Whatever sequence of column operations (push, read, write through a &mut reference, swap, swap_out, truncate, clear, into_iter) is applied to a `BoolCol`, every read and the final contents are those a plain `Vec<bool>` would give; the write-back cache is never observable.", "quantifier": "all finite sequences of column operations with in-range indices, all boolean values", "why_tests_cant": "The cached bit is only visible through particular interleavings of writes, swaps and truncations; tests cover a few.", "anchors": ["src/storage.rs: BoolCol::{flush,truncate,unchecked_index,unchecked_index_mut,push,unchecked_swap_out,unchecked_swap,into_iter}"]}
{"id": "C02", "title": "An `#[index]`ed column's `find` is exact", "statement": "After any history of operations on an indexed column, `find(k)` yields exactly the rows that are not deleted and currently hold `k`, each once, in ascending row order, provided the table has not used the maximal row id; values read from the column are those of the unindexed column.", "quantifier": "all histories of push/swap_out/swap/deleted/truncate/clear, all keys, all row-id types", "why_tests_cant": "The index is a redundant structure updated by every mutator; only an invariant over all histories rules out drift.", "anchors": ["src/map_index.rs: BTreeIndex::{find,push,unchecked_swap_out,unchecked_swap,deleted,truncate,clear}"]}
{"id": "C03", "title": "An `#[index]`ed column's `range` is exact and inclusive of both bounds", "statement": "For `lo <= hi`, `range(lo,hi)` on an indexed column yields exactly the live rows whose value v satisfies lo <= v <= hi, ordered by (value,row); for `lo > hi` it panics.", "quantifier": "all histories, all bounds, all row-id types (rows below the maximal id)", "why_tests_cant": "Bound inclusiveness at the row-id limits is not exercised by any test.", "anchors": ["src/map_index.rs: BTreeIndex::range"]}
{"id": "C04", "title": "`find` returns every row holding the key, including the row with the maximal id", "statement": "`find(k)` returns every live row of the table that holds `k`. (The code misses the row whose id is the maximum of the row-id type, e.g. row 255 of a `row_id = \"u8\"` table; the exact set of missed rows is stated.)", "quantifier": "all tables, keys and row-id types", "why_tests_cant": "Needs a table filled to the last row id.", "anchors": ["src/map_index.rs: BTreeIndex::find"]}
{"id": "C05", "title": "RowRange: contains, len, inner_index and iteration agree", "statement": "For a range with start <= end: `iter_slow` yields exactly the rows `contains` accepts, ascending, each once, `len` of them; `inner_index(r)` is Some(k) exactly when r is the k-th yielded row. Iterating never overflows the row-id type. `RowRange::on(i)` contains exactly the row i (if i is not the last id), `RowRange::empty()` none; `next()` of an id is the least greater id and `prev()` undoes it.", "quantifier": "all start <= end within the row-id type, all rows", "why_tests_cant": "Quantifies over all ranges of all row-id types including the numeric limits.", "anchors": ["src/index.rs: RowRange::{len,contains,inner_index,iter_slow}", "src/index.rs: UncheckedIter::next"]}
{"id": "C06", "title": "RowRange::offset(n) returns the n-th row only if it lies within the range", "statement": "`offset(n)` is Some(r) only when `r` is contained in the range, and then r is the n-th row. (The code also answers Some(end) for n = len.)", "quantifier": "all ranges and offsets of all row-id types", "why_tests_cant": "Off-by-one at one boundary value.", "anchors": ["src/index.rs: RowRange::offset"]}
{"id": "C07", "title": "RowRange::intersects is true exactly when a common row exists", "statement": "`a.intersects(b)` iff some row is contained in both. (True for non-empty ranges; the code answers true for an empty range strictly inside another.)", "quantifier": "all pairs of ranges with start <= end", "why_tests_cant": "Universally quantified over pairs, the exception is the empty-range corner.", "anchors": ["src/index.rs: RowRange::intersects"]}
{"id": "C08", "title": "Range iteration is bounds-safe", "statement": "`table.range(r)` either panics or returns an iterator all of whose (pre-checked) row ids are below `table.len()`; when it does not panic and start <= end it yields exactly the rows of `r`, ascending; skip_fast never makes it yield an out-of-bounds id. `uncheck()` is the range of the rows the iterator has still to yield.", "quantifier": "all tables, ranges and skip amounts", "why_tests_cant": "Checked ids are later dereferenced without bounds checks, so this is a memory-safety fact for all inputs.", "anchors": ["src/index.rs: CheckedIter::{from,next,skip_fast,uncheck}", "macros/output.rs: range"]}
{"id": "C09", "title": "Merge-join helper is a correct join", "statement": "Feeding ascending left items to `JoinCore::join` over an ascending right sequence answers Match exactly for the left items that occur on the right, and Stop only when no remaining left item can match; `join_next` pairs items one-to-one.", "quantifier": "all ascending left and right sequences (with duplicates), any total order", "why_tests_cant": "Stateful cursor over arbitrary interleavings of two sequences.", "anchors": ["src/joincore.rs: JoinCore::{join,join_next,cmp}"]}
{"id": "C10", "title": "Iterating a consistent table visits exactly the live rows", "statement": "On a consistent table `iter()`, `range(r)` and `editing()` yield exactly the non-deleted rows (of the range), ascending, each once; equivalently exactly the rows for which `contains` is true and `get_row` does not panic.", "quantifier": "all reachable consistent tables, all ranges within the table, all skip_fast amounts", "why_tests_cant": "Depends on the join of two cursors staying in step for every free-list shape.", "anchors": ["src/index.rs: ConsistentIter::next, EditIter::next", "macros/output.rs: iter, contains, editing, get_row"]}
{"id": "C11", "title": "Columns stay in step; no unchecked access is ever out of bounds", "statement": "Through any sequence of public table operations on one universe's table, all columns keep the same length and no unchecked column access is out of range (no undefined behaviour); the only failures are panics.", "quantifier": "all table kinds, all column types, all operation sequences", "why_tests_cant": "Memory safety of unsafe code over all histories.", "anchors": ["macros/output.rs: push, push_array, delete, visit, retain, merge, remove_rows, clear, flush, get_row", "src/columns.rs: Index<CheckedRowId>"]}
{"id": "C12", "title": "push stores the row at an id that was not live and disturbs nothing else", "statement": "On a consistent table `push(row)` returns an id that was not live, after which `get_row(id)` = row; every other live row keeps its id and contents; the id is the smallest deleted id if any, otherwise the old length; `next_pushed()` predicts it.", "quantifier": "all reachable tables, all rows", "why_tests_cant": "Row-id stability for every history of pushes and deletes.", "anchors": ["macros/output.rs: push, next_pushed, push_end_unchecked, swap_out_row"]}
{"id": "C13", "title": "push_array returns a contiguous range holding the rows in order", "statement": "`push_array(rows)` on a non-empty iterator returns the range old_len..old_len+n, holding the rows in order, leaving existing rows alone; previously deleted ids are not reused.", "quantifier": "all tables below capacity, all non-empty row sequences", "why_tests_cant": "Quantifies over all tables and lengths.", "anchors": ["macros/output.rs: push_array"]}
{"id": "C14", "title": "push_array's result can always be iterated", "statement": "The range returned by `push_array` can be passed to `range()` of the same table. (The code returns MAX..MAX for an empty iterator, which `range` rejects with a panic.)", "quantifier": "all tables and row sequences, including the empty one", "why_tests_cant": "Corner case of the empty iterator.", "anchors": ["macros/output.rs: push_array", "src/index.rs: RowRange::empty, CheckedIter::from"]}
{"id": "C15", "title": "Deleting and flushing removes exactly the marked rows", "statement": "On a consistent table, `delete(r)` leaves the row readable until the flush; after `flush` with a removal event exactly the marked rows are gone (get_row panics, iteration skips them, `find` does not report them) and every other row keeps its id and contents. Deleting the same row twice before the flush is the same as once.", "quantifier": "all reachable tables, all sets of live rows (any order, with repetitions)", "why_tests_cant": "All subsets and orders of deletions over all table states.", "anchors": ["macros/output.rs: delete, delete_raw, flush, event_del"]}
{"id": "C16", "title": "A deletion is not silently lost", "statement": "A row passed to `delete` is gone once the table has been flushed. (The code ignores deletions flushed with a non-removal event, and conversely deletes freshly pushed rows when they are flushed with a removal event.)", "quantifier": "all tables, rows, events", "why_tests_cant": "Needs all event kinds crossed with all change kinds.", "anchors": ["macros/output.rs: flush", "src/tracking.rs: Flush::do_flush"]}
{"id": "C17", "title": "A cleared consistent table behaves like an empty one", "statement": "After `clear()` and a removal flush, a consistent table behaves like a new table: the next `push` succeeds and returns id 0, iteration afterwards yields it. (The code leaves the free list behind: if any row had been deleted earlier the next push panics, and rows added by push_array under a stale id are invisible.)", "quantifier": "all reachable tables", "why_tests_cant": "Requires a delete before the clear, a combination no test has.", "anchors": ["macros/output.rs: clear, clear_raw, push, push_array"]}
{"id": "C18", "title": "clear() empties the table", "statement": "After `clear()` (and flush where required) `len()` is 0, for every table kind. (In the code it does nothing on `sorted` and `list` tables.)", "quantifier": "all kinds, all contents", "why_tests_cant": "Existing test calls clear on a sorted table without looking at the result.", "anchors": ["macros/output.rs: clear, event_cleared", "guarantees: 'all tables are clearable'"]}
{"id": "C19", "title": "Structural changes cannot be forgotten", "statement": "Dropping (or closing) the write lock of a consistent table panics exactly when there has been a push, delete, clear or select since the last flush; pushes and deletes mixed between two flushes always make the flush panic.", "quantifier": "all operation sequences between lock and drop", "why_tests_cant": "History property over all operation sequences.", "anchors": ["macros/output.rs: Drop for Write, event_add, event_del, event_cleared, live_flush, flush", "src/tracking.rs: do_flush"]}
{"id": "C20", "title": "visit rewrites the table as the callback says", "statement": "After `visit(f)` the table's rows are, in order, for each original row: the row itself unless removed, followed by the rows added at it; after a Break the remaining rows are unchanged.", "quantifier": "all tables, all stateful callbacks that may look at the table, all added row lists", "why_tests_cant": "The in-place rug algorithm must be right for every pattern of insertions, removals and breaks.", "anchors": ["macros/output.rs: merge0, visit", "src/lib.rs: Action"]}
{"id": "C21", "title": "visit shows the callback each original row once, in order", "statement": "The callback of `visit`/`retain` is called for ids 0,1,2,... once each until Break or the end; at each call the table holds at that id (and at all later ids) the original row; added rows are never visited.", "quantifier": "all tables and stateful callbacks", "why_tests_cant": "In-place rewriting happens while the callback is reading.", "anchors": ["macros/output.rs: merge0, visit, retain"]}
{"id": "C22", "title": "retain keeps exactly the matching rows in order", "statement": "`retain(p)` leaves exactly the rows for which the predicate returned true, in their original order; sortedness of a sorted table is preserved.", "quantifier": "all tables, all (stateful) predicates", "why_tests_cant": "All patterns of removals.", "anchors": ["macros/output.rs: retain, merge0"]}
{"id": "C23", "title": "merge keeps a sorted table sorted and loses nothing", "statement": "Merging a sorted sequence of rows into a sorted table gives a sorted table whose rows are a permutation of the old and new rows; `merge(vec)` sorts its argument first.", "quantifier": "all sorted tables, all rows, any total preorder on rows", "why_tests_cant": "The in-place rug merge over all interleavings.", "anchors": ["macros/output.rs: merge, merge_logged", "src/assert_sorted.rs"]}
{"id": "C24", "title": "merge is stable", "statement": "Among rows with equal keys, merge puts rows already in the table before the new ones and keeps their order. (The code puts the first merged row before existing equal rows; the exact resulting order is stated.)", "quantifier": "all sorted tables and merged sequences", "why_tests_cant": "Needs equal keys distinguishable by other columns.", "anchors": ["macros/output.rs: merge_logged (stages 1-3)"]}
{"id": "C25", "title": "merge reports final row ids", "statement": "`merge_logged` reports, in order, one id per merged row, strictly increasing, and after the merge each reported id holds the corresponding row; `merge_in_a_single_row` returns an id that holds the row.", "quantifier": "all sorted tables and merged sequences", "why_tests_cant": "Ids are reported while the table is still shifting.", "anchors": ["macros/output.rs: merge_logged, merge_in_a_single_row"]}
{"id": "C26", "title": "remove_rows on a sorted table is exact", "statement": "`remove_rows(ids)` on a sorted table with strictly increasing in-range ids removes exactly those rows, preserving the order of the rest (and exactness of indexes); any other non-empty argument panics and changes nothing.", "quantifier": "all tables and id lists", "why_tests_cant": "In-place compaction for every pattern of removed ids.", "anchors": ["macros/output.rs: Write::remove_rows (sorted)"]}
{"id": "C27", "title": "A sorted table is always sorted", "statement": "A `kind = \"sorted\"` table is sorted by its key at all times. (In the code the key column can be assigned through a write lock, and AssertSorted is unchecked.)", "quantifier": "all histories of public operations", "why_tests_cant": "Needs a history that edits a key.", "anchors": ["macros/output.rs: COL_MUT", "guarantees: '#[sort] field is immutable'"]}
{"id": "C28", "title": "Deleting from a bag removes one row and keeps the rest", "statement": "`delete(i)` on a bag removes exactly the row at i: the remaining multiset of rows is the old one minus that row, the table shrinks by one and only the last row changes id (it moves to i).", "quantifier": "all bags, all valid ids", "why_tests_cant": "All positions, including the last row.", "anchors": ["macros/output.rs: bag delete, delete_raw"]}
{"id": "C29", "title": "BagIter visits every row once and deletes exactly the chosen ones", "statement": "Iterating a bag with `iter_mut` and calling `delete()` on the current row's handle at arbitrary moments visits every original row exactly once, and when the iterator is dropped (at the end or early) exactly the chosen rows have been removed.", "quantifier": "all bags, all (stateful) choices of rows to delete, all early exits", "why_tests_cant": "Deferred deletion interleaves with swapping rows under the cursor.", "anchors": ["src/index.rs: BagIter::next, Drop for BagIter, Deletable::delete"]}
{"id": "C30", "title": "A Deletable handle deletes its own row", "statement": "Calling `delete()` on a handle obtained from `BagIter` deletes the row the handle was given for. (In the code the mark is shared: a handle kept across a call to next() deletes the current row instead.)", "quantifier": "all bags and orders of using handles", "why_tests_cant": "Needs handles to be kept across iterations.", "anchors": ["src/index.rs: Deletable::delete, BagIter::next"]}
{"id": "C31", "title": "Rows of an append table are never removed", "statement": "Rows of a `kind = \"append\"` table are never removed or renumbered except by clear. (In the code `retain` and `visit` are generated for append tables.)", "quantifier": "all histories of public operations", "why_tests_cant": "Universal over operations available on the kind.", "anchors": ["macros/output.rs: retain, visit", "guarantees: append", "macros/table.rs: Guarantee/kinds"]}
{"id": "C32", "title": "Deleting a row deletes all its dependents, transitively", "statement": "With `#[foreign_auto]` references between consistent tables forming no cycle, deleting rows and flushing with a removal event leaves no live row that (transitively) references a deleted row: referential integrity is preserved at any depth.", "quantifier": "all acyclic schemas of consistent tables, all contents satisfying integrity, all deleted sets", "why_tests_cant": "Arbitrary depth and diamond-shaped dependency graphs.", "anchors": ["macros/output.rs: foreign_auto Tracker::handle, select_ifc, remove_rows (consistent), flush", "src/event.rs: Function::run, DeleteHandler", "src/tracking.rs: do_flush"]}
{"id": "C33", "title": "Deleting a row deletes nothing but its dependents", "statement": "In the same setting, a row disappears only if it was marked or transitively references a marked row; all other rows in all tables keep their ids and contents.", "quantifier": "all acyclic schemas of consistent tables, all contents, all deleted sets", "why_tests_cant": "A frame property over the whole universe.", "anchors": ["same as the cascade property"]}
{"id": "C34", "title": "Cascading deletion terminates without deadlock", "statement": "Flushing a deletion always completes. (Holds for acyclic `#[foreign_auto]` graphs; with a self-referential table or a cycle the code takes a write lock it already read-holds.)", "quantifier": "all schemas, contents and deleted sets", "why_tests_cant": "Termination and lock order over all schema graphs.", "anchors": ["src/event.rs: Function::run", "src/tracking.rs: do_flush", "macros/output.rs: remove_rows, flush"]}
{"id": "C35", "title": "Trackers hear about every change exactly once per flush", "statement": "A flush calls every tracker of the table that considers the event exactly once, in registration order, with exactly the rows changed since the last flush (as a multiset), sorted ascending if the tracker asked for it; no tracker is called when nothing changed.", "quantifier": "all tables, tracker lists, change sequences, events", "why_tests_cant": "All combinations of trackers and orders.", "anchors": ["src/tracking.rs: do_flush", "macros/output.rs: flush, live_flush, select"]}
{"id": "C36", "title": "Deleting works whatever kind the dependent table has", "statement": "Deleting a row of a table referenced via `#[foreign_auto]` succeeds for every kind of dependent table the macro accepts. (In the code any removal flush panics if a dependent is an append, bag or list table, even with no referencing rows; and deleting the same row twice before a flush panics if a dependent is sorted and uses `#[index]`.)", "quantifier": "all dependent kinds, all contents, all deletions", "why_tests_cant": "Needs the macro-accepted but untested kind combinations.", "anchors": ["macros/output.rs: Table::remove_rows (inconsistent / sorted), select_ifc", "macros/table.rs: validate"]}
{"id": "C37", "title": "Sorted dependents lose exactly the rows referencing deleted rows", "statement": "For a sorted table whose sort key is a `#[foreign_auto]` column, deleting rows of the referenced table and flushing removes exactly the rows whose key was deleted and keeps the others in order.", "quantifier": "all sorted dependents, all deleted sets", "why_tests_cant": "Join over arbitrary duplicate keys and deletion sets.", "anchors": ["macros/output.rs: select_sorted_ifc, remove_rows (sorted)"]}
{"id": "C38", "title": "live_flush releases the tracker lock", "statement": "After `live_flush` returns no lock it took internally is still held, so later restores and tracker registrations can proceed. (In the code, live_flush after a restore leaks a read lock: the next restore into that table blocks forever.)", "quantifier": "all histories of restore / flush / live_flush", "why_tests_cant": "Deadlock only after a particular history.", "anchors": ["macros/output.rs: live_flush, restore_extract", "src/tracking.rs: register_tracker"]}
{"id": "C39", "title": "Concurrent flushes never delete a row nobody asked to delete", "statement": "Whatever the interleaving of two threads that lock, delete, push and flush the same table, a row is removed only if some thread deleted it while it was live. (In the code flush gives up the lock between collecting and applying deletions.)", "quantifier": "all schedules of concurrent flushes", "why_tests_cant": "A race window only some schedules hit.", "anchors": ["macros/output.rs: flush"]}
{"id": "C40", "title": "Column (de)serialisation round-trips and rebuilds the index", "statement": "Deserialising a serialised column gives a column with the same values; for an indexed column `find` is exact again.", "quantifier": "all columns and values", "why_tests_cant": "All contents, including pending BoolCol writes and index state.", "anchors": ["src/serial.rs", "src/map_index.rs: Serialize"]}
{"id": "C41", "title": "Extract then restore reproduces the selected rows", "statement": "Restoring an extraction of a consistent, append, bag or list table into an empty table of the same schema yields exactly the selected rows in selection order, with ids 0,1,2...", "quantifier": "all tables (with deleted rows), all selections", "why_tests_cant": "All selections over tables with holes.", "anchors": ["macros/output.rs: extract_selection, restore_extract, Extraction::into_iter"]}
{"id": "C42", "title": "Restored foreign keys point at the restored rows", "statement": "After restoring a parent table's extraction and then a child table's extraction, every restored child row's foreign key refers to a parent row with the same contents as the one it referred to when extracted; a child whose parent was not extracted makes restore panic rather than dangle.", "quantifier": "all parent/child contents and selections, restored into any (non-empty) tables", "why_tests_cant": "Renumbering depends on free lists of the target.", "anchors": ["macros/output.rs: UPDATE_ROW, MERGE_EXTRACT, restore_extract", "src/tracking.rs: set_remapping, remap"]}
{"id": "C43", "title": "Restored foreign keys of sorted tables point at the restored rows", "statement": "The same remapping guarantee for a sorted child table. (The code never remaps the foreign keys of a sorted child.)", "quantifier": "all parent/child contents", "why_tests_cant": "Only visible when parent ids change during the restore.", "anchors": ["macros/output.rs: MERGE_EXTRACT (sorted, no_trackers)"]}
{"id": "C44", "title": "restore rejects foreign data gracefully", "statement": "`restore_extract` returns an error, and changes nothing, whenever the extraction's header (format, domain, table name, schema version, columns) does not match the table exactly. (In the code an extraction with too few columns panics instead of returning an error.)", "quantifier": "all headers", "why_tests_cant": "All mismatching headers.", "anchors": ["macros/output.rs: Extraction::validate, restore_extract"]}
{"id": "C45", "title": "Domain ids are dense, unique and stable", "statement": "Registering domains in any order, any number of times, gives every distinct name its own id below the number of domains, never changes an id already given, and id-to-name lookup inverts it.", "quantifier": "all registration sequences", "why_tests_cant": "History property over the global registry.", "anchors": ["src/domain.rs: DomainName::register, GlobalDomains"]}
{"id": "C46", "title": "Properties with the same name share one value, different names never alias", "statement": "After any registration history, in any universe created afterwards, two property statics registered under the same name read and write the same cell, and properties with different names (or in different domains) read and write different cells; a fresh universe shows each property's initial value.", "quantifier": "all registration histories, all sequences of property writes", "why_tests_cant": "Slot allocation across domains, twins and late universes.", "anchors": ["src/property.rs: Prop::init, sync_alias, Index for Universe", "src/domain.rs: DomainInfo::instantiate"]}
{"id": "C47", "title": "Universes do not share state", "statement": "Writing properties in one universe never changes what another universe reads; add_domain keeps existing values and is idempotent.", "quantifier": "all sequences of operations on any number of universes", "why_tests_cant": "Frame property across instances.", "anchors": ["src/domain.rs: add_domain, instantiate_domain", "src/property.rs"]}
{"id": "C48", "title": "Registration on a locked domain is rejected", "statement": "Once a universe has instantiated a domain, registering a new table or property in it panics and leaves the registry unchanged, so every universe of a domain has the same tables and properties.", "quantifier": "all registration/universe-creation histories", "why_tests_cant": "History property.", "anchors": ["src/tables.rs: GenericTable::register", "src/property.rs: Prop::init", "src/domain.rs: instantiate_domain, check_lock"]}
{"id": "C49", "title": "Re-registering an identical table or property is harmless", "statement": "Registering the same table twice has no effect. (True before the domain is locked; in the code, re-registering after a universe exists panics, and a table that differs only in kind is silently accepted as equivalent.)", "quantifier": "all registration histories", "why_tests_cant": "Needs twin definitions.", "anchors": ["src/tables.rs: register, equivalent"]}
{"id": "C50", "title": "Names accepted are exactly the identifiers", "statement": "A domain, table, column or property name is accepted exactly when it matches [A-Za-z][A-Za-z0-9_]*.", "quantifier": "all strings", "why_tests_cant": "All strings.", "anchors": ["src/intern.rs: check_name"]}
{"id": "C51", "title": "Event handlers: defaults and replacement", "statement": "In a new universe a standard removal event deletes, a standard creation event does nothing, every other standard event panics if anything handles it; installing a handler for one event replaces exactly that handler, returns the previous one, and leaves all other events alone.", "quantifier": "all sequences of handler installations, all event ids", "why_tests_cant": "Map laws over all histories.", "anchors": ["src/event.rs: EventHandlers::{default,add,get}, EVENT_LIST"]}
{"id": "C52", "title": "Context conversion keeps shared locks and cannot deadlock against itself", "statement": "`Context::from(universe, old)` ends up holding exactly the new context's locks; locks present in both are never released in between; locks only in the old context are released before any new lock is acquired, so the conversion never blocks on a lock held only by the old context; and every field of the new context gets a lock of its own type, whatever names the tables have.", "quantifier": "all pairs of contexts (and tuples of contexts), all lock states", "why_tests_cant": "All combinations of fields.", "anchors": ["src/context.rs: context! (new, from), ReleaseFields"]}
{"id": "C53", "title": "Type-erased selections cannot be confused", "statement": "An `AnySliceRef` downcast succeeds exactly for the element type it was made from and then returns the same slice.", "quantifier": "all element types and slices", "why_tests_cant": "All pairs of types.", "anchors": ["src/any_slice.rs"]}
{"id": "C54", "title": "Every table the macro accepts has a coherent guarantee", "statement": "Whatever attributes are given in whatever order, a table accepted by `table!` has exactly one kind, at least one column, is never both consistent and sorted, carries a sort key only if sorted, extra trackers only if consistent, and every `foreign_auto` column can be looked up (indexed or the sort key); its published guarantees are a function of the kind alone.", "quantifier": "all attribute lists", "why_tests_cant": "All attribute combinations.", "anchors": ["macros/parse.rs", "macros/table.rs: set_kind, validate, validate_guarantees"]}
{"id": "C55", "title": "A pre-checked id is valid for the table it is used with", "statement": "Safe code cannot read outside a column: an id accepted by `check(&table)` is in bounds and live for that table. (In the code, re-checking an already checked id performs no check, so an id checked against one universe's table is accepted unchecked by another's.)", "quantifier": "all pairs of tables and ids", "why_tests_cant": "Needs two instances of the same table with different lengths.", "anchors": ["src/index.rs: Checkable for CheckedRowId, Checkable for GenericRowId", "src/columns.rs: Index<CheckedRowId>"]}
{"id": "C56", "title": "Trackers of dependent tables are told once per removal, and only if rows go", "statement": "When removing rows of a table removes rows of a dependent table, each tracker of the dependent table is called exactly once with those rows, and not at all if no row of the dependent table is removed. (In the code, clearing the parent notifies the dependent's trackers twice, and a removal with no dependents notifies them with an empty selection.)", "quantifier": "all parent/child tables, trackers, deletions", "why_tests_cant": "tests register trackers on the parent or look at final table contents, not at call counts in the second level", "anchors": ["macros/output.rs: remove_rows (clear_raw + clear + flush)", "src/event.rs: Function::run"]}
{"id": "C57", "title": "A call that panics harms nothing else", "statement": "If a registration, Universe::new or a property access panics and the panic is caught, later calls behave as if it had not been made. (In the code such panics happen while the process-wide registry is locked for writing; its lock is poisoned and from then on registering, making universes and reading or writing any table of any universe panic.)", "quantifier": "all call histories, all later calls, all universes", "why_tests_cant": "Which of the panics happen under the lock, and everything that takes the lock later, is a global history property.", "anchors": ["src/property.rs: Prop::init, sync_alias", "src/tables.rs: GenericTable::register", "src/domain.rs: get_domains, map_info", "src/index.rs: get_generic_table"]}
{"id": "C58", "title": "Each tracker a table asks for is registered once", "statement": "After Universe::new(domains) or add_domain, each table's trackers are exactly those that the tables of the universe's domains declare for it (foreign_auto and #[track]), once each, in order of registration. (In the code a domain listed twice in Universe::new has its trackers registered twice.)", "quantifier": "all registration histories and domain lists", "why_tests_cant": "Domain order, duplicates, and tables in several domains.", "anchors": ["src/domain.rs: init_domain, get_domains, add_domain", "src/lib.rs: Universe::new", "src/tracking.rs: register_tracker"]}
{"id": "C59", "title": "A failed add_domain can be repeated", "statement": "If add_domain panics because a table tracked from the new domain is not there yet, adding the missing domain and then calling add_domain again registers the trackers. (In the code the domain is already set, so the second call returns at once and cascading deletion silently does not happen.)", "quantifier": "all histories of registrations and add_domain calls", "why_tests_cant": "Needs a panic that is caught, then a retry.", "anchors": ["src/domain.rs: add_domain, init_domain"]}
{"id": "C60", "title": "A table declaration is written out or the build stops", "statement": "Every `table!` invocation either expands to the table's code or makes the compiler report an error. (In the code a declaration that can be read but makes no sense - no columns, deriving Copy but not Clone, extra trackers on a table that is not consistent - is printed about on stdout and expands to nothing.)", "quantifier": "all declarations", "why_tests_cant": "A declaration that expands to nothing compiles; a test that uses the table does not exist.", "anchors": ["macros/lib.rs: __v11_internal_table", "macros/table.rs: validate"]}
{"id": "C61", "title": "Trackers a declaration asks for are registered", "statement": "The trackers an accepted table registers when it is initialised are exactly one per `#[foreign]` or `#[foreign_auto]` column, in column order, followed by one per `#[add_tracker]` attribute; each `foreign_auto` tracker is implemented with a row lookup function that is generated. (In the code an `add_tracker` that is not given as a string, e.g. `#[add_tracker(BirdWatch)]`, is dropped silently.)", "quantifier": "all declarations", "why_tests_cant": "All combinations of column attributes and attribute forms.", "anchors": ["macros/parse.rs: add_tracker", "macros/output.rs: foreign_auto, register_foreign_trackers, SELECT_IFC"]}
{"id": "C62", "title": "Each kind has exactly its methods", "statement": "The structural methods generated for an accepted table depend on its kind (and on Row: Clone) alone: appending only on unsorted kinds, merging only on sorted ones, deletion only on consistent and bag tables, visit only on unsorted inconsistent ones, dump and retain only on inconsistent ones, and so on as assumed by every history quantified over in the other properties. Where the same method is written differently for different kinds (logging and clear, delete, drop of the lock, range, contains, Table::remove_rows), exactly one version is written for an accepted table, and it does what the calls in those histories do on a table of that kind.", "quantifier": "all declarations, all methods, all locks and tables of the declared kind", "why_tests_cant": "Absence of a method under every combination of attributes.", "anchors": ["macros/output.rs: conditions of out!"]}
{"id": "C63", "title": "Caught panics of user code do not lead to undefined behaviour", "statement": "If a closure, an iterator, the Ord of rows or a tracker panics during a call on a table and the panic is caught while the lock is kept, every later call on that lock or table is still free of undefined behaviour, for every sequence of calls and every point at which the user code panics, as long as Ord of the elements of indexed columns does not panic. In a debug build every call returns.", "quantifier": "all table kinds and columns, all sequences of calls, all points at which user code panics", "why_tests_cant": "Every interleaving of panics, at every step inside every call, followed by every other call.", "anchors": ["macros/output.rs: push, push_array, merge_logged, merge0, remove_rows, live_flush, flush", "src/index.rs: BagIter"]}
{"id": "C64", "title": "A panicking Ord of an indexed element does not lead to undefined behaviour", "statement": "If Ord of the elements of an indexed column panics during a call and the panic is caught, every later call is free of undefined behaviour. (The code violates this: the columns after the indexed one miss the row, and checked ids are compared with the length of the first column only.)", "quantifier": "all table kinds and columns, all sequences of calls, all points at which Ord panics", "why_tests_cant": "Whether some history exists depends on the order and types of columns, for all of which the answer is proved.", "anchors": ["src/map_index.rs: push", "macros/output.rs: push_only_unchecked", "src/columns.rs: Index<CheckedRowId>"]}
{"id": "C65", "title": "A panic in the closure of retain or visit loses, duplicates and resurrects no row", "statement": "If the closure given to retain or visit (or an iterator of rows to add returned by it) panics and the panic is caught, the table holds every row the closure approved of or was not asked about, once, no row it removed, and a sorted table is still sorted. (The code violates this. What it leaves exactly: the rows asked for so far, laid over the old rows from the front, as far as there was room among the rows already shown. With retain no approved or unasked row is lost, but removed rows can come back and others be doubled; with visit rows can be lost. The indexes agree with the rows.)", "quantifier": "all kinds with retain/visit, all closures, all rows, all points of panic", "why_tests_cant": "The content left depends on every answer before the panic; it is described exactly for all of them.", "anchors": ["macros/output.rs: merge0, retain, visit"]}
{"id": "C66", "title": "An interrupted merge loses no row of the table", "statement": "If the iterator, the log closure or Ord of rows panics during a merge into a sorted table and the panic is caught, all rows the table had are still in it. (The code violates this: rows held in the temporary queue are dropped. What it leaves exactly: the beginning of the merged sequence laid over the old rows; the table is still sorted and its indexes agree with its rows.)", "quantifier": "all sorted tables, all rows merged, all comparisons, all points of panic", "why_tests_cant": "All points of panic inside the three stages of the merge, for all contents.", "anchors": ["macros/output.rs: merge_logged, merge"]}
{"id": "C67", "title": "Changes survive a tracker that panics", "statement": "If a tracker panics during flush or live_flush, the pending changes are still pending, so that flushing again tells the trackers and carries out the deletions. (The code violates this: the changes are taken out of the lock first. Afterwards the table is as before, nothing is pending, closing succeeds silently and another flush does nothing; and if rows had been pushed, deletions made with the same lock can never be flushed.)", "quantifier": "all tables, all pending changes, all events", "why_tests_cant": "All states of the lock and all later flushes.", "anchors": ["macros/output.rs: flush, live_flush", "src/tracking.rs: do_flush"]}
{"id": "C68", "title": "Threads that flush, select, register trackers and lock in the order of references never wait for each other for ever", "statement": "However the steps of any number of threads are interleaved (flush, live_flush, Read::select, registering trackers, restoring tables without foreign columns, locking several tables from referred-to to referring), as long as not all are finished some thread can go on, even if readers wait for waiting writers; no run is endless; and from any point all can finish, after which nothing is locked. A thread alone does exactly what the sequential model says.", "quantifier": "all universes whose tables depend on each other in no circle, all numbers of threads, all their programs of this sort, all interleavings, all points of poisoning", "why_tests_cant": "A test shows some schedules of some threads; a deadlock needs a particular one.", "anchors": ["src/tracking.rs: do_flush, register_tracker", "src/event.rs: Function::run, DeleteHandler", "macros/output.rs: flush, live_flush, remove_rows, select"]}
{"id": "C69", "title": "Calls that finish alone finish together", "statement": "If several threads each make a call that would finish if made alone, then they finish if made at the same time. (The code violates this: live_flush against restoring a table that refers to the flushed one; flush against restoring the flushed table and one that refers to it; flush against restoring a table with two columns that refer to the flushed one, if readers wait for waiting writers; flush against a thread that locks a table two levels below and then the one between.)", "quantifier": "all universes, all programs of all threads, all interleavings", "why_tests_cant": "A deadlock needs a particular schedule; a test that runs the calls in sequence passes.", "anchors": ["macros/output.rs: live_flush, flush, restore_extract", "src/tracking.rs: do_flush", "src/event.rs: Function::run"]}
{"id": "C70", "title": "Threads cause no undefined behaviour", "statement": "However the steps of any number of threads that push, delete, flush, restore, select, register trackers and cascade are interleaved, and wherever one panics on a poisoned lock, no call does anything undefined, every table keeps its schema, and no later program can do anything undefined with a table as it is at any point.", "quantifier": "all universes with tables made by any program, all extractions of the right types (also with columns of different lengths), all threads, all interleavings", "why_tests_cant": "Undefined behaviour need not show; interleavings are too many to try.", "anchors": ["macros/output.rs: flush, live_flush, remove_rows, restore_extract", "src/tracking.rs: do_flush", "src/event.rs: Function::run", "src/columns.rs: Index<CheckedRowId>"]}
{"id": "C71", "title": "Tables and trackers change only under their owner's write lock", "statement": "In any interleaving of threads, whenever a table changes, the thread that changes it has it locked for writing and no other thread has it locked in any way (also during the cascade, where rows of other tables are removed, and while restoring); likewise the trackers of a table and its remapping of ids.", "quantifier": "all universes, all threads, all interleavings, all steps", "why_tests_cant": "Any step of any schedule.", "anchors": ["macros/output.rs: flush, live_flush, remove_rows, restore_extract", "src/tracking.rs: do_flush, register_tracker, set_remapping"]}
{"id": "C72", "title": "Threads look only at what they have locked", "statement": "In any interleaving of threads, what a thread does next and what it stores depends only on the tables and trackers it has locked (and on what never changes: kinds and columns of tables, handlers): change anything else, and it does the same. Hence it does not matter in which order two threads access shared state one directly after the other: the result is the same state and the same threads.", "quantifier": "all universes, all threads, all interleavings, all states that differ elsewhere", "why_tests_cant": "Any two schedules; a data race shows only if some schedule happens.", "anchors": ["macros/output.rs: flush, live_flush, remove_rows, restore_extract", "src/tracking.rs: do_flush", "src/event.rs: Function::run"]}
{"id": "C73", "title": "Threads lose no change", "statement": "In any interleaving of threads, whenever a table changes, the new content was made of its content of that very moment by the thread that stores it: by all the changes that this thread makes under one lock together; or by removing rows, with all remaining rows as they were; or by adding restored rows, with all rows as they were. So nothing another thread stored is overwritten.", "quantifier": "all universes with tables made by any program, all threads, all interleavings, all steps", "why_tests_cant": "A lost update needs the right schedule.", "anchors": ["macros/output.rs: flush, live_flush, remove_rows, restore_extract", "src/tracking.rs: do_flush"]}
{"id": "C74", "title": "A panic in one thread is seen by others only as a poisoned lock", "statement": "When a thread panics, the tables it has locked for writing may be left in any half-changed state. No thread that is not itself panicking ever has such a table locked afterwards; every other thread does exactly what it would do, and every table that is not poisoned is exactly what it would be, if the unfinished changes of the panicking call had been dropped. Nothing undefined happens, nobody waits for ever because of the panic, and all threads come to an end.", "quantifier": "all universes, all threads, all interleavings, any number of panics, all states a panic may leave behind (no-deadlock part: threads as in C68)", "why_tests_cant": "Any point of any schedule may panic and leave anything behind.", "anchors": ["macros/output.rs: read, write, flush, live_flush, restore_extract", "src/event.rs: Function::run, DeleteHandler", "src/tracking.rs: register_tracker"]}
{"id": "C75", "title": "Sorted tables stay sorted under threads", "statement": "If a sorted table is in order, and every program's changes under that table's lock are ones that keep order (as in C27), then the table is in order at every moment of every interleaving of any number of threads that edit, flush, flush live, restore extractions of it and of other tables, and delete rows elsewhere whose deletion cascades into it. The same holds if some of the threads panic, for as long as the table's own lock is not poisoned.", "quantifier": "all universes, all comparison functions that are total preorders, all threads, all interleavings, all panics", "why_tests_cant": "Cascade removal, restores and merges of the same table meet in an order that depends on the schedule; a wrong one needs a particular schedule and particular rows.", "anchors": ["macros/output.rs: merge, merge0, remove_rows, restore_extract, flush, foreign_auto handler", "src/event.rs: DeleteHandler"]}
{"id": "C76", "title": "Threads that delete nothing are as good as one after the other", "statement": "Take any number of threads each of which does any list of edit sessions (lock a table, make any calls through the lock, flush or live flush with an event that removes nothing), selections, lock requests, registrations and identity remaps. At every moment of every interleaving the tables are exactly what some sequence of whole sessions makes of the tables at the beginning, done one after the other without any threads: the sequence has of every thread its first few sessions, in that thread's order, and all of them if the thread is done. If threads panic the same is true of every table that is not poisoned.", "quantifier": "all universes, all threads of such calls, all interleavings, all panics", "why_tests_cant": "A lost update or half-seen session shows up only under particular schedules; every schedule must be explained by some order.", "anchors": ["macros/output.rs: write, flush, live_flush, Drop for Write", "src/tracking.rs: do_flush"]}
{"id": "C77", "title": "Threads that delete are as good as one after the other", "statement": "When threads flush deletions of rows that other tables refer to by foreign_auto while other threads push rows, the outcome is that of some order of the sessions; in particular a row that refers to a row that is then deleted is deleted with it, whichever thread pushed it.", "quantifier": "all universes, all threads, all interleavings", "why_tests_cant": "It takes a push into the child table after the cascade has looked at it and before the parent's row is gone.", "anchors": ["macros/output.rs: flush 932-976, remove_rows, foreign_auto handler 1130-1140", "src/event.rs: Function::run, DeleteHandler"]}
{"id": "C78", "title": "Threads that use different tables do not notice each other", "statement": "Suppose every thread uses its own set of tables: its calls lock only tables of the set, and tables of the set are tracked by foreign_auto only from within the set. Then each thread that comes to an end ends as its calls end without any other thread: with the same panic, or successfully and leaving the same rows, trackers and remappings in its tables. It never has to wait for another thread, whatever the fairness of the locks, and other threads' panics and what they leave behind do not reach it.", "quantifier": "all universes, all partitions of the tables, all threads (edits, flushes, live flushes, restores, selections, registrations, locks), all interleavings, all panics", "why_tests_cant": "Interference through a shared lock, flag or tracker list would show up only under particular schedules.", "anchors": ["macros/output.rs: write, read, flush, live_flush, remove_rows, restore_extract, select", "src/tracking.rs: do_flush, register_tracker", "src/event.rs: Function::run, DeleteHandler"]}
{"id": "C79", "title": "Libraries that sync first act as part of one program", "statement": "If every dynamic library calls sync_globals with the main program's globals before anything else, every call made by any module gives exactly what it gives in a program without libraries (panics and poisoning included), and universes handed around are the same; such a sync succeeds however often it is repeated unless a panic poisoned the registry. A library that has registered a domain first can not sync any more: the attempt panics and from then on all its registry calls panic and do nothing, while other modules do not notice. Claim that fails: forgetting sync_globals is at least detected; the library may silently read another property of the main program's universe.", "quantifier": "all numbers of libraries, all properties and tables, all sequences of calls by all modules, with panics caught", "why_tests_cant": "Needs dynamic libraries and all orders of registering, syncing and using; the silent mix-up shows no error.", "anchors": ["src/domain.rs: sync_globals", "src/domain.rs: clone_globals", "src/domain.rs: GlobalProperties::is_empty", "src/domain.rs: Universe::sync_domain_list, add_properties", "src/property.rs: PropRef::get"]}
{"id": "C80", "title": "References never dangle in a careful program", "statement": "Tables refer to each other by #[foreign_auto] columns, not in a circle, from consistent and sorted tables (indexed or by sort key), and start empty. The program makes any number of sessions of locking a table, any calls, and flush, adding only rows whose references are to rows present (or are an id it uses for nothing, like RowId::default()), deleting rows with an event whose handler deletes, and not clearing tables wholesale. Then after every session every reference is to a row that is there (or is the nothing id), the tables meet the hypotheses of C32-C37, and any set of present rows can be deleted: calls and flush succeed and every table loses exactly the doomed rows. The library does not check the care: a reference to a missing row is accepted, and with the removal handler replaced references are left dangling.", "quantifier": "all schemas and wirings, both profiles, all numbers and orders of sessions, all calls in them, all depths of reference", "why_tests_cant": "An invariant over all histories of several tables; each test is one history.", "anchors": ["macros/output.rs: foreign_auto handler", "macros/output.rs: flush", "src/tracking.rs: Flush::do_flush", "src/event.rs: EventHandlers::default", "macros/output.rs: push, merge, delete"]}
{"id": "C81", "title": "Under threads, every row that disappears was asked for or referred to such a row", "statement": "Any number of threads make any sequences of locking, changing, flushing, live flushing, restoring, registering trackers and selecting, interleaved in any way. Whenever a row of a consistent table disappears, a thread is to blame: it calls clear_raw on the table; or it put the row (or all rows) on the list of a lock of that table, by delete, select, clear, select_all, push or restore, and flushes with a removing event; or, with an event whose handler deletes, rows were listed or selected from which a chain of #[foreign_auto] references, each present at some time during the run, leads to the row. So a table that tracks no other loses only rows listed under its own locks, and threads with no removing event lose nothing. It is not true with 'refers when it disappears': a row pushed into the place of a deleted row while a removal event is on its way is removed although the row it refers to stays.", "quantifier": "all numbers of threads, programs and interleavings, at any step of any of them; all tables, trackers and event handlers", "why_tests_cant": "The interleavings are not under the control of a test, and an unwanted loss is seen only by a test that looks for exactly that row.", "anchors": ["src/tracking.rs: Flush::do_flush", "macros/output.rs: foreign_auto handler", "macros/output.rs: select_*, remove_rows", "src/event.rs: Function::run, DeleteHandler", "macros/output.rs: flush, live_flush"]}
{"id": "C82", "title": "Deletion removes exactly the dependents whatever other threads do", "statement": "A thread deletes rows of a consistent table and flushes with the deleting event while other threads run. When all have finished, its tables have lost exactly the rows deleted and the rows that refer to them. True, also with panics elsewhere, if no other thread uses the table and those that depend on it. Not true in general: if another thread merges a row (that refers to a row which stays) into a sorted dependent table at the wrong moment, a row that refers to a row which stays is removed and a row that refers to the deleted row stays, because rows are selected by position under one lock and removed under a later one.", "quantifier": "all threads, programs and interleavings; all universes of linked tables", "why_tests_cant": "The window is a few instructions between two locks; a test meets it by chance only.", "anchors": ["src/event.rs: Function::run, DeleteHandler", "macros/output.rs: foreign_auto handler", "macros/output.rs: remove_rows of sorted tables", "src/tracking.rs: Flush::do_flush"]}
{"id": "C83", "title": "A tracker that keeps book agrees with its table", "statement": "A tracker that considers every event, writes down the rows it is told of and strikes out those it is told of with a removal event, has exactly the rows of its table in its book after every flush, for programs that start with empty tables, add rows and delete rows (with cascades) in any number of sessions with any of the tables. Not so if rows are removed with Table::remove_rows directly (no tracker is told, nothing that refers to them is removed), if the handler of the removal event has been replaced by one that does nothing (trackers of dependent tables are told of removals that do not happen), or if a deleted row is selected.", "quantifier": "all programs of any length; all universes of tables linked without circles", "why_tests_cant": "It holds between notifications of a whole history and the state of the table; tests check single notifications.", "anchors": ["src/tracking.rs: Flush::do_flush", "src/event.rs: Function::run", "macros/output.rs: Write::flush", "macros/output.rs: event logging", "macros/output.rs: Table::remove_rows"]}
{"id": "C84", "title": "Calls on a consistent table fail only for the listed reasons", "statement": "For a consistent table, after any calls that succeeded, a further call (reads, row iteration, locking, push, push_all, push_array, delete, assignment, selection, clear, flush, close, remove_rows) succeeds exactly if its own short condition holds: pushes as long as there are deleted rows to fill or unused ids, deletion and reads of a row that is there, flush unless rows were both added and deleted or the event is out of range or of both kinds, close unless something changed, iteration unless every id is used, and so on. If the condition fails the call panics; there is no other reason and no other way to fail. A program that respects the conditions runs to its end. With linked tables, too, the flush of a careful session succeeds under the same conditions whatever has to be deleted by cascade.", "quantifier": "all consistent schemas with a column; all programs; all contents; both profiles; all universes of tables linked without circles", "why_tests_cant": "Absence of panics over all histories, and exactness of every condition, cannot be sampled.", "anchors": ["macros/output.rs: Write::push, push_all, push_array, delete, flush, close", "macros/output.rs: Read::iter, range, get_row", "macros/output.rs: Table::remove_rows", "src/index.rs: checks, ConsistentIter", "src/tracking.rs: Flush::do_flush", "src/event.rs: EventHandlers"]}
{"id": "C85", "title": "A table answers like a plain list of rows", "statement": "For a table of any kind and any columns, every program (locking, all reads, iteration with skipping, column assignment, push, push_all, push_array, delete, select, clear, flush, live flush, remove_rows, retain, visit, merge) is told, call by call, exactly what a plain list of rows with two sets of ids (found by the indexes; free) would tell, and panics exactly where the plain list fails. The plain list has no columns, bit vectors, search trees, rugs or cursors, so all of these are unobservable. In a debug build it answers every program that compiles.", "quantifier": "all schemas with a column, of all five kinds; all typed programs; both profiles; all closures that look at the row they are shown", "why_tests_cant": "Equality of all answers over all call sequences; tests compare a few sequences.", "anchors": ["macros/output.rs: Read, Write (all methods)", "src/columns.rs: Col", "src/map_index.rs: BTreeIndex", "src/index.rs: ConsistentIter, EditIter, CheckedIter"]}
{"id": "C86", "title": "The code written for a declaration is well named", "statement": "For every accepted `table!` declaration, the generated code defines no item, method, field or trait implementation twice, every local variable means what it is meant to, and everything the code uses is there or is for the user to add (an order for a sorted table without `#[sort_key]`, a tracker for a `#[foreign]` column). The last part holds. The first two hold exactly if the declared names keep out of the way: columns are distinct and not called `i`, `msg`, `selection`, `transmute`, `_lock` and so on; an indexed reference is not called `all` or `rows`; the rows of a sorted table derive no comparison.", "quantifier": "all declarations that the macro accepts", "why_tests_cant": "Each test declares a handful of tables with harmless names; the clash only shows for particular names and combinations of attributes.", "anchors": ["macros/output.rs: write_out", "macros/parse.rs: parse_table"]}
{"id": "C87", "title": "retain, visit and merge return", "statement": "`retain`, `visit` and `merge` on any table return or panic after finitely many turns of their loops. This holds in debug builds, and while the table has an unused row id. In a release build, on a table that uses its last row id, the cursor wraps around to row 0: `retain` never returns whatever its closure says, `visit` never returns unless its closure breaks, `merge` never returns if its first row goes behind all others (any other merge panics). If the closure of `visit` does break after the wrap-around, rows it removed can stay.", "quantifier": "all reachable tables of the kinds that have the calls; all closures and comparisons; any number of turns", "why_tests_cant": "A test cannot see that a loop never ends, and the table must use every id of its row id type in a release build.", "anchors": ["macros/output.rs: retain, visit, merge0, merge_logged", "src/index.rs: GenericRowId::next"]}
{"id": "C88", "title": "An iterator never goes back and never yields a deleted row", "statement": "Whatever mixture of `next` and `skip_fast` is used on `iter()`, `range(r)` or `editing()`, the rows yielded are strictly ascending and none of them is deleted (iterating `iter` yields ids that are not checked again). This holds in debug builds, and as long as nothing is skipped past the largest usize. In a release build such a skip wraps around: the iterator goes back, and as it has already dropped the deleted ids it passed, it now yields deleted rows as well.", "quantifier": "all reachable tables with an unused row id, all ranges, all sequences of next and skip_fast, both profiles", "why_tests_cant": "All sequences of calls; the wrong ones need amounts near usize::MAX in a release build.", "anchors": ["src/index.rs: CheckedIter::skip_fast, UncheckedIter::skip_fast, ConsistentIter::next, EditIter::next", "src/joincore.rs: JoinCore::join"]}
{"id": "C89", "title": "A universe of tables answers like plain lists of rows", "statement": "For any number of tables of any kinds that refer to each other through `#[foreign_auto]` columns, with any trackers and event handlers, every program (calls on each table, flush, live flush, remove_rows of tables and locks, selections, registration of trackers and handlers) is told, call by call, exactly what a set of plain lists of rows would tell; the trackers are told of the same rows, sorted when they asked for it, in the same order; and the program panics exactly where the plain lists fail. The plain lists know no columns, indexes, free lists or locks of rows: a flush tells each tracker in turn, the handler removes the rows that refer to the rows told of, and the trackers of their table are told next. In a debug build they answer every program that compiles, waits for none of its own locks and whose references do not go round in circles.", "quantifier": "all lists of schemas with a column, all typed programs, all trackers and handlers, both profiles, all depths of nesting", "why_tests_cant": "Equality of all answers and all notifications over all programs on several tables.", "anchors": ["macros/output.rs: flush, live_flush, remove_rows, select_all, select_rows, foreign_auto tracker", "src/tracking.rs: Flush::do_flush", "src/event.rs: Function::run, EventHandlers"]}
{"id": "C90", "title": "In a consistent table a row id keeps standing for the same row", "statement": "As long as there is a row under an id of a consistent table and nothing is stored into it, the id stands for the same row with the same values, whatever the program does meanwhile: pushes, deletions of other rows, flushes, cascades, clearing, anything on other tables. The row stays there too: of all calls only those that run trackers and handlers (flush, live flush, remove_rows, selections) and clear_raw can take a row away; delete and clear only note what the next flush is to do. In tables of every other kind an id can come to stand for another row while that row is kept (a retain that removes an earlier row).", "quantifier": "all lists of schemas, all universes programs can reach, all continuations of the program, all ids, both profiles", "why_tests_cant": "About an id over every continuation of every program on any number of tables.", "anchors": ["macros/output.rs: push, delete, delete_raw, flush, live_flush, remove_rows, clear, retain", "macros/output.rs: GUARANTEES (112-123)", "src/tracking.rs: Flush::do_flush"]}
{"id": "C91", "title": "Deleted rows are forgotten", "statement": "No program can tell what a deleted row held, nor how a table came to be: two tables (of any kind) with as many rows, the same ids deleted, the same values in the remaining rows and equal write locks tell every program the same, whatever the deleted rows held. (Refuted as it stands: column indexing with a plain RowId does not look at the free list and gives the old values. It holds for every program that does not index columns with ids of deleted rows, and clears no table with deleted rows in it.)", "quantifier": "all pairs of reachable states that look alike, all typed programs that compile", "why_tests_cant": "A relation between two runs of every program from every pair of states that look alike.", "anchors": ["src/columns.rs: Index<GenericRowId>, Col::check", "macros/output.rs: get_row, contains, iter, delete_raw, push", "src/map_index.rs: find, deleted"]}
{"id": "C92", "title": "Trackers may do what they like without undefined behaviour", "statement": "User-written trackers get the universe, the rows and the handler, and may lock tables, read, edit, push, delete, flush, remove, select, register further trackers, call handler.handle and handler.run, or panic, also while they are called by a flush inside another tracker. Whatever well-typed code they and the program are, no execution does anything undefined (reads or writes out of bounds), and every table keeps its columns (debug builds; release builds without bags, see C11). With trackers that do nothing, flushes are exactly those the other properties talk about.", "quantifier": "all programs, all reactions of all trackers to all histories of calls, all schemas, any nesting", "why_tests_cant": "Quantifies over arbitrary code in trackers, called recursively.", "anchors": ["src/tracking.rs: Tracker::handle, Flush::do_flush, register_tracker", "src/event.rs: Function::handle, Function::run", "macros/output.rs: flush, live_flush, remove_rows, select_rows"]}
{"id": "C93", "title": "Trackers that act let the program go on", "statement": "A flush with trackers that act (as documented: they may lock the foreign table for editing) comes back or panics; it never waits for ever. (Refuted as it stands: when rows are told of by a cascade, Function::run keeps the table locked for reading while its trackers are called, so a tracker that locks it for editing waits for ever; and live_flush waits for ever if a tracker only reads a row. It holds for programs and trackers that write-lock one table at a time, flush without other locks, and act only on tables below the one they are told of, in some ranking of the tables: then nothing deadlocks, and calls are nested no deeper than there are ranks.)", "quantifier": "all programs and trackers that keep to the discipline, all schemas and rankings", "why_tests_cant": "Absence of deadlock over all trackers and programs, at any nesting.", "anchors": ["src/tracking.rs: Tracker (\"You may lock the foreign table for editing\"), do_flush", "src/event.rs: Function::run", "macros/output.rs: flush, live_flush"]}
{"id": "C94", "title": "Just in time: rows told of are valid, deleted rows go after the flush", "statement": "When trackers are told of rows, created rows are already valid and deleted rows are still valid (their contents can be accessed without a panic), and the deleted rows, and no others, are gone when the flush is over. (Refuted as it stands: rows deleted by a cascade are already gone when the trackers of their table are told, and looking at them panics. It holds for rows told of by the flush of their own table, if trackers only change tables below it.)", "quantifier": "all universes, locks, events, all trackers that keep to tables of lower rank", "why_tests_cant": "Relates the table at every call of every tracker, whatever trackers did before, to the table at the flush.", "anchors": ["src/tracking.rs: Tracker (\"Just-in-time\"), do_flush", "src/event.rs: Function::run", "macros/output.rs: flush, remove_rows"]}
{"id": "C95", "title": "Propagation by hand does what foreign_auto does", "statement": "A tracker written by hand as the documentation of Tracker describes (find the rows that refer to the rows told, run the handler for them) does exactly what the tracker derived from #[foreign_auto] on an indexed column does: the same tables, the same calls of other trackers, the same panics and the same waiting, for every event, handler and selection.", "quantifier": "all universes, events, handlers, selections, and any other trackers, which may act", "why_tests_cant": "Equality of two pieces of code in every universe, with arbitrary further trackers called by either.", "anchors": ["src/tracking.rs: Tracker (\"Implementing Propagation\")", "macros/output.rs: select_$column, foreign_auto", "src/event.rs: Function::run"]}
{"id": "C96", "title": "A panic does not abort the process", "statement": "A panic, of the user's code or of a call of the library, in a program or in a tracker, unwinds and can be caught; it never aborts the process. This holds for programs and trackers that flush each change of a consistent table at once and never clear such a table. It is false otherwise: the write lock of a consistent table panics when it is dropped with unflushed changes, also when it is dropped because of a panic, and a second panic while the first one unwinds aborts the process.", "quantifier": "all programs, trackers (which may act), universes, builds", "why_tests_cant": "An abort kills the test runner instead of failing a test; whether a panic can meet a pending change depends on every interleaving of locks, flushes and trackers.", "anchors": ["macros/output.rs: Drop for Write (consistent)", "macros/output.rs: push, push_end, flush, live_flush, remove_rows", "src/tracking.rs: do_flush"]}
{"id": "C97", "title": "INVALID stands for no row", "statement": "The row id INVALID (also the default id) is not the id of a row, so a row whose foreign key is INVALID refers to nothing: it is not deleted when rows of the other table are, and it can be saved and restored like any other. This holds for deletions of rows from tables that are not full. It is false of clearing (rows that refer to nothing are deleted with all others), of full tables (as documented, the last row gets the id INVALID, and deleting it deletes what referred to nothing), and of restoring (which panics).", "quantifier": "all table histories, universes without circular references, locks, selections, extractions, builds", "why_tests_cant": "The rows concerned refer to nothing in any table of any universe; that no sequence of calls hands out the id before the table is full is a statement about all histories.", "anchors": ["macros/output.rs: INVALID, select_$column, restore_extract (UPDATE_ROW)", "src/index.rs: Default for GenericRowId", "src/tracking.rs: remap"]}
{"id": "C98", "title": "A saved database is restored as a copy", "statement": "If every table of a database is extracted with all its rows, and the extractions are restored into a new database without rows, then all restores succeed and the new database is a copy of the old: the rows of each table are numbered anew from 0 in the same order, there are no others, and every foreign key refers to the copy of the row that it referred to. This holds if each table is restored after those it refers to. It is false of other orders (restoring panics), of tables that refer to themselves (restoring waits for ever) and after set_identity_remap if rows were deleted (keys refer to wrong rows or to none). Sorted tables are excluded, see C43.", "quantifier": "all reachable tables, numbers of tables, foreign columns without circular references, orders of restoring, builds (bags: debug builds only, see C11)", "why_tests_cant": "The property relates two whole databases through a renaming of ids that depends on the deletions made in every table; tests restore a few rows of one or two tables.", "anchors": ["macros/output.rs: extract_selection, restore_extract, MERGE_EXTRACT, UPDATE_ROW", "src/tracking.rs: set_remapping, remap, set_identity_remap", "tests/serial.rs"]}
{"id": "C99", "title": "A conversion of contexts that fails harms nothing", "statement": "Context::from either returns, or waits for locks that others hold, or panics. It panics only if a lock of the old context has unflushed changes or a wanted lock is poisoned; then every lock of the old context and every lock taken on the way is released, no other lock is touched, and only locks held for writing get poisoned. It is never undefined behaviour and never aborts. This holds if lock types of one name are one type, nothing is unflushed, and the compiler tolerates zeroed guards. It is false otherwise: with two statics of one property in two modules (same TYPE_NAME, other TypeId) the type check panics and unwinding drops an all-zero guard; with unflushed changes in two locks the process aborts; and by the documentation of mem::zeroed every conversion that keeps a lock is undefined.", "quantifier": "all held locks, fields, contexts and tuples of contexts, poisoned locks", "why_tests_cant": "Undefined behaviour need not show in a test, and the panic paths depend on combinations of names, types, unflushed changes and poisoned locks; tests convert contexts that go well.", "anchors": ["src/context.rs: from, release_fields, ReleaseFields, Lockable", "src/property.rs: TYPE_NAME", "macros/output.rs: Drop"]}
{"id": "C100", "title": "A context's locks are those of its universe", "statement": "Every lock of a context is a lock of the universe the context was made with, and that universe outlives it, so no accepted program reaches through a context into a universe that was dropped. This holds of all programs that convert a context only with its own universe. It is false of others: Context::from accepts a context of any universe and keeps its locks, so the new context writes to the tables of the other universe; and since the result borrows only the given universe, safe code may drop the other one and go on using its locks.", "quantifier": "all programs of new, from, use, change, flush, drop of contexts and drop of universes, over any number of universes", "why_tests_cant": "It is about all programs that the borrow checker accepts; the tests have one universe.", "anchors": ["src/context.rs: from, new, ReleaseFields", "src/property.rs: Read, Write"]}
{"id": "C101", "title": "What the iterator of a bag hands out can be used", "statement": "The reference to the table and the Deletable that BagIter::next returns can be used as long as rustc accepts it. This holds if they are used only until the iterator is used again, as in a for loop; then no program does anything undefined, whatever it does to the table in between, and it does what a cursor over the rows would: marked rows are deleted when the loop goes on or ends. It is false of other accepted programs, because both are given the lifetime of the lock rather than of the iterator: after the iterator was moved or dropped (collect, find, a Box) Deletable::delete writes to where it was, and older references to the table alias newer ones.", "quantifier": "all bags, all programs of next, move, drop of the iterator, delete of handles and reads and changes through the table references", "why_tests_cant": "Whether references dangle or alias is not observable in a test that happens to work; the property is about all programs the borrow checker accepts.", "anchors": ["src/index.rs: BagIter, Deletable", "macros/output.rs: iter_mut (bag)"]}
{"id": "C102", "title": "Columns are used under the lock of their table", "statement": "The columns of a Read or Write lock are the columns of the locked table, and are used only while it is locked, as the comment at convert_read_guard argues. This holds of all programs that swap no columns, and these read and write exactly what they name; programs that swap columns of locks of one table still do nothing undefined. It is false of programs that swap columns of locks in two universes: one goes on using a column whose lock was given back, and columns of unequal lengths make checked ids read out of bounds. Swapping two columns of one lock makes push put values into the wrong columns for good.", "quantifier": "all tables, column types, numbers of universes, programs of lock, drop, get, set, push and swap", "why_tests_cant": "The transmuted lifetimes are right only if no accepted program separates a column from its lock, a statement about all programs.", "anchors": ["macros/output.rs: Read, Write, convert_read_guard, convert_write_guard, Drop", "src/columns.rs: RefA, MutA, EditA, Index", "src/index.rs: check"]}
{"id": "C103", "title": "Iterators say how many rows are to come", "statement": "size_hint of CheckedIter, UncheckedIter, ConsistentIter, EditIter and SelectIter returns, at any time, a lower and an upper bound of the number of items that next will give from then on; and exactly that number for CheckedIter, UncheckedIter and a selection. This holds as long as the position of the iterator is not past its end, and it never is if the range is not backwards and skip_fast skips no more rows than are left. It is false otherwise: then next gives nothing, while size_hint panics in a debug build and names a huge number in a release build, which collections reserve.", "quantifier": "all build profiles, row id types, ranges, free lists, selections, sequences of next and skip_fast", "why_tests_cant": "A test calls size_hint after a few fixed sequences; the bound is about every state an iterator can get to.", "anchors": ["src/index.rs: CheckedIter, UncheckedIter, ConsistentIter, EditIter (size_hint, skip_fast, next)", "src/tracking.rs: SelectIter::size_hint"]}
{"id": "C104", "title": "Threads may register and look up properties", "statement": "Threads call register() on properties and look properties up in universes at the same time, any of them possibly panicking. If every property that more than one of them calls on was registered or looked up before they start, or is registered by each of them before it looks it up, then there is no data race on the static that property! makes; the registry and every result are as if the calls were made one after the other, each thread's in its order; and some thread can go on until all are over. For programs whose calls would succeed this is the exact condition: any other has a data race. In particular threads that only look properties up, after all registering is done, may race: a property that was registered by its twin only is written by the first lookup, while another lookup reads it without the lock.", "quantifier": "all registries, properties, programs of any number of threads, interleavings", "why_tests_cant": "A data race shows in rare interleavings and on some machines; the absence is about all of them.", "anchors": ["src/property.rs: property! (PropRef::get, register), Prop::init, Prop::sync_alias, Index<&ToPropRef> for Universe"]}
{"id": "C105", "title": "While threads run, an id of a consistent table keeps standing for the same row", "statement": "While any number of threads lock, change, flush, restore, select and register trackers, an id of a consistent table stands for the same row, with the same values, as long as there is a row under it, provided that no thread stores into this row and none calls clear_raw on the table. This holds between any two states of the history, at the granularity of single lock operations and table changes. With clear_raw it does not hold: a thread that discards the rows and pushes others under one lock puts other rows under the ids without any other thread seeing them vacant.", "quantifier": "all universes programs can make, all programs of any number of threads, all interleavings, all ids, both profiles (release without bags)", "why_tests_cant": "About every interleaving of every group of threads, cascades included.", "anchors": ["macros/output.rs: push, delete, flush, live_flush, restore, clear_raw", "src/tracking.rs: Flush::do_flush", "src/tables.rs: locks"]}
{"id": "C106", "title": "Row ids may be of any integer type", "statement": "The type of row ids given by #[row_id] may be any primitive integer type. Ids, checked or not, are compared by one total order with which == and Hash agree; next/prev go by one and at the end of the type panic (or wrap in release builds); from_usize and to_usize undo each other. On ids that are natural numbers fitting into usize, ranges and iterators act the same whatever the type. No id, also a negative one or one greater than any usize, leads to undefined behaviour: check lets pass exactly the ids of rows that are there, the others panic. INVALID is the default id exactly for unsigned types not wider than usize; for signed ids it is -1, and asking whether a table contains it panics; for signed ranges inner_index can overflow.", "quantifier": "all integer types (signedness, width), all widths of usize, all ids, ranges, iterators, table lengths, deleted rows, both profiles", "why_tests_cant": "Tests use usize; the claims are about every width and sign and the ends of the types.", "anchors": ["src/index.rs: GenericRowId, CheckedRowId, RowRange, CheckedIter, UncheckedIter, Checkable::check", "macros/output.rs: FIRST, INVALID, RawType, contains", "src/columns.rs: Index for Col"]}
{"id": "C107", "title": "A selection selects the rows put into it", "statement": "Whatever a program does with a SelectOwned - push, sort, reserve, handing it on as a slice, in its erased form, recognised by its table and copied - it selects the rows it had and those pushed, each as often as pushed, in the order of pushing and after sort in order of ids; iter_or_all gives these rows. A selection of all rows stays one, is not empty, and iter_or_all gives what is passed to it. Another table refuses the erased selection unless it is of all rows.", "quantifier": "all selections, all sequences of calls, all types of ids", "why_tests_cant": "About every sequence of calls.", "anchors": ["src/tracking.rs: Select, SelectIter", "macros/output.rs: downcast of SelectAny", "src/any_slice.rs"]}
{"id": "C108", "title": "A caught panic leaves a proper table", "statement": "If a program catches the panics of calls on a table - of closures, iterators, trackers, or of the library itself - and goes on, then as long as it has the table all columns are of the same length, every row that is not deleted can be read and has values of the right types, find on an indexed column gives exactly the rows with the value, and the deleted ids are ids of rows.", "quantifier": "all profiles, all kinds and schemas, all programs of calls with any point of panic in each", "why_tests_cant": "Every point at which any call can panic, over all histories.", "anchors": ["macros/output.rs: push, push_end, delete, flush, live_flush, visit, retain, merge, remove_rows, swap", "src/map_index.rs: BTreeIndex", "src/index.rs: BagIter"]}
{"id": "C109", "title": "When a table is lost to everyone", "statement": "A panic leaves a consistent table locked for ever (poisoned, or the process aborts) exactly if: flush has told the trackers a removal event and then one of the changed rows is not in the table; remove_rows on a free table is given a row that is not in it; or the lock is dropped with unflushed changes. Locks of tables of other kinds may always be dropped.", "quantifier": "all profiles, all schemas, all states of programs that catch panics, all events and selections, with Ord of the elements and the trackers not panicking", "why_tests_cant": "An equivalence over all states.", "anchors": ["macros/output.rs: flush, remove_rows, Drop for Write", "src/tracking.rs: do_flush", "src/tables.rs: GenericTable"]}
{"id": "C110", "title": "An index changes no answer", "statement": "Two tables whose declarations differ only in #[index] on some columns behave alike: a program that compiles for both and asks no index that one of them lacks gets the same answers from both, or panics on both at the same call, or runs into undefined behaviour on both, or runs for ever on both.", "quantifier": "all profiles, all kinds, all pairs of such schemas, all programs including closures and bag iterators", "why_tests_cant": "It relates two runs of every program, and includes panics and undefined behaviour.", "anchors": ["src/map_index.rs: BTreeIndex as TCol", "macros/output.rs: all methods of the locks"]}
{"id": "C111", "title": "Exactly which registrations are accepted, and which declarations can be read", "statement": "register() of a domain is accepted exactly if its name is an identifier; of a table exactly if its domain is registered and no universe uses it yet, the names of the table and its columns are identifiers, no two columns have one name and a table of the same name there has the same columns; of a property exactly if it was registered before, or its domain is registered and unused and its name is the domain's name, a slash and an identifier. Accepting a table adds it if there is none of its name and changes no other table; no other call adds or removes one. A universe gives the rows of a table for exactly the declarations with its name and Rust type, whose columns are all there with the same type, if it has the domain and the lock of the table is not poisoned.", "quantifier": "all programs of calls on the registry and universes, panics caught; all declarations", "why_tests_cant": "It states both directions, for all declarations and all histories of the registry.", "anchors": ["src/tables.rs: GenericTable::new, add_column, get_column, register", "src/domain.rs: DomainName::register", "src/property.rs: Prop::init, check_name", "src/intern.rs: check_name"]}
{"id": "C112", "title": "What an indexed column shows after Ord panicked", "statement": "Whatever calls were made on an indexed column, and wherever Ord of its elements panicked in them: a call either runs to its end or gives that panic. In the second case the changes of the index before the panicking one are made and the later ones are not, and no element has changed, but for the one pushed, which is there. find then gives exactly the rows the index so has for the value, in ascending order, but never the row with the last id. So after a caught panic in a swap, find can give a row that does not hold the value.", "quantifier": "all sequences of push, swap_out, swap, deleted, truncate and clear on an indexed column of either storage; all choices of the comparisons that panic", "why_tests_cant": "It is about every place at which Ord can panic, in every history, with earlier panics included.", "anchors": ["src/map_index.rs: BTreeIndex push, swap_out, swap, deleted, truncate, clear, find"]}
{"id": "C113", "title": "Universes when a domain is unlocked again", "statement": "DomainName::set_locked changes the lock of a registered domain and nothing else that can be read; for an unregistered one it panics and poisons the registry. If a domain is unlocked and tables and properties are registered with it: a universe that has the domain keeps exactly its tables for good, and reading a later one panics; of the tables two universes have of one domain, those of one are the first of the other's; a universe made now has all. A property registered later panics on reading with 'unknown property' until add_properties is called on the universe, which gives each missing property the value it would have in a universe made now, changes no other value, and adds no tables. Properties of one name and type are one variable, others are different ones, and universes do not affect each other. So two universes with a domain need not have the same tables of it.", "quantifier": "all programs with any property statics, all sequences of registrations, set_locked, new universes, add_domain, add_properties, reading and writing of properties and tables, registering of trackers, panics caught", "why_tests_cant": "the indices at which properties and tables are found are shared by universes made at different times from a registry that has grown in between; whether each still finds its own depends on the order of all the calls", "anchors": ["src/domain.rs:80-100", "src/domain.rs:186-206", "src/domain.rs:268-289", "src/domain.rs:326-344", "src/domain.rs:360-420", "src/property.rs:266-341", "tests/addons.rs:33"]}
{"id": "C114", "title": "What a universe says of itself", "statement": "get_domain_names of a new universe gives exactly the domains it was made with; add_domain adds the given domain if it is registered (also if registering its trackers then panics), and no other call changes the list. No domain is given twice, and they come in the order of their registration. A known property is refused with 'domain not set' exactly if its domain is not in the list; tables of other domains are refused. info gives one line for each of these domains in this order, with all its tables and their columns, and panics exactly if the lock of one of the tables is poisoned. swap of a property changes the universe as set does and gives what get would have given.", "quantifier": "all programs, all sequences of registrations, set_locked, universes made and changed, panics caught; all orders in which a HashMap is iterated", "why_tests_cant": "tests have one or two domains, and no domain whose adding panicked half way", "anchors": ["src/domain.rs:230-300", "src/lib.rs:118-150", "src/tables.rs:183-189", "src/property.rs:350-415"]}
{"id": "C115", "title": "Rows added to a database in use", "statement": "Some rows of some tables (not sorted ones, not referring to themselves) are saved with extract_selection, with all the rows they refer to, none twice, and restored one table after another, each after those it refers to, into a database that has rows of its own and deleted rows. As long as there are ids every restore succeeds. Each table then has its own rows unchanged and each of the rows restored exactly once, with an id that had no row; every foreign key of a restored row refers to the copy of the row it referred to. Tables not restored are unchanged; if all foreign keys referred to rows before, they do so after; and it can all be done again. With set_identity_remap the copies can refer to other rows than they did. If rows that are referred to are not saved, restore is expected to panic; instead, if no row at all of that table is in its extraction, the ids noted by the last restore of that table are used.", "quantifier": "all sets of tables and foreign columns without circles, all reachable tables saved from, all selections that contain what they refer to, all databases restored into that have the trackers foreign_auto registers and room for the rows, debug and release builds", "why_tests_cant": "The free lists of the tables restored into, the selections, and the graph of foreign keys are all arbitrary; a wrong key shows only if the id that a row gets differs from the old one and another row happens to have the old id.", "anchors": ["macros/output.rs:1819-1856", "macros/output.rs:1859-1908", "macros/output.rs:1911-1950", "src/tracking.rs:289-312"]}
{"id": "C116", "title": "References stay sound in programs that also restore saved rows", "statement": "As C80, for programs that besides careful sessions now and then restore saved rows into consistent tables that have rows: rows saved from any reachable tables of the same declarations, with all rows they refer to. In every state reached every foreign_auto reference is to a row that is there or is one the program uses for nothing. At any time such a restore succeeds for all tables (C115) and adds exactly the saved rows; and at any time rows, also restored ones, can be deleted and exactly these and what refers to them, directly or not, is lost.", "quantifier": "all acyclic foreign_auto graphs, all interleavings of any number of careful sessions and of restores, all selections saved from any reachable tables, debug and release builds", "why_tests_cant": "Whether a remapped key is right depends on the free lists left by all earlier deletions and restores; the histories are unbounded.", "anchors": ["macros/output.rs:1859-1908", "macros/output.rs:932-976", "macros/output.rs:1107-1142", "src/tracking.rs:248-312"]}
{"id": "C117", "title": "Restoring is pushing", "statement": "A restore that succeeds does to all tables, and tells all trackers, exactly what locking the table, pushing the saved rows one by one with their foreign keys remapped and flushing with the same event does; and where that succeeds, the extraction is of such a table and the locks are free, restore succeeds with the same result. To a sorted table the rows are merged, as they were saved. Hence in programs that also add saved rows (C116) a tracker that considers all events and keeps book of what it is told has after every session and every addition exactly the rows of its table in its book.", "quantifier": "all universes, extractions (well formed or not), events and locks held for the first part; all careful and tidy programs and additions for the book; all tables and foreign columns, debug and release builds", "why_tests_cant": "restore has its own loop, its own early return and its own calls around the flush; that it never differs from the ordinary path concerns all states of all tables, trackers and remappings, and the book of a tracker depends on the whole history.", "anchors": ["macros/output.rs:1819-1856", "macros/output.rs:1859-1908", "macros/output.rs:611-627", "src/tracking.rs:248-312"]}
{"id": "C118", "title": "Flushing without unlocking is flushing", "statement": "`flush` does what `live_flush` followed by closing does: both succeed or both panic alike, leave the same tables and make the same calls to trackers, with whatever lock, unless the table depends on itself; then neither ever succeeds, except when nothing has changed. After `live_flush` of a consistent table the lock is as one newly taken: nothing pending, and pushing and deleting may alternate. Hence in programs that lock a table and change and live_flush it any number of times, references stay sound (C80) and trackers' books right (C83), also while the table is locked.", "quantifier": "all universes, locks, events and tracker graphs for the first part; all careful programs with any number of live_flushes, flushes and closes; debug and release builds", "why_tests_cant": "live_flush keeps the table locked while trackers, and through them the handlers of all dependent tables, run; that nothing they do needs that lock concerns all dependency graphs and the locks taken on all the ways through them.", "anchors": ["macros/output.rs:932-976", "macros/output.rs:980-1023", "macros/output.rs:1107-1142", "src/tracking.rs:248-288", "src/event.rs:100-119"]}
{"id": "C119", "title": "Clearing tables keeps references sound and books right", "statement": "Programs as in C80 and C83 may also clear consistent tables (clear or select_all, in a session that adds and changes nothing, flushed with a removal event whose handler deletes) whenever no row of the table and of those that depend on it is deleted at that time: the flush succeeds, the table and all tables that depend on it, directly or not, are empty, all others are unchanged, the program may go on, no reference ever dangles, and a tracker that keeps book of what it is told has exactly the rows of its table in its book. (Rows deleted earlier that have not been used again spoil this: ids pushed afterwards can be announced though their rows are not there.)", "quantifier": "all programs of careful sessions and clearings, all tables, tracker graphs and events; debug and release builds", "why_tests_cant": "Clearing walks through all dependent tables, calling trackers once or many times for all rows; that the books and the references come out right concerns the whole history before and after and every dependency graph.", "anchors": ["macros/output.rs:1225-1237", "macros/output.rs:1029-1036", "macros/output.rs:346-450", "macros/output.rs:932-976", "src/tracking.rs:248-288"]}
{"id": "C120", "title": "Programs that do everything keep references sound and books right", "statement": "A program, starting from new tables, in any order and any number of times locks tables, changes them with care (C80; tidily, C83), flushes them with flush or live_flush, unlocks them, clears consistent tables (C119), adds rows saved from any tables that are declared alike (C116), has trackers told of rows selected with read locks, registers trackers, and has tables remap ids to themselves (set_identity_remap). Rows added may refer to each other, and to rows of tables that are not added to and whose ids are remapped to themselves. After each step no reference dangles and a tracker that was there from the start and keeps book of what it is told has exactly the rows of its table in its book. And whenever no table is locked the program can delete any rows of a consistent table, with all that refer to them and nothing else, can clear such tables (unless rows are deleted at that time), and can add complete saved rows, and goes on - except that (refuted) after live_flush of a table that rows had been added to so, adding more to it waits forever.", "quantifier": "for all declarations with acyclic references, build profiles, numbers of ids, programs of such steps of any length and interleaving, extractions from any reachable tables, selections, and positions and kinds of trackers", "why_tests_cant": "The ways of changing tables are defined apart and share state that outlives each of them: the free list, remappings and forgotten guards of trackers, the lists of locks. That no sequence of them breaks what each alone keeps concerns all interleavings.", "anchors": ["macros/output.rs:887-929", "macros/output.rs:932-1036", "macros/output.rs:1107-1142", "macros/output.rs:1231-1237", "macros/output.rs:1859-1950", "src/tracking.rs:226-312"]}
{"id": "C121", "title": "Trackers registered later can keep book", "statement": "A program as in C120 can register a tracker of a consistent table at any time when it holds no lock (unless live_flush has forgotten a guard of its trackers, C38). If the tracker writes down the rows that are there at that time and from then on keeps book of what it is told (rows named with removal events are struck out, all others written down), its book names exactly the rows of the table, after every later step of the program, whatever was done before and whichever trackers are registered afterwards; and it stays registered.", "quantifier": "for all declarations with acyclic references, build profiles, numbers of ids, programs as in C120 of any length before and after the registration, tables, and further trackers", "why_tests_cant": "That what the tracker is told after any point of any program accounts for all changes since concerns all pairs of histories before and after, including ids that were freed before the registration and are used again after it.", "anchors": ["src/tracking.rs:315-339", "src/tracking.rs:248-288", "macros/output.rs:887-1036"]}
{"id": "C122", "title": "Deleted rows that were saved can be brought back", "statement": "A program as in C120 saves (extract_selection) exactly those rows of consistent tables that the deletion of some rows of a consistent table takes with it, including all that refer to them directly or indirectly, deletes the rows, and restores what it saved, tables that are referred to first. All columns that refer to tables are foreign_auto, and each of the lost rows refers to lost rows, or to tables of which nothing is lost and that remap ids to themselves (set_identity_remap). Then nothing fails, and in the end every table has the rows it had before and no others: there is a renaming of ids, one-to-one for each table, under which the rows are the same and every reference, of rows that were lost and of those that were not, names the row it named. Rows that were not deleted keep their ids. The program can go on as in C120. Without set_identity_remap (refuted) rows that refer to rows that are still there cannot be brought back: restore panics.", "quantifier": "for all declarations with acyclic references, build profiles, numbers of ids, programs as in C120 of any length, deleted rows, orders of saved rows and of tables, and trackers", "why_tests_cant": "Ids that the deletion freed are used for the restored rows in another order; that references still name the rows they named, in all tables at once and for any shape of references and any free lists left by the history, is a statement about all programs and renamings.", "anchors": ["macros/output.rs:1859-1950", "macros/output.rs:1107-1142", "macros/output.rs:319-321", "macros/output.rs:346-450", "src/tracking.rs:289-312"]}
{"id": "C123", "title": "Cleared tables can be filled again from what was saved", "statement": "A program as in C120 saves (extract_selection, in any order) the rows of a consistent table and of all tables that refer to it directly or indirectly, clears the table as in C119 (with which these are cleared), and restores what it saved, tables that are referred to first. The conditions are those of C122, and that no row of these tables is deleted at the time (C17, C119). Then nothing fails, every table has the rows it had and no others, under a one-to-one renaming of ids that all references follow; tables that were not cleared keep their ids; and the program can go on as in C120.", "quantifier": "for all declarations with acyclic references, build profiles, numbers of ids, programs as in C120 of any length, orders of saved rows and of tables, calls by which the table is cleared, and trackers", "why_tests_cant": "It concerns all shapes of references, all programs before, and all orders in which rows are saved, each giving another renaming.", "anchors": ["macros/output.rs:1859-1950", "macros/output.rs:1231-1237", "macros/output.rs:319-321", "macros/output.rs:932-976", "src/tracking.rs:289-312"]}
{"id": "C124", "title": "Rows can be deleted in any order and in several steps", "statement": "A program as in C120 deletes some rows of a consistent table and flushes it, then deletes those of some rows of a second consistent table (or the same) that are still there and flushes that. If it does the second first, the outcome is the same: neither fails, the program can go on as in C120, and all tables, those that lost rows along with these included, have the same rows at the same ids. Likewise deleting rows of one table in two steps has the same outcome as deleting all of them in one. In general the outcome of any number of such steps depends only on which rows of which tables were named in them: not on the order of the steps, on how the rows were divided among them, on how often a row was named, and on which events that delete references were used.", "quantifier": "for all declarations with acyclic references, build profiles, programs as in C120 of any length before, numbers of steps, tables, and lists of ids without repetition in a step (whether or not there are such rows)", "why_tests_cant": "What the second step finds depends on what the first took along, over any number of tables and in tables whose rows move; all interleavings of these would have to be tried.", "anchors": ["macros/output.rs:821-834", "macros/output.rs:932-976", "macros/output.rs:1107-1142", "src/tracking.rs:248-288", "macros/output.rs:1334-1428"]}
{"id": "C125", "title": "Clearing a table does what deleting all of its rows does", "statement": "A program as in C120 clears a consistent table (no row of it and of the tables that refer to it, directly or indirectly, being deleted at the time) and flushes it; or it deletes all rows of it and flushes it. Neither fails and the program can go on as in C120. Clearing leaves no row that deleting does not leave at the same id. If every row of the tables that refer to it refers to some row there (rather than to nothing), both leave exactly the same rows. Otherwise they need not: clearing takes rows that refer to nothing, deleting does not.", "quantifier": "for all declarations with acyclic references, build profiles, programs as in C120 of any length before, lists of ids that have all rows, and calls by which the table is cleared", "why_tests_cant": "The two take different ways through the code of every dependent table (Select::All against lists of ids and lookups), for all shapes of references and contents.", "anchors": ["macros/output.rs:1231-1237", "macros/output.rs:821-834", "macros/output.rs:1107-1142", "macros/output.rs:346-450", "src/tracking.rs:248-288"]}
{"id": "C126", "title": "Watching changes nothing", "statement": "Take any program on any tables (locks, calls on tables of all kinds, flushes, removals that cascade, selections, registration of trackers and handlers), and leave out some of the calls that register a tracker which only takes note and does not ask for ids in order. Then every other call returns what it returned, and every other tracker is told what it was told: the same events and the same rows in the same order, at the same calls. If the program fails, it still fails in the same way, unless the call that failed was one of those left out. Trackers that ask for ids in order are another matter: those after them are told of the rows in another order than without them.", "quantifier": "for all declarations, build profiles, programs of any length (also ones that misuse locks, or panic), and choices of trackers left out at any places of the lists of trackers", "why_tests_cant": "It compares each program with all programs that have fewer trackers, for all nestings of cascades.", "anchors": ["src/tracking.rs:248-288", "src/tracking.rs:315-339", "macros/output.rs:932-1023", "macros/output.rs:1107-1142", "src/event.rs:100-119"]}
{"id": "C127", "title": "Cascades nest no deeper than references do", "statement": "While a table is flushed, trackers of tables that refer to it flush these, and so on. In any program on tables whose references do not go round in circles, calls of do_flush are never nested deeper than the longest chain of references, whatever the program does, however many rows there are, and whether it succeeds or fails. (So the stack a flush needs is bounded by the declarations.) With circles no depth may be enough (C34); but whenever some depth is enough, the program does not depend on how much more there is.", "quantifier": "for all declarations, build profiles, programs of any length (locks, calls on tables of all kinds, flushes, removals, selections, registrations), and rankings of tables that references go down", "why_tests_cant": "It bounds the depth for all programs and numbers of rows; tests see it for those they run.", "anchors": ["src/tracking.rs:248-288", "src/event.rs:100-119", "macros/output.rs:346-450", "macros/output.rs:1107-1142", "macros/output.rs:932-1023"]}
{"id": "C128", "title": "Tables that refer to others change nothing for these", "statement": "Some tables of a universe may refer to the others by foreign_auto, while the others do not refer to them: a library's tables, and those of programs that use it. If a program succeeds, the program without these tables and all calls on them succeeds too: every call on the other tables returns what it returned, and the trackers of the other tables are told of the same rows, in the same order. (If the tables that refer are sorted the rows may be told in another order; the order foreign_auto asks for is then seen by trackers registered later. And a program may succeed only without them, as when one of them is locked during a flush.)", "quantifier": "for all declarations of tables of all kinds, divisions of them such that references go only one way, build profiles, and programs of any length (locks, calls on tables, flushes, removals, selections, registrations of trackers and handlers)", "why_tests_cant": "It compares two runs of every program, over all ways its calls on the two groups of tables interleave and all cascades from one group into the other.", "anchors": ["src/tracking.rs:248-288", "src/tracking.rs:315-339", "src/event.rs:100-119", "macros/output.rs:932-976", "macros/output.rs:980-1023", "macros/output.rs:346-450", "macros/output.rs:1107-1142"]}
{"id": "C129", "title": "Debug and release builds differ only where a debug build reports an overflow", "statement": "Run any program in a debug build. Either it stops there with the panic of an arithmetic overflow, or it does the same in a release build, and on a machine with a larger usize: all calls return the same, trackers are told the same in the same order, a failing program fails in the same way, and programs that save and restore tables leave the same tables and remappings. The same holds if trackers act on the database themselves, and for several threads: what threads can do in one build, however their steps are interleaved, they can do in the other, up to the locks held, waited for and poisoned, unless one of them stops with an overflow in a debug build. So what was tested in a debug build without an overflow holds in release. (Without the overflow the builds may differ: skip_fast with a very large count makes the iterator start over in a release build.)", "quantifier": "for all databases of tables of all kinds in any state, programs of any length (locks, calls, iterators, visits, merges, flushes, removals, selections, trackers, handlers, saving and restoring), and sizes of usize, trackers that act, and any number of threads and interleavings", "why_tests_cant": "A test runs one program in one build; the property compares two builds on all programs, including those whose ids are at the ends of their types.", "anchors": ["src/index.rs:62-68", "src/index.rs:435-438", "src/index.rs:564-567", "macros/output.rs:853-870", "macros/output.rs:1334-1428", "macros/output.rs:1539-1608", "src/tracking.rs:248-288", "macros/output.rs:932-976"]}
{"id": "C130", "title": "Groups of tables that do not refer to each other have nothing to do with each other", "statement": "The tables of a universe fall into groups such that foreign_auto references stay within a group. Then a program succeeds if and only if what is left of it for each group alone (the calls on its tables, and the changes of event handlers, which are for all) succeeds; every call returns what it returns in the program of its group, and trackers are told the same. So calls on tables of different groups may be made in any order: programs with the same calls for each group, in the same order within the group, succeed alike with the same answers. (With a reference between groups this is false: a flush fails if the program holds the lock of a table that refers, though each group alone is fine.)", "quantifier": "for all declarations of tables of all kinds, divisions of them into any number of groups, build profiles, and programs of any length (locks held over calls on other tables, calls, flushes, removals, selections, trackers, handlers) and all ways to interleave them", "why_tests_cant": "The number of ways to interleave the calls of two groups grows exponentially; each pair would need its own two runs.", "anchors": ["src/tracking.rs:248-288", "src/tracking.rs:315-339", "src/event.rs:100-119", "src/event.rs:180-188", "macros/output.rs:932-976", "macros/output.rs:980-1023", "macros/output.rs:346-450"]}
{"id": "C131", "title": "Adding columns at the end of a table changes nothing about the others", "statement": "Take a table declaration and the declaration with only its first columns (at least one). A program that succeeds on the larger table also succeeds on the smaller one, when rows are given without the additional columns and calls that are only about these (reading, searching, assigning them) are left out, provided closures and orders do not depend on them; and every other call returns the same: the same row ids, the same values, rows without the additional columns. In a debug build a program that succeeds on the smaller table also succeeds on the larger one, if all its calls have a counterpart. (If the order of a sorted table depends on an additional column, there may be no order of the smaller rows that gives the same.)", "quantifier": "for all kinds of tables, numbers and types of columns with and without indexes, numbers of columns left out, build profiles, and programs of any length (all calls of a table, with all rows, closures and orders)", "why_tests_cant": "Each declaration needs its own macro expansion; a test compares a few declarations on a few programs, while a column treated differently for its place shows only with certain numbers of columns and histories.", "anchors": ["macros/output.rs:263-300", "macros/output.rs:346-450", "macros/output.rs:750-765", "macros/output.rs:821-870", "macros/output.rs:1155-1303", "macros/output.rs:1306-1330", "macros/output.rs:1334-1428", "macros/output.rs:1430-1537", "macros/output.rs:1539-1608"]}
{"id": "C132", "title": "The order in which columns are declared does not matter", "statement": "Declare a table with the same columns in another order (or with some of them only), keeping their types and indexes. In a debug build a program succeeds on the one table exactly if the same program, with rows and columns of the other declaration, succeeds on the other; every call returns the same (the same row ids and values, rows with the columns in the other order), and else both panic. Closures and orders must do the same on the rows of both. (With a column declared twice under two names this is false, since an assignment changes only one.)", "quantifier": "for all kinds of tables, numbers and types of columns with and without indexes, reorderings and choices of columns, and programs of any length that compile for the table (closures that read the row they are shown, any rows and orders)", "why_tests_cant": "The length of a table is read from its first column and each operation goes through the columns one after the other; a column treated differently for its place shows only for certain declarations and histories, and each order needs its own macro expansion.", "anchors": ["macros/output.rs:263-300", "macros/output.rs:346-450", "macros/output.rs:750-765", "macros/output.rs:821-870", "macros/output.rs:1155-1303", "macros/output.rs:1306-1330", "macros/output.rs:1334-1428", "macros/output.rs:1430-1537", "macros/output.rs:1539-1608"]}
{"id": "C133", "title": "A larger row id type changes nothing for programs that fit in the smaller one", "statement": "Declare a table with a larger integer type for its row ids. In a debug build a program that succeeds with the smaller type also succeeds with the larger one, and every call returns the same, with two exceptions: find also returns the row with the largest id of the smaller type (which it missed, C04), and push_array of no rows returns an empty range at the largest id of the type. (In a release build this is false: push_array that fills the table returns a range that ends at 0, C14.)", "quantifier": "for all kinds of tables, columns, pairs of row id types, and programs of any length that compile for the table (closures that read the row they are shown, any rows and orders), up to and including those that fill the table", "why_tests_cant": "The boundaries at which the types differ lie at 2^8, 2^16, 2^32 rows; tests would have to fill tables up to each in many ways, with deletions and reuse in between.", "anchors": ["macros/output.rs:170", "src/index.rs:56-68", "src/index.rs:274-368", "src/map_index.rs:41-140", "macros/output.rs:1334-1428", "macros/output.rs:1430-1537", "macros/output.rs:1539-1608"]}
{"id": "C134", "title": "For programs that delete nothing, the kind of a table does not matter", "statement": "Take two declarations that differ only in the kind of the table (append, list, bag or consistent). In a debug build, a program that compiles for both, deletes nothing (no delete, clear or remove_rows, and no flush with a removal event; clear_raw is allowed) and succeeds with the one also succeeds with the other, and every call returns the same: ids of pushed rows, ranges, rows, cells, finds, iterators. If only the second table is consistent, its locks have to be flushed instead of closed, with an event id that trackers can be registered for. Both conditions are needed: closing a lock with pushed rows panics for consistent tables only, and after a deletion bags and consistent tables differ.", "quantifier": "all declarations, both kinds, all programs (any length) over the public calls of one table, all rows and closures of the proper types", "why_tests_cant": "Each kind has generated code of its own for push, flush and iteration; tests compare a few programs and a few kinds, this is about all of them.", "anchors": ["macros/output.rs:1155-1303", "macros/output.rs:1539-1608", "macros/output.rs:932-1036", "macros/output.rs:666-736", "macros/output.rs:802-851", "macros/table.rs:57-122"]}
{"id": "C135", "title": "What the rows hold does not matter", "statement": "Replace the values in each column by others, possibly of another element type (so that a VecCol becomes a BoolCol or the other way round), with any function per column; plain columns stay plain and indexed ones indexed. Only the values given to find must stay apart from the other values of their column; neither equality nor order of anything else needs to be kept, not even in indexed columns. Closures and the orders given to merge decide as before. Then in a debug build the program with the new values succeeds exactly if the old one does and every call returns the same ids and ranges, and the rows and cells with the new values; else both panic.", "quantifier": "all declarations, all replacements of values, all programs (any length) over the public calls of one table", "why_tests_cant": "Tests use a few values; that no code path depends on what a row holds (bit packing in BoolCol, search trees, merging) is a statement about all values.", "anchors": ["src/storage.rs:8-37", "src/storage.rs:80-150", "src/map_index.rs:41-140", "src/columns.rs:75-111", "src/columns.rs:183-199", "macros/output.rs:1155-1303", "macros/output.rs:1430-1608"]}
{"id": "C136", "title": "The columns of the tables of a database may be reordered or dropped together with what uses them", "statement": "Take a database of tables with foreign keys, trackers and cascading deletions, and choose of every table some of its columns, in any order, among them the columns that refer to other tables. Then in a debug build the program rewritten for the chosen columns (columns numbered anew, rows cut to the chosen columns, closures and orders deciding the same) succeeds exactly if the old one does, every call returns the chosen columns of what the old one returns, every tracker is told the same events for the same rows in the same order, and the same rows are deleted by cascade; else both panic. A program that succeeds in a debug build does so, with the chosen columns, in every build.", "quantifier": "all declarations of any number of tables, all choices of columns, all programs (any length) that do not wait for their own locks and whose references do not go round in circles", "why_tests_cant": "Tests have a few fixed tables; that cascades only use the tracked column, wherever it is declared, is a statement about all declarations and programs.", "anchors": ["macros/output.rs:887-976", "macros/output.rs:1107-1142", "src/tracking.rs:174-288", "macros/output.rs:346-450", "src/columns.rs:75-199"]}
{"id": "C137", "title": "What the rows of a database hold does not matter, except references", "statement": "In a database of tables with foreign keys, trackers and cascading deletions replace the values in each column by others, possibly of another element type, with any function per table and column that leaves tracked references as they are. Values given to find must stay apart from the others of their column; closures and orders decide as before. Then in a debug build the program with the new values succeeds exactly if the old one does, every call returns the same with new values, every tracker is told the same events for the same rows in the same order; else both panic. A program that succeeds in a debug build does so, with the new values, in every build.", "quantifier": "all declarations of any number of tables, all replacements of values, all programs (any length) that do not wait for their own locks and whose references do not go round in circles", "why_tests_cant": "Tests use a few values; that flushing, cascading and selecting never depend on what rows hold apart from the references is a statement about all values.", "anchors": ["src/storage.rs:8-37", "src/storage.rs:80-150", "src/map_index.rs:41-140", "macros/output.rs:887-976", "macros/output.rs:1107-1142", "src/tracking.rs:174-288"]}
{"id": "C138", "title": "The place of tables in a database does not matter, nor do other tables", "statement": "Declare the tables of a database in any other order, and any other tables among them. Then every program does the same with the tables at their new places: every call returns the same, every tracker is told the same events for the same rows in the same order, cascades delete the same rows, and if the program panics or waits for ever for a lock, it does so at the same call for the same reason. This holds in every build and for programs that lock several tables at once. It also holds if trackers act on what they are told, and for programs that react to what they are told; then all tables end up the same, and the other tables stay untouched. And it holds for programs that save and restore tables: the same remappings are left. And it holds for any number of threads: with the tables at other places they can get to the same states, with the same locks held and waited for, and to no others.", "quantifier": "all builds, all lists of tables, all injective placements among other tables, all programs (any length, cyclic references and several locks included)", "why_tests_cant": "Tests register their tables in one order; independence of the order and of what else is registered is a statement about pairs of databases for all programs.", "anchors": ["src/tracking.rs:226-339", "src/event.rs:100-195", "macros/output.rs:346-450", "macros/output.rs:887-1023", "macros/output.rs:1107-1142", "macros/output.rs:1731-1815"]}
