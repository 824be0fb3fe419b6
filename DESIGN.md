# Formal model of v11 — design

Source: `/repo` (purpleposeidon/v11), read as text.  Prover: Coq 8.16.1, standard library only.
Everything lives in `rocq/theories`, logical name `Verif`.

## 1. What is modelled

The `table!` macro (`macros/output.rs`) generates Rust code per table.  The model is of the
*generated* code (with the run-time library in `src/`), one Gallina function per Rust function.

| theory file | code modelled |
|---|---|
| `Base.v` | outcome monad: `Ok`, panic (with its cause), undefined behaviour (`EUB`), self-deadlock, fuel |
| `Column.v` | `src/storage.rs` VecCol, BoolCol; `src/map_index.rs` BTreeIndex; `src/columns.rs` TCol/Col |
| `RowRange.v` | `src/index.rs` GenericRowId, RowRange, CheckedIter, UncheckedIter, ConsistentIter, EditIter; `src/joincore.rs` |
| `Table.v` | `macros/output.rs` generated table: columns, free list, change log, push, push_array, delete, clear, get_row, iter, flush without trackers |
| `Visit.v` | `merge0` / `visit` / `retain` |
| `SortedTab.v` | `merge_logged`, `merge`, `merge_in_a_single_row`, sorted `remove_rows` |
| `BagTab.v` | bag `delete`, `BagIter`, `Deletable` |
| `Hist.v` | histories of calls on one table: which calls each kind has (`avail`), their effect (`step`), reachable states |
| `Answers.v` | what the calls of Hist.v return |
| `Cascade.v` | `Flush::do_flush`, `Function::run`, default handlers, `foreign_auto` trackers, `Write::flush`, `Table::remove_rows`, lock holding |
| `DbHist.v` | programs on several tables: locks held, flushes, registration of trackers and handlers |
| `Acting.v` | trackers that act: what code called by a flush may do, and flushes with such trackers |
| `Abort.v` | the same with locks dropped by panics: which panics abort the process |
| `Invalid.v` | the row id that stands for no row |
| `Race.v`, `RaceSpec.v` | the two lock phases of `Write::flush`, lock poisoning, and `remove_rows`, interleaved between any number of threads |
| `Extract.v`, `Names.v` | `extract_selection`, `Extraction::validate`, `into_iter`, `restore_extract`, remapping, live_flush's lock; `check_name` |
| `Registry.v` | `src/domain.rs`, `src/property.rs`, `GenericTable::register` and `equivalent`, `Universe::new`, registration of trackers, which lock a panic poisons |
| `Reopen.v` | `DomainName::set_locked` as a call besides those of `Registry.v` |
| `About.v` | `Universe::get_domain_names`, `info`, `swap`, `GenericTable::info` |
| `Libs.v` | `sync_globals`, `clone_globals`, `is_empty`: several registries, one pointer per dynamic library |
| `Events.v` | `src/event.rs` (handlers themselves: in `Cascade.v`) |
| `RawIds.v` | ids, ranges and iterators of `src/index.rs` over any integer type; `FIRST`, `INVALID` |
| `Selects.v` | `Select`, `SelectIter`: `src/tracking.rs` |
| `AnySlice.v` | `src/any_slice.rs`, `downcast_any_selection` |
| `Context.v` | `src/context.rs` |
| `ContextUnwind.v` | `src/context.rs` with panics, poisoned locks, `mem::zeroed` and several universes |
| `BagLoan.v` | the references that `BagIter` hands out: `src/index.rs:618-684` |
| `ColLoan.v` | the columns of locks: `src/columns.rs:112-170`, `macros/output.rs:480-530, 1605-1690` |
| `Hints.v` | `size_hint` of the iterators: `src/index.rs`, `src/tracking.rs` |
| `PropThreads.v` | threads on the static of `property!`: `src/property.rs` |
| `Threads.v`, `ThreadSpec.v` | flush, live_flush, select, register, restore and plain locking as programs of single steps (take a lock, give it back, look, change), run by any number of threads in any interleaving; `RwLock` poisoning |
| `Poison.v`, `PoisonSpec.v` | threads again, with panics that unwind, half-done changes, and poisoned locks |
| `Unwind.v`, `UnwindSpec.v` | what the calls of Table.v, Visit.v, SortedTab.v, BagTab.v leave behind if they or user code called by them (closures, iterators, `Ord`, trackers) panic half way and the panic is caught |
| `Schema.v` | `macros/parse.rs`, `macros/table.rs`, `macros/lib.rs` on the level of attributes and columns; the conditions of `macros/output.rs` that decide what is written |
| `Parts.v` | `macros/output.rs`: what the code does in the parts that are written for some kinds only |
| `Output.v` | the names that the code written by `table!` defines and uses |

Vocabulary of the statements is in `Order.v`, `TableSpec.v`, `ColumnHist.v` and `*Spec.v`; the small tables of the
examples are in `Cases.v` and `*Cases.v`.  Proofs are in `*Facts.v`, `TableProps.v`, `RowProps.v`, `CascadeProps.v`, `CascadeLog.v`,
`CascadeCalls.v` and `CascadeClear.v`; property theorems alone in `Props*.v`
(each `exact lemma`, with `Print Assumptions` and a non-vacuity `Example`).

## 2. Modelling conventions

* A `&mut self` method is a function returning the new value.  Panics are `Err (EPanic cause)`;
  the state left behind by a panic is in Unwind.v (one table, the panic is caught) and Poison.v (threads, the lock is poisoned).
* `get_unchecked` out of range is `Err EUB`; "no UB" is a theorem, not a convention.
* Row ids are `nat`; the row-id type (`#[row_id]`) is its maximal value `imax`, a parameter of
  every theorem.  `from_usize` panics above `imax`; `+1` on a row id is checked against `imax`.
  Signed types and types wider than `usize` are in `RawIds.v` (C106).
* Vec capacity, allocation failure and `usize` overflow (lengths above 2^64) are not modelled.
* Element types: one value type `val` (integers, booleans, row ids) with a total order.  A Rust
  element type is a finite totally ordered set, which embeds in the integers, so this loses no
  generality for lawful `Ord` implementations.
* `bit_vec::BitVec`, `Vec`, `VecDeque`, `BTreeMap`, `HashMap` are modelled by their documented
  behaviour (lists; strictly sorted association lists).

## 3. Trusted base

* Coq's kernel (8.16.1) and the standard library.  No axioms are added; `Print Assumptions` under each
  property theorem says "Closed under the global context" for every theorem.  (The axioms of
  `Coq.ssr.ssrunder` that a listing of loaded libraries shows come in with standard library imports; no
  theorem depends on them.)
* The correspondence between the model and the Rust code: by reading; each definition cites lines.
* Not modelled: the macro's token generation, serde formats, `Any` downcasts of columns (a type error
  there panics), the representation of guards (`context!` moves them with `mem::swap`; ContextUnwind.v says where
  they are zeros), poisoning of locks (but for the registry and its universes: Registry.v, the locks of tables: Poison.v, and
  contexts: ContextUnwind.v),
  `src/avec.rs` (not compiled into the crate), memory model below the level of locks.

## 4. Properties

See `properties.jsonl` for the full text and `MANIFEST.json` for the state of each.
Several documented expectations are false of the code; for these the refutation is
proved (`..._refuted`, with a witness) together with the exact condition under which the
expectation does hold.

* **C01** BoolCol behaves like a plain vector of booleans — Column.v; refinement of BoolCol to `list bool`, induction over op list.
* **C02** An `#[index]`ed column's `find` is exact — Column.v; index invariant (index = {(v,i) | live i, col[i]=v}) preserved by each op, induction over histories.
* **C03** An `#[index]`ed column's `range` is exact and inclusive of both bounds — Column.v; same invariant, interval of a sorted association list.
* **C04** `find` returns every row holding the key, including the row with the maximal id — Column.v; refutation with imax as witness + exact characterisation.
* **C05** RowRange: contains, len, inner_index and iteration agree — RowRange.v; induction on the iterator.
* **C06** RowRange::offset(n) returns the n-th row only if it lies within the range — RowRange.v; refuted at n=len, exact iff proved.
* **C07** RowRange::intersects is true exactly when a common row exists — RowRange.v; iff for non-empty, refuted for empty.
* **C08** Range iteration is bounds-safe — RowRange.v; iterator invariant.
* **C09** Merge-join helper is a correct join — RowRange.v; induction over left sequence with cursor invariant.
* **C10** Iterating a consistent table visits exactly the live rows — RowRange.v + Table.v. `with_deleted` after any number of `next`: C10_with_deleted (WithDeleted.v).
* **C11** Columns stay in step; no unchecked access is ever out of bounds — Table.v; invariant over all op sequences. Refuted for bags in release builds: `delete_raw` of an empty bag computes `len - 1` by wrapping and swaps rows that are not there. C11_undefined_exactly says when that happens, as an equivalence (UndefSpec.v): a deleting flush of more selected rows than there are. What returns normally keeps the invariant in every build, so the other properties hold of such bags too (`step_tg`, HistFacts.v).
* **C12** push stores the row at an id that was not live and disturbs nothing else — Table.v.
* **C13** push_array returns a contiguous range holding the rows in order — Table.v.
* **C14** push_array's result can always be iterated — Table.v; refuted for empty.
* **C15** Deleting and flushing removes exactly the marked rows — Table.v.
* **C16** A deletion is not silently lost — Table.v; refuted.
* **C17** A cleared consistent table behaves like an empty one — Table.v; refuted, iff free list empty.
* **C18** clear() empties the table — Table.v; refuted for sorted/list, proved for others.
* **C19** Structural changes cannot be forgotten — Table.v; change-log invariant over op sequences.
* **C20** visit rewrites the table as the callback says — Visit.v; loop invariant of the rug algorithm against a recursive spec.
* **C21** visit shows the callback each original row once, in order — Visit.v; trace of callback calls.
* **C22** retain keeps exactly the matching rows in order — Visit.v; corollary.
* **C23** merge keeps a sorted table sorted and loses nothing — SortedTab.v; merge refines a list merge.
* **C24** merge is stable — SortedTab.v; exact order + refutation.
* **C25** merge reports final row ids — SortedTab.v; log invariant.
* **C26** remove_rows on a sorted table is exact — SortedTab.v; compaction loop invariant.
* **C27** A sorted table is always sorted — SortedTab.v; refuted by a history with a key edit.
* **C28** Deleting from a bag removes one row and keeps the rest — BagTab.v.
* **C29** BagIter visits every row once and deletes exactly the chosen ones — BagTab.v; iterator invariant.
* **C30** A Deletable handle deletes its own row — BagTab.v; refuted.
* **C31** Rows of an append table are never removed — Visit.v; refuted.
* **C32** Deleting a row deletes all its dependents, transitively — Cascade.v; fuelled recursion, induction on the rank of an acyclic schema.
* **C33** Deleting a row deletes nothing but its dependents — Cascade.v; same induction, inductive `doomed` relation.
* **C34** Cascading deletion terminates without deadlock — Cascade.v; enough-fuel theorem for acyclic schemas, deadlock witness for cycles.
* **C35** Trackers hear about every change exactly once per flush — Cascade.v.
* **C36** Deleting works whatever kind the dependent table has — Cascade.v; refuted.
* **C37** Sorted dependents lose exactly the rows referencing deleted rows — Cascade.v.
* **C38** live_flush releases the tracker lock — Extract.v; lock counter, refuted.
* **C39** Concurrent flushes never delete a row nobody asked to delete — Race.v, an interleaving semantics: a step is a lock being taken or dropped, one call of the holder (all of `Hist.write_op`), the first half of a flush (collect, release, `do_flush`'s checks) or its second half (lock again, remove). Any number of threads. A panic of the holder poisons the lock; a panic between the halves does not. **Refuted** by two schedules: a reused row id (`C39_refuted`) and a clear (`C39_clear_refuted`); a third (in `C39_case`) panics and poisons the table. Proved for all schedules: `C39_steps`, `C39_listed_partial`, `C39_apply`, and under a condition on what the others do in the gap `C39_undisturbed_partial` (invariant over runs carrying for each listed row the step that listed it). `C39_alone` ties the two halves to the sequential `w_flush` of all other properties. Not modelled: read locks (they change nothing), trackers running in the gap (they run without the table's lock; what they do to this table is a step of the thread).
* **C40** Column (de)serialisation round-trips and rebuilds the index — Extract.v.
* **C41** Extract then restore reproduces the selected rows — Extract.v.
* **C42** Restored foreign keys point at the restored rows — Extract.v.
* **C43** Restored foreign keys of sorted tables point at the restored rows — Extract.v; refuted.
* **C44** restore rejects foreign data gracefully — Extract.v; refuted for short headers, exact otherwise.
* **C45** Domain ids are dense, unique and stable — Registry.v; invariant of the registry (`ginv`) over all histories, growth relation (`gext`) for stability.
* **C46** Properties with the same name share one value, different names never alias — Registry.v; slot invariant (name → global id → member of the domain is injective), exact cells of a fresh domain.
* **C47** Universes do not share state — Registry.v; frame lemmas per call; a call's answer depends only on its universe, on where the property is and on whether the registry is poisoned.
* **C48** Registration on a locked domain is rejected — Registry.v; a locked domain's information never changes (`dx_lock`).
* **C49** Re-registering an identical table or property is harmless — Registry.v; refuted (panics when locked; kind and Rust type are not compared), exact outcome proved.
* **C50** Names accepted are exactly the identifiers — Names.v; against a regular-expression spec.
* **C51** Event handlers: defaults and replacement — Events.v. C51_standard fixes the list of events, C51_fallback what a new universe does with every number (a removal event of the program's own gets the panicking handler, an event with number 6 that is no removal the deleting one).
* **C52** Context conversion keeps shared locks and cannot deadlock against itself — Context.v; lock-state trace. C52_typed: the type check of `release_fields` keeps a lock from ending up in a field of another type when names collide.
* **C53** Type-erased selections cannot be confused — AnySlice.v.
* **C54** Every table the macro accepts has a coherent guarantee — Schema.v; the folds over attributes and columns refine a declarative description (`readable`, `sensible`, `lookup_ok`), in both directions.
* **C55** A pre-checked id is valid for the table it is used with — Table.v; refuted: UB reachable.
* **C56** Trackers of dependent tables are told once per removal, and only if rows go — Cascade.v; refuted. `C56_calls` gives the exact sequence of calls of any flush (induction on fuel, CascadeCalls.v), `C56_times` counts them (1, or 2^d for a clear) when each table has one foreign column, `C56_rows_told_once_partial` says each removed row is named exactly once to each tracker.
* **C57** A call that panics harms nothing else — Registry.v; refuted, exact set of calls that poison the registry.
* **C58** Each tracker a table asks for is registered once — Registry.v; exact list of trackers (`keeps`), refuted for repeated domains.
* **C59** A failed add_domain can be repeated — Registry.v; refuted.
* **C60** A table declaration is written out or the build stops — Schema.v; refuted, exact set of silent declarations.
* **C61** Trackers a declaration asks for are registered — Schema.v; exact list; refuted for attributes not given as strings.
* **C62** Each kind has exactly its methods — Schema.v against `Hist.avail`, by cases over the calls. Parts.v has the code of each conditional part of the output; `C62_logging`, `C62_looking`, `C62_deletion`, `C62_removal`: exactly one version of each call is written for an accepted table, and it is the one Table.v, SortedTab.v and Cascade.v have for the kind.
* **C63** Caught panics of user code do not lead to undefined behaviour — Unwind.v: each call gives the state left and the result, so a panic has a state after it. Invariant over all programs (`tinv`, UnwindSafe.v): no column is shorter than the first one. `C63_same_without_panic` ties these functions to the model of the other properties. Panics in `Clone`/`Drop` of elements are not modelled.
* **C64** A panicking Ord of an indexed element does not lead to undefined behaviour — Unwind.v; refuted; it is possible exactly if a `VecCol` comes after an indexed `VecCol` (`C64_ord_panic_iff`).
* **C65** A panic in the closure of retain or visit loses, duplicates and resurrects no row — Unwind.v (`u_visit`, `u_retain`); refuted for both; the exact content left is proved (`C65_retain_interrupted`, `C65_visit_interrupted`, UnwindRows.v); for bags in debug builds only (C11). `Ord` of indexed elements does not panic here.
* **C66** An interrupted merge loses no row of the table — Unwind.v (`u_merge`); refuted; the exact content left, that it is sorted and that `find` is right: `C66_merge_interrupted` (UnwindMerge.v).
* **C67** Changes survive a tracker that panics — Unwind.v (`u_live_flush`, `u_flush`); refuted; what is left: `C67_live_flush_interrupted`, `C67_flush_interrupted` (UnwindFlush.v).
* **C68** Threads never wait for each other for ever — Threads.v. `C68_alone` ties the step programs to Cascade.v and Extract.v (simulation, ThreadSeq.v). Under the lock a session makes any calls of Hist.v that go through the write lock (`through_lock`, Extract.v), of which flushing is the last. No deadlock: a weakest-precondition logic over the programs (`wp`, ThreadFacts.v) in which locks are only taken below those held (rank of the table; the flush lock below the table lock). Not covered: locks that user trackers take; `try_read`/`try_write`. Poisoning is over-approximated: any acquisition may panic. A `merge` that loops for ever in release builds (C18) counts as an error of the step.
* **C69** Calls that finish alone finish together — Threads.v; refuted in four ways (ThreadCases.v computes the schedules); `deadlocked` is under the most lenient rule for `RwLock`, `jammed` under the rule that readers wait for waiting writers (std leaves this open).
* **C70** Threads cause no undefined behaviour — Threads.v. Invariant: every table is well formed for its schema (`tg`, HistFacts.v), kept by each step of each program (`sp`, ThreadSafe.v). In release builds universes without bags only (see C11). A call that panics half way stores nothing of what it did to the table it has locked; what such tables are like is in Unwind.v (C63-C67), and in this model whoever locks them may or may not find them poisoned (precisely: C74).
* **C71** Tables and trackers change only under their owner's write lock — Threads.v; a second logic over the programs (`op`, ThreadSafe.v) gives the locks held at each access, and `apart` that they exclude each other. The count of forgotten read guards (C52) changes under a read lock.
* **C72** Threads look only at what they have locked — Threads.v; logic `rp` (ThreadReads.v). Two steps that only look or change (`acts`) commute: by C71 the two threads' locks exclude each other. That the log of told trackers (a history variable of the model) is in another order is left out of `same_state`.
* **C73** Threads lose no change — Threads.v; logic `vp` (ThreadVal.v), which carries the content of each table the thread has locked for writing. `fewer`, `more` and `becomes` are in ThreadSpec.v; what exactly a removal or a restore does is in C05, C17, C51 and others. In release builds universes without bags only.
* **C74** A panic in one thread is seen by others only as a poisoned lock — Poison.v: as Threads.v, but a panicking thread gives back its locks one by one, leaves anything (`half_done`) behind those it has for writing, and they stay poisoned; every internal acquisition is `.unwrap()`. Simulation by Threads.v (PoisonFacts.v), which needs C72 (what is not locked is not read) and C71; so the simplification of Threads.v is justified. Not covered: a program that takes the guard out of the error of `write_result`/`read_result`/`try_*` (`into_inner`) on purpose; a thread that catches its own panic and goes on (for one table: C63-C67).
* **C75** Sorted tables stay sorted under threads — Threads.v and Poison.v. From C73 (what a change of a table is), C27's invariant for the calls made under a lock, and the fact that removing keeps order; with panics by C74. In release builds universes without bags only.
* **C76** Threads that delete nothing are as good as one after the other — Threads.v and Poison.v. A program logic (`lp`, ThreadSerial.v) follows which sessions a thread still has to do: its state is the tables' state and the list of sessions left, and the only steps that change a table are those that write back a whole session. C76_one_by_one; C76_alone says that `one_session` is what the sequential calls do; C76_after_panics with panics, through C74.
* **C77** Threads that delete are as good as one after the other — REFUTED. While a flush of table 0 deletes a row, the cascade looks up the dependents in table 1 under its own read lock, releases it, and later removes them under a write lock; table 0's row is removed after that. Another thread may push a dependent in between: when everything is done the row is there and refers to a deleted row (C77_dependents_refuted), and no order of the two calls gives these tables (C77_one_by_one_refuted). Positive: C76 without deletions, C78 on separate tables.
* **C78** Threads that use different tables do not notice each other — Poison.v (threads with panics). A program logic (`fp`, ThreadApart.v) shows that a program locks only tables of its set; by C72's logic what it does depends only on what it has locked, by C70's nobody else changes that, so the run of the thread among others is step by step its run alone (`alone`, ThreadSeq.v), which is the sequential model's. No-waiting under the strict rule (a waiting writer blocks readers), except where the calls deadlock or never end by themselves.
* **C79** Libraries that sync first act as part of one program — Libs.v: several registries of Registry.v, and for every module the pointer V11_GLOBALS and whether its lock is poisoned. C79_as_one is a simulation with the one-registry model (Registry.v) under the documented protocol (`proper`); C79_syncs, C79_too_late and C79_unnoticed say when sync_globals panics and what follows. C79_unsynced_refuted: without syncing, a property lookup uses the library's own domain number in the main program's universe and can read another property of the same type. Not modelled: that trackers of a table from another module are registered by that module's copy of the crate.
* **C80** References never dangle in a careful program — IntegritySpec.v says what a careful program is (`careful`, `lives`), over the universe of Cascade.v. C80_sound is an invariant over all such programs (a consistent child keeps its references through push with reuse of freed ids and assignments; a sorted child through merges and retains; removal flushes by the cascade of C33); C80_integrity is the case without null references; C80_removal: progress and exact effect of deletion at any time. C80_missing_refuted and C80_handler_refuted: the care is necessary. Left out of the sessions: select_all, clear and clear_raw on consistent tables (with deleted rows they leave a stale free list, C17), live flush, restore and direct remove_rows.
* **C81** Under threads, every row that disappears was asked for or referred to such a row — BlameSpec.v defines `blame` from what the threads are to do (`tss`), the states visited (`history`) and the handlers, without the functions of the model that flush. BlameFacts.v carries a logic over the thread programs of Threads.v: what is on the list of a lock is `listed`, what is told to a tracker is `struck`, what a handler removes follows by `leads`. C81_blame: at every step; C81_ever: from the beginning to any moment; C81_bystander and C81_harmless: consequences. C81_now_refuted: with the references at the time of the loss it is false, because do_flush selects children under a read lock and removes them under a later write lock; a finding about the code. `listed_other` says nothing about locks of tables of other kinds; only consistent tables let trackers be registered, so this blames nothing by itself. Blame is about row ids, which may be reused.
* **C82** Deletion removes exactly the dependents whatever other threads do — refuted for sorted dependents (C82_sorted_refuted: positions selected before a merge are removed after it; table 2 of the `town` of CascadeCases.v, all hypotheses of C33 and C80 met). For consistent dependents C77_dependents_refuted and C81_now_refuted are the analogous findings. What holds: C82_apart_partial, from C78 (threads on other tables) and the cascade theorem of C33; missing in general is exactly what the refutation shows.
* **C83** A tracker that keeps book agrees with its table — proved for the programs of C80 that delete no row twice in a session and select only rows that are there (C83_mirror): induction over sessions, from the cascade theorem (C33), what is told in a cascade (C35, C56), and a new lemma about what is told when nothing is removed (`quiet_notes`). C83_silent shows for every universe that `Table::remove_rows` of chosen rows tells no tracker; C83_direct_refuted, C83_handler_refuted, C83_select_refuted show that the conditions are needed. A book keeps ids only, not what is in the rows.
* **C84** Calls on a consistent table fail only for the listed reasons — proved (C84_calls, C84_program, C84_flush). `succeeds` in LimitsSpec.v lists the condition of every call in terms of the table's rows and the earlier calls; C84_calls shows it exact (needed and enough) and that the only failure is a panic, never a jam or undefined behaviour. It excludes programs that empty the columns while rows are deleted (C17 is about them), `skip_fast` (C10) and ranges whose end is not a row id. C84_flush is for the sessions of C80 with cascades. Allocation failure and panics in user code are not part of the model here (C63 to C65 are about the latter).
* **C85** A table answers like a plain list of rows — proved (C85_answers, C85_said). Answers.v adds to Hist.v what the calls return; PlainSpec.v is the plain list (`acts` one call, `plays` a program). C85_answers is a simulation: the columns, free list and change log of the table stand in relation `rel` (PlainFacts.v) to the plain list after every call. The plain list says nothing (`Unsaid`) on programs that do not compile or wait for their own lock; in release builds on `skip_fast` past the largest usize (C88) and on a flush that deletes from an empty bag (C11); and (C87) on `retain`, `visit` and some `merge` of a table that uses its last row id; on closures that look at other rows than the one shown, and on BagIter (C29). C85_said shows that in debug builds these are all. It also covers what other properties call defects: two sets of ids are needed because `clear` leaves the free list (C17), and `find` never finds the last id (C04).
* **C86** The code written for a declaration is well named — REFUTED with exact characterisation (C86_refuted, C86_named, C86_complete, C86_when). Output.v lists what each part of macros/output.rs defines and uses, and the three functions that bind a local variable per column; `means` (OutputSpec.v) is lexical scoping. A column `i` shadows the iterator's counter in `Extraction::into_iter`, an indexed reference `all` gives a second `Read::select_all`. Mostly the build fails; but a column `selection` of the table's own row ids compiles, and `into_iter` then takes ids and values from the same iterator. Not modelled: names from the surrounding module (`use super::*`), types.
* **C87** retain, visit and merge return — REFUTED with exact characterisation (C87_refuted, C87_removed_rows_stay_refuted, C87_ends, C87_forever, C87_turns). FullSpec.v cuts the loops off after n turns; `endless` says that no n is enough. The model's own calls give the loop as many turns as there are rows; C87_turns shows that being done is final.
* **C88** An iterator never goes back and never yields a deleted row — REFUTED with exact characterisation (C88_refuted, C88_present, C88_yields, C88_edits). `wander` (SkipSpec.v) says what is yielded: a cursor and the highest row looked at, below which deletions are forgotten.
* **C89** A universe of tables answers like plain lists of rows — proved (C89_answers, C89_said). DbHist.v runs programs on the universe of Cascade.v: each table with the lock the program may hold on it. DbSpec.v is the plain version: `tell` goes through the trackers, `passes_on` is the tracker of a `foreign_auto` column, `referring` the rows it selects, `takes_out` is `remove_rows`. Each table stands in relation `rt` of C85 to its plain list; `tell_ok` (DbFacts.v) is the simulation of `do_flush` by induction on the depth. Unsaid: waiting for a lock of one's own, references by a sort key when the rows or ids are out of order (C37), nesting deeper than `fuel` (for references without circles the rank is enough: C89_said). Trackers written by hand only take note of what they are told, as in Cascade.v.
* **C90** In a consistent table a row id keeps standing for the same row — proved (C90_stable, C90_stays; C90_other_kinds_refuted shows that it is the consistent kind that makes it so). About the universes of DbHist.v. StableSpec.v: `left_alone` is a continuation of the program during which the row is there after every call and no call stores into it. Proved from the structure of the code alone, without the invariants of reachable tables: pushes only append or overwrite deleted rows, flushes only add to the free list or empty the columns, and no consistent table is ever moved about in. An id of a deleted row is used again (C90_case), and nothing tells the holder of the old id.
* **C91** Deleted rows are forgotten — refuted (C91_refuted) for `table.column[i]` with the plain id of a deleted row, which tests only the length (src/columns.rs:65-93); the flush that deletes a row leaves its values in the columns (C91_cells_stay). For all other programs proved (C91_alike): states that look alike (AlikeSpec.v: lengths, `contains`, `get_row` of rows there are, and what the lock remembers) tell every program the same, debug build. By C85: the plain lists of two such tables differ in free rows only, and no answer depends on those (`acts_twins`). `keeps_away` also excludes emptying columns while rows are deleted, after which the free list is stale (C17).
* **C92** Trackers may do what they like without undefined behaviour — proved (C92_safe). Acting.v: code is a `plan`, which chooses the next call from what the calls before returned; a tracker is a function from the calls of trackers so far to the plan it runs. Calls are those of DbHist.v, now waiting (EDeadlock) for locks of the callers, including the lock on the list of trackers. Tables keep the invariant of C01 (`tg`) through every call (`act_run_fair`), by induction on the depth of nesting. C92_silent: with trackers that do nothing, `act_flush` is `do_flush` of Cascade.v, and C92_same_calls that every call of a program is then the one of DbHist.v; so the model of acting trackers extends the one the other properties use.
* **C93** Trackers that act let the program go on — refuted as documented (C93_edit_refuted, C93_live_refuted, C93_register_refuted: EDeadlock). Under the discipline `tidy` of ActingSpec.v proved (C93_returns, C93_no_deadlock): the locks of all callers are read locks of tables (or lists of trackers) of higher rank (`above`), so no lock is waited for; fuel for as many levels as there are ranks suffices.
* **C94** Rows told of are valid, deleted rows go after the flush — refuted for cascades (C94_cascade_refuted): `Function::run` removes the rows before it calls `do_flush` for them. And for trackers that write to the table itself (C94_reused_refuted): one that removes the row told and pushes another, which gets the same id, loses it when the flush goes on to delete the rows told, and no tracker hears of that. Proved for the flush of the table itself, under the same discipline for trackers (C94_told_rows_valid, C94_after). "Valid" is stated by observation: trackers that first read any rows present at the flush, and panic unless they find exactly their contents, change nothing in any run.
* **C95** Propagation by hand does what `foreign_auto` does — proved (C95_by_hand): the plan `by_hand` (ActingSpec.v), which calls `find` for each row told and then `handler.run`, against `auto_handle` (Cascade.v), the derived tracker. The hypotheses are that the table exists and that no caller has it locked for writing (else both wait or fail, not always in the same way).
* **C96** A panic does not abort the process — refuted (C96_refuted: a panic of the program between `push` and `flush`; C96_get_refuted: of a call of the library; C96_tracker_refuted, C96_clumsy_refuted: of a tracker; C96_remove_refuted: of `remove_rows`; C96_two_refuted: of the drop of another lock; C96_push_refuted: in a program that flushes every change at once, `push` logs the row before it finds that the id from the free list is stale after a clear, C17). `Drop for Write` of a consistent table panics on unflushed changes without asking `thread::panicking()`. Abort.v runs the plans of Acting.v with what the locks remember when a panic goes through them (`left_over`); the code `ab` for an abort is a parameter, so "no abort" is "the outcome is that of Acting.v for every `ab`". Proved: C96_prompt (no abort if each change is flushed by the next call and no consistent table is cleared), C96_aborts and C96_never_returns (once a change waits, every panic aborts, and the program cannot return normally without flushing), C96_same (nothing else differs from Acting.v). Rust's rule that a panic in a destructor run by unwinding aborts is part of the trusted base.
* **C97** INVALID stands for no row — proved for tables with an id to spare: C97_absent (no call accepts the id), C97_push (no row gets it), C97_kept (rows that refer to nothing survive every flush of deleted rows, in all tables of the universe). Refuted: C97_full_refuted and C97_captured_refuted (a full table, as the documentation says), C97_clear_refuted (`select_$column` maps `Select::All` to `Select::All`, so clearing a table deletes every row of the tables that depend on it; C97_clear: always), C97_restore_refuted (`remap` knows nothing of INVALID, so UPDATE_ROW panics; C97_restore: always).
* **C98** A saved database is restored as a copy — proved by induction over the order of restoring: C98_backup (any number of tables and foreign columns; also after `set_identity_remap` if no row was deleted), C98_new_id (the renaming keeps the order and is injective), C98_order (no order works but those where each table with rows comes after those it refers to). Refuted: C98_order_refuted (a panic), C98_self_refuted (a table that refers to itself: `restore_extract` read-locks it while it holds the write lock; C98_self: always, even if nothing was saved), C98_identity_refuted (with `set_identity_remap` keys are kept although `push` numbers the rows anew). The specification is in `BackupSpec.v`. Sorted tables are excluded because of C43.
* **C99** A conversion of contexts that fails harms nothing — `ContextUnwind.v` follows each panic of `from` through what it drops; the vocabulary is in `ContextUnwindSpec.v`. C99_no_ub, C99_unwound (what may panic and what is then released and poisoned), C99_returns; C99_as_C52 and C99_as_C52_waits tie the model to that of C52. Refuted: C99_refuted and C99_collision (lock types of one name: the panic of the type check drops a zeroed guard; two `property!` statics of one name suffice), C99_abort_refuted (only with unflushed changes: C99_aborted), C99_zeroed_refuted and C99_zeroed (if `mem::zeroed` may not make guards, which is a switch of the model, exactly the conversions that keep a lock are undefined). The layout of `Option<Lock>` is not modelled: where `Some(zeroed())` reads as `None` (a guard whose only niche is a reference, like that of a property that is read), `from` panics at the `unwrap` of line 160 instead of keeping the lock.
* **C100** A context's locks are those of its universe — programs of several contexts and universes, with what rustc's borrow checker asks of them (`compiles` in `ContextUnwind.v`). C100_same_universe: by induction over programs. Refuted: C100_other_refuted (a context of universe 1 with a lock of universe 0), C100_refuted (universe 0 dropped, its lock used).
* **C101** What the iterator of a bag hands out can be used — `BagLoan.v` has memory for the iterator's cell and, for the table, a stack of references in the rules of Stacked Borrows; `b_compiles` says what rustc asks. C101_loop: programs like a for loop (`BagLoanSpec.v`), by an invariant. C101_effect: every program without undefined behaviour does what a cursor over a list of rows does (`cu_run`), by simulation. Refuted, in general: C101_left_behind (every handle, once the iterator was moved or dropped), C101_alias (every older table reference); and for common idioms: C101_collect_refuted, C101_find_refuted, C101_alias_refuted. What the iteration does to rows is C29 and C30.
* **C102** Columns are used under the lock of their table — `ColLoan.v`: a lock holds references to columns, each with the period of locking in which it was made. C102_at_home (no undefined behaviour unless columns of two universes are swapped), C102_named (without swaps a program does what it names: simulation by `p_run` of `ColLoanSpec.v`). Refuted: C102_refuted, C102_length_refuted (two universes), C102_named_refuted (two columns of one lock). The comment in the code knows of the first hole. Deleted rows, other kinds of tables, and swaps through `Edit`, which lead to the same columns, are left out.
* **C103** Iterators say how many rows are to come — `Hints.v` (on `RowRange.v`); `yields` of `HintsSpec.v` is what `next` gives until it gives nothing. C103_right, C103_not_past; C103_past says what happens otherwise. Refuted: C103_skip_refuted (skip_fast past the end), C103_backwards_refuted (`CheckedIter::from` accepts a backwards range that starts in the table). What a collection does with the hint is the standard library's, not modelled.
* **C104** Threads may register and look up properties — `PropThreads.v` (on `Registry.v`) cuts each call into steps at the accesses to `VAL.index` and at the lock of the registry; `PropThreadsSpec.v` has `data_race` and `shares_well`. C104_no_race, C104_in_order, C104_goes_on; C104_exact: for programs whose calls would succeed, exactly the programs that share well have no race. Refuted: C104_lookups_refuted (only lookups, of a property registered by its twin), C104_register_refuted (a lookup while another thread registers, which comments in the source forbid). Making `&mut VAL` while another thread reads is not counted as an access; domains, tables and universes are made before.
* **C105** While threads run, an id of a consistent table keeps standing for the same row — C105_stable, about the threads of `Threads.v` and the histories of `BlameSpec.v`; `StableThreadSpec.v` has `found` and `spares`. From C73 (each change of a table is one session, a removal or a restoring) and a lemma that a session which spares the row keeps it. The hypothesis about `clear_raw` is needed: C105_clear_raw_refuted.
* **C106** Row ids may be of any integer type — `RawIds.v` models ids, ranges, iterators and the accesses to tables over Z with a type given by sign and width (`usize` is another such type). C106_order, C106_next, C106_usize, C106_access, C106_strange, C106_contains, C106_iter; C106_natural_ranges and C106_natural_iters show that the natural numbers of `RowRange.v` lose nothing. That INVALID stands for no row like the default id (C97) is refuted for signed and for wide types (C106_invalid_refuted; exactly: C106_invalid), that inner_index is total for signed types (C106_inner_refuted).
* **C107** A selection selects the rows put into it — `Selects.v` models the methods of `Select` and `SelectIter`, with slices as lists. C107_made, C107_order, C107_all, C107_other, by induction on the calls.
* **C108** A caught panic leaves a proper table — in the model of `Unwind.v`. C108_in_step and C108_finds, by an invariant kept by every call wherever it stops (`CaughtFacts.v`: each primitive either is refused before it changes anything or succeeds), unless `Ord` of an indexed element panics or there are more rows than ids. Both exceptions are needed: C108_too_many_refuted (columns of different lengths), C108_ord_refuted (find misses a row and reports a wrong one), C108_torn_refuted (a bag mixes the values of two rows).
* **C109** When a table is lost to everyone — C109_flush_lost, C109_remove_lost, C109_close_lost, equivalences from the same invariant.
* **C110** An index changes no answer — C110_same, by a simulation (`IndexedFacts.v`): columns are equal, or have the same elements once with and once without an index, and every function of the model keeps this, call by call, panics included. Nothing is assumed about what is in the index. Calls of `find` are allowed on columns indexed in both. What is true of a column with an index only (`find`) is C02–C04; a panicking `Ord` is C64 and C108.
* **C111** Exactly which registrations are accepted, and which declarations can be read — C111_domain, C111_table, C111_property (each "if and only if"), C111_added, C111_others, C111_given, C111_proper, C111_one (which tables there are, by induction over the calls), C111_read (both directions). A registry whose lock is poisoned accepts nothing (C57); that a table of another Rust type can be accepted, but not read, is C49.
* **C112** What an indexed column shows after `Ord` panicked — C112_account, by induction over the calls (`OrdPanicFacts.v`); C112_wrong_row is the witness that `find` can be wrong afterwards. `boom` says for each key searched and each content of the map whether `Ord` panics; a search of an empty map compares nothing. `find` itself calling a panicking `Ord` is not included: it changes nothing. What is left of a table is C108 and C109.
* **C113** Universes when a domain is unlocked again — `Reopen.v` adds `set_locked` to the calls of `Registry.v`. The invariant of `ReopenFacts.v` is that of `RegistryFacts.v` without what locking gave: the values and tables of a domain in a universe are those of the first properties and tables of the domain. C113_same_tables_refuted is the witness that universes can differ; all else holds as C46 and C47 have it. The properties of `Registry.v` (C46, C47, C111) are of programs without `set_locked(false)`, which is hidden in the documentation and used by tests/addons.rs.
* **C114** What a universe says of itself — `About.v` has `get_domain_names`, `info` and `swap`; the worlds are those of C113. The list of domains depends only on which of a universe's slots are set, which is followed through all calls in `AboutFacts.v`. `info` is modelled to the character; the order in which a `HashMap` gives the tables is a parameter. The `Debug` texts are not modelled.
* **C115** Rows added to a database in use — the model is that of C58/C98 (`Extract.v`); C98 is the case of empty tables and of all rows. `ImportSpec.v` says what `added` means with one function from old to new ids per table. `ImportFacts.v`: `push_loop_into` shows that pushing succeeds while the number of rows (not the number of ids used: deleted ids are used again) fits, `restore_into` does one table, `imports_all` is the induction over tables with what the flush of each table done so far answers. The conclusion contains the hypotheses on the database again, so it can be iterated. Refuted parts: `C115_identity_refuted` (copies refer to wrong rows with `set_identity_remap`, also if nothing was deleted where they were saved) and `C115_complete_refuted` (`restore_extract` returns before `set_remapping` if it pushed nothing, so the remapping of an earlier restore is used for keys that were not saved).
* **C116** References stay sound in programs that also restore saved rows — `LifeSpec.v` extends the programs of C80 (`lives`) by additions of saved rows (`grows`; whole additions, so `restore_all` as one step). The invariant of C80 (`inv` in `IntegrityFacts.v`) is shown to be kept by an addition, with C115, and that of C115 on flush states by sessions (`framed_do`: flushing neither registers trackers nor makes tables). Restricted to consistent tables as targets (of the others `inv` does not keep enough to apply C115; C115 itself covers them).
* **C117** Restoring is pushing — the model is that of C58 (`Extract.v`), compared with sessions (`do_edits` and `flush`, as in C80). `RepushSpec.v` says what the rows of an extraction are and when their keys are remapped, without the iterator and the loop of the model. `RepushFacts.v`: `for_rows_saved`/`for_rows_across` (the loop over an extraction is the loop over its rows, and reaching its end shows that there are such rows), `turns_push`/`push_turns`, `restore_pushes`/`pushes_restore`; then `mirror_step` applies the lemma behind C83 to each restore of an addition, using what `midway` of C115 knows half way.
* **C118** Flushing without unlocking is flushing — the model is `Cascade.v` (the locks held are an argument of `do_flush`; `live_flush` adds that of the table). `LiveSpec.v` says which programs are meant (`works`). `LiveFacts.v`: `more_do` (a lock on a table that does not depend on itself makes no difference to what its trackers do), `flush_live`; `do_path`/`path_long` (a flush that succeeds bounds the length of chains of dependent tables, and a table that depends on itself has chains of any length); `flagged` (the flags of a lock are set only if rows are listed), `live_fresh`; `works_lives` turns each `live_flush` into a session of C80 and C83. Only what C38 is about (the read lock of the remapping that `live_flush` after a restore leaks) is outside: these programs do not restore.
* **C119** Clearing tables keeps references sound and books right — the model is that of C80 and C83. `ClearSpec.v` says which programs are meant (`sweeps`, `wipes`, `none_deleted`). `ClearFacts.v`: `wipe_lock` (the lock lists all rows), `clear_inv` (the invariant behind C80 after the cascade of C32/C33 for cleared tables: what refers to an emptied table is emptied too), `calls_only`/`calls_all` (which trackers the walk of C56 calls) and `book_all` (calls for all rows leave an empty book), `clear_mirror`, `sweeps_inv`, `sweeps_mirror`. `C119_deleted_refuted`: the condition on deleted rows is needed (the free list is not emptied, C17).
* **C120** Programs that do everything keep references sound and books right — the model is that of C80, C83 and C116–C119. `MixSpec.v` says which programs are meant (`runs`: a universe with the states of its trackers, and the lock held for writing, if any). `MixFacts.v`: `lasting` is kept by each step (`session_inv`, `clear_inv`, `import_lives`, `live_fresh`; tables whose trackers are locked for good by `live_flush`, C38, are allowed as long as nothing is added to them: parameter `lk` of `alive` in `LifeFacts.v`), `select_follows` (what trackers are told of selected rows, from the walks of C56 and C83), `import_follows`, `runs_attends` (each step keeps every right book right; `follows` in `MirrorFacts.v`). `C120_includes`: programs of C117–C119 are among these. Rows that are added may refer to rows of tables that stay, if these were told to remap ids to themselves (`addable` in `LifeSpec.v`, `import_but` in `ImportFacts.v`; `set_identity_remap` is one of the steps of a program). `C120_leaked_refuted`: the condition on `live_flush` is needed. Not covered: deletions while a read lock is held, and clearing with `live_flush`.
* **C121** Trackers registered later can keep book — the model is that of C120, with `x_register_tracker` of `Extract.v`. `MixFacts.v`: `register_inv`, `extends` (trackers stay where they are), `attends_register`, `runs_extends`, `runs_since`: the steps of a program keep right any book that is right, of trackers that are registered already, so a book that starts with the rows there are stays right; nothing is needed of the notes before.
* **C122** Deleted rows that were saved can be brought back — the model is that of C120. `UndoSpec.v`: `cascading` (all references are `foreign_auto`), `covers` (what is saved is what is lost; `doomed` in `CascadeSpec.v`), `self_contained`, `renumbered` (the same rows under a renaming of ids that references follow). `UndoFacts.v`: `undo_from` (for any way of losing rows), `undo`, from `removal_full` (C80) and `runs_imports` (C120); the renaming is the one of `import_but` for lost rows, and leaves the others alone; deleted rows leave enough room (`room`). `C122_stays_refuted`: `set_identity_remap` is needed for tables that stay. Rows of sorted tables are not brought back so: their keys are not remapped when they are restored, see C43; nor are rows that refer to surviving rows of a table of which others are lost, as one table cannot both remap ids as usual and to themselves.
* **C123** Cleared tables can be filled again from what was saved — as C122, with `wiped` (`UndoSpec.v`) for what is lost; `refill` in `UndoFacts.v`, from `undo_from` and `clear_flush` (C119).
* **C124** Rows can be deleted in any order and in several steps — `BatchSpec.v` says what deleting those of some rows that are there is (`deletes`) and when two states have the same rows (`same_rows`: same lengths, same rows at the same ids). `deletes_all` does so any number of times; `asked` is which rows were named. `BatchFacts.v`: `two` shows that a step after others loses what it would have lost before them, if not lost already (`steps`, and `all_steps` for any number; `any_steps` is the general theorem, from which `commute` and `batches` follow): for consistent tables, whose ids stay, by induction over `doomed` (`less`, `more`); for sorted ones by translating positions of the second step back through the first (`without_without` of `CascadeFacts.v`). `loses_same`: what is lost determines what is left. `PropsBatch.v` instantiates it with four tables, one sorted, where either order takes other rows along first.
* **C125** Clearing a table does what deleting all of its rows does — `BatchSpec.v`: `no_strays` (every row of the dependent tables refers to something), `alike_rows`. `BatchFacts.v`: `clearing`, from `deleted_some` (C124) and `clear_flush` (C119); `all_doomed` shows by induction over the ranks of tables that no row of dependent tables survives the deletion. `C125_strays_refuted` shows that the condition is needed.
* **C126** Watching changes nothing — programs are those of `DbHist.v` (C89), their calls marked; `WatchSpec.v` says which may be left out (`droppable`), what program is left (`thinner`), and what of the answers and notes (`thinner_talk`, where positions of trackers are counted among those left). `WatchFacts.v`: a simulation (`R`: same tables and handlers, trackers picked by the marks, notes likewise) through `do_flush` (induction over the depth of calls, `do_flush_R`), all calls (`step_RD`, `track_J`) and programs (`thinner_ok`); no invariant of tables is used, so it holds of programs that go wrong, too. `C126_sorted_refuted` shows why trackers that sort are excluded.
* **C127** Cascades nest no deeper than references do — the depth of calls is the `fuel` of `do_flush` (`Cascade.v`), so the property is that results do not depend on it: `deep_enough` (`DepthFacts.v`; all bounds above the ranks give the same result, errors included) and `deeper` (no circle-freeness assumed). This also justifies `fuel` as a modelling device: no theorem about acyclic universes depends on its value.
* **C128** Tables that refer to others change nothing for these — `LayerSpec.v` says which calls are left (`inner`), and which programs it is about (`layered`); `thinner_talk` of `WatchSpec.v` is what the remaining calls and trackers see. `LayerFacts.v`: a simulation (`R`: the same tables, locks and trackers but for those left out), in which calls on tables that are left out are steps of one side only (`flush_side`, `auto_side`, `do_flush_side`, `step_side`) and the other calls go together (`do_flush_R`, `step_RD`). That tables keep their kinds comes from C90. `C128_sorted_refuted` shows that sorted tables must be excluded, `C128_locked_case` that the converse fails.
* **C129** Debug and release builds differ only where a debug build reports an overflow — no spec beyond the programs of C89 (`db_talks`) and C38 (`x_run`). `BuildFacts.v`: the relation `ov` (the debug run is an overflow, or the runs are equal) is kept by `bind`, loops and every function of the model down to `rid_next`, `usub`, `uadd`, which alone read the profile. What is not in the model cannot be covered: the program's own arithmetic, and the `debug_assert!`s at src/index.rs:345-346 and src/domain.rs:70, in functions that programs of this kind do not call. `C129_alike_refuted` shows that the overflow cannot be left out. `C129_acting` (`ActBuildFacts.v`): the same for trackers that act and programs that react (the model of C92). `C129_threads` and `C129_threads_back` (`ThreadBuildSpec.v`, `ThreadBuildFacts.v`): the same for the threads of C68, in both directions; programs of different builds are related as trees (`pov`), and each step of one is a step of the other while no debug thread has overflowed. `C129_poisoning` and `C129_poisoning_back` (`CrowdBuildFacts.v`): the same with the poisoned locks of C74, which are the same in both builds.
* **C130** Groups of tables that do not refer to each other have nothing to do with each other — `ApartSpec.v` says which calls belong to a group (`of_group`), when tables refer only within their group (`apart`), and picks from the results of a program those of a group (`part`). `ApartFacts.v`: two universes that agree on a group do the same for calls on it (`R`, `do_flush_R`, `step_RD`), a call leaves the other groups as they are (`F`, `do_flush_F`, `step_F`); `C130_parts` follows by induction over the program, `C130_whole` by keeping one run for each group at once, `C130_shuffle` from both. `C130_refer_refuted` shows that references between groups must be excluded. (C78 is about groups used by different threads.)
* **C131** Adding columns at the end of a table changes nothing about the others — `CutSpec.v` says what a declaration, a row, an answer and a call are without the additional columns (`cut_sch`, `cut_answer`, `fewer`, `only_extra`); a program comes as pairs of a call and what becomes of it. `CutFacts.v` proves for each function of the model that if it succeeds on the larger table then it does the same on the smaller one (`cuts`; the length of a table is that of its first column, which stays), and that assignments to additional columns are not seen; `C131_fewer_columns` follows by induction over the program, with `step_tg` for columns of equal length, which closures that read rows need. `CutMore.v` shows that the plain lists of C85 do the same on cut rows (`cl_plays`), so with `C85_answers` and `C85_said` success is carried back to the larger table (`C131_more_columns`; debug builds, programs C85 says something about, no calls that are only about the additional columns). `C131_order_refuted` shows that orders that depend on the additional columns must be excluded.
* **C132** The order in which columns are declared does not matter — `ChooseSpec.v` says what a declaration, a row, an answer and a call become when the columns are those listed in `pi` (`choose_sch`, `choose_row`, `choose_answer`, `moved`). `ChooseFacts.v` shows that the plain lists of C85 do the same on rows with the columns of the new declaration (`cl_plays`; rows have the right length by the relation of `PlainFacts.v`), so `C132_order_of_columns` follows from `plays_ok` for both tables. Restricted as C85 is: debug builds, programs that compile and do not wait for their own lock, closures that look at the row they are shown, no BagIter. `C132_twice_refuted` shows that a column must not be there twice.
* **C133** A larger row id type changes nothing for programs that fit in the smaller one — `WiderSpec.v`: the declaration with another largest id (`with_ids`) and what may differ in an answer (`wider`). `WiderFacts.v` shows it for the plain lists of C85 (`wd_acts`: same rows, free ids and lock on both sides; free ids are ids of the smaller type by the relation of `PlainFacts.v`), and `plays_ok` carries it to the tables. Restricted as C85 is: debug builds, no BagIter. `C133_release_refuted` shows that release builds must be excluded.
* **C134** For programs that delete nothing, the kind of a table does not matter — `KindSpec.v`: the declaration with another kind (`with_kind`), the calls that delete nothing (`deletes_nothing`) and those that tell the trackers properly (`tells`). `KindFacts.v` shows it for the plain lists of C85: both sides have the same rows and no free ids, only the two locks remember different things, and where the first has nothing to tell the second has not either (`kin`, unless only the second is consistent). Sorted tables are left out, as rows are not pushed there but merged. `C134_close_refuted` and `C134_delete_refuted` show that the conditions are needed. Debug builds only, as `plays` says everything only about these.
* **C135** What the rows hold does not matter — `RenameSpec.v`: rows, actions and answers with other values (`rename_row`, `rename_act`, `rename_answers`; a cell by the column it was asked from), the declaration with other element types (`with_types`, `same_indexes`) and which calls correspond (`renamed`). `RenameFacts.v` shows that the plain lists of C85 commute with it (`cl_acts`), and `plays_ok` carries it to the columns, bit vectors and search trees on both sides. The order of the search tree is that of `val_cmp` for the old and the new values; C135 says that it does not show. `C135_same_refuted`: values that are looked for must stay apart. Debug builds only, as for C132 to C134. `PropsAnyBuild.v` carries C132 to C135 to all builds for programs that succeed in a debug build (`AnyBuild.v`: by the comparison of builds of C129, call by call).
* **C136** Columns of the tables of a database — `ViewSpec.v`: declarations and answers changed table by table (`each_table`, `each_answer`), and which calls correspond (`db_moved`: C132's `moved` for calls on a table, and the number of the column with which a table refers to another). `ViewFacts.v` has one simulation of the plain lists of C89 by plain lists with other rows (Section Views: flushes, trackers, cascades), used for C136 and C137; `db_plays_ok` carries it to the columns and trees on both sides. Any build by C129's comparison of builds.
* **C137** Values of the rows of a database — `retyped` and `db_renamed` in `ViewSpec.v` (C135's `renamed`; a tracked column keeps its values). `C137_references_refuted`: references may not be replaced, not even one-to-one, as other rows would go with the row referred to.
* **C138** The place of tables in a database — `PlaceSpec.v` renumbers tables in calls, trackers and what trackers are told (`place_call`, `place_note`, `placed`). `PlaceFacts.v`: a simulation of the model itself (not of the plain lists), so errors and waiting are the same too, in every build and without conditions on the program but that it names tables that there are (`about`). `C138_apart_refuted`: different tables need different places. Simplification: tables are numbered in the model, where the code finds them by type in the `Universe`; that part (registering, looking up) is modelled in `Registry.v`, `About.v` and `Reopen.v`. `C138_acting` (`PlaceActSpec.v`, `PlaceActFacts.v`) says it for trackers that act and programs that react to what they are told (the model of C92): corresponding plans are given by `same_plan`; the tables themselves and what trackers were told end up the same, and other tables stay empty. `C138_restoring` (`PlaceXSpec.v`, `PlaceXFacts.v`) says it for programs that save and restore tables (`x_run`, C38): from corresponding universes (`x_placed`) with the same code for the tables (`same_code`), corresponding universes with the same remappings are reached, and other tables are left alone. `C138_threads` and `C138_threads_back` (`PlaceThreadSpec.v`, `PlaceThreadFacts.v`) say it for the threads of C68, step by step and in both directions (programs related as trees, `pp`; locks renumbered).
