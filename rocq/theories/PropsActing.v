(** C92-C95: trackers that act. *)
From Coq Require Import List Arith Bool ZArith.
From Verif Require Import Base Column Order RowRange Table SortedTab Events Cascade Hist Answers DbHist Acting ActingSpec ActingFacts ActingTold Cases ActingCases.
Import ListNotations.

(** Whatever trackers do when they are told of rows (lock tables, edit, push, delete, flush, register further trackers, pass rows to the handler,
    panic), with values of the right types: neither they nor the program do anything undefined, and tables keep their columns. *)
Theorem C92_safe pr umax fuel schs react m :
  Forall (fun s => s_cols s <> []) schs -> pr = Debug \/ Forall (fun s => s_kind s <> Bag) schs ->
  (forall log, always (deed_ty schs) (react log)) -> always (deed_ty schs) m ->
  act_run pr umax react fuel schs m <> Err EUB /\ forall u, act_run pr umax react fuel schs m = Ok u -> map t_sch (u_tabs u) = schs.
Proof. exact (acting_safe pr umax fuel schs react m). Qed.
Print Assumptions C92_safe.

(** With trackers that do nothing, flushes are those of Cascade.v. *)
Theorem C92_silent pr umax fuel u h p ev a b s :
  act_flush pr umax (fun _ => PEnd) fuel u h p ev a b s = do_flush pr umax fuel u h p ev a b s.
Proof. exact (acting_silent pr umax fuel u h p ev a b s). Qed.
Print Assumptions C92_silent.

(** And each call of a program does what it does in DbHist.v. *)
Theorem C92_same_calls pr umax fuel d c : length (d_l d) = length (u_tabs (d_u d)) ->
  act_step pr umax (act_flush pr umax (fun _ => PEnd) fuel) None [] d c = db_step pr umax fuel d c.
Proof. exact (same_calls pr umax fuel d c). Qed.
Print Assumptions C92_same_calls.

Example C92_case :
  Forall (fun s => s_cols s <> []) village /\ Forall (fun s => s_kind s <> Bag) village /\
  (forall log, always (deed_ty village) (clerk log)) /\ always (deed_ty village) (chain (settle ++ dies)) /\
  rows_of (act_run Debug 255 clerk 3 village (chain (settle ++ dies))) = Some [[None; Some r2]; [None; Some [VInt 11; VRow 1]]; [Some r1]] /\
  rows_of (act_run Release 255 clerk 3 village (chain (settle ++ dies))) = Some [[None; Some r2]; [None; Some [VInt 11; VRow 1]]; [Some r1]].
Proof.
  split; [exact village_cols|]. split; [exact village_kinds|]. split; [exact clerk_ty|]. split; [exact (settle_ty _ dies_ty)|]. vm_compute. auto.
Qed.

(** Trackers that take one lock at a time and act on tables below the one they are told of only, in some ranking of the tables, never wait for ever;
    and calls of trackers are not nested deeper than there are ranks.  So the program comes to an end, or panics. *)
Theorem C93_returns umax fuel schs rank react m :
  Forall (fun s => s_cols s <> []) schs -> (forall log, always (deed_ty schs) (react log)) -> always (deed_ty schs) m ->
  tidy_trackers schs rank react -> tidy schs rank fuel None m ->
  (exists u, act_run Debug umax react fuel schs m = Ok u) \/ exists c, act_run Debug umax react fuel schs m = Err (EPanic c).
Proof. exact (acting_returns umax fuel schs rank react m). Qed.
Print Assumptions C93_returns.
Theorem C93_no_deadlock pr umax fuel schs rank react m :
  Forall (fun s => s_cols s <> []) schs -> pr = Debug \/ Forall (fun s => s_kind s <> Bag) schs ->
  (forall log, always (deed_ty schs) (react log)) -> always (deed_ty schs) m ->
  tidy_trackers schs rank react -> tidy schs rank fuel None m -> act_run pr umax react fuel schs m <> Err EDeadlock.
Proof. exact (acting_no_deadlock pr umax fuel schs rank react m). Qed.
Print Assumptions C93_no_deadlock.

Example C93_case :
  tidy_trackers village village_rank clerk /\ tidy village village_rank 3 None (chain (settle ++ dies)) /\
  rows_of (act_run Debug 255 clerk 3 village (chain (settle ++ dies))) <> None.
Proof. split; [exact clerk_tidy|]. split; [apply main_tidy; auto|]. vm_compute. discriminate. Qed.

(** The documentation lets trackers lock the table they are told of, for editing.  Then the program waits for ever if rows are deleted by a cascade; it goes
    well if they are deleted directly. *)
Theorem C93_edit_refuted : exists schs react m m',
  (forall log, always (deed_ty schs) (react log)) /\ always (deed_ty schs) m /\ always (deed_ty schs) m' /\
  (forall log, react log = PEnd \/ exists p k i v, told_of log = Some p /\ react log = chain [On p (Do OLock); On p (Do (OAssign k i v)); On p (Do OClose)]) /\
  rows_of (act_run Debug 255 react 3 schs m) = Some [[Some r1; Some r2]; [None; Some [VInt 12; VRow 1]]; []] /\
  act_run Debug 255 react 3 schs m' = Err EDeadlock.
Proof.
  exists village, vet, (chain (settle ++ runs_away)), (chain (settle ++ dies)). split; [exact vet_ty|]. split; [exact (settle_ty _ runs_away_ty)|].
  split; [exact (settle_ty _ dies_ty)|]. split; [exact vet_edits|]. vm_compute. auto.
Qed.
Print Assumptions C93_edit_refuted.
(** And [live_flush] waits for ever if a tracker only looks at a row it is told of. *)
Theorem C93_live_refuted : exists schs react m,
  (forall log, always (deed_ty schs) (react log)) /\ always (deed_ty schs) (m (LiveFlush 0 ev_delete)) /\
  (forall log, react log = PEnd \/ exists p i, told_of log = Some p /\ react log = chain [On p (Do (OGet i))]) /\
  rows_of (act_run Debug 255 react 3 schs (m (Flush 0 ev_delete))) = Some [[None; Some r2]; [None; Some [VInt 11; VRow 1]]; []] /\
  act_run Debug 255 react 3 schs (m (LiveFlush 0 ev_delete)) = Err EDeadlock.
Proof.
  exists village, nurse, (fun c => chain (settle ++ [On 0 (Do OLock); On 0 (Do (ODelete 0)); c])). split; [exact nurse_ty|]. split; [exact (settle_ty _ live_ty)|].
  split; [exact nurse_looks|]. vm_compute. auto.
Qed.
Print Assumptions C93_live_refuted.
(** And a tracker that registers another for the table it is told of. *)
Theorem C93_register_refuted : exists schs react m,
  (forall log, react log = PEnd \/ exists p tr, told_of log = Some p /\ react log = chain [Track p tr]) /\ always (deed_ty schs) m /\
  rows_of (act_run Debug 255 (fun _ => PEnd) 3 schs m) = Some [[Some r1; Some r2]; [Some [VInt 10; VRow 0]; Some [VInt 11; VRow 1]]; []] /\
  act_run Debug 255 react 3 schs m = Err EDeadlock.
Proof. exists village, recruiter, (chain (settle ++ [])). split; [exact recruits|]. split; [exact (settle_ty _ (Forall_nil _))|]. vm_compute. auto. Qed.
Print Assumptions C93_register_refuted.

(** Trackers that keep to tables below: a row which is there when the table is flushed is still there, with its contents, whenever a tracker
    of the table is told of rows, be they created or deleted.  (Trackers that look at such rows first, and panic unless they find them, make no difference.) *)
Theorem C94_told_rows_valid pr umax fuel rank react u h p w ev peek :
  tidy_trackers (map t_sch (u_tabs u)) rank react ->
  (forall q tr, In tr (u_trackers u q) -> leads_down (map t_sch (u_tabs u)) rank q tr) ->
  p < length (u_tabs u) -> can_read h p = true ->
  (forall log i r, In (i, r) (peek log) -> t_get_row (w_tab w) i = Ok r) ->
  flush_with pr umax (act_flush pr umax (looking p peek react) fuel) u h p w ev = flush_with pr umax (act_flush pr umax react fuel) u h p w ev.
Proof. intros T D. exact (told_rows_valid pr umax fuel rank react u T D h p w ev peek). Qed.
Print Assumptions C94_told_rows_valid.
(** After the flush the rows told are gone, if the event is a removal, and no others; and tables not below are as before. *)
Theorem C94_after pr umax fuel rank react u h p w ev u' :
  tidy_trackers (map t_sch (u_tabs u)) rank react ->
  (forall q tr, In tr (u_trackers u q) -> leads_down (map t_sch (u_tabs u)) rank q tr) ->
  p < length (u_tabs u) -> can_read h p = true -> t_kind (w_tab w) = Consistent ->
  flush_with pr umax (act_flush pr umax react fuel) u h p w ev = Ok u' ->
  (exists t, nth_error (u_tabs u') p = Some t /\ forall i r, t_get_row t i = Ok r <-> t_get_row (w_tab w) i = Ok r /\ ~ (ev_removal ev = true /\ named (w_changes w) i)) /\
  forall q, q <> p -> rank p <= rank q -> nth_error (u_tabs u') q = nth_error (u_tabs u) q.
Proof. intros T D. exact (deleted_after pr umax fuel rank react u T D h p w ev u'). Qed.
Print Assumptions C94_after.

Example C94_case :
  tidy_trackers (map t_sch (u_tabs settled)) village_rank clerk /\
  (forall q tr, In tr (u_trackers settled q) -> leads_down (map t_sch (u_tabs settled)) village_rank q tr) /\
  t_get_row (w_tab dying) 0 = Ok r1 /\ t_get_row (w_tab dying) 1 = Ok r2 /\
  rows_of (flush_with Debug 255 (act_flush Debug 255 (looking 0 (fun _ => [(0, r1); (1, r2)]) clerk) 3) settled [] 0 dying ev_delete) =
    Some [[None; Some r2]; [None; Some [VInt 11; VRow 1]]; [Some r1]] /\
  flush_with Debug 255 (act_flush Debug 255 (looking 0 (fun _ => [(0, r2)]) clerk) 3) settled [] 0 dying ev_delete = Err (EPanic PUser).
Proof. split; [exact clerk_tidy|]. split; [exact settled_down|]. vm_compute. auto. Qed.

(** But the rows a cascade deletes are gone already when their trackers are told: looking at them panics, though the documentation says that they are still valid. *)
Theorem C94_cascade_refuted : exists schs rank react m,
  tidy_trackers schs rank react /\ tidy schs rank 3 None m /\ (forall log, always (deed_ty schs) (react log)) /\ always (deed_ty schs) m /\
  (forall log, react log = PEnd \/ exists p k ev i l, news log = Some (Note p k ev (SThese (i :: l))) /\ react log = chain [On p (Do (OGet i))]) /\
  rows_of (act_run Debug 255 (fun _ => PEnd) 3 schs m) = Some [[None; Some r2]; [None; Some [VInt 11; VRow 1]]; []] /\
  act_run Debug 255 react 3 schs m = Err (EPanic PDeletedRow).
Proof.
  exists village, village_rank, neighbour, (chain (settle ++ dies)). split; [exact neighbour_tidy|]. split; [apply main_tidy; auto|].
  split; [exact neighbour_ty|]. split; [exact (settle_ty _ dies_ty)|]. split; [exact neighbour_looks|]. vm_compute. auto.
Qed.
Print Assumptions C94_cascade_refuted.

(** And a tracker that writes to the table it is told of may lose a row: it removes the row told and pushes another, which gets the same id; then the flush deletes
    that one.  The last thing trackers are told of the table is that the row was created. *)
Theorem C94_reused_refuted : exists schs react m u i r t log,
  (forall l, always (deed_ty schs) (react l)) /\ always (deed_ty schs) m /\
  act_run Debug 255 react 3 schs m = Ok u /\ u_log u = log ++ [Note 0 1 ev_create (SThese [i])] /\
  (exists l, react l = chain [RemoveRows 0 ev_delete (SThese [i]); On 0 (Do OLock); On 0 (Do (OPush r)); Flush 0 ev_create]) /\
  nth_error (u_tabs u) 0 = Some t /\ t_contains t i = false /\ (forall j, t_get_row t j <> Ok r).
Proof.
  exists village, heir, (chain (settle ++ dies)), inherited, 0, r3, (nth 0 (u_tabs inherited) (t_new (sch Consistent))), (removelast (u_log inherited)).
  split; [exact heir_ty|]. split; [exact (settle_ty _ dies_ty)|]. split; [vm_compute; reflexivity|]. split; [reflexivity|].
  split; [exists [Note 0 1 ev_delete (SThese [0])]; reflexivity|]. split; [reflexivity|]. split; [reflexivity|].
  intros [|[|j]]; vm_compute; discriminate.
Qed.
Print Assumptions C94_reused_refuted.

(** Propagation written by hand, with [find] and [handler.run], does what the tracker of a [foreign_auto] column does: with any handler, event and rows, any other trackers,
    and whether it succeeds, panics or waits for ever. *)
Theorem C95_by_hand pr umax react fuel hd h u c k ev rows :
  c < length (u_tabs u) -> can_read h c = true ->
  perform pr umax (act_flush pr umax react fuel) (Some hd) h (by_hand c k ev rows) (unlocked u) =
  auto_handle pr umax (act_flush pr umax react fuel) hd u h c k false ev rows.
Proof. exact (by_hand_same pr umax (act_flush pr umax react fuel) hd h u c k ev rows). Qed.
Print Assumptions C95_by_hand.
Example C95_case :
  1 < length (u_tabs settled) /\ can_read [] 1 = true /\
  rows_of (auto_handle Debug 255 (act_flush Debug 255 clerk 3) HDelete settled [] 1 1 false ev_delete (SThese [1])) =
    Some [[Some r1; Some r2]; [Some [VInt 10; VRow 0]; None]; []] /\
  (forall l, l = dies \/ l = runs_away ->
     rows_of (act_run Debug 255 steward 3 village (chain (settle_by_hand ++ l))) = rows_of (act_run Debug 255 (fun _ => PEnd) 3 village (chain (settle ++ l)))) /\
  rows_of (act_run Debug 255 steward 3 village (chain (settle_by_hand ++ dies))) = Some [[None; Some r2]; [None; Some [VInt 11; VRow 1]]; []].
Proof. split; [vm_compute; repeat constructor|]. split; [reflexivity|]. split; [vm_compute; reflexivity|]. split; [intros l [-> | ->]; vm_compute; reflexivity|vm_compute; reflexivity]. Qed.
