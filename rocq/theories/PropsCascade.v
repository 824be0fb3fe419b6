(** Property theorems about several tables: cascading removal and notifications, C32-C37 and C56. *)
From Coq Require Import List Arith Bool ZArith.
From Verif Require Import Base Column Order RowRange Table SortedTab BagTab TableSpec Hist Events Cascade CascadeSpec
  CascadeProps CascadeLog CascadeCalls CascadeClear Cases CascadeCases.
Import ListNotations.

(** C32.  Tables refer to each other by [#[foreign_auto]] columns, not in a circle, from consistent or sorted
    tables, and nothing dangles.  After deleting rows and flushing a removal, nothing dangles at any depth. *)
Theorem C32_integrity :
  forall pr umax rank u p w ids ev,
  linked pr umax rank u -> plain_removal ev -> nth_error (u_hdl u) (ev_id ev) = Some HDelete ->
  nth_error (u_tabs u) p = Some (w_tab w) -> sane pr umax (t_sch (w_tab w)) (Locked w []) ->
  t_kind (w_tab w) = Consistent -> w_changes w = SThese ids -> w_pushed w && w_delete w = false ->
  Forall (fun i => i < t_len (w_tab w)) ids -> no_repeats u ids ->
  forall fuel u', integrity u -> rank p < fuel -> flush pr umax fuel u [] p w ev = Ok u' -> integrity u'.
Proof. exact flush_integrity. Qed.
Print Assumptions C32_integrity.

(** C33 and the first half of C34.  In the same setting (even if something dangles) the flush succeeds, with fuel as
    high as the rank of the table, and every table loses exactly the rows that were deleted or refer, directly or not,
    to a deleted row; the other rows of consistent tables keep their ids, of sorted tables their order (C37). *)
Theorem C33_C34_C37_cascade :
  forall pr umax rank u p w ids ev,
  linked pr umax rank u -> plain_removal ev -> nth_error (u_hdl u) (ev_id ev) = Some HDelete ->
  nth_error (u_tabs u) p = Some (w_tab w) -> sane pr umax (t_sch (w_tab w)) (Locked w []) ->
  t_kind (w_tab w) = Consistent -> w_changes w = SThese ids -> w_pushed w && w_delete w = false ->
  Forall (fun i => i < t_len (w_tab w)) ids -> no_repeats u ids ->
  forall fuel, rank p < fuel ->
  exists u', flush pr umax fuel u [] p w ev = Ok u' /\
    u_trk u' = u_trk u /\ u_hdl u' = u_hdl u /\ length (u_tabs u') = length (u_tabs u) /\
    forall c t, nth_error (u_tabs u) c = Some t -> exists t', nth_error (u_tabs u') c = Some t' /\ t_sch t' = t_sch t /\
      loses (doomed u p ids c) t t' /\ (c = p \/ sane pr umax (t_sch t) (Free t) -> sane pr umax (t_sch t) (Free t')).
Proof. exact flush_cascade. Qed.
Print Assumptions C33_C34_C37_cascade.
(** Rows 0 and 2 of table 0 are deleted; tables 1 (indexed) and 2 (sorted by the reference) refer to it, 3 to 1. *)
Example C32_C33_C37_case :
  linked Debug 255 town_rank town /\ plain_removal ev_delete /\ nth_error (u_hdl town) 2 = Some HDelete /\
  nth_error (u_tabs town) 0 = Some (w_tab marked) /\ sane Debug 255 (t_sch (w_tab marked)) (Locked marked []) /\
  t_kind (w_tab marked) = Consistent /\ w_changes marked = SThese [2; 0] /\ w_pushed marked && w_delete marked = false /\
  Forall (fun i => i < t_len (w_tab marked)) [2; 0] /\ no_repeats town [2; 0] /\ integrity town /\
  exists u', flush Debug 255 3 town [] 0 marked ev_delete = Ok u' /\
    rows_of u' 0 3 = [None; Some r2; None] /\
    rows_of u' 1 3 = [None; Some [VInt 11; VRow 1]; None] /\
    rows_of u' 2 2 = [Some [VRow 1; VInt 3]; None] /\
    rows_of u' 3 2 = [None; Some [VInt 21; VRow 1]].
Proof.
  split; [exact town_linked|]. split; [calcs || (repeat constructor)|]. split; [calc|]. split; [calc|].
  split; [exact town_lock|]. split; [calc|]. split; [calc|]. split; [calc|]. split; [repeat constructor|].
  split; [left; repeat constructor; cbn; intuition discriminate|]. split; [exact town_integrity|].
  eexists. split; [calc|]. calcs.
Qed.

(** C32, C33 when a table is emptied with [clear] (or every row is selected): so are all tables that depend on it,
    directly or not (also rows whose reference is to nothing), and no other table is touched. *)
Theorem C32_C33_clear :
  forall pr umax rank u ev,
  acyclic rank u -> removable u -> plain_removal ev -> nth_error (u_hdl u) (ev_id ev) = Some HDelete ->
  forall fuel p w, rank p < fuel -> nth_error (u_tabs u) p = Some (w_tab w) -> w_changes w = SAll ->
  w_pushed w && w_delete w = false ->
  exists u', flush pr umax fuel u [] p w ev = Ok u' /\ length (u_tabs u') = length (u_tabs u) /\
    forall c t, nth_error (u_tabs u) c = Some t -> t_cols t <> [] -> exists t', nth_error (u_tabs u') c = Some t' /\
      (c = p \/ downstream u p c -> t_sch t' = t_sch t /\ t_len t' = 0 /\ forall i r, t_get_row t' i <> Ok r) /\
      (~ (c = p \/ downstream u p c) -> t' = t).
Proof. exact flush_all_observed. Qed.
Print Assumptions C32_C33_clear.
(** Table 1 is cleared: table 3 depends on it, tables 0 and 2 do not. *)
Example C32_C33_clear_case :
  let w := clear (w_new t_kids) in
  acyclic town_rank town /\ removable town /\ nth_error (u_tabs town) 1 = Some (w_tab w) /\ w_changes w = SAll /\
  exists u', flush Debug 255 2 town [] 1 w ev_delete = Ok u' /\ downstream town 1 3 /\
    map t_len (u_tabs u') = [3; 0; 4; 0].
Proof.
  intro w. split; [exact town_acyclic|]. split.
  { intros p c k key H. apply town_trackers in H. destruct H as [H|[H|H]]; inversion H; subst; eexists; split; [calc|left; calc|calc|right; split; calc|calc|left; calc]. }
  split; [calc|]. split; [calc|]. eexists. split; [calc|]. split; [|calc]. eapply downstream_one. left. calc.
Qed.

(** C34, second half.  If the dependencies form a circle the claim fails: no flush of anything in it completes,
    whatever the event and the rows, however long one waits. *)
Theorem C34_circle :
  forall pr umax (circle : nat -> Prop) fuel u h p w ev u',
  (forall q, circle q -> exists c k key, circle c /\ In (TAuto c k key) (u_trackers u q)) -> circle p ->
  sel_empty (w_changes w) = false -> flush pr umax fuel u h p w ev <> Ok u'.
Proof. exact flush_circle. Qed.
Print Assumptions C34_circle.
(** One table that refers to itself and has one row referring to nothing: deleting that row waits for a lock for ever
    (and even pushing a row overflows the stack: no fuel is enough). *)
Theorem C34_terminates_refuted :
  exists u p w, nth_error (u_tabs u) p = Some (w_tab w) /\ sane Debug 255 (t_sch (w_tab w)) (Locked w []) /\
    t_kind (w_tab w) = Consistent /\ w_changes w = SThese [0] /\ dependent_ok Debug 255 u 0 1 false /\
    flush Debug 255 9 u [] p w ev_delete = Err EDeadlock /\
    forall fuel u', flush Debug 255 fuel u [] p w ev_delete <> Ok u' /\ flush Debug 255 fuel u [] p w ev_create <> Ok u'.
Proof.
  exists self_uni, 0, (lock_of (at_end Consistent (self_ops ++ [OLock; ODelete 0]))).
  split; [calc|]. split; [change (t_sch _) with (sch Consistent); sane_by (self_ops ++ [OLock; ODelete 0])|].
  split; [calc|]. split; [calc|]. split.
  { exists self_tab, (Indexed TVec). split; [calc|]. split; [change (t_sch _) with (sch Consistent); sane_by self_ops|].
    split; [vm_compute; repeat constructor|]. split; [calc|]. split; [left; calc|eexists; reflexivity]. }
  split; [calc|]. intros fuel u'. split; apply (C34_circle Debug 255 (fun q => q = 0)); try reflexivity.
  all: intros q ->; exists 0, 1, false; split; [reflexivity|left; reflexivity].
Qed.
Print Assumptions C34_terminates_refuted.

(** C35.  Whatever the universe, if its references are not circular: a flush calls each tracker of the table that
    considers the event once, in the order of registration, with the changed rows (in ascending order if it asked for
    it), and no tracker of the table otherwise; if nothing has changed it calls no tracker at all. *)
Theorem C35_told :
  forall pr umax rank fuel u h p w ev u',
  acyclic rank u -> nth_error (u_tabs u) p = Some (w_tab w) -> flush pr umax fuel u h p w ev = Ok u' ->
  exists notes, u_log u' = u_log u ++ notes /\
    if sel_empty (w_changes w) then notes = []
    else Forall2 (told u p ev (w_changes w)) (listeners u p ev) (filter (fun n => n_table n =? p) notes).
Proof. exact flush_told. Qed.
Print Assumptions C35_told.
Theorem C35_live_told :
  forall pr umax rank fuel u h p w ev q,
  acyclic rank u -> nth_error (u_tabs u) p = Some (w_tab w) -> live_flush pr umax fuel u h p w ev = Ok q ->
  exists notes, u_log (fst q) = u_log u ++ notes /\
    if sel_empty (w_changes w) then notes = []
    else Forall2 (told u p ev (w_changes w)) (listeners u p ev) (filter (fun n => n_table n =? p) notes).
Proof. exact live_flush_told. Qed.
Print Assumptions C35_live_told.
(** Table 0 has four trackers; the last does not consider deletions, the third asks for order. *)
Example C35_case :
  acyclic town_rank town /\ length (listeners town 0 ev_delete) = 3 /\
  exists u', flush Debug 255 3 town [] 0 marked ev_delete = Ok u' /\
    filter (fun n => n_table n =? 0) (u_log u') =
      [Note 0 0 ev_delete (SThese [2; 0]); Note 0 1 ev_delete (SThese [2; 0]); Note 0 2 ev_delete (SThese [0; 2])].
Proof. split; [exact town_acyclic|]. split; [calc|]. eexists. split; [calc|]. calc. Qed.
Example C35_live_case :
  exists q, live_flush Debug 255 3 town [] 0 marked ev_delete = Ok q /\ length (u_log (fst q)) = 4 /\ w_changes (snd q) = SThese [].
Proof. eexists. split; [calc|]. calcs. Qed.

(** Creations, or any event handled by doing nothing that is no removal: trackers are told, no table changes. *)
Theorem C35_C51_quiet :
  forall pr umax rank u ev,
  linked pr umax rank u -> ev_removal ev && ev_creation ev = false -> nth_error (u_hdl u) (ev_id ev) = Some HNull ->
  forall fuel p w, rank p < fuel -> nth_error (u_tabs u) p = Some (w_tab w) -> ev_removal ev = false ->
  w_pushed w && w_delete w = false -> sel_empty (w_changes w) = false ->
  exists u', flush pr umax fuel u [] p w ev = Ok u' /\ u_tabs u' = u_tabs u /\ u_trk u' = u_trk u /\ u_hdl u' = u_hdl u.
Proof. exact flush_quiet. Qed.
Print Assumptions C35_C51_quiet.
Example C35_C51_quiet_case :
  nth_error (u_hdl town) (ev_id ev_create) = Some HNull /\
  exists u', flush Debug 255 3 town [] 0 marked ev_create = Ok u' /\ u_tabs u' = u_tabs town /\ length (u_log u') = 4.
Proof. split; [calc|]. eexists. split; [calc|]. calcs. Qed.

(** C36 does not hold.  If a dependent table is neither consistent nor sorted no removal completes, even if nothing in
    the dependent table refers to the rows. *)
Theorem C36_other_kinds :
  forall pr umax fuel u h p w ev c k key t u',
  In (TAuto c k key) (u_trackers u p) -> nth_error (u_tabs u) c = Some t ->
  t_kind t <> Consistent -> t_kind t <> Sorted -> c <> p -> nth_error (u_hdl u) (ev_id ev) = Some HDelete ->
  sel_empty (w_changes w) = false -> flush pr umax fuel u h p w ev <> Ok u'.
Proof. exact bad_dependent. Qed.
Print Assumptions C36_other_kinds.
Theorem C36_all_kinds_refuted :
  (exists w, sane Debug 255 (sch Consistent) (Locked w []) /\ w_changes w = SThese [2; 0] /\
     flush Debug 255 9 (with_child (t_new (sch Append))) [] 0 w ev_delete = panic PNoRemove /\
     flush Debug 255 9 (with_child (t_new (sch Bag))) [] 0 w ev_delete = panic PNoRemove /\
     flush Debug 255 9 (with_child (t_new (sch List_))) [] 0 w ev_delete = panic PNoRemove) /\
  (exists w, sane Debug 255 (sch Consistent) (Locked w []) /\ w_changes w = SThese [0; 0] /\
     dependent_ok Debug 255 (with_child sorted_child) 1 1 false /\
     flush Debug 255 9 (with_child sorted_child) [] 0 w ev_delete = panic PNotSorted).
Proof.
  split.
  - exists marked. split; [exact town_lock|]. calcs.
  - exists (lock_of (at_end Consistent twice)). split; [sane_by twice|]. split; [calc|]. split; [|calc].
    exists sorted_child, (Indexed TVec). split; [calc|]. split; [change (t_sch _) with (sch Sorted); sane_by child_ops|].
    split; [vm_compute; repeat constructor|]. split; [calc|]. split; [right; calc|eexists; reflexivity].
Qed.
Print Assumptions C36_all_kinds_refuted.

(** C56 does not hold: in one flush a tracker of a dependent table is called twice for the same rows if the
    table is cleared, and called for no rows at all if nothing refers to the deleted rows. *)
Theorem C56_dependents_told_once_refuted :
  (exists w u', reachable Debug 255 (sch Consistent) (Locked w []) /\ linked Debug 255 town_rank (watched w) /\
     flush Debug 255 9 (watched w) [] 0 w ev_delete = Ok u' /\
     filter (fun n => n_table n =? 1) (u_log u') = [Note 1 0 ev_delete SAll; Note 1 0 ev_delete SAll]) /\
  (exists w u', reachable Debug 255 (sch Consistent) (Locked w []) /\ linked Debug 255 town_rank (watched w) /\
     flush Debug 255 9 (watched w) [] 0 w ev_delete = Ok u' /\
     filter (fun n => n_table n =? 1) (u_log u') = [Note 1 0 ev_delete (SThese [])]).
Proof.
  split.
  - exists (lock_of (at_end Consistent (three ++ [OLock; OClear]))). eexists.
    split; [reached (three ++ [OLock; OClear])|]. split; [apply watched_linked; calc|]. split; [calc|]. calc.
  - exists (lock_of (at_end Consistent unreferenced)). eexists.
    split; [reached unreferenced|]. split; [apply watched_linked; calc|]. split; [calc|]. calc.
Qed.
Print Assumptions C56_dependents_told_once_refuted.

(** The part of C56 that holds for deleted rows: put together, the calls of a tracker of a dependent table name
    each removed row of that table exactly once and no other row.  Missing: that this takes one call, and none
    if no rows go; see the next two theorems for how many calls there are. *)
Theorem C56_rows_told_once_partial :
  forall pr umax rank u p w ids ev,
  linked pr umax rank u -> plain_removal ev -> nth_error (u_hdl u) (ev_id ev) = Some HDelete ->
  nth_error (u_tabs u) p = Some (w_tab w) -> sane pr umax (t_sch (w_tab w)) (Locked w []) ->
  t_kind (w_tab w) = Consistent -> w_changes w = SThese ids -> w_pushed w && w_delete w = false ->
  Forall (fun i => i < t_len (w_tab w)) ids -> no_repeats u ids ->
  forall fuel, rank p < fuel -> NoDup ids ->
  exists u' notes, flush pr umax fuel u [] p w ev = Ok u' /\ u_log u' = u_log u ++ notes /\
    Forall (fun n => n_event n = ev /\ n_rows n <> SAll) notes /\
    forall c t x, c <> p -> nth_error (u_tabs u) c = Some t -> In x (listeners u c ev) ->
      NoDup (heard c (fst x) notes) /\
      forall j, In j (heard c (fst x) notes) <-> doomed u p ids c j /\ exists r, t_get_row t j = Ok r.
Proof. exact flush_heard. Qed.
Print Assumptions C56_rows_told_once_partial.
(** Rows 2 and 0 of the first table go; the tracker of the table of grandchildren hears of the row whose parent's parent is row 2. *)
Example C56_rows_told_once_case :
  linked Debug 255 town_rank (chain marked) /\ plain_removal ev_delete /\ nth_error (u_hdl (chain marked)) (ev_id ev_delete) = Some HDelete /\
  nth_error (u_tabs (chain marked)) 0 = Some (w_tab marked) /\ sane Debug 255 (t_sch (w_tab marked)) (Locked marked []) /\
  t_kind (w_tab marked) = Consistent /\ w_changes marked = SThese [2; 0] /\ w_pushed marked && w_delete marked = false /\
  Forall (fun i => i < t_len (w_tab marked)) [2; 0] /\ no_repeats (chain marked) [2; 0] /\ town_rank 0 < 9 /\ NoDup [2; 0] /\
  (exists x, In x (listeners (chain marked) 3 ev_delete)) /\
  exists u', flush Debug 255 9 (chain marked) [] 0 marked ev_delete = Ok u' /\
    u_log u' = [Note 0 0 ev_delete (SThese [2; 0]); Note 1 0 ev_delete (SThese [2; 0]); Note 3 0 ev_delete (SThese [0])].
Proof.
  split; [exact chain_linked|]. split; [calcs || (repeat constructor)|]. split; [calc|]. split; [calc|].
  split; [exact town_lock|]. split; [calc|]. split; [calc|]. split; [calc|]. split; [repeat constructor|].
  assert (N : NoDup [2; 0]) by (repeat constructor; cbn; intuition discriminate).
  split; [left; exact N|]. split; [repeat constructor|]. split; [exact N|]. split; [eexists; left; reflexivity|].
  eexists. split; calc.
Qed.

(** All calls made by a flush, in order.  [calls] is the walk over the tables that depend on [p]: each tracker
    that considers the event is called, and behind the tracker of a foreign column come the calls of the table
    that has the column; a clear walks into each consistent dependent twice.  There is a call whether or not
    any row of the dependent goes. *)
Theorem C56_calls :
  forall pr umax fuel u h p w ev hd u',
  nth_error (u_tabs u) p = Some (w_tab w) -> nth_error (u_hdl u) (ev_id ev) = Some hd ->
  flush pr umax fuel u h p w ev = Ok u' ->
  exists notes, u_log u' = u_log u ++ notes /\
    Forall (fun n => n_event n = ev /\ (n_rows n = SAll <-> w_changes w = SAll)) notes /\
    map (fun n => (n_table n, n_pos n)) notes =
      if sel_empty (w_changes w) then []
      else calls fuel (match hd, w_changes w with HDelete, SAll => true | _, _ => false end) u ev p.
Proof. exact flush_calls. Qed.
Print Assumptions C56_calls.

(** The numbers, if each table has at most one foreign column: a tracker of a table [d] levels below is called
    once if rows were deleted and [2 ^ d] times if the table was cleared. *)
Theorem C56_times :
  forall pr umax rank fuel u p w ev hd u', acyclic rank u -> removable u -> one_parent u -> rank p < fuel ->
  nth_error (u_tabs u) p = Some (w_tab w) -> nth_error (u_hdl u) (ev_id ev) = Some hd -> sel_empty (w_changes w) = false ->
  flush pr umax fuel u [] p w ev = Ok u' ->
  exists notes, u_log u' = u_log u ++ notes /\ forall c m tr, In (m, tr) (listeners u c ev) ->
    let times := length (filter (fun n => (n_table n =? c) && (n_pos n =? m)) notes) in
    (forall d, below u p c d -> times = match hd, w_changes w with HDelete, SAll => 2 ^ d | _, _ => 1 end) /\
    ((forall d, ~ below u p c d) -> times = 0).
Proof. exact flush_times. Qed.
Print Assumptions C56_times.
(** The first table of a chain of three is cleared: the tracker of the last one is called four times. *)
Example C56_times_case :
  let w := lock_of (at_end Consistent cleared) in
  acyclic town_rank (chain w) /\ removable (chain w) /\ one_parent (chain w) /\ town_rank 0 < 9 /\
  nth_error (u_tabs (chain w)) 0 = Some (w_tab w) /\ nth_error (u_hdl (chain w)) (ev_id ev_delete) = Some HDelete /\
  sel_empty (w_changes w) = false /\ below (chain w) 0 3 2 /\ In (0, TUser true (fun _ => true)) (listeners (chain w) 3 ev_delete) /\
  exists u', flush Debug 255 9 (chain w) [] 0 w ev_delete = Ok u' /\
    map (fun n => (n_table n, n_pos n)) (u_log u') = [(0, 0); (1, 0); (3, 0); (3, 0); (1, 0); (3, 0); (3, 0)] /\
    calls 9 true (chain w) ev_delete 0 = [(0, 0); (1, 0); (3, 0); (3, 0); (1, 0); (3, 0); (3, 0)].
Proof.
  intro w. split; [apply chain_acyclic|]. split; [apply chain_removable|]. split; [apply chain_one_parent|]. split; [repeat constructor|].
  split; [reflexivity|]. split; [reflexivity|]. split; [reflexivity|].
  split; [apply (below_more _ _ 1 1 3 1 false); [apply (below_more _ _ 0 0 1 1 false); [constructor|left; reflexivity]|left; reflexivity]|].
  split; [left; reflexivity|]. eexists. split; [calc|]. split; calc.
Qed.
