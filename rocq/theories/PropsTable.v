(** Property theorems about one table: C10-C19, C31, C55. *)
From Coq Require Import List Arith Bool ZArith Sorted.
From Verif Require Import Base Column RowRange Table Visit SortedTab BagTab TableSpec Hist TableProps WithDeleted UndefSpec UndefFacts Cases.
Import ListNotations.

(** C10.  In every reachable state of a table (of any kind, in any build) with its row ids not used up: [contains] holds exactly of the rows [get_row] reads; [iter], [editing] and
    [range] yield exactly those rows of their range, ascending and once each, by a loop as well as
    by any mixture of [next] and [skip_fast]; [range] refuses exactly the ranges past the end. *)
Theorem C10_iteration_exact :
  forall pr umax sch st, reachable pr umax sch st ->
  let t := st_tab st in
  t_len t <= t_imax t ->
  (forall i, t_contains t i = true <-> exists r, t_get_row t i = Ok r) /\
  (forall i, t_contains t i = true -> i < t_len t) /\
  (exists it, t_iter t = Ok it /\ iterates t pr umax it 0 (t_len t)) /\
  (exists it, t_editing t = Ok it /\ iterates t pr umax it 0 (t_len t)) /\
  (forall r, r_start r <= r_end r ->
     (r_end r <= t_len t -> exists it, t_range t r = Ok it /\ iterates t pr umax it (r_start r) (r_end r)) /\
     (t_len t < r_end r -> exists c, t_range t r = panic c)).
Proof. exact iteration_exact. Qed.
Print Assumptions C10_iteration_exact.
Example C10_case : exists t, reachable Debug 255 (sch Consistent) (Free t) /\
  t_len t = 3 /\ t_contains t 1 = false /\
  (let* it := t_iter t in cons_collect Debug 7 9 it) = Ok [0; 2] /\
  (let* it := t_range t (RR 1 3) in cons_collect Debug 7 9 it) = Ok [2] /\
  (let* it := t_iter t in cons_run Debug 7 255 [ItSkip 1; ItNext; ItNext] it) = Ok [Some 2; None].
Proof. eexists. split; [reached hole|]. calcs. Qed.
(** A bag of a release build, with a row removed. *)
Example C10_release_case : exists t, reachable Release 255 (sch Bag) (Free t) /\
  t_len t = 2 /\ t_get_row t 0 = Ok r3 /\ (let* it := t_iter t in cons_collect Release 7 9 it) = Ok [0; 1].
Proof.
  eexists. split; [split; [discriminate|]; exists (three ++ [OLock; ODelete 0; OFlush false ev_delete]); split; [repeat constructor|]; vm_compute; reflexivity|].
  calcs.
Qed.

(** C10.  [with_deleted], after any number of calls of [next] on the iterator, goes on with all rows, deleted or not, after the row
    given last. *)
Theorem C10_with_deleted :
  forall pr umax sch st, reachable pr umax sch st ->
  let t := st_tab st in
  t_len t <= t_imax t ->
  forall r it, r_start r <= r_end r -> t_range t r = Ok it ->
  forall n fuel, r_end r - r_start r < fuel ->
  exists it' o, Nat.iter n (fun s => let* p := s in cons_next pr (t_imax t) (fst p)) (Ok (it, None)) = Ok (it', o) /\
    it_collect pr (t_imax t) fuel (cons_with_deleted it') =
      Ok (match o with Some x => seq (S x) (r_end r - S x) | None => if n =? 0 then seq (r_start r) (r_end r - r_start r) else [] end).
Proof. exact with_deleted_exact. Qed.
Print Assumptions C10_with_deleted.
Example C10_with_deleted_case : exists t, reachable Debug 255 (sch Consistent) (Free t) /\ t_contains t 1 = false /\
  (let* it := t_range t (RR 0 3) in let* p := cons_next Debug 7 it in it_collect Debug 7 9 (cons_with_deleted (fst p))) = Ok [1; 2] /\
  (let* it := t_range t (RR 1 3) in it_collect Debug 7 9 (cons_with_deleted it)) = Ok [1; 2].
Proof. eexists. split; [reached hole|]. calcs. Qed.

(** C11.  Whatever sequence of calls is made on a new table (of any kind, with any columns): either
    every column has the same length, or a call panicked, or (release build only, a table using its
    last row id) a call loops for ever.  There is no undefined behaviour.  (Excepted: a bag in a
    release build flushed with a removal event, see below.) *)
Theorem C11_columns_in_step :
  forall pr umax sch ops, s_cols sch <> [] -> Forall (op_ty (s_cols sch)) ops -> harmless pr sch ops ->
  match run pr umax (Free (t_new sch)) ops with
  | Ok st => length (t_cols (st_tab st)) = length (s_cols sch) /\
             forall c, In c (t_cols (st_tab st)) -> c_len c = t_len (st_tab st)
  | Err (EPanic _) => True
  | Err EFuel => pr = Release
  | Err _ => False
  end.
Proof. exact run_safe. Qed.
Print Assumptions C11_columns_in_step.
Example C11_case : harmless Release (sch Consistent) hole /\
  exists st, run Release 255 (Free (t_new (sch Consistent))) (hole ++ [OLock; OPushArray [r1]]) = Ok st /\
  map c_len (t_cols (st_tab st)) = [4; 4].
Proof. split; [right; left; discriminate|]. eexists. split; calc. Qed.
(** C11 (refuted).  Selecting the only row of a bag twice and flushing with the delete event accesses
    columns out of bounds in a release build. *)
Theorem C11_bag_release_refuted :
  exists umax sch ops, s_cols sch <> [] /\ Forall (op_ty (s_cols sch)) ops /\
    run Release umax (Free (t_new sch)) ops = Err EUB.
Proof.
  exists 255, (sch Bag), [OLock; OPush r1; OSelect 0; OSelect 0; OFlush false ev_delete].
  split; [discriminate|]. split; [repeat constructor|reflexivity].
Qed.
Print Assumptions C11_bag_release_refuted.
(** C11.  That is the only way.  A call on a reachable table has undefined behaviour exactly if the program is a release
    build, the table is a bag whose first column is not a column of booleans, and the call is a flush, of an event that deletes,
    of selected rows with too many repetitions: more rows are deleted than there are ([overdrawn]). *)
Theorem C11_undefined_exactly :
  forall pr umax sch st o, reachable pr umax sch st -> op_ty (s_cols sch) o -> t_len (st_tab st) <= umax ->
  (step pr umax st o = Err EUB <->
   pr = Release /\ s_kind sch = Bag /\ unguarded sch /\
   exists w its srt ev l, st = Locked w its /\ (o = OFlush srt ev /\ its = [] \/ o = OLiveFlush srt ev) /\
     deletes w ev l /\ overdrawn srt (t_len (w_tab w)) l).
Proof. exact undefined_exactly. Qed.
Print Assumptions C11_undefined_exactly.
(** C11.  So a sequence of calls has undefined behaviour only if it contains such a call. *)
Theorem C11_undefined_runs :
  forall pr umax sch ops, s_cols sch <> [] -> Forall (op_ty (s_cols sch)) ops -> run pr umax (Free (t_new sch)) ops = Err EUB ->
  exists before o after st, ops = before ++ o :: after /\ run pr umax (Free (t_new sch)) before = Ok st /\ reachable pr umax sch st /\
    op_ty (s_cols sch) o /\ step pr umax st o = Err EUB.
Proof. exact run_undefined. Qed.
Print Assumptions C11_undefined_runs.
(** Two rows.  Three of the four selected are rows of the bag; sorted, row 9 comes too late to be noticed. *)
Example C11_undefined_case : exists w, reachable Release 255 (sch Bag) (Locked w []) /\ unguarded (sch Bag) /\
  deletes w ev_delete [1; 9; 1; 0] /\ t_len (w_tab w) = 2 /\ overdrawn true 2 [1; 9; 1; 0] /\ ~ overdrawn false 2 [1; 9; 1; 0] /\
  step Release 255 (Locked w []) (OFlush true ev_delete) = Err EUB /\
  step Release 255 (Locked w []) (OFlush false ev_delete) = panic PRemoveRange /\
  step Debug 255 (Locked w []) (OFlush true ev_delete) = panic POverflow.
Proof.
  eexists. split; [split; [discriminate|]; exists [OLock; OPushAll [r1; r2]; OFlush false ev_create; OLock; OSelect 1; OSelect 9; OSelect 1; OSelect 0];
    split; [repeat constructor|]; vm_compute; reflexivity|].
  split; [exists (Plain TVec), [Indexed TVec]; split; reflexivity|].
  split; [repeat split; [apply Nat.ltb_lt; reflexivity|left; reflexivity]|]. split; [reflexivity|]. split; [cbn; auto|].
  split; [intros [_ H]; specialize (H 1 (le_S _ _ (le_n _))); cbn in H; apply Nat.ltb_lt in H; discriminate|]. calcs.
Qed.

(** C12.  In every reachable state: if [push] succeeds the returned id was not in use, now holds the
    row, and no other row is affected; it is the least deleted id, or the old length if no row is
    deleted; [next_pushed] predicts it.  [push] fails only when the row ids are used up, or when the
    deleted rows lie beyond the end of the table (see C17). *)
Theorem C12_push :
  forall pr umax sch w its r, reachable pr umax sch (Locked w its) ->
  row_ty (s_cols sch) r ->
  let t := w_tab w in
  match push w r with
  | Ok (w', i) =>
      t_contains t i = false /\ t_get_row (w_tab w') i = Ok r /\ (forall j, j <> i -> same_row t (w_tab w') j) /\
      (least_deleted t i \/ (forall j, t_is_deleted t j = false) /\ i = t_len t) /\
      (t_len t <= t_imax t -> next_pushed t = Ok i)
  | Err e => (exists c, e = EPanic c) /\
      ((exists i, least_deleted t i /\ t_len t <= i) \/
       (forall j, t_is_deleted t j = false) /\ t_imax t < t_len t)
  end.
Proof. exact push_reachable. Qed.
Print Assumptions C12_push.
(** C12.  As long as the table has not been emptied while it had deleted rows, [push] succeeds if there
    is an id left. *)
Theorem C12_push_succeeds :
  forall pr umax sch w its r, sane pr umax sch (Locked w its) ->
  row_ty (s_cols sch) r -> (t_len (w_tab w) <= t_imax (w_tab w) \/ exists i, t_is_deleted (w_tab w) i = true) ->
  exists w' i, push w r = Ok (w', i).
Proof. exact push_sane. Qed.
Print Assumptions C12_push_succeeds.
Example C12_case : exists w w', reachable Debug 255 (sch Consistent) (Locked w []) /\ row_ty (s_cols (sch Consistent)) r3 /\
  push w r3 = Ok (w', 1) /\ t_get_row (w_tab w') 1 = Ok r3 /\ t_get_row (w_tab w') 2 = Ok r3 /\ t_len (w_tab w') = 3.
Proof.
  eexists. eexists. split; [reached (hole ++ [OLock])|]. split; [repeat constructor|]. split; [calc|]. repeat split.
Qed.
Example C12_succeeds_case : exists w, sane Debug 255 (sch Consistent) (Locked w []) /\
  t_len (w_tab w) = 3 /\ t_is_deleted (w_tab w) 1 = true.
Proof. eexists. split; [sane_by (hole ++ [OLock])|]. split; calc. Qed.

(** C13.  On any table that was not emptied while it had deleted rows, with row ids left: [push_array]
    of some rows returns the range from the old length on; it holds the rows in order, it is iterable
    and yields all of them, and the rows present before are not affected (deleted ones stay deleted). *)
Theorem C13_push_array :
  forall pr umax sch w its rs, sane pr umax sch (Locked w its) ->
  Forall (row_ty (s_cols sch)) rs -> rs <> [] ->
  let t := w_tab w in
  t_len t + length rs <= t_imax t ->
  exists w', push_array pr w rs = Ok (w', RR (t_len t) (t_len t + length rs)) /\
    t_len (w_tab w') = t_len t + length rs /\
    (forall k r, nth_error rs k = Some r -> t_get_row (w_tab w') (t_len t + k) = Ok r) /\
    (forall j, j < t_len t -> same_row t (w_tab w') j) /\
    (exists it, t_range (w_tab w') (RR (t_len t) (t_len t + length rs)) = Ok it /\
       forall fuel, length rs < fuel ->
         cons_collect pr (t_imax t) fuel it = Ok (seq (t_len t) (length rs))).
Proof. exact push_array_spec. Qed.
Print Assumptions C13_push_array.
Example C13_case : exists w w', sane Debug 255 (sch Consistent) (Locked w []) /\
  push_array Debug w [r1; r2] = Ok (w', RR 3 5) /\ t_get_row (w_tab w') 4 = Ok r2 /\ t_contains (w_tab w') 1 = false.
Proof. eexists. eexists. split; [sane_by (hole ++ [OLock])|]. split; [calc|]. split; calc. Qed.

(** C14 (refuted).  The range returned for an empty array cannot be iterated. *)
Theorem C14_empty_array_refuted :
  exists pr umax sch w rs w' r c, reachable pr umax sch (Locked w []) /\ Forall (row_ty (s_cols sch)) rs /\
    push_array pr w rs = Ok (w', r) /\ t_range (w_tab w') r = panic c.
Proof.
  exists Debug, 255, (sch Consistent). eexists. exists []. eexists. eexists. exists PIterRange.
  split; [reached [OLock; OPush r1]|]. split; [constructor|]. split; calc.
Qed.
Print Assumptions C14_empty_array_refuted.
(** C14.  While row ids are left it can be iterated iff the array was not empty (or the table is full
    up to its last id). *)
Theorem C14_iterable_iff :
  forall pr umax sch w its rs, reachable pr umax sch (Locked w its) ->
  Forall (row_ty (s_cols sch)) rs -> t_len (w_tab w) + length rs <= t_imax (w_tab w) ->
  exists w' r, push_array pr w rs = Ok (w', r) /\
    ((exists it, t_range (w_tab w') r = Ok it) <-> rs <> [] \/ t_len (w_tab w) = t_imax (w_tab w)).
Proof. exact push_array_iterable. Qed.
Print Assumptions C14_iterable_iff.
Example C14_case : exists w w' it, reachable Debug 255 (sch List_) (Locked w []) /\
  push_array Debug w [r1; r2] = Ok (w', RR 1 3) /\ t_range (w_tab w') (RR 1 3) = Ok it.
Proof.
  eexists. eexists. eexists. split; [reached [OLock; OPush r1]|]. split; calc.
Qed.

(** C15.  On a reachable consistent table, deleting any list of present rows (in any order, with
    repetitions) leaves all of them readable; flushing with a removal event then succeeds, and
    exactly those rows are gone: for [contains] (hence iteration, C10), [get_row] and [find]; every
    other row keeps its id and contents. *)
Theorem C15_delete_flush :
  forall pr umax sch t srt ev ids, reachable pr umax sch (Free t) -> s_kind sch = Consistent ->
  Forall (fun i => t_contains t i = true) ids -> plain_removal ev ->
  exists w t', fold_res (delete pr umax) ids (w_new t) = Ok w /\
    (forall i, t_get_row (w_tab w) i = t_get_row t i) /\
    w_flush pr umax srt w ev = Ok t' /\ t_len t' = t_len t /\
    (forall i, t_contains t' i = t_contains t i && negb (mem i ids)) /\
    (forall i r, t_get_row t' i = Ok r <-> t_get_row t i = Ok r /\ ~ In i ids) /\
    (forall k v l, t_find t k v = Ok l -> t_find t' k v = Ok (filter (fun i => negb (mem i ids)) l)).
Proof. exact delete_flush_spec. Qed.
Print Assumptions C15_delete_flush.
(** C15.  [find] on a table (any kind; never emptied while it had deleted rows) lists exactly the
    present rows with the value (but for the last row id, C04). *)
Theorem C15_find_exact :
  forall pr umax sch st k b v, sane pr umax sch st ->
  nth_error (s_cols sch) k = Some (Indexed b) ->
  let t := st_tab st in
  exists l, t_find t k v = Ok l /\ StronglySorted lt l /\
    forall i, In i l <-> i < t_imax t /\ exists r, t_get_row t i = Ok r /\ nth_error r k = Some v.
Proof. exact find_exact. Qed.
Print Assumptions C15_find_exact.
Example C15_find_case : exists st, sane Debug 255 (sch Bag) st /\ t_find (st_tab st) 1 (VInt 5) = Ok [0; 1].
Proof. eexists. split; [sane_by three|]. calc. Qed.
Example C15_case : exists t w t', reachable Debug 255 (sch Consistent) (Free t) /\ plain_removal ev_delete /\
  t_find t 1 (VInt 5) = Ok [0; 1] /\
  fold_res (delete Debug 255) [2; 1; 2] (w_new t) = Ok w /\ t_find (w_tab w) 1 (VInt 5) = Ok [0; 1] /\
  w_flush Debug 255 false w ev_delete = Ok t' /\ t_find t' 1 (VInt 5) = Ok [0] /\
  t_get_row t' 0 = Ok r1 /\ t_get_row t' 2 = panic PDeletedRow.
Proof.
  eexists. eexists. eexists. split; [reached three|].
  split; [split; [calc|]; split; [calc|]; apply Nat.ltb_lt; reflexivity|].
  calcs.
Qed.

(** C16 (refuted).  A deleted row is still there after the flush. *)
Theorem C16_deletion_lost_refuted :
  exists pr umax sch w i w1 ev t', reachable pr umax sch (Locked w []) /\ s_kind sch = Consistent /\
    delete pr umax w i = Ok w1 /\ w_flush pr umax true w1 ev = Ok t' /\ t_contains t' i = true.
Proof.
  exists Debug, 255, (sch Consistent). eexists. exists 1. eexists. exists ev_update. eexists.
  split; [reached (three ++ [OLock])|]. calcs.
Qed.
Print Assumptions C16_deletion_lost_refuted.
(** C16 (refuted).  A pushed row is gone after the flush, though nothing was deleted. *)
Theorem C16_push_lost_refuted :
  exists pr umax sch w r w1 i ev t', reachable pr umax sch (Locked w []) /\ s_kind sch = Consistent /\
    push w r = Ok (w1, i) /\ w_flush pr umax true w1 ev = Ok t' /\ t_contains t' i = false.
Proof.
  exists Debug, 255, (sch Consistent). eexists. exists r1. eexists. eexists. exists ev_delete. eexists.
  split; [reached (three ++ [OLock])|]. calcs.
Qed.
Print Assumptions C16_push_lost_refuted.
(** C16.  Exactly: the deleted row is gone iff the event of the flush is a removal; otherwise every row
    of the table reads as before the flush. *)
Theorem C16_deletion_kept_iff :
  forall pr umax sch w its srt ev i w1 t', reachable pr umax sch (Locked w its) -> s_kind sch = Consistent ->
  delete pr umax w i = Ok w1 -> w_flush pr umax srt w1 ev = Ok t' ->
  (t_contains t' i = false <-> ev_removal ev = true) /\
  (ev_removal ev = false -> forall j, same_row (w_tab w) t' j).
Proof. exact deletion_lost_iff. Qed.
Print Assumptions C16_deletion_kept_iff.
Example C16_case : exists w w1 t', reachable Debug 255 (sch Consistent) (Locked w []) /\
  delete Debug 255 w 1 = Ok w1 /\ w_flush Debug 255 true w1 ev_delete = Ok t' /\ t_contains t' 1 = false.
Proof.
  eexists. eexists. eexists. split; [reached (three ++ [OLock; OSelect 0])|]. calcs.
Qed.

(** C17 (refuted).  After a table that had a deleted row is cleared, pushing a row panics. *)
Theorem C17_cleared_not_new_refuted :
  exists pr umax sch ops w r c, s_kind sch = Consistent /\ row_ty (s_cols sch) r /\
    run pr umax (Free (t_new sch)) (ops ++ [OLock; OClear; OFlush true ev_delete; OLock]) = Ok (Locked w []) /\
    t_len (w_tab w) = 0 /\ push w r = panic c.
Proof.
  exists Debug, 255, (sch Consistent), hole. eexists. exists r1, PIndexOOB.
  split; [calc|]. split; [repeat constructor|]. split; [calc|]. split; calc.
Qed.
Print Assumptions C17_cleared_not_new_refuted.
(** C17.  Exactly: clearing and flushing leaves no rows; if the table had deleted rows every push panics
    from then on, and if it had none the table then takes rows like a new one, up to the last row id. *)
Theorem C17_cleared :
  forall pr umax sch t srt ev, reachable pr umax sch (Free t) -> s_kind sch = Consistent -> plain_removal ev ->
  exists t', w_flush pr umax srt (clear (w_new t)) ev = Ok t' /\ t_len t' = 0 /\
    (forall i, t_is_deleted t' i = t_is_deleted t i) /\
    ((exists i, t_is_deleted t i = true) -> forall r, row_ty (s_cols sch) r -> push (w_new t') r = panic PIndexOOB) /\
    ((forall i, t_is_deleted t i = false) ->
       forall rs, Forall (row_ty (s_cols sch)) rs -> length rs <= S (s_imax sch) ->
       exists w, push_all (w_new t') rs = Ok w /\ holds (w_tab w) rs).
Proof. exact cleared_spec. Qed.
Print Assumptions C17_cleared.
Example C17_case : exists t t' w, reachable Debug 255 (sch Consistent) (Free t) /\
  w_flush Debug 255 true (clear (w_new t)) ev_delete = Ok t' /\ t_len t = 3 /\ t_len t' = 0 /\
  push_all (w_new t') [r3; r1] = Ok w /\ t_get_row (w_tab w) 0 = Ok r3.
Proof. eexists. eexists. eexists. split; [reached three|]. calcs. Qed.

(** C18 (refuted).  Clearing a sorted table, or a list, does nothing. *)
Theorem C18_clear_refuted :
  exists pr umax w1 w2 sch1 sch2, s_kind sch1 = Sorted /\ s_kind sch2 = List_ /\
    reachable pr umax sch1 (Locked w1 []) /\ reachable pr umax sch2 (Locked w2 []) /\
    t_len (w_tab (clear w1)) = 2 /\ t_len (w_tab (clear w2)) = 2.
Proof.
  exists Debug, 255. eexists. eexists. exists (sch Sorted), (sch List_). split; [calc|]. split; [calc|].
  split; [reached [OLock; OMerge (fun a b => val_cmp (hd (VInt 0) a) (hd (VInt 0) b)) [r2; r1]]|].
  split; [reached [OLock; OPushAll [r1; r2]]|]. split; calc.
Qed.
Print Assumptions C18_clear_refuted.
(** C18.  Kind by kind: the other kinds are emptied, at once or by the removal flush; sorted tables and
    lists stay as they are. *)
Theorem C18_clear :
  forall pr umax sch w its, reachable pr umax sch (Locked w its) ->
  match s_kind sch with
  | Append | Bag => t_len (w_tab (clear w)) = 0
  | Consistent => forall srt ev, plain_removal ev -> w_pushed w = false ->
      exists t', w_flush pr umax srt (clear w) ev = Ok t' /\ t_len t' = 0
  | List_ | Sorted => clear w = w
  end.
Proof. exact clear_spec. Qed.
Print Assumptions C18_clear.
Example C18_case : exists w, reachable Debug 255 (sch Bag) (Locked w []) /\ t_len (w_tab w) = 3.
Proof. eexists. split; [reached (three ++ [OLock])|]. calc. Qed.

(** C19.  After any calls on a new consistent table that leave it locked: dropping the lock panics iff
    there was a push, delete, clear or select since it was last locked or flushed; if there was a
    push and a delete (or clear), every flush panics. *)
Theorem C19_unflushed_panics :
  forall pr umax sch ops w its, s_kind sch = Consistent -> s_cols sch <> [] -> Forall (op_ty (s_cols sch)) ops ->
  run pr umax (Free (t_new sch)) ops = Ok (Locked w its) ->
  (w_drop w = panic PNotFlushed <-> since is_change ops = true) /\
  (since is_change ops = false -> w_drop w = Ok (w_tab w)) /\
  (since is_push ops = true -> since is_del ops = true -> forall srt ev, w_flush pr umax srt w ev = panic PInterleave).
Proof. exact unflushed_panics. Qed.
Print Assumptions C19_unflushed_panics.
Example C19_case :
  let ops := hole ++ [OLock; OPush r1; OLiveFlush true ev_create; ODelete 0; OGet 0; OPush r2] in
  exists w, at_end Consistent ops = Some (Locked w []) /\
  since is_change ops = true /\ since is_push ops = true /\ since is_del ops = true /\
  since is_change (hole ++ [OLock; OPush r1; OLiveFlush true ev_create]) = false.
Proof. eexists. split; [calc|]. calcs. Qed.

(** C31 (refuted).  [retain] removes rows of an append table. *)
Theorem C31_append_retain_refuted :
  exists pr umax sch st T (f : T -> wlock -> nat -> T * bool) s st', s_kind sch = Append /\ reachable pr umax sch st /\
    step pr umax st (ORetain T f s) = Ok st' /\ t_len (st_tab st) = 3 /\ t_len (st_tab st') = 1.
Proof.
  exists Debug, 255, (sch Append). eexists. exists unit, (fun s _ i => (s, i =? 1)), tt. eexists.
  split; [calc|]. split; [reached (three ++ [OLock])|]. calcs.
Qed.
Print Assumptions C31_append_retain_refuted.
(** C31.  [retain], [visit], clearing and flushing with a removal event are the only calls that do:
    whatever else is called, the rows keep their ids (and, unless they are assigned to, their contents). *)
Theorem C31_append_keeps_rows :
  forall pr umax sch st ops st', reachable pr umax sch st -> s_kind sch = Append ->
  Forall (op_ty (s_cols sch)) ops -> Forall (fun o => may_remove o = false) ops -> run pr umax st ops = Ok st' ->
  t_len (st_tab st) <= t_len (st_tab st') /\
  (Forall (fun o => is_assign o = false) ops ->
   forall i r, t_get_row (st_tab st) i = Ok r -> t_get_row (st_tab st') i = Ok r).
Proof. exact append_kept. Qed.
Print Assumptions C31_append_keeps_rows.
Example C31_case : exists st st', reachable Debug 255 (sch Append) st /\
  run Debug 255 st [OPush r1; OSelect 0; OFlush true ev_update; OLock; OPushArray [r2; r3]; OClose] = Ok st' /\
  t_len (st_tab st) = 3 /\ t_len (st_tab st') = 6.
Proof. eexists. eexists. split; [reached (three ++ [OLock])|]. calcs. Qed.

(** C55 (refuted).  An id checked against one table is taken unchecked by another one with the same
    schema (the same table in another universe), which then reads outside its columns. *)
Theorem C55_foreign_checked_id_refuted :
  exists sch t1 t2 i, reachable Debug 255 sch (Free t1) /\ reachable Debug 255 sch (Free t2) /\
    t_check t1 i = Ok i /\ t_check_checked t2 i = Ok i /\ t_get_row_checked t2 i = Err EUB.
Proof.
  exists (sch Consistent). eexists. eexists. exists 2. split; [reached three|].
  split; [reached [OLock; OPush r1; OFlush false ev_create]|]. calcs.
Qed.
Print Assumptions C55_foreign_checked_id_refuted.
(** C55.  On one table, checking accepts exactly the present rows, and those can be read by checked id. *)
Theorem C55_checked_id :
  forall pr umax sch st i j, reachable pr umax sch st ->
  (t_check (st_tab st) i = Ok j <-> j = i /\ t_contains (st_tab st) i = true) /\
  (t_check (st_tab st) i = Ok j -> exists r, t_get_row_checked (st_tab st) j = Ok r).
Proof. exact check_exact. Qed.
Print Assumptions C55_checked_id.
Example C55_case : exists st, reachable Debug 255 (sch Consistent) st /\
  t_check (st_tab st) 2 = Ok 2 /\ t_check (st_tab st) 1 = panic PDeletedRow.
Proof. eexists. split; [reached hole|]. split; calc. Qed.
