(** Property theorems about visit, retain, merge, sorted tables and bags: C20-C30. *)
From Coq Require Import List Arith Bool ZArith Sorted Permutation.
From Verif Require Import Base Column Order RowRange Table Visit SortedTab BagTab TableSpec Hist RowProps Cases.
Import ListNotations.

(** C20, C21.  [visit] on any reachable table but a consistent one (row ids not used up): the callback,
    which can look at the table and remember anything, is called with ids 0, 1, 2.. until it says Break
    or the rows end; at each call its own row and all later ones are still the original ones; and the table
    ends up as the answers ask for (or, if those rows are more than there are row ids, [visit] panics). *)
Theorem C20_C21_visit :
  forall pr umax sch w its S (f : S -> wlock -> nat -> S * action) s rows,
  reachable pr umax sch (Locked w its) -> s_kind sch <> Consistent ->
  holds (w_tab w) rows -> length rows <= s_imax sch ->
  (forall s w i s' rm add, f s w i = (s', Continue rm add) -> Forall (row_ty (s_cols sch)) add) ->
  exists s' tr,
    acts_complete (length rows) (map snd tr) /\
    (forall k i w1 a, nth_error tr k = Some (i, w1, a) ->
       i = k /\ t_len (w_tab w1) = length rows /\
       forall j, k <= j < length rows -> t_get_row (w_tab w1) j = t_get_row (w_tab w) j) /\
    let out := visit_spec rows (map snd tr) in
    if length out <=? Datatypes.S (s_imax sch) then
      exists w', visit pr (recording f) (s, []) w = Ok ((s', tr), w') /\ visit pr f s w = Ok (s', w') /\
        holds (w_tab w') out
    else visit pr f s w = panic PRowIdRange.
Proof. exact visit_exact. Qed.
Print Assumptions C20_C21_visit.
(** A callback that counts its calls, replaces row 0 by two rows, keeps row 1 and adds a row, and stops. *)
Example C20_C21_case :
  let f s (_ : wlock) i := (S s, match i with 0 => Continue true [r3; r3] | 1 => Continue false [r1] | _ => Break end) in
  exists w, reachable Debug 255 (sch List_) (Locked w []) /\
  exists w', visit Debug f 0 w = Ok (3, w') /\ t_len (w_tab w') = 5 /\
  map (t_get_row (w_tab w')) (seq 0 5) = map Ok [r3; r3; r2; r1; r3].
Proof. intro f. eexists. split; [reached (three ++ [OLock])|]. eexists. calcs. Qed.

(** C22.  [retain] asks once about each row, in order, showing it and the later rows unchanged, and leaves
    exactly the rows approved of, in order; a table sorted by any comparison stays so. *)
Theorem C22_retain :
  forall pr umax sch w its S (f : S -> wlock -> nat -> S * bool) s rows,
  reachable pr umax sch (Locked w its) -> s_kind sch <> Consistent ->
  holds (w_tab w) rows -> length rows <= s_imax sch ->
  exists s' tr w',
    retain pr (recording f) (s, []) w = Ok ((s', tr), w') /\ retain pr f s w = Ok (s', w') /\
    length tr = length rows /\
    (forall k i w1 b, nth_error tr k = Some (i, w1, b) ->
       i = k /\ forall j, k <= j < length rows -> t_get_row (w_tab w1) j = t_get_row (w_tab w) j) /\
    holds (w_tab w') (map fst (filter snd (combine rows (map snd tr)))) /\
    forall cmp, ascending cmp rows -> ascending cmp (map fst (filter snd (combine rows (map snd tr)))).
Proof. exact retain_exact. Qed.
Print Assumptions C22_retain.
Example C22_case :
  let f s (_ : wlock) i := (S s, negb (i =? 1)) in
  exists w, reachable Debug 255 (sch Append) (Locked w []) /\
  exists w', retain Debug f 0 w = Ok (3, w') /\ t_len (w_tab w') = 2 /\
  map (t_get_row (w_tab w')) (seq 0 2) = map Ok [r1; r3].
Proof. intro f. eexists. split; [reached (three ++ [OLock])|]. eexists. calcs. Qed.

(** C23.  Merging an ascending sequence into an ascending table gives an ascending table of the old and
    new rows (or panics if those are more than there are row ids). *)
Theorem C23_merge :
  forall pr umax sch w its rows, reachable pr umax sch (Locked w its) -> s_kind sch = Sorted ->
  holds (w_tab w) rows -> length rows <= s_imax sch ->
  forall cmp new, total_preorder cmp -> ascending cmp rows -> ascending cmp new -> Forall (row_ty (s_cols sch)) new ->
  if length rows + length new <=? S (s_imax sch) then
    exists w' out, merge pr cmp w new = Ok w' /\ holds (w_tab w') out /\ ascending cmp out /\ Permutation (rows ++ new) out
  else merge pr cmp w new = panic PRowIdRange.
Proof. exact merge_sorted. Qed.
Print Assumptions C23_merge.
(** C23.  [merge(vec)] sorts for itself. *)
Theorem C23_merge_vec :
  forall pr umax sch w its rows, reachable pr umax sch (Locked w its) -> s_kind sch = Sorted ->
  holds (w_tab w) rows -> length rows <= s_imax sch ->
  forall cmp new, total_preorder cmp -> ascending cmp rows -> Forall (row_ty (s_cols sch)) new ->
  if length rows + length new <=? S (s_imax sch) then
    exists w' out, merge_vec pr cmp w new = Ok w' /\ holds (w_tab w') out /\ ascending cmp out /\ Permutation (rows ++ new) out
  else merge_vec pr cmp w new = panic PRowIdRange.
Proof. exact merge_vec_sorted. Qed.
Print Assumptions C23_merge_vec.
Example C23_case : exists w, reachable Debug 255 (sch Sorted) (Locked w []) /\
  map (t_get_row (w_tab w)) (seq 0 2) = map Ok [r2; r3] /\ total_preorder (by_col 0) /\
  exists w', merge_vec Debug (by_col 0) w [r3; r1; r2] = Ok w' /\
    map (t_get_row (w_tab w')) (seq 0 5) = map Ok [r1; r2; r2; r3; r3].
Proof.
  eexists. split; [reached [OLock; OMerge (by_col 0) [r3; r2]]|]. split; [calc|]. split; [apply by_col_order|].
  eexists. calcs.
Qed.

(** C24 (refuted).  A new row is put before a row of the table that compares equal. *)
Theorem C24_unstable_refuted :
  exists w its cmp x y, total_preorder cmp /\ reachable Debug 255 (sch Sorted) (Locked w its) /\ holds (w_tab w) [x] /\
    cmp x y = Eq /\ stable_merge cmp [x] [y] = [x; y] /\
    exists w', merge Debug cmp w [y] = Ok w' /\ t_get_row (w_tab w') 0 = Ok y /\ t_get_row (w_tab w') 1 = Ok x /\ x <> y.
Proof.
  eexists. eexists. exists (by_col 1), r1, r2. split; [apply by_col_order|].
  split; [reached [OLock; OMerge (by_col 1) [r1]]|].
  split; [split; [calc|]; intros [|[|]] r E; inversion E; calc|]. split; [calc|]. split; [calc|].
  eexists. split; [calc|]. split; [calc|]. split; [calc|]. discriminate.
Qed.
Print Assumptions C24_unstable_refuted.
(** C24.  The order the rows are left in: the stable merge, except that the first new row comes before the
    rows equal to it.  (Whatever the comparison, and whether or not the rows are sorted by it.) *)
Theorem C24_merge_order :
  forall pr umax sch w its rows, reachable pr umax sch (Locked w its) -> s_kind sch = Sorted ->
  holds (w_tab w) rows -> length rows <= s_imax sch ->
  forall cmp new, Forall (row_ty (s_cols sch)) new ->
  if length rows + length new <=? S (s_imax sch) then
    exists w', merge pr cmp w new = Ok w' /\ holds (w_tab w') (merge_order cmp rows new)
  else merge pr cmp w new = panic PRowIdRange.
Proof. exact merge_exact. Qed.
Print Assumptions C24_merge_order.
Example C24_case :
  merge_order (by_col 1) [r1; r3] [r2; [VInt 4; VInt 5]] = [r2; r1; [VInt 4; VInt 5]; r3] /\
  exists w, reachable Debug 255 (sch Sorted) (Locked w []) /\ map (t_get_row (w_tab w)) (seq 0 2) = map Ok [r1; r3] /\
  exists w', merge Debug (by_col 1) w [r2; [VInt 4; VInt 5]] = Ok w' /\
    map (t_get_row (w_tab w')) (seq 0 4) = map Ok [r2; r1; [VInt 4; VInt 5]; r3].
Proof. split; [calc|]. eexists. split; [reached [OLock; OMerge (by_col 1) [r3; r1]]|]. split; [calc|]. eexists. calcs. Qed.

(** C25.  [merge_logged] reports one id per new row, ascending, and each reported id holds its row, both
    when it is reported and in the end. *)
Theorem C25_merge_logged :
  forall pr umax sch w its rows, reachable pr umax sch (Locked w its) -> s_kind sch = Sorted ->
  holds (w_tab w) rows -> length rows <= s_imax sch ->
  forall cmp S (log : S -> wlock -> nat -> S) s new, Forall (row_ty (s_cols sch)) new ->
  if length rows + length new <=? Datatypes.S (s_imax sch) then
    exists w' tr, merge_logged pr cmp log s w new = Ok (fold_left (fun s c => log s (fst c) (snd c)) tr s, w') /\
      holds (w_tab w') (merge_order cmp rows new) /\
      length tr = length new /\ StronglySorted lt (map snd tr) /\
      forall k w1 i, nth_error tr k = Some (w1, i) ->
        exists r, nth_error new k = Some r /\ t_get_row (w_tab w1) i = Ok r /\ t_get_row (w_tab w') i = Ok r
  else merge_logged pr cmp log s w new = panic PRowIdRange.
Proof. exact merge_logged_exact. Qed.
Print Assumptions C25_merge_logged.
(** C25.  [merge_in_a_single_row] returns the id that holds the row. *)
Theorem C25_merge_single :
  forall pr umax sch w its rows, reachable pr umax sch (Locked w its) -> s_kind sch = Sorted ->
  holds (w_tab w) rows -> length rows <= s_imax sch ->
  forall cmp r, row_ty (s_cols sch) r ->
  exists w' i, merge_in_a_single_row pr cmp w r = Ok (w', i) /\ t_get_row (w_tab w') i = Ok r /\
    holds (w_tab w') (merge_order cmp rows [r]).
Proof. exact merge_single_exact. Qed.
Print Assumptions C25_merge_single.
Example C25_case : exists w, reachable Debug 255 (sch Sorted) (Locked w []) /\
  map (t_get_row (w_tab w)) (seq 0 2) = map Ok [r1; r3] /\
  exists w', merge_logged Debug (by_col 0) (fun l (_ : wlock) i => l ++ [i]) [] w [r1; r2; r2; r3] = Ok ([0; 2; 3; 5], w').
Proof. eexists. split; [reached [OLock; OMerge (by_col 0) [r3; r1]]|]. split; [calc|]. eexists. calc. Qed.

(** C26.  [remove_rows] of a write lock on a sorted table removes exactly the rows named, if they are named
    in strictly ascending order and exist, keeping the order of the rest; otherwise it panics. *)
Theorem C26_remove_rows :
  forall pr umax sch w its rows, reachable pr umax sch (Locked w its) -> s_kind sch = Sorted ->
  holds (w_tab w) rows -> forall ids,
  (StronglySorted lt ids -> Forall (fun i => i < length rows) ids ->
    exists w', sorted_remove_rows w ids = Ok w' /\ holds (w_tab w') (without 0 rows ids) /\
      forall c, ascending c rows -> ascending c (without 0 rows ids)) /\
  (ids <> [] -> ~ (StronglySorted lt ids /\ Forall (fun i => i < length rows) ids) ->
    exists c, sorted_remove_rows w ids = panic c).
Proof. exact sorted_remove_exact. Qed.
Print Assumptions C26_remove_rows.
(** C26.  The same of [Table::remove_rows], which can also remove all rows. *)
Theorem C26_table_remove_rows :
  forall pr umax sch t rows srt ev, reachable pr umax sch (Free t) -> s_kind sch = Sorted -> holds t rows ->
  (forall ids, StronglySorted lt ids -> Forall (fun i => i < length rows) ids ->
    exists t', sorted_table_remove_rows pr umax srt t ev (SThese ids) = Ok t' /\ holds t' (without 0 rows ids)) /\
  (exists t', sorted_table_remove_rows pr umax srt t ev SAll = Ok t' /\ holds t' []).
Proof. exact table_remove_exact. Qed.
Print Assumptions C26_table_remove_rows.
Example C26_case : exists w, reachable Debug 255 (sch Sorted) (Locked w []) /\
  map (t_get_row (w_tab w)) (seq 0 5) = map Ok [r1; r1; r2; r3; r3] /\
  without 0 [r1; r1; r2; r3; r3] [1; 3; 4] = [r1; r2] /\
  exists w', sorted_remove_rows w [1; 3; 4] = Ok w' /\ t_len (w_tab w') = 2 /\
    map (t_get_row (w_tab w')) (seq 0 2) = map Ok [r1; r2] /\ t_find (w_tab w') 1 (VInt 5) = Ok [0; 1].
Proof.
  eexists. split; [reached [OLock; OMerge (by_col 0) [r3; r1; r2; r3; r1]]|]. split; [calc|]. split; [calc|].
  eexists. calcs.
Qed.

(** C27 (refuted).  The sort key can be assigned through a write lock, after which the table is not sorted. *)
Theorem C27_key_assigned_refuted :
  exists ops st cmp, total_preorder cmp /\ run Debug 255 (Free (t_new (sch Sorted))) ops = Ok st /\
    Forall (op_ty (s_cols (sch Sorted))) ops /\ (forall c rows, In (OMerge c rows) ops -> c = cmp) /\
    exists x y, t_get_row (st_tab st) 0 = Ok x /\ t_get_row (st_tab st) 1 = Ok y /\ cmp x y = Gt.
Proof.
  exists [OLock; OMerge (by_col 0) [r1; r2]; OAssign 0 0 (VInt 9)]. eexists. exists (by_col 0).
  split; [apply by_col_order|]. split; [calc|]. split.
  { repeat constructor. intros t E. inversion E. exact I. }
  split. { intros c rows [E|[E|[E|[]]]]; inversion E; reflexivity. }
  exists [VInt 9; VInt 5], r2. calcs.
Qed.
Print Assumptions C27_key_assigned_refuted.
(** C27.  Otherwise a sorted table is always sorted: if only columns the comparison ignores are assigned
    and rows wrapped in [AssertSorted] are indeed ascending, every history keeps the table ascending. *)
Theorem C27_always_sorted :
  forall pr umax sch cmp, total_preorder cmp -> s_kind sch = Sorted ->
  forall ops st rows, s_cols sch <> [] -> Forall (op_ty (s_cols sch)) ops -> Forall (keeps_order cmp) ops ->
  run pr umax (Free (t_new sch)) ops = Ok st -> holds (st_tab st) rows -> ascending cmp rows.
Proof. exact always_sorted. Qed.
Print Assumptions C27_always_sorted.
Example C27_case :
  let ops := [OLock; OMerge (by_col 1) [r3; r1]; OAssign 0 0 (VInt 9); OMergeSingle (by_col 1) r2; ORemoveSorted [2];
              OClose; ORemoveRows true ev_delete (SThese [0])] in
  Forall (keeps_order (by_col 1)) ops /\
  exists st, run Debug 255 (Free (t_new (sch Sorted))) ops = Ok st /\ t_get_row (st_tab st) 0 = Ok [VInt 9; VInt 5].
Proof.
  intro ops. split; [|eexists; calcs].
  repeat constructor; destruct r, r'; reflexivity.
Qed.

(** C28.  [delete] on a bag removes exactly the row named (or panics if there is none): the others remain,
    and only the last row changes its id, taking the place of the removed one. *)
Theorem C28_bag_delete :
  forall pr umax sch w its rows i, reachable pr umax sch (Locked w its) -> s_kind sch = Bag ->
  holds (w_tab w) rows ->
  match nth_error rows i with
  | Some r => exists w' rows', delete pr umax w i = Ok w' /\ holds (w_tab w') rows' /\
      Permutation rows (r :: rows') /\ length rows = S (length rows') /\
      forall j, j < length rows' -> nth_error rows' j = nth_error rows (if j =? i then length rows' else j)
  | None => delete pr umax w i = panic PIndexOOB
  end.
Proof. exact bag_delete_exact. Qed.
Print Assumptions C28_bag_delete.
Example C28_case : exists w, reachable Debug 255 (sch Bag) (Locked w []) /\
  exists w', delete Debug 255 w 0 = Ok w' /\ map (t_get_row (w_tab w')) (seq 0 2) = map Ok [r3; r2] /\
    t_find (w_tab w') 1 (VInt 6) = Ok [0].
Proof. eexists. split; [reached (three ++ [OLock])|]. eexists. calcs. Qed.

(** C29.  Iterating a bag with a body that, for each row, keeps or deletes it through its handle, and goes on or
    leaves the loop.  [ids]: the original ids of the rows visited; [rest]: of those not visited; [fin]: of the rows
    left.  No row is visited twice, and none is left out unless the body leaves the loop; the body sees
    the row at the id of its handle; exactly the rows kept or not visited remain. *)
Theorem C29_bag_iter :
  forall pr umax sch w its rows S (f : S -> wlock -> nat -> S * choice) s,
  reachable pr umax sch (Locked w its) -> s_kind sch = Bag -> holds (w_tab w) rows ->
  exists s' w' tr ids rest fin,
    bag_for_loop pr umax (recording f) (s, []) w = Ok ((s', tr), w') /\ bag_for_loop pr umax f s w = Ok (s', w') /\
    length ids = length tr /\ Permutation (seq 0 (length rows)) (ids ++ rest) /\
    (existsb (fun c => stops (snd c)) tr = false -> rest = []) /\
    (forall k i w1 c id, nth_error tr k = Some (i, w1, c) -> nth_error ids k = Some id ->
       exists r, nth_error rows id = Some r /\ t_get_row (w_tab w1) i = Ok r) /\
    holds (w_tab w') (map (fun i => nth i rows []) fin) /\ Permutation fin (kept ids tr ++ rest).
Proof. exact bag_iter_exact. Qed.
Print Assumptions C29_bag_iter.
(** Deletes the rows whose first column is odd. *)
Example C29_case :
  let f s w i := match t_get_row (w_tab w) i with Ok r => (s ++ [r], if Z.odd (key 0 r) then Remove else Keep) | Err _ => (s, Keep) end in
  exists w, reachable Debug 255 (sch Bag) (Locked w []) /\
  exists w', bag_for_loop Debug 255 f [] w = Ok ([r1; r3; r2], w') /\ t_len (w_tab w') = 1 /\ t_get_row (w_tab w') 0 = Ok r2.
Proof. intro f. eexists. split; [reached (three ++ [OLock])|]. eexists. calcs. Qed.

(** C30 (refuted).  A handle (of row 0) used after the iterator has gone on deletes another row. *)
Theorem C30_stale_handle_refuted :
  exists w b w', reachable Debug 255 (sch Bag) (Locked w []) /\
    nexts Debug 255 2 (bag_iter_new w) = Ok (b, [0; 1]) /\ bag_drop Debug 255 (bag_handle_delete b) = Ok w' /\
    map (t_get_row (w_tab w)) (seq 0 3) = map Ok [r1; r2; r3] /\ t_len (w_tab w') = 2 /\
    map (t_get_row (w_tab w')) (seq 0 2) = map Ok [r1; r3].
Proof. eexists. eexists. eexists. split; [reached (three ++ [OLock])|]. calcs. Qed.
Print Assumptions C30_stale_handle_refuted.
(** C30.  After [n] rows, any of the handles 0 .. n-1 deletes the row of the last one. *)
Theorem C30_current_row_deleted :
  forall pr umax sch w its rows n, reachable pr umax sch (Locked w its) -> s_kind sch = Bag ->
  holds (w_tab w) rows -> 0 < n <= length rows ->
  exists b, nexts pr umax n (bag_iter_new w) = Ok (b, seq 0 n) /\
    bag_drop pr umax (bag_handle_delete b) = delete pr umax w (n - 1).
Proof. exact handle_deletes_current. Qed.
Print Assumptions C30_current_row_deleted.
Example C30_case : exists w, reachable Debug 255 (sch Bag) (Locked w []) /\
  exists b w', nexts Debug 255 3 (bag_iter_new w) = Ok (b, [0; 1; 2]) /\ bag_drop Debug 255 (bag_handle_delete b) = Ok w' /\
    map (t_get_row (w_tab w')) (seq 0 2) = map Ok [r1; r2].
Proof. eexists. split; [reached (three ++ [OLock])|]. eexists. eexists. calcs. Qed.
