(** Properties about what an interrupted call leaves.  See UnwindSpec.v for the vocabulary. *)
From Coq Require Import List Arith Bool ZArith.
From Verif Require Import Base Column Order RowRange Table Visit SortedTab BagTab TableSpec Hist Unwind UnwindSpec Cases
  UnwindCases UnwindRows UnwindMerge UnwindFlush.
Import ListNotations.
Local Open Scope nat_scope.

(** C65 (refuted).  The closure of [retain] panics: a row it removed is there, another one is there twice, and a
    sorted table is no longer sorted. *)
Theorem C65_retain_panic_refuted :
  exists w cmp rows w', reachable Debug 255 (sch Sorted) (Locked w []) /\ total_preorder cmp /\ holds (w_tab w) rows /\ ascending cmp rows /\
    u_retain Debug no_panics picky tt w = (w', panic PUser) /\
    nth_error rows 1 = Some r2 /\ (forall w1, snd (picky tt w1 1) = Some false) /\
    t_dump Debug (w_tab w') = Ok [r3; r2; r3; r4] /\ ~ ascending cmp [r3; r2; r3; r4].
Proof.
  eexists. exists (by_col 0), [r1; r2; r3; r4]. eexists. split; [reached [OLock; OMerge (by_col 0) [r1; r2; r3; r4]]|].
  split; [apply by_col_order|]. split; [split; [calc|]; intros [|[|[|[|[|]]]]] r E; inversion E; calc|].
  split; [repeat constructor; unfold le_by; vm_compute; discriminate|].
  split; [vm_compute; reflexivity|]. split; [calc|]. split; [reflexivity|]. split; [calc|].
  intro A. inversion A as [|? ? _ F]. inversion F as [|? ? N _]. apply N. calc.
Qed.
Print Assumptions C65_retain_panic_refuted.
(** C65 (refuted).  The closure of [visit] panics after it added a row: a row it did not remove is gone. *)
Theorem C65_visit_panic_refuted :
  exists w rows w', reachable Debug 255 (sch List_) (Locked w []) /\ holds (w_tab w) rows /\
    u_visit Debug no_panics greedy tt w = (w', panic PUser) /\ In r2 rows /\
    (forall s w1 i add stop, snd (greedy s w1 i) <> UContinue true add stop) /\ t_dump Debug (w_tab w') = Ok [r1; r4; r3].
Proof.
  eexists. exists [r1; r2; r3]. eexists. split; [reached [OLock; OPushAll [r1; r2; r3]]|].
  split; [split; [calc|]; intros [|[|[|[|]]]] r E; inversion E; calc|]. split; [vm_compute; reflexivity|].
  split; [simpl; auto|]. split; [|calc]. intros s w1 [|[|[|i]]] add stop; discriminate.
Qed.
Print Assumptions C65_visit_panic_refuted.
(** C65.  Exactly what a panic during [retain] leaves: the rows approved of so far, then the old rows from there on;
    so no row that was approved of, or not asked about, is lost.  The indexes are right. *)
Theorem C65_retain_interrupted :
  forall pr umax sch w its A (f : A -> wlock -> nat -> A * option bool) s rows w',
  reachable pr umax sch (Locked w its) -> s_kind sch <> Consistent ->
  holds (w_tab w) rows -> length rows <= s_imax sch ->
  u_retain pr no_panics f s w = (w', panic PUser) ->
  exists seen bs, shown (w_tab w) (length rows) seen /\ answers f s 0 seen = map Some bs ++ [None] /\
    let kept := map fst (filter snd (combine rows bs)) in
    holds (w_tab w') (kept ++ skipn (length kept) rows) /\ finds_right (w_tab w') /\
    forall i r, nth_error rows i = Some r -> nth_error bs i <> Some false -> In r (kept ++ skipn (length kept) rows).
Proof. exact retain_interrupted. Qed.
Print Assumptions C65_retain_interrupted.
(** C65.  The same for [visit], also if an iterator with rows to add panics. *)
Theorem C65_visit_interrupted :
  forall pr umax sch w its A (f : A -> wlock -> nat -> A * uaction) s rows w',
  reachable pr umax sch (Locked w its) -> s_kind sch <> Consistent ->
  holds (w_tab w) rows -> length rows <= s_imax sch ->
  (forall s w i s' rm add stop, f s w i = (s', UContinue rm add stop) -> Forall (row_ty (s_cols sch)) add) ->
  u_visit pr no_panics f s w = (w', panic PUser) ->
  exists seen, shown (w_tab w) (length rows) seen /\ cut_short (answers f s 0 seen) /\
    holds (w_tab w') (left_over rows (answers f s 0 seen)) /\ finds_right (w_tab w').
Proof. exact visit_interrupted. Qed.
Print Assumptions C65_visit_interrupted.
Example C65_case : exists w w', reachable Debug 255 (sch Sorted) (Locked w []) /\ holds (w_tab w) [r1; r2; r3; r4] /\
  u_retain Debug no_panics picky tt w = (w', panic PUser) /\ answers picky tt 0 [w; w; w; w] = map Some [false; false; true] ++ [None] /\
  map fst (filter snd (combine [r1; r2; r3; r4] [false; false; true])) = [r3] /\
  t_dump Debug (w_tab w') = Ok ([r3] ++ [r2; r3; r4]) /\ t_find (w_tab w') 1 (VInt 6) = Ok [0; 2] /\ t_find (w_tab w') 1 (VInt 5) = Ok [1].
Proof.
  eexists. eexists. split; [reached [OLock; OMerge (by_col 0) [r1; r2; r3; r4]]|].
  split; [split; [calc|]; intros [|[|[|[|[|]]]]] r E; inversion E; calc|]. split; [vm_compute; reflexivity|]. calcs.
Qed.
Example C65_case_visit : left_over [r1; r2; r3] (map (fun i => snd (greedy tt (w_new (t_new (sch List_))) i)) [0; 1; 2]) = [r1; r4; r3].
Proof. calc. Qed.

(** C66 (refuted).  [log] panics during a merge into a sorted table: a row of the table is lost, though the merge
    removes no rows. *)
Theorem C66_merge_panic_refuted :
  exists w cmp w', reachable Debug 255 (sch Sorted) (Locked w []) /\ total_preorder cmp /\ holds (w_tab w) [r3; r4] /\
    u_merge Debug no_panics (fun a b => Some (cmp a b)) log_once 0 w [r1; r2] false = (w', panic PUser) /\
    t_dump Debug (w_tab w') = Ok [r1; r2].
Proof.
  eexists. exists (by_col 0). eexists. split; [reached [OLock; OMerge (by_col 0) [r3; r4]]|].
  split; [apply by_col_order|]. split; [split; [calc|]; intros [|[|[|]]] r E; inversion E; calc|].
  split; [vm_compute; reflexivity|]. calc.
Qed.
Print Assumptions C66_merge_panic_refuted.
(** C66.  Exactly what is left if the iterator, [log] or [Ord] of rows panics: the beginning of the merged rows laid
    over the old rows.  The table is still sorted and its indexes are right. *)
Theorem C66_merge_interrupted :
  forall pr umax sch w its A (ucmp : row -> row -> option comparison) (cmp : row -> row -> comparison)
    (log : A -> wlock -> nat -> option A) s rows new stop w',
  reachable pr umax sch (Locked w its) -> s_kind sch = Sorted -> holds (w_tab w) rows -> length rows <= s_imax sch ->
  (forall a b x, ucmp a b = Some x -> cmp a b = x) ->
  Forall (row_ty (s_cols sch)) new ->
  u_merge pr no_panics ucmp log s w new stop = (w', panic PUser) ->
  exists c, holds (w_tab w') (firstn c (merge_order cmp rows new) ++ skipn c rows) /\ finds_right (w_tab w') /\
    (total_preorder cmp -> ascending cmp rows -> ascending cmp new -> ascending cmp (firstn c (merge_order cmp rows new) ++ skipn c rows)).
Proof. exact merge_interrupted. Qed.
Print Assumptions C66_merge_interrupted.
(** The iterator panics after one row; the comparison panics at one pair. *)
Example C66_case : exists w w' w'', reachable Debug 255 (sch Sorted) (Locked w []) /\ holds (w_tab w) [r2; r4] /\
  merge_order (by_col 0) [r2; r4] [r1; r3] = [r1; r2; r3; r4] /\
  u_merge Debug no_panics (fun a b => Some (by_col 0 a b)) (fun s _ _ => Some s) tt w [r1; r3] true = (w', panic PUser) /\
  t_dump Debug (w_tab w') = Ok [r1; r2; r3] /\
  u_merge Debug no_panics (fun a b => match by_col 0 a r2 with Eq => None | _ => Some (by_col 0 a b) end) (fun s _ _ => Some s) tt w [r1; r3] false = (w'', panic PUser) /\
  t_dump Debug (w_tab w'') = Ok [r2; r4].
Proof.
  eexists. eexists. eexists. split; [reached [OLock; OMerge (by_col 0) [r2; r4]]|].
  split; [split; [calc|]; intros [|[|[|]]] r E; inversion E; calc|]. split; [calc|].
  split; [vm_compute; reflexivity|]. split; [calc|]. split; [vm_compute; reflexivity|]. calc.
Qed.

(** C67 (refuted).  A tracker panics in [live_flush] of a deletion; flushing again and closing the table succeed,
    but the row is still there. *)
Theorem C67_flush_again_refuted :
  exists t, urun Debug 255 (Free (t_new (sch Consistent)))
    [calmly (UCall OLock); calmly (UPushAll [r1; r2] false); calmly (ULiveFlush true false ev_create);
     calmly (UDelete 0); calmly (ULiveFlush true true ev_delete); calmly (ULiveFlush true false ev_delete); calmly UClose] = Live (Free t) /\
  t_contains t 0 = true /\ t_get_row t 0 = Ok r1.
Proof. eexists. split; [vm_compute; reflexivity|]. calcs. Qed.
Print Assumptions C67_flush_again_refuted.
(** C67.  After a [live_flush] in which a tracker panicked the table is as before and nothing is pending: closing the
    table succeeds and another [live_flush] does nothing.  If rows had been pushed, rows deleted with the same lock
    cannot be flushed any more. *)
Theorem C67_live_flush_interrupted :
  forall pr umax boom srt w ev, sel_empty (w_changes w) = false ->
  exists w' c, u_live_flush pr umax boom srt true w ev = (w', panic c) /\ w_tab w' = w_tab w /\
    w_drop w' = Ok (w_tab w) /\
    (forall boom' srt' tp' ev', u_live_flush pr umax boom' srt' tp' w' ev' = (w', Ok tt)) /\
    (w_pushed w = true -> t_kind (w_tab w) = Consistent -> forall i w2, u_delete pr umax boom w' i = (w2, Ok tt) ->
      forall boom' srt' ev', snd (u_live_flush pr umax boom' srt' false w2 ev') = panic PInterleave).
Proof. exact live_flush_interrupted. Qed.
Print Assumptions C67_live_flush_interrupted.
(** C67.  After a [flush] in which a tracker panicked the table is as before, the lock is free, and nothing is
    pending. *)
Theorem C67_flush_interrupted :
  forall pr umax boom srt w ev, sel_empty (w_changes w) = false ->
  ustep pr umax (Locked w []) (boom, UFlush srt true ev) = Live (Free (w_tab w)).
Proof. exact flush_interrupted. Qed.
Print Assumptions C67_flush_interrupted.
Example C67_case : exists w w', urun Debug 255 (Free (t_new (sch Consistent))) [calmly (UCall OLock); calmly (UPush r1)] = Live (Locked w []) /\
  sel_empty (w_changes w) = false /\ w_pushed w = true /\
  u_live_flush Debug 255 no_panics true true w ev_create = (w', panic PUser) /\
  exists w2, u_delete Debug 255 no_panics w' 0 = (w2, Ok tt) /\
    snd (u_live_flush Debug 255 no_panics true false w2 ev_delete) = panic PInterleave.
Proof. eexists. eexists. split; [vm_compute; reflexivity|]. split; [calc|]. split; [calc|]. split; [vm_compute; reflexivity|]. eexists. split; [vm_compute; reflexivity|calc]. Qed.
