(** Property theorems about tables that use all their row ids, C87. *)
From Coq Require Import List Arith Bool ZArith.
From Verif Require Import Base Column Order RowRange Table Visit SortedTab BagTab TableSpec Hist Cases FullSpec FullProps.
Import ListNotations.

(** C87.  In a debug build, or while a row id is unused: [visit], [retain], [merge] and [merge_logged] of any reachable
    table that has them return or panic, whatever the closure (of the right type) does. *)
Theorem C87_ends :
  forall pr umax sch w its, reachable pr umax sch (Locked w its) -> s_kind sch <> Consistent ->
  pr = Debug \/ t_len (w_tab w) <= s_imax sch ->
  (forall S (f : S -> wlock -> nat -> S * action) s,
     (forall s w i s' rm add, f s w i = (s', Continue rm add) -> Forall (row_ty (s_cols sch)) add) -> ends (visit pr f s w)) /\
  (forall S (f : S -> wlock -> nat -> S * bool) s, ends (retain pr f s w)) /\
  (forall S cmp (log : S -> wlock -> nat -> S) s rows, Forall (row_ty (s_cols sch)) rows -> ends (merge_logged pr cmp log s w rows)).
Proof.
  exact (fun pr umax sch w its R N H =>
    conj (fun S f s T => visit_ends pr umax sch w its R N S f s T H)
      (conj (fun S f s => retain_ends pr umax sch w its R N S f s H)
        (fun S cmp log s rows T => merge_ends pr umax sch w its R N S cmp log s rows T H))).
Qed.
Print Assumptions C87_ends.

(** Eight rows: all ids of [sch k]. *)
Definition fill : list op := [OLock; OPushAll [r1; r2; r3; r1; r2; r3; r1; r2]].
Definition fill_sorted : list op := [OLock; OMerge (by_col 0) [r1; r1; r1; r2; r2; r2; r3; r3]].
Definition full_sorted : wlock :=
  match run Release 255 (Free (t_new (sch Sorted))) fill_sorted with Ok (Locked w _) => w | _ => w_new (t_new (sch Sorted)) end.
Example C87_ends_case :
  exists w, reachable Debug 255 (sch List_) (Locked w []) /\ t_len (w_tab w) = 8 /\
  retain Debug (fun n _ i => (n, negb (i =? 3))) tt w = panic POverflow.
Proof. eexists. split; [reached fill|]. calcs. Qed.

(** C87 (refuted).  In a release build, on lists and sorted tables with all eight ids in use: [retain] never returns though
    its closure removes a row; [visit] never returns though its closure does nothing; nor does [merge] of a row that
    goes behind all others. *)
Theorem C87_refuted :
  exists sch w, reachable Release 255 sch (Locked w []) /\
    endless (visit_turns Release (keeping (fun n _ i => (n, negb (i =? 3)))) tt w) /\
    endless (visit_turns Release (fun n _ _ => (n, Continue false [])) tt w) /\
    exists r, row_ty (s_cols sch) r /\ endless (merge_turns Release (by_col 0) (w_tab w) r).
Proof.
  assert (R : reachable Release 255 (sch Sorted) (Locked full_sorted [])).
  { split; [discriminate|]. exists fill_sorted. split; [repeat constructor|]. vm_compute. reflexivity. }
  assert (L : t_len (w_tab full_sorted) = 8) by (vm_compute; reflexivity).
  assert (F : s_imax (sch Sorted) < t_len (w_tab full_sorted)) by (rewrite L; repeat constructor).
  exists (sch Sorted), full_sorted. split; [exact R|]. split; [|split].
  - apply (retain_endless 255 (sch Sorted) full_sorted [] R ltac:(discriminate) F).
  - apply (visit_endless 255 (sch Sorted) full_sorted [] R ltac:(discriminate) F). intros. do 2 eexists. split; [reflexivity|constructor].
  - exists [VInt 4; VInt 5]. split; [repeat constructor|]. apply (merge_endless 255 (sch Sorted) full_sorted [] R ltac:(discriminate) F).
    rewrite L. intros i r Hi.
    do 8 (destruct i as [|i]; [vm_compute; intros [= <-]; reflexivity|]). exfalso. do 8 apply Nat.succ_lt_mono in Hi. inversion Hi.
Qed.
Print Assumptions C87_refuted.

(** C87.  How it is on every reachable table of a release build that uses all its ids: [retain] never returns, whatever its
    closure; [visit] does not unless its closure breaks; [merge] of a first row behind all others does not, and any other
    [merge] panics. *)
Theorem C87_forever :
  forall umax sch w its, reachable Release umax sch (Locked w its) -> s_kind sch <> Consistent ->
  s_imax sch < t_len (w_tab w) ->
  (forall S (f : S -> wlock -> nat -> S * bool) s, endless (visit_turns Release (keeping f) s w)) /\
  (forall S (f : S -> wlock -> nat -> S * action) s,
     (forall s w i, exists rm add, snd (f s w i) = Continue rm add /\ Forall (row_ty (s_cols sch)) add) -> endless (visit_turns Release f s w)) /\
  (forall cmp first, (forall i r, i < t_len (w_tab w) -> t_get_row (w_tab w) i = Ok r -> cmp r first = Lt) ->
     endless (merge_turns Release cmp (w_tab w) first)) /\
  (forall S cmp (log : S -> wlock -> nat -> S) s first rest,
     (exists i r, i < t_len (w_tab w) /\ t_get_row (w_tab w) i = Ok r /\ cmp r first <> Lt) ->
     exists c, merge_logged Release cmp log s w (first :: rest) = panic c).
Proof.
  exact (fun umax sch w its R N F =>
    conj (retain_endless umax sch w its R N F) (conj (visit_endless umax sch w its R N F)
      (conj (merge_endless umax sch w its R N F) (merge_else_panics umax sch w its R N F)))).
Qed.
Print Assumptions C87_forever.
Example C87_case : exists w, reachable Release 255 (sch Append) (Locked w []) /\ s_imax (sch Append) < t_len (w_tab w).
Proof.
  eexists. split.
  - split; [discriminate|]. exists fill. split; [repeat constructor|]. vm_compute. reflexivity.
  - apply Nat.ltb_lt. vm_compute. reflexivity.
Qed.

(** Being done after some number of turns is being done: more turns change nothing. *)
Theorem C87_turns :
  forall pr S (f : S -> wlock -> nat -> S * action) s w n, visit_turns pr f s w n <> Err EFuel ->
  forall m, n <= m -> visit_turns pr f s w m = visit_turns pr f s w n.
Proof. exact @visit_turns_more. Qed.
Print Assumptions C87_turns.

(** C87 (refuted).  And if the closure does break: it was shown all eight rows and removed each; it is then shown row 0 once
    more and breaks; [visit] returns, and the table still holds all eight rows. *)
Theorem C87_removed_rows_stay_refuted :
  exists sch w n w', reachable Release 255 sch (Locked w []) /\ t_len (w_tab w) = 8 /\
    visit_turns Release (fun seen _ i => (seen ++ [i], if length seen <? 8 then Continue true [] else Break)) [] w n =
      Ok ([0; 1; 2; 3; 4; 5; 6; 7; 0], w', None) /\
    w' = w.
Proof.
  exists (sch List_). do 3 eexists. split; [|split; [|split]].
  - split; [discriminate|]. exists fill. split; [repeat constructor|]. vm_compute. reflexivity.
  - vm_compute. reflexivity.
  - instantiate (2 := 12). vm_compute. reflexivity.
  - vm_compute. reflexivity.
Qed.
Print Assumptions C87_removed_rows_stay_refuted.
