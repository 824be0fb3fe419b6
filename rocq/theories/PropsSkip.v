(** Property theorems about skipping in iterators, C88. *)
From Coq Require Import List Arith Bool Sorted.
From Verif Require Import Base Column RowRange Table TableSpec Hist Cases SkipSpec SkipFacts.
Import ListNotations.

(** C88.  If nothing is skipped past the largest [usize] (or in a debug build, where that panics): whatever mixture of [next]
    and [skip_fast], the rows yielded by an iterator over a range are ascending, and none is deleted. *)
Theorem C88_present :
  forall pr umax sch st, reachable pr umax sch st ->
  let t := st_tab st in t_len t <= t_imax t -> t_imax t <= umax ->
  forall r it ops outs, r_start r <= r_end r -> t_range t r = Ok it -> skips_usize umax ops ->
  cons_run pr (t_imax t) umax ops it = Ok outs -> pr = Debug \/ r_end r + skipped ops <= umax ->
  StronglySorted lt (somes outs) /\ Forall (fun x => t_contains t x = true) (somes outs).
Proof. exact range_up. Qed.
Print Assumptions C88_present.
Example C88_present_case : exists t, reachable Debug 255 (sch Consistent) (Free t) /\ t_contains t 1 = false /\
  exists it, t_range t (RR 0 3) = Ok it /\
  cons_run Debug 7 255 [ItNext; ItSkip 0; ItNext; ItNext] it = Ok [Some 0; Some 2; None] /\
  cons_run Debug 7 255 [ItNext; ItNext; ItSkip 254] it = panic POverflow.
Proof. eexists. split; [reached hole|]. split; [calc|]. eexists. calcs. Qed.

(** C88 (refuted).  In a release build: [next], [next], [skip_fast(usize::MAX - 1)], [next] on a consistent table whose row 1
    was deleted yields rows 0, 2, 1. *)
Theorem C88_refuted :
  exists sch t it n, reachable Release 255 sch (Free t) /\ n <= 255 /\
    t_iter t = Ok it /\ cons_run Release (t_imax t) 255 [ItNext; ItNext; ItSkip n; ItNext] it = Ok [Some 0; Some 2; Some 1] /\
    t_contains t 1 = false /\ t_get_row t 1 = panic PDeletedRow.
Proof.
  exists (sch Consistent). do 2 eexists. exists 254. split; [|split; [|split; [|split; [|split]]]].
  - split; [discriminate|]. exists hole. split; [repeat constructor|]. vm_compute. reflexivity.
  - apply Nat.leb_le. vm_compute. reflexivity.
  - vm_compute. reflexivity.
  - vm_compute. reflexivity.
  - vm_compute. reflexivity.
  - vm_compute. reflexivity.
Qed.
Print Assumptions C88_refuted.

(** C88.  What is yielded in general, in both builds ([wander]): skipping past the largest [usize] goes back, and the rows that
    were looked at before are then all yielded, deleted or not. *)
Theorem C88_yields :
  forall pr umax sch st, reachable pr umax sch st ->
  let t := st_tab st in t_len t <= t_imax t -> t_imax t <= umax ->
  forall r it ops, r_start r <= r_end r -> t_range t r = Ok it -> skips_usize umax ops ->
  match wander pr (t_imax t) umax (t_contains t) ops (r_start r) 0 (r_end r) with
  | Some l => cons_run pr (t_imax t) umax ops it = Ok l
  | None => exists p, cons_run pr (t_imax t) umax ops it = panic p
  end.
Proof. exact range_wander. Qed.
Print Assumptions C88_yields.
Theorem C88_edits :
  forall pr umax sch st, reachable pr umax sch st ->
  let t := st_tab st in t_len t <= t_imax t -> t_imax t <= umax ->
  forall it ops, t_editing t = Ok it -> skips_usize umax ops ->
  match wander pr (t_imax t) umax (t_contains t) ops 0 0 (t_len t) with
  | Some l => cons_run pr (t_imax t) umax ops it = Ok l
  | None => exists p, cons_run pr (t_imax t) umax ops it = panic p
  end.
Proof. exact edit_wander. Qed.
Print Assumptions C88_edits.
(** Back to the start: row 1, deleted, is yielded the second time round. *)
Example C88_case : exists t, reachable Release 255 (sch Consistent) (Free t) /\
  wander Release 7 255 (t_contains t) [ItNext; ItNext; ItSkip 253; ItNext; ItNext; ItNext; ItNext] 0 0 (t_len t) =
    Some [Some 0; Some 2; Some 0; Some 1; Some 2; None] /\
  wander Release 7 255 (t_contains t) [ItNext; ItSkip 7] 0 0 (t_len t) = None.
Proof.
  eexists. split; [|split].
  - split; [discriminate|]. exists hole. split; [repeat constructor|]. vm_compute. reflexivity.
  - vm_compute. reflexivity.
  - vm_compute. reflexivity.
Qed.
