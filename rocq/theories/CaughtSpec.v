(** Vocabulary for what a caught panic leaves of a table. *)
From Coq Require Import List Arith Bool.
From Verif Require Import Base Column RowRange Table TableSpec Hist Unwind UnwindSpec.
Import ListNotations.

(** States of programs that catch panics and go on, as long as [Ord] of an indexed element does not panic and there
    are never more rows than ids.  [careful]: rows are not emptied out all at once while some are deleted (the
    library then forgets to clear the free list, see C17). *)
Inductive caught (careful : bool) (pr : profile) (umax : nat) (sch : schema) : state -> Prop :=
| caught_new : s_cols sch <> [] -> caught careful pr umax sch (Free (t_new sch))
| caught_step st c st' : caught careful pr umax sch st ->
    uop_ok sch (snd c) -> no_ord_panic c -> (careful = true -> sane_op st (calm (snd c))) ->
    ustep pr umax st c = Live st' -> t_len (st_tab st') <= S (s_imax sch) -> caught careful pr umax sch st'.
(** All columns have the same length, and every row that is there can be read and has the right types. *)
Definition in_step (t : table) : Prop :=
  Forall (fun c => c_len c = t_len t) (t_cols t) /\
  forall i, i < t_len t -> t_is_deleted t i = false -> exists r, t_get_row t i = Ok r /\ row_ty (s_cols (t_sch t)) r.
(** A flush whose event the trackers are told: src/tracking.rs:257-261, src/event.rs:192-194. *)
Definition told (w : wlock) (ev : event) : Prop :=
  ~ (w_pushed w = true /\ w_delete w = true) /\ ~ (ev_removal ev = true /\ ev_creation ev = true) /\ ev_id ev < max_event_types.
