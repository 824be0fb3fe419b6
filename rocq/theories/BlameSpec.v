(** Vocabulary of the property that rows which disappear while threads run were asked for or referred to such rows (C81). *)
From Coq Require Import List Arith Bool.
From Verif Require Import Base Column RowRange Table Hist Events Race RaceSpec Cascade Extract Threads.
Import ListNotations.

(** The threads came from [c0] to [c], through the states [h] (these two included; the last one first). *)
Inductive history (c0 : threads) : list threads -> threads -> Prop :=
| history_start : history c0 [c0] c0
| history_step h c c' : history c0 h c -> thread_step c c' -> history c0 (c' :: h) c'.

(** In one of the states, table [p] is [t]; in one of them, it has tracker [tr]. *)
Definition table_in (h : list threads) (p : nat) (t : table) : Prop :=
  exists c, In c h /\ nth_error (u_tabs (xu_u (th_x c))) p = Some t.
Definition tracked_in (h : list threads) (p : nat) (tr : tracker) : Prop :=
  exists c, In c h /\ In tr (u_trackers (xu_u (th_x c)) p).
(** Element [j] of column [k] is row id [i]. *)
Definition refers (t : table) (k j i : nat) : Prop :=
  exists c, nth_error (t_cols t) k = Some c /\ c_index c j = Ok (VRow i).

Section Blame.
(** What the threads are to do, and the states visited so far. *)
Variable tss : list (list top).
Variable h : list threads.
Definition does (o : top) : Prop := exists ops, In ops tss /\ In o ops.
(** Some thread locks table [p], makes the calls [es] and flushes with event [ev]. *)
Definition session (p : nat) (es : list op) (ev : event) : Prop := does (TDo (XFlush p es ev)) \/ does (TDo (XLive p es ev)).

(** Rows put on the list of a lock of table [p] that is flushed with event [ev]; [None]: all rows.
    By [delete] or [select]; by [clear] or [select_all]; by pushing or restoring, if at some time the row was not there (or the
    elements were discarded by [clear_raw] under this lock).  Tables of kinds that have no list: anything. *)
Inductive listed (ev : event) (p : nat) : option nat -> Prop :=
| listed_row es i : session p es ev -> In (ODelete i) es \/ In (OSelect i) es -> listed ev p (Some i)
| listed_all es : session p es ev -> In OClear es \/ In OSelectAll es -> listed ev p None
| listed_pushed es o i t : session p es ev -> In o es -> is_push o = true -> table_in h p t ->
    t_contains t i = false \/ In OClearRaw es -> listed ev p (Some i)
| listed_restored e i t : does (TDo (XRestore p e ev)) -> table_in h p t -> t_contains t i = false -> listed ev p (Some i)
| listed_other oi t : (exists es, session p es ev) \/ (exists e, does (TDo (XRestore p e ev))) -> table_in h p t -> t_kind t <> Consistent -> listed ev p oi.

(** Row [oi] of table [q] leads to row [oj] of table [c]: table [c] tracked [q] by its column [k], and in that column its row had
    the row id.  All rows lead to all rows. *)
Definition leads (q : nat) (oi : option nat) (c : nat) (oj : option nat) : Prop :=
  exists k key, tracked_in h q (TAuto c k key) /\
  match oi, oj with
  | Some i, Some j => exists t, table_in h c t /\ refers t k j i
  | None, None => True
  | _, _ => False
  end.
(** What event [ev] is about: rows listed; rows that a read lock selected for it; and rows to which these lead. *)
Inductive struck (ev : event) : nat -> option nat -> Prop :=
| struck_listed p oi : listed ev p oi -> struck ev p oi
| struck_selected p sel oi : does (TSelect p ev sel) ->
    match sel, oi with SAll, None => True | SThese l, Some i => In i l | _, _ => False end -> struck ev p oi
| struck_leads q oi c oj : struck ev q oi -> leads q oi c oj -> struck ev c oj.

(** Why row [i] of table [p] may disappear: [clear_raw]; it was on the list of a lock flushed with a removing event; or an event whose
    handler deletes led to it. *)
Definition blame (hs : list handler) (p i : nat) : Prop :=
  (exists es ev, session p es ev /\ In OClearRaw es) \/
  exists ev oi, (oi = Some i \/ oi = None) /\
    (ev_removal ev = true /\ listed ev p oi \/
     handlers_get hs ev = Ok HDelete /\ exists q oq, struck ev q oq /\ leads q oq p oi).
(** Some thread uses event [ev]. *)
Definition raises (ev : event) : Prop := exists p,
  (exists es, does (TDo (XFlush p es ev))) \/ (exists es, does (TDo (XLive p es ev))) \/ (exists e, does (TDo (XRestore p e ev))) \/
  (exists sel, does (TSelect p ev sel)).
End Blame.
