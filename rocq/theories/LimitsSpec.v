(** Vocabulary of the property about which calls succeed (C84). *)
From Coq Require Import List Arith Bool.
From Verif Require Import Base Column RowRange Table TableSpec Hist.
Import ListNotations.

(** The program [ops] brings a new table to [st], and no call of it empties the columns while some row is
    deleted (see C17 for those). *)
Definition comes_to (pr : profile) (umax : nat) (sch : schema) (ops : list op) (st : state) : Prop :=
  Forall (op_ty (s_cols sch)) ops /\ run pr umax (Free (t_new sch)) ops = Ok st /\
  forall before o after st1, ops = before ++ o :: after -> run pr umax (Free (t_new sch)) before = Ok st1 -> sane_op st1 o.

(** Calls that iterate do so by [next] (C10 is about [skip_fast]), and a range has row ids as bounds. *)
Definition by_next (imax : nat) (o : op) : Prop :=
  match o with
  | ORange r its => r_end r <= imax /\ Forall (fun x => x = ItNext) its
  | OIter its | OEdit its => Forall (fun x => x = ItNext) its
  | _ => True
  end.

(** How many rows can be pushed: in place of deleted ones, and with new ids. *)
Definition room (t : table) : nat :=
  length (filter (t_is_deleted t) (seq 0 (t_len t))) + (S (t_imax t) - t_len t).

Definition lock_of (st : state) : option wlock := match st with Locked w _ => Some w | Free _ => None end.
(** The rows the lock would tell the trackers about are all within the table. *)
Definition log_fits (w : wlock) (len : nat) : Prop :=
  match w_changes w with SAll => True | SThese ids => Forall (fun i => i < len) ids end.
(** What an event must be to be flushed, after these calls; [len]: rows of the table. *)
Definition flushes (ops : list op) (w : wlock) (len : nat) (ev : event) : Prop :=
  since is_change ops = false \/
  (since is_push ops && since is_del ops = false /\ ev_removal ev && ev_creation ev = false /\ ev_id ev < max_event_types /\
   (ev_removal ev = true -> log_fits w len)).

(** When call [o] on a consistent table succeeds, after the calls [ops] brought it to [st]. *)
Definition succeeds (pr : profile) (ops : list op) (st : state) (o : op) : Prop :=
  let t := st_tab st in
  let cols := s_cols (t_sch t) in
  match o with
  (* reads *)
  | OGet i => t_contains t i = true
  | OCell k i => k < length cols /\ i < t_len t
  | OFind k _ => exists b, nth_error cols k = Some (Indexed b)
  | OLast => True
  | OIter _ => t_len t <= t_imax t
  | ORange r _ => (r_start r < t_len t \/ r_start r = r_end r) /\ r_end r <= t_len t
  (* locks *)
  | OLock => lock_of st = None
  | OClose => lock_of st <> None /\ since is_change ops = false
  | OFlush _ ev | OLiveFlush _ ev => exists w, lock_of st = Some w /\ flushes ops w (t_len t) ev
  (* writes *)
  | OEdit _ | ONextPushed => lock_of st <> None /\ t_len t <= t_imax t
  | OAssign k i _ => lock_of st <> None /\ (exists b, nth_error cols k = Some (Plain b)) /\ i < t_len t
  | OPush _ => lock_of st <> None /\ 0 < room t
  | OPushAll rs => lock_of st <> None /\ length rs <= room t
  | OPushArray rs => lock_of st <> None /\
      (rs = [] \/ t_len t + length rs <= match pr with Debug => t_imax t | Release => S (t_imax t) end)
  | ODelete i => lock_of st <> None /\ t_contains t i = true
  | OSelect _ | OSelectAll | OClear | OClearRaw => lock_of st <> None
  (* [Table::remove_rows] *)
  | ORemoveRows _ ev (SThese ids) => Forall (fun i => i < t_len t) ids /\ 
      match lock_of st with None => True | Some w => flushes ops w (t_len t) ev end
  | ORemoveRows _ ev SAll => since is_push ops = false /\ ev_removal ev && ev_creation ev = false /\ ev_id ev < max_event_types
  (* not generated for consistent tables *)
  | _ => False
  end.
