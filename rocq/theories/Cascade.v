(** Several tables: trackers, event handlers and cascading removal (src/tracking.rs, src/event.rs,
    macros/output.rs:346-450, 887-1023, 1060-1142, 1785-1792). *)
From Coq Require Import List Arith Bool.
From Verif Require Import Base Column RowRange Table SortedTab Events.
Import ListNotations.

(** What is registered with a table (src/tracking.rs:229-233, 315-321).
    [TAuto c k key]: the tracker derived by [#[foreign_auto]] on column [k] of table [c]; [key]: the column
    is the [#[sort_key]] of [c] (output.rs:1114-1120).  It considers every event (src/tracking.rs:180).
    [TUser srt cons]: a tracker written by hand that asks for sorted rows or not and considers some
    events.  Simplification: it only takes note of the call (trackers that act: Acting.v). *)
Inductive tracker := TAuto (c k : nat) (key : bool) | TUser (srt : bool) (cons : event -> bool).

(** Calls of trackers: table, position in its list of trackers, event, rows. *)
Record note := Note { n_table : nat; n_pos : nat; n_event : event; n_rows : select }.

(** Tables are numbered.  [u_log]: the calls of trackers so far (only observed, never used). *)
Record universe := Uni { u_tabs : list table; u_trk : list (list tracker); u_hdl : list handler; u_log : list note }.

Definition u_get (u : universe) (p : nat) : res table :=
  match nth_error (u_tabs u) p with Some t => Ok t | None => panic PRustType end.
Definition u_put (u : universe) (p : nat) (t : table) : universe :=
  Uni (upd (u_tabs u) p t) (u_trk u) (u_hdl u) (u_log u).
Definition u_trackers (u : universe) (p : nat) : list tracker := nth p (u_trk u) [].
Definition u_say (u : universe) (n : note) : universe := Uni (u_tabs u) (u_trk u) (u_hdl u) (u_log u ++ [n]).

(** Table locks held by the running thread; [true]: for writing.  A second lock on the same table waits for ever,
    except to read what is locked for reading.  (Simplification: std's RwLock may also block or panic then,
    if another thread is waiting to write.) *)
Definition locks := list (nat * bool).
Definition can_write (h : locks) (p : nat) : bool := forallb (fun l => negb (fst l =? p)) h.
Definition can_read (h : locks) (p : nat) : bool := forallb (fun l => negb ((fst l =? p) && snd l)) h.
Definition lock_ok (b : bool) : res unit := if b then Ok tt else Err EDeadlock.

Section Cascade.
Variable pr : profile.
Variable umax : nat.

(** output.rs:1065-1079, [select_col] *)
Definition select_indexed (t : table) (k : nat) (rows : select) : res select :=
  match rows with
  | SAll => Ok SAll
  | SThese l => let* ls := map_res (fun i => t_find t k (VRow i)) l in Ok (SThese (concat ls))
  end.

(** output.rs:1091-1099.  Simplification: the ids are collected before the loop. *)
Fixpoint join_rows (t : table) (k : nat) (ids : list nat) (remove : list nat) : res (list nat) :=
  match ids with
  | [] => Ok []
  | i :: ids =>
      let* v := match nth_error (t_cols t) k with Some c => c_index c i | None => panic PRustType end in
      let q := join (fun l r => val_cmp l (VRow r)) v remove in
      match fst q with
      | JMatch _ => let* l := join_rows t k ids (snd q) in Ok (i :: l)
      | JNext => join_rows t k ids (snd q)
      | JStop => Ok []
      end
  end.
(** output.rs:1086-1102, [select_sorted_col] *)
Definition select_sorted (t : table) (k : nat) (rows : select) : res select :=
  match rows with
  | SAll => Ok SAll
  | SThese remove =>
      let* it := t_iter t in
      let* ids := cons_collect pr (t_imax t) (S (t_len t)) it in
      let* l := join_rows t k ids remove in
      Ok (SThese l)
  end.

(** output.rs:1128; user trackers choose *)
Definition tracker_sorts (u : universe) (tr : tracker) : bool :=
  match tr with
  | TAuto c _ _ => match nth_error (u_tabs u) c with Some t => kind_eqb (t_kind t) Sorted | None => false end
  | TUser srt _ => srt
  end.
Definition tracker_considers (tr : tracker) (ev : event) : bool :=
  match tr with TAuto _ _ _ => true | TUser _ f => f ev end.

Section Calls.
(** [Flush::do_flush] of table [p]. *)
Variable flush_call : universe -> locks -> nat -> event -> bool -> bool -> select -> res (universe * select).

(** output.rs:934-976: [Write::flush]; the lock is released while the trackers run *)
Definition flush_with (u : universe) (h : locks) (p : nat) (w : wlock) (ev : event) : res universe :=
  if sel_empty (w_changes w) then let* t := w_drop w in Ok (u_put u p t)
  else
    let* q := flush_call (u_put u p (w_tab w)) h p ev (w_pushed w) (w_delete w) (w_changes w) in
    let u := fst q in
    if ev_removal ev && negb (sel_empty (snd q)) then
      let* _ := lock_ok (can_write h p) in
      let* t := u_get u p in
      let* w := flush_apply pr umax (w_new t) ev (snd q) in
      let* _ := assert_ (sel_empty (w_changes w)) PNotFlushed in
      let* t := w_drop w in
      Ok (u_put u p t)
    else Ok u.

(** output.rs:980-1023 (without the remapping, see Extract.v): the lock is kept *)
Definition live_flush_with (u : universe) (h : locks) (p : nat) (w : wlock) (ev : event) : res (universe * wlock) :=
  if sel_empty (w_changes w) then Ok (u_put u p (w_tab w), w)
  else
    let* q := flush_call (u_put u p (w_tab w)) ((p, true) :: h) p ev (w_pushed w) (w_delete w) (w_changes w) in
    let u := fst q in
    let* t := u_get u p in
    let* w := flush_apply pr umax (W t (SThese []) (w_pushed w) (w_delete w)) ev (snd q) in
    let* _ := assert_ (sel_empty (w_changes w)) PNotFlushed in
    Ok (u_put u p (w_tab w), W (w_tab w) (w_changes w) false false).

(** [Table::remove_rows]: output.rs:348-376, 380-396, 446-448 *)
Definition remove_rows_with (u : universe) (h : locks) (c : nat) (ev : event) (rows : select) : res universe :=
  let* t := u_get u c in
  match t_kind t with
  | Consistent =>
      let* _ := lock_ok (can_write h c) in
      let w := w_new t in
      let* w := match rows with
                | SThese rows =>
                    let len := t_len (w_tab w) in
                    fold_res (fun w i => let* _ := assert_ (i <? len) PRemoveRange in delete_raw pr umax w i) rows w
                | SAll => Ok (clear (clear_raw w))
                end in
      flush_with u h c w ev
  | Sorted =>
      let* _ := lock_ok (can_write h c) in
      let w := w_new t in
      let* w := match rows with
                | SThese rows => sorted_remove_rows w rows
                | SAll => Ok (clear (clear_raw w))
                end in
      flush_with u h c w ev
  | _ => panic PNoRemove
  end.

(** src/event.rs:125-152 *)
Definition handle_with (hd : handler) (u : universe) (h : locks) (c : nat) (ev : event) (rows : select) : res universe :=
  match hd with
  | HNull => Ok u
  | HPanic => panic PNoHandler
  | HDelete => remove_rows_with u h c ev rows
  end.

(** src/event.rs:100-119: [Function::run] for rows of table [c].  Its table stays locked for reading during
    the call of [do_flush]. *)
Definition run_with (hd : handler) (u : universe) (h : locks) (c : nat) (ev : event) (rows : select) : res universe :=
  let* t := u_get u c in
  let rows := match hd with
              | HDelete => if kind_eqb (t_kind t) Sorted then sel_sort rows else rows
              | _ => rows
              end in
  let* u := handle_with hd u h c ev rows in
  let* _ := lock_ok (can_read h c) in
  let* q := flush_call u ((c, false) :: h) c ev (ev_creation ev) (ev_removal ev) rows in
  Ok (fst q).

(** output.rs:1130-1140 *)
Definition auto_handle (hd : handler) (u : universe) (h : locks) (c k : nat) (key : bool) (ev : event) (rows : select) : res universe :=
  let* _ := lock_ok (can_read h c) in
  let* t := u_get u c in
  let* rows := if key then select_sorted t k rows else select_indexed t k rows in
  run_with hd u h c ev rows.

(** src/tracking.rs:265-277: one turn of the loop over the trackers; [n]: position.
    The state: universe, selection, and whether it is sorted. *)
Definition tracker_turn (hd : handler) (h : locks) (p : nat) (ev : event) (s : universe * select * bool) (x : nat * tracker)
  : res (universe * select * bool) :=
  let u := fst (fst s) in
  let tr := snd x in
  if tracker_considers tr ev then
    let now := negb (snd s) && tracker_sorts u tr in
    let sel := if now then sel_sort (snd (fst s)) else snd (fst s) in
    let u := u_say u (Note p (fst x) ev sel) in
    let* u := match tr with
              | TAuto c k key => auto_handle hd u h c k key ev sel
              | TUser _ _ => Ok u
              end in
    Ok (u, sel, snd s || now)
  else Ok s.
End Calls.

(** src/tracking.rs:248-288 with [include_self = false] (no caller passes true). *)
Fixpoint do_flush (fuel : nat) (u : universe) (h : locks) (p : nat) (ev : event) (pushed del : bool) (sel : select)
  : res (universe * select) :=
  match fuel with
  | 0 => Err EFuel
  | S n =>
      let* _ := assert_ (negb ((pushed && del) || (ev_removal ev && ev_creation ev))) PInterleave in
      let* hd := handlers_get (u_hdl u) ev in
      let trs := u_trackers u p in
      let* s := fold_res (tracker_turn (do_flush n) hd h p ev) (combine (seq 0 (length trs)) trs)
                         (u, sel, match sel with SAll => true | _ => false end) in
      Ok (fst s)
  end.

Definition flush (fuel : nat) := flush_with (do_flush fuel).
Definition live_flush (fuel : nat) := live_flush_with (do_flush fuel).
Definition remove_rows (fuel : nat) := remove_rows_with (do_flush fuel).

(** output.rs:887-929: [select_all] and [select_rows] of a read lock (given up before) *)
Definition read_select (fuel : nat) (u : universe) (h : locks) (p : nat) (ev : event) (sel : select) : res universe :=
  let* q := do_flush fuel u h p ev false false sel in Ok (fst q).
End Cascade.
