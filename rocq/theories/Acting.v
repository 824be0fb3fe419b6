(** Trackers written by hand that act: what [Tracker::handle] may do with the universe, the rows and the handler it is passed
    (src/tracking.rs:170-221), and flushes with such trackers (248-288).  One thread. *)
From Coq Require Import List Arith Bool.
From Verif Require Import Base Column RowRange Table SortedTab Events Cascade Hist Answers DbHist.
Import ListNotations.

(** [Call]: a call of DbHist.v.  [Hand], [Run]: [handler.handle] and [handler.run] for rows of table [c] (src/event.rs:97, 100-119), where
    [handler] is the one [do_flush] got for its event (src/tracking.rs:261, 275). *)
Inductive deed :=
| Call (c : db_call)
| Hand (c : nat) (ev : event) (rows : select)
| Run (c : nat) (ev : event) (rows : select).
(** What code does: it ends (and its locks are dropped), panics, or does something and goes on according to what it is told. *)
Inductive plan := PEnd | PPanic | PThen (a : deed) (k : answer -> plan).

Section Acting.
Variable pr : profile.
Variable umax : nat.
(** What the tracker does that is called last, from all calls of trackers so far.  (What it was told while it handled earlier calls needs no mention:
    no list of calls comes twice in a run.) *)
Variable react : list note -> plan.

Section Calls.
(** [Flush::do_flush] *)
Variable flush_call : universe -> locks -> nat -> event -> bool -> bool -> select -> res (universe * select).
(** The handler passed, if this is a tracker. *)
Variable hd : option handler.
(** Locks held by the callers. *)
Variable h : locks.

(** The calls of [DbHist.db_step], which do not get locks that callers hold.  In [h], numbers from the number of tables on stand for the
    locks of the trackers of each table ([GuardedFlush], src/tracking.rs:224), held for reading by [do_flush].
    [Track]: [Universe::register_tracker], src/tracking.rs:332-339, 315-321.  [Handle] needs the universe for writing (src/event.rs:180). *)
Definition act_step (d : db) (c : db_call) : res (db * answer) :=
  let held (d : db) := d_held d ++ h in
  match c with
  | On _ (Do (OFlush _ _ | OLiveFlush _ _ | ORemoveRows _ _ _)) => panic PRustType
  | On p c =>
      let* st := d_state d p in
      let* _ := match st, op_of c with
                | Free _, OLock => lock_ok (can_write h p)
                | Free _, _ => lock_ok (can_read h p)
                | Locked _ _, _ => Ok tt
                end in
      let* st' := step pr umax st (op_of c) in
      let* a := answer_of pr umax st c in
      Ok (d_store d p st', a)
  | Flush p ev =>
      let* w := locked_table d p in
      let d := d_release d p in
      let* u := flush_with pr umax flush_call (d_u d) (held d) p w ev in Ok (Db u (d_l d), ANothing)
  | LiveFlush p ev =>
      let* w := locked_table d p in
      let* q := live_flush_with pr umax flush_call (d_u d) (held (d_release d p)) p w ev in
      Ok (d_store (Db (fst q) (d_l d)) p (Locked (snd q) []), ANothing)
  | RemoveRows p ev s =>
      let* u := remove_rows_with pr umax flush_call (d_u d) (held d) p ev s in Ok (Db u (d_l d), ANothing)
  | WRemove p ev s =>
      let* w := locked_table d p in
      let* _ := assert_ (t_consistent (w_tab w)) PRustType in
      let* w := match s with
                | SThese rows =>
                    let len := t_len (w_tab w) in
                    fold_res (fun w i => let* _ := assert_ (i <? len) PRemoveRange in delete_raw pr umax w i) rows w
                | SAll => Ok (clear (clear_raw w))
                end in
      let d := d_release d p in
      let* u := flush_with pr umax flush_call (d_u d) (held d) p w ev in Ok (Db u (d_l d), ANothing)
  | Select p ev s =>
      let* _ := lock_ok (can_read (held d) p) in
      let* q := flush_call (d_u d) (held d) p ev false false s in Ok (Db (fst q) (d_l d), ANothing)
  | Track p tr =>
      let u := d_u d in
      let* t := u_get u p in
      let* _ := lock_ok (can_write (held d) p) in
      let* _ := lock_ok (can_write (held d) (length (u_tabs u) + p)) in
      let* _ := assert_ (t_consistent t) PNotConsistent in
      Ok (Db (Uni (u_tabs u) (upd (u_trk u) p (u_trackers u p ++ [tr])) (u_hdl u) (u_log u)) (d_l d), ANothing)
  | Handle ev f =>
      match hd with
      | Some _ => panic PRustType
      | None =>
          let u := d_u d in
          let* q := handlers_add (u_hdl u) ev f in Ok (Db (Uni (u_tabs u) (u_trk u) (fst q) (u_log u)) (d_l d), ANothing)
      end
  end.
Definition deed_step (d : db) (a : deed) : res (db * answer) :=
  match a, hd with
  | Call c, _ => act_step d c
  | Hand c ev rows, Some f =>
      let* u := handle_with pr umax flush_call f (d_u d) (d_held d ++ h) c ev rows in Ok (Db u (d_l d), ANothing)
  | Run c ev rows, Some f =>
      let* u := run_with pr umax flush_call f (d_u d) (d_held d ++ h) c ev rows in Ok (Db u (d_l d), ANothing)
  | _, None => panic PRustType
  end.
(** The locks that are left are dropped (macros/output.rs:845-850, 1167-1171). *)
Definition close_all (d : db) : res universe :=
  let* _ := map_res (fun p => let* st := d_state d p in match st with Locked w _ => w_drop w | Free t => Ok t end) (seq 0 (length (u_tabs (d_u d)))) in
  Ok (d_u d).
Fixpoint perform (m : plan) (d : db) : res universe :=
  match m with
  | PEnd => close_all d
  | PPanic => panic PUser
  | PThen a k => let* q := deed_step d a in perform (k (snd q)) (fst q)
  end.
End Calls.

(** No locks of its own yet. *)
Definition unlocked (u : universe) : db := Db u (map (fun _ => None) (u_tabs u)).
(** src/tracking.rs:265-277, as [Cascade.tracker_turn] *)
Definition act_turn flush_call (hd : handler) (h : locks) (p : nat) (ev : event) (s : universe * select * bool) (x : nat * tracker)
  : res (universe * select * bool) :=
  let u := fst (fst s) in
  let tr := snd x in
  if tracker_considers tr ev then
    let now := negb (snd s) && tracker_sorts u tr in
    let sel := if now then sel_sort (snd (fst s)) else snd (fst s) in
    let u := u_say u (Note p (fst x) ev sel) in
    let* u := match tr with
              | TAuto c k key => auto_handle pr umax flush_call hd u h c k key ev sel
              | TUser _ _ => perform flush_call (Some hd) h (react (u_log u)) (unlocked u)
              end in
    Ok (u, sel, snd s || now)
  else Ok s.
(** src/tracking.rs:248-288, as [Cascade.do_flush] *)
Fixpoint act_flush (fuel : nat) (u : universe) (h : locks) (p : nat) (ev : event) (pushed del : bool) (sel : select)
  : res (universe * select) :=
  match fuel with
  | 0 => Err EFuel
  | S n =>
      let* _ := assert_ (negb ((pushed && del) || (ev_removal ev && ev_creation ev))) PInterleave in
      let* hd := handlers_get (u_hdl u) ev in
      let trs := u_trackers u p in
      let* s := fold_res (act_turn (act_flush n) hd ((length (u_tabs u) + p, false) :: h) p ev) (combine (seq 0 (length trs)) trs)
                         (u, sel, match sel with SAll => true | _ => false end) in
      Ok (fst s)
  end.
(** A program, on new tables. *)
Definition act_run (fuel : nat) (schs : list schema) (m : plan) : res universe :=
  perform (act_flush fuel) None [] m (unlocked (Uni (map t_new schs) (map (fun _ => []) schs) default_handlers [])).
End Acting.
