(** Panics that abort the process.  The lock of a consistent table panics when it is dropped with changes that were not flushed
    (macros/output.rs:845-851), without asking [std::thread::panicking]; if it is dropped because of a panic, this is a second panic
    while the first one unwinds, and rustc's runtime aborts the process.  As Acting.v, but with what happens to the locks of the program and
    of the trackers when a panic goes through them. *)
From Coq Require Import List Arith Bool.
From Verif Require Import Base Column RowRange Table SortedTab Events Cascade Hist Answers DbHist Unwind UnwindSpec Acting.
Import ListNotations.

Section Abort.
Variable pr : profile.
Variable umax : nat.
Variable react : list note -> plan.
(** How the end of the process is written down. *)
Variable ab : cause.

(** To drop this lock panics (output.rs:845-851, [Table.w_drop]). *)
Definition pending (d : db) (p : nat) : bool :=
  match d_state d p with
  | Ok (Locked w _) => match w_drop w with Ok _ => false | Err _ => true end
  | _ => false
  end.
Definition pendings (d : db) : list nat := filter (pending d) (seq 0 (length (u_tabs (d_u d)))).

(** The locks when a call panics.  Pushing logs row by row, and a row that gets the id of a deleted one before it is stored
    (output.rs:1242-1246, 1553-1575, 1587-1605, as in Unwind.v).  [flush] and [live_flush] have taken the changes out of the lock (939-944, 984-987), and a lock that
    is closed is gone; [remove_rows] calls [flush] when the rows are removed (346-377).  Every other call logs, if at all, when nothing can panic any more. *)
Definition left_over (d : db) (a : deed) : db :=
  match a with
  | Call (On p c) =>
      match d_state d p with
      | Ok (Locked w its) =>
          match op_of c with
          | OPush r => d_store d p (Locked (fst (u_push no_panics w r)) its)
          | OPushAll rs => d_store d p (Locked (fst (u_push_all no_panics w rs false)) its)
          | OPushArray rs => d_store d p (Locked (fst (u_push_array pr no_panics w rs false)) its)
          | OClose => d_release d p
          | _ => d
          end
      | _ => d
      end
  | Call (Flush p _) | Call (LiveFlush p _) => d_release d p
  | Call (WRemove p _ (SThese rows)) =>
      match locked_table d p with
      | Ok w => match fold_res (fun w' i => let* _ := assert_ (i <? t_len (w_tab w)) PRemoveRange in delete_raw pr umax w' i) rows w with
                | Ok _ => d_release d p
                | Err _ => d
                end
      | Err _ => d
      end
  | Call (WRemove p _ SAll) => d_release d p
  | _ => d
  end.
(** A panic goes through code with these locks. *)
Definition unwind (d : db) (e : err) : err :=
  match e, pendings d with
  | EPanic _, _ :: _ => EPanic ab
  | _, _ => e
  end.

Section Calls.
Variable flush_call : universe -> locks -> nat -> event -> bool -> bool -> select -> res (universe * select).
Variable hd : option handler.
Variable h : locks.
(** The end of a scope: the first lock that panics makes the others unwind. *)
Definition drop_all (d : db) : res universe :=
  match pendings d with _ :: _ :: _ => Err (EPanic ab) | _ => close_all d end.
Fixpoint endure (m : plan) (d : db) : res universe :=
  match m with
  | PEnd => drop_all d
  | PPanic => Err (unwind d (EPanic PUser))
  | PThen a k =>
      match deed_step pr umax flush_call hd h d a with
      | Ok q => endure (k (snd q)) (fst q)
      | Err e => Err (unwind (left_over d a) e)
      end
  end.
End Calls.

(** As [Acting.act_turn], [Acting.act_flush] and [Acting.act_run].  The guards of [do_flush] and its callers are locks for reading, or write locks without changes. *)
Definition end_turn flush_call (hd : handler) (h : locks) (p : nat) (ev : event) (s : universe * select * bool) (x : nat * tracker)
  : res (universe * select * bool) :=
  let u := fst (fst s) in
  let tr := snd x in
  if tracker_considers tr ev then
    let now := negb (snd s) && tracker_sorts u tr in
    let sel := if now then sel_sort (snd (fst s)) else snd (fst s) in
    let u := u_say u (Note p (fst x) ev sel) in
    let* u := match tr with
              | TAuto c k key => auto_handle pr umax flush_call hd u h c k key ev sel
              | TUser _ _ => endure flush_call (Some hd) h (react (Cascade.u_log u)) (unlocked u)
              end in
    Ok (u, sel, snd s || now)
  else Ok s.
Fixpoint end_flush (fuel : nat) (u : universe) (h : locks) (p : nat) (ev : event) (pushed del : bool) (sel : select)
  : res (universe * select) :=
  match fuel with
  | 0 => Err EFuel
  | S n =>
      let* _ := assert_ (negb ((pushed && del) || (ev_removal ev && ev_creation ev))) PInterleave in
      let* hd := handlers_get (u_hdl u) ev in
      let trs := u_trackers u p in
      let* s := fold_res (end_turn (end_flush n) hd ((length (u_tabs u) + p, false) :: h) p ev) (combine (seq 0 (length trs)) trs)
                         (u, sel, match sel with SAll => true | _ => false end) in
      Ok (fst s)
  end.
Definition end_run (fuel : nat) (schs : list schema) (m : plan) : res universe :=
  endure (end_flush fuel) None [] m (unlocked (Uni (map t_new schs) (map (fun _ => []) schs) default_handlers [])).
End Abort.
