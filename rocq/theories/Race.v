(** Several threads using one table.  [Write::flush] gives the lock back while the trackers run and takes
    it again to remove the rows (macros/output.rs:934-976), so other threads can come in between.

    Threads are numbers.  What other threads can see changes only when the lock changes hands or the holder
    calls a method, so an execution is a sequence of such steps in any order.  Read locks change nothing and
    are left out; so are trackers (they run in the gap, without the lock, and are told the same rows). *)
From Coq Require Import List Arith Bool.
From Verif Require Import Base Column RowRange Table Hist.
Import ListNotations.

(** The table behind its RwLock (src/domain.rs:309).  A panic of the holder poisons
    the lock; [write] and [read] unwrap, so nobody gets in any more (macros/output.rs:1650, 1689).
    (If the table is consistent and has changes that were not flushed, the lock's Drop panics during the unwinding,
    macros/output.rs:845-851, and the whole process aborts; [CPoisoned] is also used for that.) *)
Inductive cell := CFree (t : table) | CHeld (p : nat) (w : wlock) | CPoisoned.

(** [x_wait]: the threads inside [flush] between the two times they have the lock, with the event and the
    rows [do_flush] returned (macros/output.rs:943-952). *)
Record sys := Sys { x_cell : cell; x_wait : list (nat * (event * select)) }.
Definition waits (y : sys) (p : nat) : option (event * select) :=
  match find (fun q => fst q =? p) (x_wait y) with Some q => Some (snd q) | None => None end.
Definition no_wait (y : sys) (p : nat) : list (nat * (event * select)) :=
  filter (fun q => negb (fst q =? p)) (x_wait y).

Inductive xact :=
| XLock (p : nat)                                  (* write, macros/output.rs:1688-1690 *)
| XOp (p : nat) (o : op)                           (* a method call of the holder *)
| XClose (p : nat)                                 (* drop of the lock, 845-851 *)
| XFlush (p : nat) (srt : bool) (ev : event)       (* flush up to the end of do_flush, 934-951 *)
| XApply (p : nat)                                 (* the rest of flush, 952-975 *)
| XRemove (p : nat) (srt : bool) (ev : event) (rows : select). (* Table::remove_rows, 348-350, 353-376 *)

Section Race.
Variable pr : profile.
Variable umax : nat.

(** A call of the lock's holder.  A panic unwinds through the lock. *)
Definition guarded {A} (y : sys) (x : res A) (k : A -> sys) : res sys :=
  match x with
  | Ok a => Ok (k a)
  | Err (EPanic _) => Ok (Sys CPoisoned (x_wait y))
  | Err e => Err e
  end.

(** macros/output.rs:934-951: takes the changes, releases the lock and tells the trackers.
    [do_flush]'s panics come after the release, so they do not poison the table's lock; the thread is
    then no longer in [flush].  Without removal, or if nothing is left, there is no second part. *)
Definition flush_begin (y : sys) (p : nat) (srt : bool) (ev : event) (w : wlock) : res sys :=
  if sel_empty (w_changes w) then guarded y (w_drop w) (fun t => Sys (CFree t) (x_wait y))
  else match flush_check (w_pushed w) (w_delete w) ev with
       | Ok _ =>
           let changes := if srt then sel_sort (w_changes w) else w_changes w in
           Ok (Sys (CFree (w_tab w))
                   (if ev_removal ev && negb (sel_empty changes) then (p, (ev, changes)) :: x_wait y else x_wait y))
       | Err (EPanic _) => Ok (Sys (CFree (w_tab w)) (x_wait y))
       | Err e => Err e
       end.

(** macros/output.rs:952-975: with a new lock *)
Definition flush_end (t : table) (ev : event) (changes : select) : res table :=
  let* w := flush_apply pr umax (w_new t) ev changes in
  let* _ := assert_ (sel_empty (w_changes w)) PNotFlushed in
  w_drop w.

(** The calls a holder can make and keep the lock; those of [Hist.write_op] without BagIters. *)
Definition keeps_lock (o : op) : bool :=
  match o with OLock | OClose | OFlush _ _ | ORemoveRows _ _ _ => false | _ => true end.

(** One step.  [PRustType]: the step is not possible here (the thread would wait, or the program would not
    compile). *)
Definition xstep (y : sys) (a : xact) : res sys :=
  match a, x_cell y with
  | XLock p, CFree t =>
      match waits y p with
      | None => Ok (Sys (CHeld p (w_new t)) (x_wait y))
      | Some _ => panic PRustType
      end
  | XOp p o, CHeld q w =>
      if (p =? q) && keeps_lock o && avail (t_kind (w_tab w)) o then
        guarded y (write_op pr umax w [] o) (fun r => Sys (CHeld p (fst r)) (x_wait y))
      else panic PRustType
  | XClose p, CHeld q w =>
      if p =? q then guarded y (w_drop w) (fun t => Sys (CFree t) (x_wait y)) else panic PRustType
  | XFlush p srt ev, CHeld q w =>
      if p =? q then flush_begin y p srt ev w else panic PRustType
  | XApply p, CFree t =>
      match waits y p with
      | Some (ev, changes) => guarded y (flush_end t ev changes) (fun t => Sys (CFree t) (no_wait y p))
      | None => panic PRustType
      end
  | XRemove p srt ev rows, CFree t =>
      match waits y p, t_kind t with
      | None, Consistent =>
          let removed := match rows with
            | SThese rows =>
                let len := t_len t in
                fold_res (fun w i => let* _ := assert_ (i <? len) PRemoveRange in delete_raw pr umax w i) rows (w_new t)
            | SAll => Ok (clear (clear_raw (w_new t)))
            end in
          match removed with
          | Ok w => flush_begin y p srt ev w
          | Err (EPanic _) => Ok (Sys CPoisoned (x_wait y))
          | Err e => Err e
          end
      | _, _ => panic PRustType
      end
  | _, _ => panic PRustType
  end.

Definition xrun (y : sys) (l : list xact) : res sys := fold_res xstep l y.
End Race.

(** A new table, nobody holding the lock. *)
Definition x_new (s : schema) : sys := Sys (CFree (t_new s)) [].
(** Calls with values of the right types. *)
Definition xact_ty (ts : list ctype) (a : xact) : Prop :=
  match a with XOp _ o => op_ty ts o | _ => True end.
