(** Programs on a universe with several tables (Cascade.v), and all they are told. *)
From Coq Require Import List Arith Bool.
From Verif Require Import Base Column RowRange Table SortedTab Events Cascade Hist Answers.
Import ListNotations.

(** The universe, and what the write locks the program holds remember ([_changes], [_pushed] and [_delete], macros/output.rs:489-498). *)
Record db := Db { d_u : universe; d_l : list (option (select * bool * bool)) }.
Definition d_lock (d : db) (p : nat) : option (select * bool * bool) := nth p (d_l d) None.
(** The tables locked by the program, for writing. *)
Definition d_held (d : db) : locks :=
  flat_map (fun p => match d_lock d p with Some _ => [(p, true)] | None => [] end) (seq 0 (length (d_l d))).
Definition d_release (d : db) (p : nat) : db := Db (d_u d) (upd (d_l d) p None).
(** One table, as in Hist.v. *)
Definition d_state (d : db) (p : nat) : res state :=
  let* t := u_get (d_u d) p in
  Ok (match d_lock d p with Some (s, a, b) => Locked (W t s a b) [] | None => Free t end).
Definition d_store (d : db) (p : nat) (st : state) : db :=
  match st with
  | Free t => Db (u_put (d_u d) p t) (upd (d_l d) p None)
  | Locked w _ => Db (u_put (d_u d) p (w_tab w)) (upd (d_l d) p (Some (w_changes w, w_pushed w, w_delete w)))
  end.

(** [On p c]: a call of Answers.v on table [p] other than the following.  [Flush], [LiveFlush]: output.rs:932-976, 980-1023.
    [RemoveRows]: [Table::remove_rows], 346-450.  [WRemove]: [Write::remove_rows] of a consistent table, 353-377.  [Select]: [select_all] and [select_rows] of a read lock, 887-929.
    [Track]: [Universe::register_tracker], src/tracking.rs:332-339, 315-321, which locks the table.  [Handle]: [EventHandlers::add], src/event.rs:180-188. *)
Inductive db_call :=
| On (p : nat) (c : call)
| Flush (p : nat) (ev : event)
| LiveFlush (p : nat) (ev : event)
| RemoveRows (p : nat) (ev : event) (s : select)
| WRemove (p : nat) (ev : event) (s : select)
| Select (p : nat) (ev : event) (s : select)
| Track (p : nat) (tr : tracker)
| Handle (ev : event) (hd : handler).

Section Db.
Variable pr : profile.
Variable umax : nat.
(** How deep [do_flush] calls may be nested. *)
Variable fuel : nat.

Definition locked_table (d : db) (p : nat) : res wlock :=
  let* st := d_state d p in match st with Locked w _ => Ok w | Free _ => panic PRustType end.
Definition db_step (d : db) (c : db_call) : res (db * answer) :=
  match c with
  | On _ (Do (OFlush _ _ | OLiveFlush _ _ | ORemoveRows _ _ _)) => panic PRustType
  | On p c =>
      let* st := d_state d p in
      let* st' := step pr umax st (op_of c) in
      let* a := answer_of pr umax st c in
      Ok (d_store d p st', a)
  | Flush p ev =>
      let* w := locked_table d p in
      let d := d_release d p in
      let* u := flush pr umax fuel (d_u d) (d_held d) p w ev in Ok (Db u (d_l d), ANothing)
  | LiveFlush p ev =>
      let* w := locked_table d p in
      let* q := live_flush pr umax fuel (d_u d) (d_held (d_release d p)) p w ev in
      Ok (d_store (Db (fst q) (d_l d)) p (Locked (snd q) []), ANothing)
  | RemoveRows p ev s => let* u := remove_rows pr umax fuel (d_u d) (d_held d) p ev s in Ok (Db u (d_l d), ANothing)
  | WRemove p ev s =>
      let* w := locked_table d p in
      let* _ := assert_ (t_consistent (w_tab w)) PRustType in
      let* w := match s with
                | SThese rows =>
                    let len := t_len (w_tab w) in
                    fold_res (fun w i => let* _ := assert_ (i <? len) PRemoveRange in delete_raw pr umax w i) rows w
                | SAll => Ok (clear (clear_raw w))
                end in
      let d := d_release d p in
      let* u := flush pr umax fuel (d_u d) (d_held d) p w ev in Ok (Db u (d_l d), ANothing)
  | Select p ev s =>
      let* _ := lock_ok (can_read (d_held d) p) in
      let* u := read_select pr umax fuel (d_u d) (d_held d) p ev s in Ok (Db u (d_l d), ANothing)
  | Track p tr =>
      let u := d_u d in
      let* t := u_get u p in
      let* _ := lock_ok (can_write (d_held d) p) in
      let* _ := assert_ (t_consistent t) PNotConsistent in
      Ok (Db (Uni (u_tabs u) (upd (u_trk u) p (u_trackers u p ++ [tr])) (u_hdl u) (u_log u)) (d_l d), ANothing)
  | Handle ev hd =>
      let u := d_u d in
      let* q := handlers_add (u_hdl u) ev hd in Ok (Db (Uni (u_tabs u) (u_trk u) (fst q) (u_log u)) (d_l d), ANothing)
  end.

(** A program: for each call what it returns, and what the trackers were told meanwhile. *)
Fixpoint db_talks (d : db) (cs : list db_call) : res (list (answer * list note)) :=
  match cs with
  | [] => Ok []
  | c :: cs =>
      let* q := db_step d c in
      let* l := db_talks (fst q) cs in
      Ok ((snd q, skipn (length (u_log (d_u d))) (u_log (d_u (fst q)))) :: l)
  end.
End Db.

(** New tables, without trackers. *)
Definition db_new (schs : list schema) : db :=
  Db (Uni (map t_new schs) (map (fun _ => []) schs) default_handlers []) (map (fun _ => None) schs).
