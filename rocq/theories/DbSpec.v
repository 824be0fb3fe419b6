(** Several tables as plain lists of rows: what C89 compares a universe of tables, trackers and handlers with. *)
From Coq Require Import List Arith Bool.
From Verif Require Import Base Column RowRange Table TableSpec Events Hist Cascade Answers PlainSpec DbHist.
Import ListNotations.

(** [b_trk]: the trackers of each table, in order.  [b_hdl]: the handler of each event.  [b_told]: what trackers were told so far. *)
Record plains := Pls { b_tabs : list (schema * plain); b_trk : list (list tracker); b_hdl : list handler; b_told : list Cascade.note }.
Definition pls_new (schs : list schema) : plains := Pls (map (fun s => (s, p_new)) schs) (map (fun _ => []) schs) default_handlers [].

Definition tab (x : plains) (p : nat) : outcome (schema * plain) := match nth_error (b_tabs x) p with Some e => Fine e | None => Unsaid end.
Definition put_tab (x : plains) (p : nat) (sch : schema) (a : plain) : plains := Pls (upd (b_tabs x) p (sch, a)) (b_trk x) (b_hdl x) (b_told x).
Definition say (x : plains) (n : Cascade.note) : plains := Pls (b_tabs x) (b_trk x) (b_hdl x) (b_told x ++ [n]).
Definition lock_of (x : plains) (p : nat) : option (select * bool * bool) := match nth_error (b_tabs x) p with Some e => p_lock (snd e) | None => None end.
Definition locked (x : plains) (p : nat) : bool := match lock_of x p with Some _ => true | None => false end.

Definition sorted (s : select) : select := match s with SThese ids => SThese (sort_ids ids) | SAll => SAll end.
Definition is_sorted (sch : schema) : bool := kind_eqb (s_kind sch) Sorted.
Fixpoint ascends (l : list val) : bool :=
  match l with
  | x :: (y :: _) as l => match val_cmp x y with Gt => false | _ => true end && ascends l
  | _ => true
  end.
Fixpoint ascending (l : list nat) : bool :=
  match l with
  | x :: (y :: _) as l => (x <=? y) && ascending l
  | _ => true
  end.

(** The rows that refer, in column [k], to some of [ids].  Through the index: those found for each id in turn (the largest id is never
    found, see C04).  Through the sort key: in order, if the table and the ids are; otherwise see C37. *)
Definition referring (sch : schema) (a : plain) (k : nat) (key : bool) (s : select) : outcome select :=
  let cell i := nth k (row_at a i) (VBool false) in
  match s with
  | SAll => Fine SAll
  | SThese ids =>
      match key, nth_error (s_cols sch) k with
      | false, Some (Indexed _) =>
          Fine (SThese (flat_map (fun id => filter (fun i => (i <? s_imax sch) && p_found a i && val_eqb (cell i) (VRow id)) (seq 0 (len a))) ids))
      | true, Some _ =>
          if len a <=? s_imax sch then
            let here := filter (there a) (seq 0 (len a)) in
            if ascends (map cell here) && ascending ids then Fine (SThese (filter (fun i => existsb (fun id => val_eqb (cell i) (VRow id)) ids) here)) else Unsaid
          else Fails
      | _, _ => Unsaid
      end
  end.

Section Plains.
Variable pr : profile.
Variable umax : nat.

Section Tell.
(** [tell x reading p ev pushed del s]: the trackers of [p] are told of [s]; [reading]: tables locked for reading meanwhile. *)
Variable tell : plains -> list nat -> nat -> event -> bool -> bool -> select -> outcome (plains * select).

(** A lock on [p] that remembers [l] is flushed; it is given up first. *)
Definition flushes (x : plains) (reading : list nat) (p : nat) (l : select * bool * bool) (ev : event) : outcome plains :=
  let '(s, pushed, del) := l in
  if nothing_to_tell s then Fine x
  else after (tell x reading p ev pushed del s) (fun q =>
    if ev_removal ev && negb (nothing_to_tell (snd q)) then
      if locked (fst q) p || mem p reading then Unsaid
      else after (tab (fst q) p) (fun e => after (removed pr (fst e) (snd e) (snd q)) (fun a => Fine (put_tab (fst q) p (fst e) a)))
    else Fine (fst q)).

(** [Table::remove_rows]. *)
Definition takes_out (x : plains) (reading : list nat) (c : nat) (ev : event) (s : select) : outcome plains :=
  after (tab x c) (fun e =>
    let '(sch, a) := e in
    if kind_eqb (s_kind sch) Consistent || is_sorted sch then
      if locked x c || mem c reading then Unsaid
      else match s with
           | SAll => let x := put_tab x c sch (emptied a) in
                     if is_sorted sch then Fine x else flushes x reading c (SAll, false, true) ev
           | SThese ids =>
               if is_sorted sch then
                 if rising ids && all_below (len a) ids then Fine (put_tab x c sch (with_rows a (without 0 (p_rows a) ids))) else Fails
               else if all_below (len a) ids then Fine (put_tab x c sch (freed a ids)) else Fails
           end
    else Fails).

(** The tracker of column [k] of table [c]: the handler deals with the rows that refer to [s], then the trackers of [c] are told of them. *)
Definition passes_on (hd : handler) (x : plains) (reading : list nat) (c k : nat) (key : bool) (ev : event) (s : select) : outcome plains :=
  if locked x c then Unsaid
  else after (tab x c) (fun e =>
    after (referring (fst e) (snd e) k key s) (fun s =>
      let s := match hd with HDelete => if is_sorted (fst e) then sorted s else s | _ => s end in
      after (match hd with HNull => Fine x | HPanic => Fails | HDelete => takes_out x reading c ev s end) (fun x =>
        after (tell x (c :: reading) c ev (ev_creation ev) (ev_removal ev) s) (fun q => Fine (fst q))))).

(** Tracker number [n] of [p].  [done]: the rows are sorted. *)
Definition tells (hd : handler) (reading : list nat) (p : nat) (ev : event) (n : nat) (tr : tracker) (x : plains) (s : select) (done : bool)
  : outcome (plains * select * bool) :=
  match tr with
  | TUser srt considers =>
      if considers ev then
        let s := if srt && negb done then sorted s else s in
        Fine (say x (Note p n ev s), s, done || srt)
      else Fine (x, s, done)
  | TAuto c k key =>
      after (tab x c) (fun e =>
        let srt := is_sorted (fst e) in
        let s := if srt && negb done then sorted s else s in
        after (passes_on hd (say x (Note p n ev s)) reading c k key ev s) (fun x => Fine (x, s, done || srt)))
  end.
Fixpoint tells_all (hd : handler) (reading : list nat) (p : nat) (ev : event) (n : nat) (trs : list tracker) (x : plains) (s : select) (done : bool)
  : outcome (plains * select) :=
  match trs with
  | [] => Fine (x, s)
  | tr :: trs => after (tells hd reading p ev n tr x s done) (fun q => tells_all hd reading p ev (S n) trs (fst (fst q)) (snd (fst q)) (snd q))
  end.
End Tell.

(** Nothing is said of calls nested deeper than [fuel]. *)
Fixpoint tell (fuel : nat) (x : plains) (reading : list nat) (p : nat) (ev : event) (pushed del : bool) (s : select) : outcome (plains * select) :=
  match fuel with
  | 0 => Unsaid
  | S n =>
      if (pushed && del) || (ev_removal ev && ev_creation ev) then Fails
      else match nth_error (b_hdl x) (ev_id ev) with
           | Some hd => tells_all (tell n) hd reading p ev 0 (nth p (b_trk x) []) x s (match s with SAll => true | _ => false end)
           | None => Fails
           end
  end.

Variable fuel : nat.
Definition quietly (x : outcome plains) : outcome (plains * answer) := after x (fun x => Fine (x, ANothing)).
Definition db_acts (x : plains) (c : db_call) : outcome (plains * answer) :=
  match c with
  | On _ (Do (OFlush _ _ | OLiveFlush _ _ | ORemoveRows _ _ _)) => Unsaid
  | On p c => after (tab x p) (fun e => after (acts pr umax (fst e) (snd e) c) (fun q => Fine (put_tab x p (fst e) (fst q), snd q)))
  | Flush p ev =>
      after (tab x p) (fun e =>
        match p_lock (snd e) with
        | Some l => quietly (flushes (tell fuel) (put_tab x p (fst e) (with_lock (snd e) None)) [] p l ev)
        | None => Unsaid
        end)
  | LiveFlush p ev =>
      after (tab x p) (fun e =>
        match p_lock (snd e) with
        | Some (s, pushed, del) =>
            if nothing_to_tell s then Fine (x, ANothing)
            else quietly (after (tell fuel x [] p ev pushed del s) (fun q =>
              after (tab (fst q) p) (fun e =>
                after (if ev_removal ev && negb (nothing_to_tell (snd q)) then removed pr (fst e) (snd e) (snd q) else Fine (snd e)) (fun a =>
                  Fine (put_tab (fst q) p (fst e) (with_lock a (Some (SThese [], false, false))))))))
        | None => Unsaid
        end)
  | RemoveRows p ev s => quietly (takes_out (tell fuel) x [] p ev s)
  | WRemove p ev s =>
      after (tab x p) (fun e =>
        match p_lock (snd e), kind_eqb (s_kind (fst e)) Consistent with
        | Some (l, pushed, del), true =>
            let unlocked a := put_tab x p (fst e) (with_lock a None) in
            quietly (match s with
                     | SAll => flushes (tell fuel) (unlocked (emptied (snd e))) [] p (SAll, pushed, true) ev
                     | SThese ids =>
                         if all_below (len (snd e)) ids then flushes (tell fuel) (unlocked (freed (snd e) ids)) [] p (l, pushed, del) ev else Fails
                     end)
        | _, _ => Unsaid
        end)
  | Select p ev s => if locked x p then Unsaid else quietly (after (tell fuel x [] p ev false false s) (fun q => Fine (fst q)))
  | Track p tr =>
      after (tab x p) (fun e =>
        if locked x p then Unsaid
        else if kind_eqb (s_kind (fst e)) Consistent then
          Fine (Pls (b_tabs x) (upd (b_trk x) p (nth p (b_trk x) [] ++ [tr])) (b_hdl x) (b_told x), ANothing)
        else Fails)
  | Handle ev hd =>
      if (ev_id ev =? 0) && negb (ev_removal ev) && negb (ev_creation ev) then Fails
      else if ev_id ev <? length (b_hdl x) then Fine (Pls (b_tabs x) (b_trk x) (upd (b_hdl x) (ev_id ev) hd) (b_told x), ANothing)
      else Fails
  end.

(** A program: for each call what it returns, and what the trackers are told meanwhile. *)
Fixpoint db_plays (x : plains) (cs : list db_call) : outcome (list (answer * list Cascade.note)) :=
  match cs with
  | [] => Fine []
  | c :: cs => after (db_acts x c) (fun q => after (db_plays (fst q) cs) (fun l => Fine ((snd q, skipn (length (b_told x)) (b_told (fst q))) :: l)))
  end.
End Plains.

(** Rows and values of the right types. *)
Definition db_ty (schs : list schema) (c : db_call) : Prop :=
  match c with On p c => forall sch, nth_error schs p = Some sch -> call_ty (s_cols sch) c | _ => True end.

(** ** When something is said *)
(** The program compiles and never waits for a lock of its own: it locks one table for writing at a time, and only calls trackers while it
    holds no other lock.  The references registered with [Track] do not go round in circles: they lead to tables of lower [rank]. *)
Section Legal.
Variables (schs : list schema) (rank : nat -> nat) (fuel : nat).
Definition holding (lk : option nat) (p : nat) : bool := match lk with Some q => p =? q | None => false end.
Definition tracker_legal (p : nat) (tr : tracker) : bool :=
  match tr with
  | TUser _ _ => true
  | TAuto c k key =>
      negb key && (rank c <? rank p) &&
      match nth_error schs c with
      | Some sch => match nth_error (s_cols sch) k with Some (Indexed _) => true | _ => false end
      | None => false
      end
  end.
Definition no_lock (lk : option nat) : bool := match lk with None => true | Some _ => false end.
Definition db_legal (lk : option nat) (c : db_call) : bool :=
  match c with
  | On _ (Do (OFlush _ _ | OLiveFlush _ _ | ORemoveRows _ _ _)) => false
  | On p c =>
      match nth_error schs p with
      | Some sch => legal sch (holding lk p) c && match c with Do OLock => no_lock lk | _ => true end
      | None => false
      end
  | Flush p _ | LiveFlush p _ => holding lk p && (rank p <? fuel)
  | WRemove p _ _ =>
      holding lk p && (rank p <? fuel) && match nth_error schs p with Some sch => kind_eqb (s_kind sch) Consistent | None => false end
  | RemoveRows p _ _ | Select p _ _ => no_lock lk && (p <? length schs) && (rank p <? fuel)
  | Track p tr => (p <? length schs) && negb (holding lk p) && tracker_legal p tr
  | Handle _ _ => true
  end.
Definition lock_after (lk : option nat) (c : db_call) : option nat :=
  match c with On p (Do OLock) => Some p | On _ (Do OClose) | Flush _ _ | WRemove _ _ _ => None | _ => lk end.
Fixpoint all_db_legal (lk : option nat) (cs : list db_call) : bool :=
  match cs with [] => true | c :: cs => db_legal lk c && all_db_legal (lock_after lk c) cs end.
End Legal.
