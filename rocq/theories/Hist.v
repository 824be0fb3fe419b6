(** Programs using one table: every public method of the table and its locks, in any order. *)
From Coq Require Import List Arith Bool.
From Verif Require Import Base Column Order RowRange Table Visit SortedTab BagTab TableSpec.
Import ListNotations.

(** Position of a BagIter over the lock: [delete], [i], [last] (src/index.rs:632-637). *)
Notation bag_pos := (bool * nat * option nat)%type.

(** The table is free, or there is a write lock on it (with the BagIters made from it).
    A read lock is a call on a free table. *)
Inductive state := Free (t : table) | Locked (w : wlock) (its : list bag_pos).
Definition st_tab (s : state) : table := match s with Free t => t | Locked w _ => w_tab w end.

(** Calls.  The citations give the method; [srt] of a flush: see [w_flush]. *)
Inductive op :=
(* locks, macros/output.rs:1610-1700, 802, 845, 932-1023 *)
| OLock | OClose | OFlush (srt : bool) (ev : event) | OLiveFlush (srt : bool) (ev : event)
(* reads, 512-529, 639-800, 1578; columns src/columns.rs:75-111, 183-199 *)
| OGet (i : nat) | OCell (k i : nat) | OFind (k : nat) (v : val) | OLast | ONextPushed | ODump
| ORange (r : rrange) (ops : list it_op) | OIter (ops : list it_op) | OEdit (ops : list it_op)
(* writes, 823-883, 1029-1036, 1225-1237, 1542-1605; columns src/columns.rs:85-93 *)
| OAssign (k i : nat) (v : val)
| OPush (r : row) | OPushAll (rs : list row) | OPushArray (rs : list row)
| ODelete (i : nat) | OSelect (i : nat) | OSelectAll | OClear | OClearRaw
(* 346-441 *)
| ORemoveRows (srt : bool) (ev : event) (rows : select) | ORemoveSorted (rows : list nat)
(* 1337-1345, 1418-1428, 1433-1536 *)
| ORetain (S : Type) (f : S -> wlock -> nat -> S * bool) (s : S)
| OVisit (S : Type) (f : S -> wlock -> nat -> S * action) (s : S)
| OMergeLogged (cmp : row -> row -> comparison) (S : Type) (log : S -> wlock -> nat -> S) (s : S) (rows : list row)
| OMerge (cmp : row -> row -> comparison) (rows : list row)
| OMergeSingle (cmp : row -> row -> comparison) (r : row)
(* 681-688; src/index.rs:618-674.  Items of the iterator give access to the lock, so other calls
   can come between these. *)
| OBagNew | OBagNext (k : nat) | OBagMark (k : nat) | OBagEnd (k : nat).

(** Which methods [table!] generates for which kind: macros/output.rs:346, 378, 666-736, 823, 853,
    1331, 1417, 1430, 1538, and 654 ([dump] not for consistent tables). *)
Definition avail (k : kind) (o : op) : bool :=
  match o, k with
  | (ORetain _ _ _ | ODump), Consistent => false
  | OVisit _ _ _, (Consistent | Sorted) => false
  | (OMergeLogged _ _ _ _ _ | OMerge _ _ | OMergeSingle _ _ | ORemoveSorted _), (Append | Consistent | Bag | List_) => false
  | (OPush _ | OPushAll _ | OPushArray _ | ONextPushed), Sorted => false
  | ODelete _, (Append | List_ | Sorted) => false
  | ORemoveRows _ _ _, (Append | List_ | Bag) => false
  | (OBagNew | OBagNext _ | OBagMark _ | OBagEnd _), (Append | Consistent | List_ | Sorted) => false
  | _, _ => true
  end.

Section Hist.
Variable pr : profile.
Variable umax : nat.

(** Read every row an iterator yielded, with checked ids (columns indexed without a test). *)
Definition read_checked (t : table) (l : list (option nat)) : res unit :=
  let* _ := map_res (fun o => match o with Some i => t_get_row_checked t i | None => Ok [] end) l in Ok tt.
Definition read_plain (t : table) (l : list (option nat)) : res unit :=
  let* _ := map_res (fun o => match o with Some i => t_get_row t i | None => Ok [] end) l in Ok tt.

Definition read_op (t : table) (o : op) : res unit :=
  match o with
  | OGet i => let* _ := t_get_row t i in Ok tt
  | OCell k i => let* _ := t_read t k i in Ok tt
  | OFind k v => let* _ := t_find t k v in Ok tt
  | OLast => let* _ := t_last t in Ok tt
  | ODump => let* _ := t_dump pr t in Ok tt
  | ORange r ops => let* it := t_range t r in
                    let* l := cons_run pr (t_imax t) umax ops it in read_checked t l
  | OIter ops => let* it := t_iter t in
                 let* l := cons_run pr (t_imax t) umax ops it in read_checked t l
  | _ => panic PRustType
  end.

Definition bag_of (w : wlock) (p : bag_pos) : bag_iter := BG w (fst (fst p)) (snd (fst p)) (snd p).
Definition pos_of (b : bag_iter) : bag_pos := (bg_mark b, bg_i b, bg_last b).

(** A call that needs the write lock, and leaves it locked. *)
Definition write_op (w : wlock) (its : list bag_pos) (o : op) : res (wlock * list bag_pos) :=
  let keep (x : res wlock) := let* w := x in Ok (w, its) in
  match o with
  | OEdit ops => let* it := t_editing (w_tab w) in
                 let* l := cons_run pr (t_imax (w_tab w)) umax ops it in
                 let* _ := read_plain (w_tab w) l in Ok (w, its)
  | ONextPushed => let* _ := next_pushed (w_tab w) in Ok (w, its)
  | OAssign k i v => keep (let* t := t_assign (w_tab w) k i v in Ok (with_tab w t))
  | OPush r => keep (let* p := push w r in Ok (fst p))
  | OPushAll rs => keep (push_all w rs)
  | OPushArray rs => keep (let* p := push_array pr w rs in Ok (fst p))
  | ODelete i => keep (delete pr umax w i)
  | OSelect i => keep (Ok (w_select w i))
  | OSelectAll => keep (Ok (w_select_all w))
  | OClear => keep (Ok (clear w))
  | OClearRaw => keep (Ok (clear_raw w))
  | OLiveFlush srt ev => keep (w_live_flush pr umax srt w ev)
  | ORemoveSorted rows => keep (sorted_remove_rows w rows)
  | ORetain _ f s => keep (let* p := retain pr f s w in Ok (snd p))
  | OVisit _ f s => keep (let* p := visit pr f s w in Ok (snd p))
  | OMergeLogged cmp _ log s rows => keep (let* p := merge_logged pr cmp log s w rows in Ok (snd p))
  | OMerge cmp rows => keep (merge_vec pr cmp w rows)
  | OMergeSingle cmp r => keep (let* p := merge_in_a_single_row pr cmp w r in Ok (fst p))
  | OBagNew => Ok (w, its ++ [(false, 0, None)])
  | OBagNext k =>
      match nth_error its k with
      | Some p => let* q := bag_next pr umax (bag_of w p) in Ok (bg_w (fst q), upd its k (pos_of (fst q)))
      | None => panic PRustType
      end
  | OBagMark k =>
      match nth_error its k with
      | Some p => Ok (w, upd its k (pos_of (bag_handle_delete (bag_of w p))))
      | None => panic PRustType
      end
  | OBagEnd k =>
      match nth_error its k with
      | Some p => let* w := bag_drop pr umax (bag_of w p) in Ok (w, firstn k its ++ skipn (S k) its)
      | None => panic PRustType
      end
  | _ => let* _ := read_op (w_tab w) o in Ok (w, its)
  end.

(** [PRustType]: the program would not compile (or would wait for ever for its own lock). *)
Definition step (st : state) (o : op) : res state :=
  if avail (t_kind (st_tab st)) o then
    match st, o with
    | Free t, OLock => Ok (Locked (w_new t) [])
    | Free t, ORemoveRows srt ev rows =>
        let* t := match t_kind t with
                  | Sorted => sorted_table_remove_rows pr umax srt t ev rows
                  | _ => w_remove_rows pr umax srt (w_new t) ev rows
                  end in Ok (Free t)
    | Free t, _ => let* _ := read_op t o in Ok st
    | Locked w [], OClose => let* t := w_drop w in Ok (Free t)
    | Locked w [], OFlush srt ev => let* t := w_flush pr umax srt w ev in Ok (Free t)
    | Locked w [], ORemoveRows srt ev rows =>
        match t_kind (w_tab w) with
        | Consistent => let* t := w_remove_rows pr umax srt w ev rows in Ok (Free t)
        | _ => panic PRustType
        end
    | Locked _ _, (OClose | OFlush _ _ | ORemoveRows _ _ _ | OLock) => panic PRustType
    | Locked w its, _ => let* p := write_op w its o in Ok (Locked (fst p) (snd p))
    end
  else panic PRustType.

Definition run (st : state) (ops : list op) : res state := fold_res step ops st.
End Hist.

(** Calls with values of the right types. *)
Definition op_ty (ts : list ctype) (o : op) : Prop :=
  match o with
  | OAssign k _ v => forall t, nth_error ts k = Some t -> v_ty (ct_base t) v
  | OPush r | OMergeSingle _ r => row_ty ts r
  | OPushAll rs | OPushArray rs | OMergeLogged _ _ _ _ rs | OMerge _ rs => Forall (row_ty ts) rs
  | OVisit _ f _ => forall s w i s' rm add, f s w i = (s', Continue rm add) -> Forall (row_ty ts) add
  | _ => True
  end.

(** States a program can bring a new table to. *)
Definition reachable (pr : profile) (umax : nat) (sch : schema) (st : state) : Prop :=
  s_cols sch <> [] /\
  exists ops, Forall (op_ty (s_cols sch)) ops /\ run pr umax (Free (t_new sch)) ops = Ok st.

(** The lock is about to empty the columns: a removal flush after [select_all] or [clear]. *)
Definition flush_all (st : state) (ev : event) : bool :=
  match st with
  | Locked w _ => ev_removal ev && match w_changes w with SAll => true | _ => false end
  | Free _ => false
  end.
(** The call empties the columns at once: [clear_raw], or the flush of a selection of everything with a
    removal event (macros/output.rs:954, 999, 368-371). *)
Definition empties (st : state) (o : op) : bool :=
  match o with
  | OClearRaw => true
  | OClear => negb (t_consistent (st_tab st))
  | OFlush _ ev | OLiveFlush _ ev => flush_all st ev
  | ORemoveRows _ _ SAll => true
  | ORemoveRows _ ev (SThese _) => flush_all st ev
  | _ => false
  end.
Definition all_present (t : table) : Prop := forall i, i < t_len t -> t_contains t i = true.
(** The call does not empty the columns while some row is deleted (or in the same call deletes some). *)
Definition sane_op (st : state) (o : op) : Prop :=
  empties st o = true ->
  all_present (st_tab st) /\ match o with ORemoveRows _ _ (SThese (_ :: _)) => False | _ => True end.

(** States reached by such calls only. *)
Inductive sane (pr : profile) (umax : nat) (sch : schema) : state -> Prop :=
| sane_new : s_cols sch <> [] -> sane pr umax sch (Free (t_new sch))
| sane_step st o st' : sane pr umax sch st -> op_ty (s_cols sch) o -> sane_op st o ->
    step pr umax st o = Ok st' -> sane pr umax sch st'.

(** Flushes with a removal event. *)
Definition removal_flush (o : op) : bool :=
  match o with OFlush _ ev | OLiveFlush _ ev => ev_removal ev | _ => false end.
(** No undefined behaviour is known for such histories (see C11). *)
Definition harmless (pr : profile) (sch : schema) (ops : list op) : Prop :=
  pr = Debug \/ s_kind sch <> Bag \/ Forall (fun o => removal_flush o = false) ops.

(** ** Since the last flush *)
(** Calls after which nothing is pending: the lock is new, released or flushed. *)
Definition resets (o : op) : bool :=
  match o with OLock | OClose | OFlush _ _ | OLiveFlush _ _ | ORemoveRows _ _ _ => true | _ => false end.
Definition since (p : op -> bool) (ops : list op) : bool :=
  fold_left (fun b o => if resets o then false else b || p o) ops false.
Definition is_push (o : op) : bool :=
  match o with OPush _ | OPushAll (_ :: _) | OPushArray (_ :: _) => true | _ => false end.
Definition is_del (o : op) : bool := match o with ODelete _ | OClear => true | _ => false end.
Definition is_select (o : op) : bool := match o with OSelect _ | OSelectAll => true | _ => false end.
Definition is_change (o : op) : bool := is_push o || is_del o || is_select o.

(** Calls meant to remove rows: [retain], [visit], clearing, and flushing with a removal event. *)
Definition may_remove (o : op) : bool :=
  match o with
  | ORetain _ _ _ | OVisit _ _ _ | OClear | OClearRaw => true
  | _ => removal_flush o
  end.
Definition is_assign (o : op) : bool := match o with OAssign _ _ _ => true | _ => false end.

(** Calls that should keep a table sorted by [cmp] sorted: assignments only to columns [cmp] does not look at,
    merges by [cmp], and what is claimed to be sorted (AssertSorted) is. *)
Definition keeps_order (cmp : row -> row -> comparison) (o : op) : Prop :=
  match o with
  | OAssign k _ v => forall r r', cmp (upd r k v) r' = cmp r r' /\ cmp r' (upd r k v) = cmp r' r
  | OMergeLogged c _ _ _ rows => c = cmp /\ ascending cmp rows
  | OMerge c _ | OMergeSingle c _ => c = cmp
  | _ => True
  end.
