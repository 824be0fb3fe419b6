(** One table: the code generated by [table!] (macros/output.rs) for its locks.
    A model function returning [Err] has panicked (or worse).  Simplification: no state after
    an error is modelled here; Unwind.v does that.  (A panic while the write lock is held poisons it, and every later
    [read]/[write] of the table panics too, output.rs:1648, 1695.) *)
From Coq Require Import List Arith Bool.
From Verif Require Import Base Column RowRange.
Import ListNotations.

(** macros/table.rs:4-11 *)
Inductive kind := Append | Consistent | Bag | List_ | Sorted.
Definition kind_eqb (a b : kind) : bool :=
  match a, b with
  | Append, Append | Consistent, Consistent | Bag, Bag | List_, List_ | Sorted, Sorted => true
  | _, _ => false
  end.

(** What the [table!] invocation fixes: kind, largest row id, column types. *)
Record schema := Sch { s_kind : kind; s_imax : nat; s_cols : list ctype }.

(** A [Row] (output.rs:228-230): one value per column. *)
Notation row := (list val).

(** [Table] (output.rs:304-308) and its columns; the trackers (the [flush] field) are in Cascade.v. *)
Record table := Tab { t_sch : schema; t_cols : list col; t_free : list nat }.

(** output.rs:1704-1727 *)
Definition t_new (s : schema) : table := Tab s (map c_new (s_cols s)) [].
Definition t_kind (t : table) : kind := s_kind (t_sch t).
Definition t_imax (t : table) : nat := s_imax (t_sch t).
Definition t_consistent (t : table) : bool := kind_eqb (t_kind t) Consistent.

(** src/tracking.rs:22-25 with a vector of row ids *)
Inductive select := SAll | SThese (rows : list nat).
(** src/tracking.rs:92-97 *)
Definition sel_empty (s : select) : bool :=
  match s with SAll => false | SThese [] => true | SThese _ => false end.
(** src/tracking.rs:119-123 *)
Definition sel_push (s : select) (i : nat) : select :=
  match s with SAll => SAll | SThese l => SThese (l ++ [i]) end.
(** src/tracking.rs:113-117 *)
Definition sel_sort (s : select) : select :=
  match s with SAll => SAll | SThese l => SThese (sort_ids l) end.

(** src/event.rs:9-15 *)
Record event := Ev { ev_id : nat; ev_removal : bool; ev_creation : bool }.
(** src/event.rs:43-69, 156 *)
Definition ev_create := Ev 1 false true.
Definition ev_delete := Ev 2 true false.
Definition ev_update := Ev 11 false false.
Definition max_event_types : nat := 32.

(** [Write] (output.rs:487-496) *)
Record wlock := W { w_tab : table; w_changes : select; w_pushed : bool; w_delete : bool }.

(** output.rs:1680-1688 *)
Definition w_new (t : table) : wlock := W t (SThese []) false false.

Section Tab.
Variable pr : profile.
Variable umax : nat.

(** ** Methods common to both locks *)

(** output.rs:767-769: the length of the first column *)
Definition t_len (t : table) : nat :=
  match t_cols t with c :: _ => c_len c | [] => 0 end.

(** output.rs:468-472; other kinds have the default of src/tables.rs (false) *)
Definition t_is_deleted (t : table) (i : nat) : bool := t_consistent t && mem i (t_free t).

(** src/index.rs:505-520 *)
Definition t_check (t : table) (i : nat) : res nat :=
  if t_len t <=? i then panic PIndexOOB
  else if t_is_deleted t i then panic PDeletedRow else Ok i.

(** src/index.rs:526-536, [cfg!(debug)] is never set: no check at all *)
Definition t_check_checked (t : table) (i : nat) : res nat := Ok i.

(** output.rs:775-777 *)
Definition t_row_range (t : table) : res rrange :=
  let* e := rid_from_usize (t_imax t) (t_len t) in Ok (RR 0 e).

(** output.rs:644-647 (consistent) and 739-741.  Simplification: the CheckedIter of the other
    kinds is a ConsistentIter with nothing to skip. *)
Definition t_range (t : table) (r : rrange) : res cons_iter :=
  let* it := ci_from (t_len t) r in
  Ok (cons_new it (if t_consistent t then t_free t else [])).

(** output.rs:669-671, 691-693, 714-724 *)
Definition t_iter (t : table) : res cons_iter :=
  let* r := t_row_range t in t_range t r.

(** output.rs:512-529: the EditIter half *)
Definition t_editing (t : table) : res cons_iter :=
  let* r := t_row_range t in Ok (cons_new (rr_iter_slow r) (t_free t)).

(** output.rs:650-652, 744-746 *)
Definition t_contains (t : table) (i : nat) : bool :=
  (i <? t_len t) && (negb (t_consistent t) || negb (mem i (t_free t))).

(** output.rs:757-761: columns indexed with a CheckedRowId (src/columns.rs:95-103) *)
Definition t_get_row_raw (t : table) (i : nat) : res row := map_res (fun c => c_index c i) (t_cols t).

(** output.rs:752-755, 782-788 *)
Definition t_get_row (t : table) (i : nat) : res row :=
  let* i := t_check t i in t_get_row_raw t i.

(** The same called with an id already checked (maybe for another table). *)
Definition t_get_row_checked (t : table) (i : nat) : res row :=
  let* i := t_check_checked t i in t_get_row_raw t i.

(** output.rs:791-799 *)
Definition t_last (t : table) : res (option nat) :=
  if t_len t =? 0 then Ok None
  else let* i := rid_from_usize (t_imax t) (t_len t - 1) in Ok (Some i).

(** src/columns.rs:75-84 through RefA/MutA/EditA: [table.col_k[i]] *)
Definition t_read (t : table) (k i : nat) : res val :=
  match nth_error (t_cols t) k with Some c => c_get c i | None => panic PRustType end.

(** src/columns.rs:85-93 through MutA: [table.col_k[i] = v]; rustc rejects it on indexed
    columns (output.rs:463-466). *)
Definition t_assign (t : table) (k i : nat) (v : val) : res table :=
  match nth_error (t_cols t) k with
  | Some (CPlain b) => let* c := c_set (CPlain b) i v in Ok (Tab (t_sch t) (upd (t_cols t) k c) (t_free t))
  | _ => panic PRustType
  end.

(** src/columns.rs:183-199: [table.col_k.find(v)] *)
Definition t_find (t : table) (k : nat) (v : val) : res (list nat) :=
  match nth_error (t_cols t) k with Some c => c_find (t_imax t) c v | None => panic PRustType end.

(** ** Structural primitives *)
Definition with_cols (t : table) (cs : list col) : table := Tab (t_sch t) cs (t_free t).
Definition with_tab (w : wlock) (t : table) : wlock := W t (w_changes w) (w_pushed w) (w_delete w).

(** output.rs:1251: push each value on its column *)
Definition cols_push (imax : nat) (cs : list col) (r : row) : res (list col) :=
  if length cs =? length r then map_res (fun p => c_push imax (fst p) (snd p)) (combine cs r)
  else panic PRustType.

(** output.rs:1175-1219 *)
Definition event_add (w : wlock) (i : nat) : wlock :=
  match t_kind (w_tab w) with
  | Consistent => W (w_tab w) (sel_push (w_changes w) i) true (w_delete w)
  | _ => w
  end.
Definition event_del (w : wlock) (i : nat) : wlock :=
  match t_kind (w_tab w) with
  | Consistent => W (w_tab w) (sel_push (w_changes w) i) (w_pushed w) true
  | _ => w
  end.

(** output.rs:1231-1233.  The free list is left alone. *)
Definition clear_raw (w : wlock) : wlock :=
  with_tab w (with_cols (w_tab w) (map c_clear (t_cols (w_tab w)))).

Definition event_cleared (w : wlock) : wlock :=
  match t_kind (w_tab w) with
  | Consistent => W (w_tab w) SAll (w_pushed w) true
  | Append | Bag => clear_raw w
  | _ => w
  end.

(** output.rs:1235-1237 *)
Definition clear (w : wlock) : wlock := event_cleared w.

(** output.rs:1249-1253 *)
Definition push_only_unchecked (w : wlock) (r : row) : res (wlock * nat) :=
  let* cs := cols_push (t_imax (w_tab w)) (t_cols (w_tab w)) r in
  let t := with_cols (w_tab w) cs in
  let* l := t_last t in
  match l with Some i => Ok (with_tab w t, i) | None => panic PUnwrap end.

(** output.rs:1242-1246 *)
Definition push_end_unchecked (w : wlock) (r : row) : res (wlock * nat) :=
  let* p := push_only_unchecked w r in Ok (event_add (fst p) (snd p), snd p).

(** output.rs:1310-1315.  Returns the row that was there. *)
Definition swap_out_row (w : wlock) (i : nat) (r : row) : res (wlock * row) :=
  let* i := t_check (w_tab w) i in
  let t := w_tab w in
  if length (t_cols t) =? length r then
    let* ps := map_res (fun p => c_swap_out (t_imax t) (fst p) i (snd p)) (combine (t_cols t) r) in
    Ok (with_tab w (with_cols t (map fst ps)), map snd ps)
  else panic PRustType.

(** output.rs:1318-1324 *)
Definition swap_rows (w : wlock) (a b : nat) : res wlock :=
  let t := w_tab w in
  let* a := t_check t a in
  let* b := t_check t b in
  let* cs := map_res (fun c => c_swap (t_imax t) c a b) (t_cols t) in
  Ok (with_tab w (with_cols t cs)).

(** output.rs:1327-1329 *)
Definition truncate (w : wlock) (n : nat) : res wlock :=
  let t := w_tab w in
  let* cs := map_res (fun c => c_truncate (t_imax t) c n) (t_cols t) in
  Ok (with_tab w (with_cols t cs)).

(** output.rs:829-834 (consistent), 859-870 (bag), 879-881 (other kinds) *)
Definition delete_raw (w : wlock) (i : nat) : res wlock :=
  let t := w_tab w in
  match t_kind t with
  | Consistent =>
      let* cs := map_res (fun c => c_deleted (t_imax t) c i) (t_cols t) in
      let* n := rid_from_usize (t_imax t) i in
      Ok (with_tab w (Tab (t_sch t) cs (set_insert n (t_free t))))
  | Bag =>
      let* len1 := usub pr umax (t_len t) 1 in
      let* cs := if i <? len1 then map_res (fun c => c_swap (t_imax t) c i len1) (t_cols t)
                 else Ok (t_cols t) in
      let* cs := map_res (fun c => c_truncate (t_imax t) c len1) cs in
      Ok (with_tab w (with_cols t cs))
  | _ => panic PUnimplemented
  end.

(** ** Public methods of [Write] *)

(** output.rs:1553-1575 (every kind but sorted).  [cfg!(test)] is the generated crate's, off. *)
Definition push (w : wlock) (r : row) : res (wlock * nat) :=
  match t_free (w_tab w) with
  | old :: _ =>
      let t := w_tab w in
      let w := with_tab w (Tab (t_sch t) (t_cols t) (set_remove old (t_free t))) in
      let w := event_add w old in
      let* p := swap_out_row w old r in
      Ok (fst p, old)
  | [] => push_end_unchecked w r
  end.

(** output.rs:1578-1584; the argument of [unwrap_or] is always evaluated. *)
Definition next_pushed (t : table) : res nat :=
  let* d := rid_from_usize (t_imax t) (t_len t) in
  Ok (match t_free t with i :: _ => i | [] => d end).

(** output.rs:1542-1547 ([reserve] changes no observable state) *)
Definition push_all (w : wlock) (rs : list row) : res wlock :=
  fold_res (fun w r => let* p := push w r in Ok (fst p)) rs w.

(** output.rs:1587-1605 *)
Definition push_array (w : wlock) (rs : list row) : res (wlock * rrange) :=
  match rs with
  | [] => Ok (w, rr_empty (t_imax (w_tab w)))
  | r :: rs =>
      let* p := push_end_unchecked w r in
      let* q := fold_res (fun s r => push_end_unchecked (fst s) r) rs p in
      let* e := rid_next pr (t_imax (w_tab w)) (snd q) in
      Ok (fst q, RR (snd p) e)
  end.

(** output.rs:823-827, 855-858.  Not public on other kinds (874-876). *)
Definition delete (w : wlock) (i : nat) : res wlock :=
  match t_kind (w_tab w) with
  | Consistent => let* i := t_check (w_tab w) i in Ok (event_del w i)
  | Bag => let* i := t_check (w_tab w) i in delete_raw w i
  | _ => panic PUnimplemented
  end.

(** output.rs:1029-1036 *)
Definition w_select (w : wlock) (i : nat) : wlock :=
  W (w_tab w) (sel_push (w_changes w) i) (w_pushed w) (w_delete w).
Definition w_select_all (w : wlock) : wlock := W (w_tab w) SAll (w_pushed w) (w_delete w).

(** output.rs:845-851; other kinds 1161-1164 *)
Definition w_drop (w : wlock) : res table :=
  if t_consistent (w_tab w) && negb (sel_empty (w_changes w)) then panic PNotFlushed
  else Ok (w_tab w).

(** src/tracking.rs:257-261 and the handler lookup src/event.rs:192-194: what [do_flush] checks
    before calling trackers. *)
Definition flush_check (pushed del : bool) (ev : event) : res unit :=
  let* _ := assert_ (negb ((pushed && del) || (ev_removal ev && ev_creation ev))) PInterleave in
  assert_ (ev_id ev <? max_event_types) PEventId.

(** output.rs:952-970, 997-1011: after the trackers have been told *)
Definition flush_apply (w : wlock) (ev : event) (changes : select) : res wlock :=
  if ev_removal ev && negb (sel_empty changes) then
    match changes with
    | SAll => Ok (clear_raw w)
    | SThese rows =>
        let len := t_len (w_tab w) in
        fold_res (fun w i => let* _ := assert_ (i <? len) PRemoveRange in delete_raw w i) rows w
    end
  else Ok w.

(** output.rs:934-976, for a table whose trackers do not touch it.  [srt]: some tracker that
    considers the event asked for sorted rows (src/tracking.rs:266-269).
    The lock is released while the trackers run and taken again (Race.v drops the assumption
    that nobody comes in between). *)
Definition w_flush (srt : bool) (w : wlock) (ev : event) : res table :=
  if sel_empty (w_changes w) then w_drop w
  else
    let* _ := flush_check (w_pushed w) (w_delete w) ev in
    let changes := if srt then sel_sort (w_changes w) else w_changes w in
    let* w' := flush_apply (w_new (w_tab w)) ev changes in
    let* _ := assert_ (sel_empty (w_changes w')) PNotFlushed in
    w_drop w'.

(** output.rs:980-1023 without the remapping (see Extract.v) *)
Definition w_live_flush (srt : bool) (w : wlock) (ev : event) : res wlock :=
  if sel_empty (w_changes w) then Ok w
  else
    let* _ := flush_check (w_pushed w) (w_delete w) ev in
    let changes := if srt then sel_sort (w_changes w) else w_changes w in
    let* w' := flush_apply (W (w_tab w) (SThese []) (w_pushed w) (w_delete w)) ev changes in
    let* _ := assert_ (sel_empty (w_changes w')) PNotFlushed in
    Ok (W (w_tab w') (w_changes w') false false).

(** output.rs:353-376: [Write::remove_rows] of a consistent table *)
Definition w_remove_rows (srt : bool) (w : wlock) (ev : event) (rows : select) : res table :=
  let* w := match rows with
            | SThese rows =>
                let len := t_len (w_tab w) in
                fold_res (fun w i => let* _ := assert_ (i <? len) PRemoveRange in delete_raw w i) rows w
            | SAll => Ok (clear (clear_raw w))
            end in
  w_flush srt w ev.

(** output.rs:657-664: rows of an inconsistent table, by iteration *)
Definition t_dump (t : table) : res (list row) :=
  let* it := t_iter t in
  let* ids := cons_collect pr (t_imax t) (S (t_len t)) it in
  map_res (t_get_row_checked t) ids.

End Tab.
