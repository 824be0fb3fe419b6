(** Saving and restoring: [Extraction], [extract_selection] and [restore_extract]
    (macros/output.rs:263-300, 557-627, 1817-1950), the remapping of row ids (src/tracking.rs:229-321) and
    the lock around the trackers of a table. *)
From Coq Require Import List Arith Bool.
From Verif Require Import Base Names Column RowRange Table Visit SortedTab BagTab TableSpec Hist Events Cascade.
Import ListNotations.

(** src/tables.rs:230-236 *)
Record colmeta := CM { cm_name : name; cm_type : name; cm_version : nat }.
Definition colmeta_eqb (a b : colmeta) : bool :=
  name_eqb (cm_name a) (cm_name b) && name_eqb (cm_type a) (cm_type b) && (cm_version a =? cm_version b).

(** [Extraction], output.rs:557-574: the header, and the rest.  [ex_data]: the columns of [Owned]. *)
Record header := HD { hd_fmt : nat; hd_domain : name; hd_name : name; hd_schema : nat; hd_cols : list colmeta }.
Record extraction := EX { ex_head : header; ex_sel : list nat; ex_data : list col }.

(** ** Validation, output.rs:576-609 *)
Inductive verror := VFmt | VDomain | VName | VSchema | VColumns.

(** output.rs:594-603: compares all columns of the table; indexing past the end of [columns] panics *)
Fixpoint cols_mismatch (mine theirs : list colmeta) : res bool :=
  match mine with
  | [] => Ok false
  | m :: mine =>
      match theirs with
      | [] => panic PColumnIndex
      | c :: theirs => let* b := cols_mismatch mine theirs in Ok (negb (colmeta_eqb m c) || b)
      end
  end.
(** The result is the error, if any. *)
Definition validate (mine theirs : header) : res (option verror) :=
  if negb (hd_fmt theirs =? hd_fmt mine) then Ok (Some VFmt)
  else if negb (name_eqb (hd_domain theirs) (hd_domain mine)) then Ok (Some VDomain)
  else if negb (name_eqb (hd_name theirs) (hd_name mine)) then Ok (Some VName)
  else if negb (hd_schema theirs =? hd_schema mine) then Ok (Some VSchema)
  else let* b := cols_mismatch (hd_cols mine) (hd_cols theirs) in
       if b || negb (length (hd_cols mine) =? length (hd_cols theirs)) then Ok (Some VColumns) else Ok None.

(** ** Extraction, output.rs:1912-1950 *)
Section Extract.
Variable pr : profile.

(** Ids are as given (not checked), or those of the rows present. *)
Definition extract_ids (t : table) (sel : select) : res (list nat) :=
  match sel with
  | SAll => let* it := t_iter t in cons_collect pr (t_imax t) (S (t_len t)) it
  | SThese l => Ok l
  end.
Definition extract_col (imax : nat) (ids : list nat) (ty : ctype) (c : col) : res col :=
  fold_res (fun out i => let* v := c_get c i in c_push imax out v) ids (c_new ty).
Definition extract_selection (head : header) (t : table) (sel : select) : res extraction :=
  let* ids := extract_ids t sel in
  let* data := map_res (fun p => extract_col (t_imax t) ids (fst p) (snd p)) (combine (s_cols (t_sch t)) (t_cols t)) in
  Ok (EX head ids data).
End Extract.

(** [Extraction::into_iter], output.rs:611-627: one row *)
Definition take_row (data : list (list val)) : res (row * list (list val)) :=
  let* r := map_res (fun l => match l with v :: _ => Ok v | [] => panic PEarlyEnd end) data in
  Ok (r, map (@tl val) data).
(** A [for] loop over it *)
Fixpoint for_rows {S} (f : S -> nat -> row -> res S) (ids : list nat) (data : list (list val)) (s : S) : res S :=
  match ids with
  | [] => Ok s
  | i :: ids => let* p := take_row data in
                let* s := f s i (fst p) in
                for_rows f ids (snd p) s
  end.

(** ** The state behind the flush lock of a table (src/tracking.rs:229-233) *)
(** [fs_leaked]: read guards that were forgotten, so never released. *)
Record fstate := FS { fs_ident : bool; fs_remap : list (nat * nat); fs_leaked : nat }.
Definition fs_new : fstate := FS false [] 0.

(** HashMap as a list of pairs with distinct keys *)
Definition hm_insert (k v : nat) (m : list (nat * nat)) : list (nat * nat) :=
  (k, v) :: filter (fun p => negb (fst p =? k)) m.
Fixpoint hm_get (m : list (nat * nat)) (k : nat) : option nat :=
  match m with [] => None | (x, v) :: m => if x =? k then Some v else hm_get m k end.

(** src/tracking.rs:289-301 *)
Definition set_remapping (f : fstate) (remap : list (nat * nat)) : fstate :=
  if fs_ident f then f
  else FS false (fold_left (fun m p => hm_insert (fst p) (snd p) m) remap []) (fs_leaked f).
(** src/tracking.rs:302-308 *)
Definition fs_lookup (f : fstate) (old : nat) : option nat :=
  if fs_ident f then Some old else hm_get (fs_remap f) old.
(** src/tracking.rs:309 *)
Definition has_remapping (f : fstate) : bool := match fs_remap f with [] => false | _ => true end.
(** src/tracking.rs:310-312 *)
Definition set_identity_remap (f : fstate) : fstate := FS true (fs_remap f) (fs_leaked f).

(** The universe of Cascade.v and, for each table, the state behind its flush lock. *)
Record xuni := XU { xu_u : universe; xu_fl : list fstate }.
Definition xu_flush (x : xuni) (p : nat) : res fstate :=
  match nth_error (xu_fl x) p with Some f => Ok f | None => panic PRustType end.

Section Restore.
Variable pr : profile.
Variable umax : nat.
(** What the macro knows of each table: its header, its columns marked [#[foreign]] or [#[foreign_auto]] with
    the tables they refer to (output.rs: FOREIGN_LOCAL_COL, FOREIGN_ELEMENTS), the order of its rows. *)
Variable heads : nat -> header.
Variable foreign : nat -> list (nat * nat).
Variable order : nat -> row -> row -> comparison.

(** UPDATE_ROW, output.rs:1819-1827 *)
Definition update_col (fl : list fstate) (r : row) (kq : nat * nat) : res row :=
  match nth_error r (fst kq), nth_error fl (snd kq) with
  | Some (VRow old), Some f =>
      match fs_lookup f old with
      | Some new => Ok (upd r (fst kq) (VRow new))
      | None => panic PNoRemap
      end
  | _, _ => panic PRustType
  end.
Definition update_row (fl : list fstate) (p : nat) (r : row) : res row := fold_res (update_col fl) (foreign p) r.

(** MERGE_EXTRACT, output.rs:1828-1856: the lock and [remap] afterwards *)
Definition merge_extract (fl : list fstate) (p : nat) (no_trackers : bool) (w : wlock) (e : extraction)
  : res (wlock * list (nat * nat)) :=
  let data := map c_into_iter (ex_data e) in
  match t_kind (w_tab w) with
  | Sorted =>
      if no_trackers then
        let* rows := for_rows (fun rows _ r => Ok (rows ++ [r])) (ex_sel e) data [] in
        let* w := merge_vec pr (order p) w rows in
        Ok (w, [])
      else
        for_rows (fun s i r => let* r := update_row fl p r in
                               let* q := merge_in_a_single_row pr (order p) (fst s) r in
                               Ok (fst q, snd s ++ [(i, snd q)])) (ex_sel e) data (w, [])
  | _ =>
      for_rows (fun s i r => let* r := update_row fl p r in
                             let* q := push (fst s) r in
                             Ok (fst q, if no_trackers then snd s else snd s ++ [(i, snd q)])) (ex_sel e) data (w, [])
  end.

(** [Write::restore_extract], output.rs:1860-1908, for the lock [w] on table [p]; [h]: other tables locked by the thread.
    It locks the tables referred to for reading while it pushes (1870-1894), and the trackers of its own table for writing
    to set the remapping (1905).  The result is the error, if any. *)
Definition restore_extract (fuel : nat) (x : xuni) (h : locks) (p : nat) (w : wlock) (e : extraction) (ev : event)
  : res (xuni * option verror) :=
  let* v := validate (heads p) (ex_head e) in
  match v with
  | Some er => let* t := w_drop w in Ok (XU (u_put (xu_u x) p t) (xu_fl x), Some er)
  | None =>
      let* _ := lock_ok (forallb (fun kq => can_read ((p, true) :: h) (snd kq)) (foreign p)) in
      let no_trackers := match u_trackers (xu_u x) p with [] => true | _ => false end in
      let* s := merge_extract (xu_fl x) p no_trackers w e in
      let w := fst s in
      if sel_empty (w_changes w) then let* t := w_drop w in Ok (XU (u_put (xu_u x) p t) (xu_fl x), None)
      else
        let* f := xu_flush x p in
        let* _ := lock_ok (fs_leaked f =? 0) in
        let fl := upd (xu_fl x) p (set_remapping f (snd s)) in
        let* u := flush pr umax fuel (xu_u x) h p w ev in
        Ok (XU u fl, None)
  end.

(** [SerialExtraction::restore], output.rs:296-298 *)
Definition restore (fuel : nat) (x : xuni) (h : locks) (p : nat) (e : extraction) (ev : event) : res (xuni * option verror) :=
  let* _ := lock_ok (can_write h p) in
  let* t := u_get (xu_u x) p in
  restore_extract fuel x h p (w_new t) e ev.

(** [SerialExtraction::extract], output.rs:291-294, and [extract_serialization], 265-273 *)
Definition extract (x : xuni) (h : locks) (p : nat) (sel : select) : res extraction :=
  let* _ := lock_ok (can_read h p) in
  let* t := u_get (xu_u x) p in
  extract_selection pr (heads p) t sel.

(** [Write::flush], output.rs:934-976.  It only locks the trackers for reading, which a forgotten guard does not prevent. *)
Definition x_flush (fuel : nat) (x : xuni) (h : locks) (p : nat) (w : wlock) (ev : event) : res xuni :=
  let* u := flush pr umax fuel (xu_u x) h p w ev in Ok (XU u (xu_fl x)).

(** [Write::live_flush], output.rs:980-1023: if there is a remapping the read guard of the flush lock is forgotten, then
    [try_write] is attempted (1015-1020). *)
Definition x_live_flush (fuel : nat) (x : xuni) (h : locks) (p : nat) (w : wlock) (ev : event) : res (xuni * wlock) :=
  let* q := live_flush pr umax fuel (xu_u x) h p w ev in
  if sel_empty (w_changes w) then Ok (XU (fst q) (xu_fl x), snd q)
  else
    let* f := xu_flush x p in
    let f := if has_remapping f then
               let f := FS (fs_ident f) (fs_remap f) (S (fs_leaked f)) in
               if fs_leaked f =? 0 then set_remapping f [] else f
             else f in
    Ok (XU (fst q) (upd (xu_fl x) p f), snd q).

(** [Universe::register_tracker], src/tracking.rs:332-339, 315-321 *)
Definition x_register_tracker (x : xuni) (h : locks) (p : nat) (tr : tracker) : res xuni :=
  let u := xu_u x in
  let* _ := lock_ok (can_write h p) in
  let* t := u_get u p in
  let* f := xu_flush x p in
  let* _ := lock_ok (fs_leaked f =? 0) in
  if t_consistent t then Ok (XU (Uni (u_tabs u) (upd (u_trk u) p (u_trackers u p ++ [tr])) (u_hdl u) (u_log u)) (xu_fl x))
  else panic PNotConsistent.

(** [TTable::set_identity_remap], output.rs:319-321 *)
Definition x_identity (x : xuni) (p : nat) : res xuni :=
  let* f := xu_flush x p in
  let* _ := lock_ok (fs_leaked f =? 0) in
  Ok (XU (xu_u x) (upd (xu_fl x) p (set_identity_remap f))).

(** ** Programs *)
(** What is done through a write lock before it is flushed or dropped: any calls of Hist.v (and the BagIters made are
    dropped).  [PRustType]: the program would not compile. *)
Definition through_lock (o : op) : bool :=
  match o with OLock | OClose | OFlush _ _ | OLiveFlush _ _ | ORemoveRows _ _ _ => false | _ => true end.
Definition do_edit (q : wlock * list bag_pos) (o : op) : res (wlock * list bag_pos) :=
  if through_lock o && avail (t_kind (w_tab (fst q))) o then write_op pr umax (fst q) (snd q) o else panic PRustType.
Definition do_edits (w : wlock) (es : list op) : res wlock :=
  let* q := fold_res do_edit es (w, []) in
  match snd q with [] => Ok (fst q) | _ :: _ => panic PRustType end.
(** Lock, change, flush (or flush live and unlock); restore; register a tracker. *)
Inductive xop :=
| XFlush (p : nat) (es : list op) (ev : event)
| XLive (p : nat) (es : list op) (ev : event)
| XRestore (p : nat) (e : extraction) (ev : event)
| XRegister (p : nat) (tr : tracker)
| XIdentity (p : nat).
Definition x_step (fuel : nat) (x : xuni) (o : xop) : res xuni :=
  match o with
  | XFlush p es ev =>
      let* t := u_get (xu_u x) p in
      let* w := do_edits (w_new t) es in
      x_flush fuel x [] p w ev
  | XLive p es ev =>
      let* t := u_get (xu_u x) p in
      let* w := do_edits (w_new t) es in
      let* q := x_live_flush fuel x [] p w ev in
      let* t := w_drop (snd q) in
      Ok (XU (u_put (xu_u (fst q)) p t) (xu_fl (fst q)))
  | XRestore p e ev => let* q := restore fuel x [] p e ev in Ok (fst q)
  | XRegister p tr => x_register_tracker x [] p tr
  | XIdentity p => x_identity x p
  end.
Definition x_run (fuel : nat) (x : xuni) (ops : list xop) : res xuni := fold_res (x_step fuel) ops x.
End Restore.
