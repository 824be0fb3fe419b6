(** What the code does in the parts of the output of [table!] that differ from kind to kind (macros/output.rs), part by
    part.  The other model files have these calls per kind of table. *)
From Coq Require Import List Arith Bool.
From Verif Require Import Base Column RowRange Schema Table SortedTab Cascade.
Import ListNotations.

(** [None]: the call is not in that part. *)
Section Parts.
Variable pr : profile.
Variable umax : nat.

(** [event_cleared]: output.rs:1178-1182 (consistent), 1199-1202 (basic), 1212 (ignored) *)
Definition part_cleared (p : part) (w : wlock) : option wlock :=
  match p with
  | PLogConsistent => Some (W (w_tab w) SAll (w_pushed w) true)
  | PLogBasic => Some (with_tab w (Tab (t_sch (w_tab w)) (map c_clear (t_cols (w_tab w))) (t_free (w_tab w))))
  | PLogIgnored => Some w
  | _ => None
  end.

(** [event_add]: output.rs:1183-1187, 1203, 1213 *)
Definition part_add (p : part) (w : wlock) (i : nat) : option wlock :=
  match p with
  | PLogConsistent => Some (W (w_tab w) (sel_push (w_changes w) i) true (w_delete w))
  | PLogBasic | PLogIgnored => Some w
  | _ => None
  end.

(** [event_del]: output.rs:1188-1192, 1204, 1214 *)
Definition part_del (p : part) (w : wlock) (i : nat) : option wlock :=
  match p with
  | PLogConsistent => Some (W (w_tab w) (sel_push (w_changes w) i) (w_pushed w) true)
  | PLogBasic | PLogIgnored => Some w
  | _ => None
  end.

(** [delete_raw]: output.rs:829-834, 860-871, 879-881 *)
Definition part_delete_raw (p : part) (w : wlock) (i : nat) : option (res wlock) :=
  let t := w_tab w in
  match p with
  | PDeleteConsistent => Some (
      let* cs := map_res (fun c => c_deleted (t_imax t) c i) (t_cols t) in
      let* n := rid_from_usize (t_imax t) i in
      Ok (with_tab w (Tab (t_sch t) cs (set_insert n (t_free t)))))
  | PDeleteBag => Some (
      let* len1 := usub pr umax (t_len t) 1 in
      let* cs := if i <? len1 then map_res (fun c => c_swap (t_imax t) c i len1) (t_cols t) else Ok (t_cols t) in
      let* cs := map_res (fun c => c_truncate (t_imax t) c len1) cs in
      Ok (with_tab w (with_cols t cs)))
  | PDeleteFake => Some (panic PUnimplemented)
  | _ => None
  end.

(** [delete]: output.rs:823-827, 855-859, 874-876.  [log]: the part with [event_del]. *)
Definition part_delete (p log : part) (w : wlock) (i : nat) : option (res wlock) :=
  match p with
  | PDeleteConsistent =>
      match part_del log w i with
      | Some w' => Some (let* _ := t_check (w_tab w) i in Ok w')
      | None => None
      end
  | PDeleteBag =>
      match part_delete_raw p w i with
      | Some d => Some (let* _ := t_check (w_tab w) i in d)
      | None => None
      end
  | PDeleteFake => Some (panic PUnimplemented)
  | _ => None
  end.

(** [Drop for Write]: output.rs:845-851, 1167-1171 (under the same condition as the fake or bag [delete]) *)
Definition part_drop (p : part) (w : wlock) : option (res table) :=
  match p with
  | PDeleteConsistent => Some (if sel_empty (w_changes w) then Ok (w_tab w) else panic PNotFlushed)
  | PDeleteBag | PDeleteFake => Some (Ok (w_tab w))
  | _ => None
  end.

(** [range]: output.rs:644-647, 739-741 *)
Definition part_range (p : part) (t : table) (r : rrange) : option (res cons_iter) :=
  match p with
  | PRangeConsistent => Some (let* it := ci_from (t_len t) r in Ok (cons_new it (t_free t)))
  | PRangeInconsistent => Some (let* it := ci_from (t_len t) r in Ok (cons_new it []))
  | _ => None
  end.

(** [contains]: output.rs:650-652, 744-746 *)
Definition part_contains (p : part) (t : table) (i : nat) : option bool :=
  match p with
  | PRangeConsistent => Some ((i <? t_len t) && negb (mem i (t_free t)))
  | PRangeInconsistent => Some (i <? t_len t)
  | _ => None
  end.

(** [Table::remove_rows] up to the flush at its end: output.rs:348-374, 380-394, 446-448.  [log], [del]: the parts with
    [event_cleared] and [delete_raw]. *)
Definition part_remove (p log del : part) (w : wlock) (rows : select) : option (res wlock) :=
  match p with
  | PRemoveConsistent =>
      match rows with
      | SAll => match part_cleared log (clear_raw w) with Some w' => Some (Ok w') | None => None end
      | SThese rows =>
          let len := t_len (w_tab w) in
          match part_delete_raw del w 0 with
          | Some _ => Some (fold_res (fun w i =>
              let* _ := assert_ (i <? len) PRemoveRange in
              match part_delete_raw del w i with Some d => d | None => panic PRustType end) rows w)
          | None => None
          end
      end
  | PRemoveSorted =>
      match rows with
      | SAll => match part_cleared log (clear_raw w) with Some w' => Some (Ok w') | None => None end
      | SThese rows => Some (sorted_remove_rows w rows)
      end
  | PRemovePanics => Some (panic PNoRemove)
  | _ => None
  end.
End Parts.
