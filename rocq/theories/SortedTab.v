(** Sorted tables: merging and removal (macros/output.rs:399-441, 1433-1536). *)
From Coq Require Import List Arith Bool.
From Verif Require Import Base Column RowRange Table.
Import ListNotations.

(** ** Removal *)

(** output.rs:401-414: the test that the ids are strictly ascending *)
Fixpoint rm_ascending (prev : nat) (l : list nat) : bool :=
  match l with [] => true | x :: xs => (prev <? x) && rm_ascending x xs end.
Definition rm_check (rows : list nat) : res unit :=
  let rest := match rows with 0 :: xs => xs | xs => xs end in
  assert_ (rm_ascending 0 rest) PNotSorted.

(** output.rs:424-439: one column.  [uglies] is what remains of [0..len]. *)
Fixpoint rm_col (imax : nat) (uglies : list nat) (bad : nat) (c : col) (rows : list nat) : res (col * nat) :=
  match uglies with
  | [] => Ok (c, bad)
  | ugly :: us =>
      if match rows with x :: _ => ugly =? x | [] => false end then rm_col imax us bad c (tl rows)
      else
        let* c := if bad =? ugly then Ok c else c_swap imax c bad ugly in
        rm_col imax us (S bad) c rows
  end.

(** output.rs:400-440: [Write::remove_rows] *)
Definition sorted_remove_rows (w : wlock) (rows : list nat) : res wlock :=
  match rows with
  | [] => Ok w
  | _ =>
      let t := w_tab w in
      let* _ := rm_check rows in
      let* _ := assert_ (last rows 0 <? t_len t) PRemoveRange in
      let len := t_len t in
      let* cs := map_res (fun c => let* p := rm_col (t_imax t) (seq 0 len) 0 c rows in
                                   c_truncate (t_imax t) (fst p) (snd p)) (t_cols t) in
      Ok (with_tab w (with_cols t cs))
  end.

(** output.rs:380-396: [Table::remove_rows] with its flush *)
Definition sorted_table_remove_rows (pr : profile) (umax : nat) (srt : bool) (t : table) (ev : event) (rows : select) : res table :=
  let w := w_new t in
  let* w := match rows with
            | SThese rows => sorted_remove_rows w rows
            | SAll => Ok (clear (clear_raw w))
            end in
  w_flush pr umax srt w ev.

(** ** Merging *)
Section Merge.
Variable pr : profile.
(** [Ord] on rows: by the sort key (output.rs:1257-1303) or the user's [Ord for RowRef].
    Simplification: one comparison function on rows. *)
Variable cmp : row -> row -> comparison.
(** The [log] closure. *)
Context {S : Type}.
Variable log : S -> wlock -> nat -> S.

Inductive side := Rug | Iter.

(** output.rs:1490-1503 *)
Definition choose (rug iter : list row) : option side :=
  match rug, iter with
  | [], [] => None
  | [], _ :: _ => Some Iter
  | _ :: _, [] => Some Rug
  | r :: _, i :: _ => match cmp r i with Gt => Some Iter | _ => Some Rug end
  end.

(** output.rs:1480-1482: stage 1.  [n] turns are enough for [n] rows, except in a release build
    when [cursor.next()] wraps around: the code then loops for ever ([EFuel]). *)
Fixpoint merge_skip (n : nat) (t : table) (first : row) (cursor : nat) : res nat :=
  match n with
  | 0 => if cursor <? t_len t then Err EFuel else Ok cursor
  | Datatypes.S n =>
      if cursor <? t_len t then
        let* r := t_get_row t cursor in
        match cmp r first with
        | Lt => let* cursor := rid_next pr (t_imax t) cursor in merge_skip n t first cursor
        | _ => Ok cursor
        end
      else Ok cursor
  end.

(** The value taken from the chosen side, and what remains (output.rs:1511-1516, 1527-1531) *)
Definition take (rug iter : list row) : option (side * row * list row * list row) :=
  match choose rug iter with
  | None => None
  | Some Rug => match rug with r :: rug => Some (Rug, r, rug, iter) | [] => None end
  | Some Iter => match iter with i :: iter => Some (Iter, i, rug, iter) | [] => None end
  end.

(** output.rs:1507-1522: stage 2 *)
Fixpoint merge_shift (cursors : list nat) (s : S) (w : wlock) (rug iter : list row)
  : res (S * wlock * list row * list row) :=
  match cursors with
  | [] => Ok (s, w, rug, iter)
  | c :: cs =>
      match take rug iter with
      | None => panic PUnwrap
      | Some (sd, v, rug, iter) =>
          let* p := swap_out_row w c v in
          let s := match sd with Iter => log s (fst p) c | Rug => s end in
          merge_shift cs s (fst p) (rug ++ [snd p]) iter
      end
  end.

(** output.rs:1523-1535: stage 3.  [n] is the number of rows left in [rug] and [iter]. *)
Fixpoint merge_tail (n : nat) (s : S) (w : wlock) (rug iter : list row) : res (S * wlock) :=
  match n with
  | 0 => Ok (s, w)
  | Datatypes.S n =>
      match take rug iter with
      | None => Ok (s, w)
      | Some (sd, v, rug, iter) =>
          let* p := push_end_unchecked w v in
          let s := match sd with Iter => log s (fst p) (snd p) | Rug => s end in
          merge_tail n s (fst p) rug iter
      end
  end.

(** output.rs:1462-1536; [rows] is the content of the AssertSorted. *)
Definition merge_logged (s : S) (w : wlock) (rows : list row) : res (S * wlock) :=
  match rows with
  | [] => Ok (s, w)
  | first :: _ =>
      let* cursor := merge_skip (t_len (w_tab w)) (w_tab w) first 0 in
      let* e := rid_from_usize (t_imax (w_tab w)) (t_len (w_tab w)) in
      let* ids := it_collect pr (t_imax (w_tab w)) (Datatypes.S (e - cursor)) (rr_iter_slow (RR cursor e)) in
      let* q := merge_shift ids s w [] rows in
      let rug := snd (fst q) in
      let iter := snd q in
      merge_tail (length rug + length iter) (fst (fst (fst q))) (snd (fst (fst q))) rug iter
  end.
End Merge.

(** [Vec::sort] (stable), src/assert_sorted.rs:22-29 *)
Fixpoint ins_row (cmp : row -> row -> comparison) (x : row) (l : list row) : list row :=
  match l with
  | [] => [x]
  | y :: ys => match cmp x y with Gt => y :: ins_row cmp x ys | _ => x :: l end
  end.
Definition sort_rows (cmp : row -> row -> comparison) (l : list row) : list row := fold_right (ins_row cmp) [] l.

(** output.rs:1433-1439 with an [AssertSorted] argument, and with a [Vec] *)
Definition merge (pr : profile) (cmp : row -> row -> comparison) (w : wlock) (rows : list row) : res wlock :=
  let* p := merge_logged pr cmp (fun _ _ _ => tt) tt w rows in Ok (snd p).
Definition merge_vec (pr : profile) (cmp : row -> row -> comparison) (w : wlock) (rows : list row) : res wlock :=
  merge pr cmp w (sort_rows cmp rows).

(** output.rs:1444-1454 *)
Definition merge_in_a_single_row (pr : profile) (cmp : row -> row -> comparison) (w : wlock) (r : row) : res (wlock * nat) :=
  let* p := merge_logged pr cmp (fun got _ i => got ++ [i]) [] w [r] in
  match fst p with
  | [i] => Ok (snd p, i)
  | [] => panic PUnwrap
  | _ => panic PDuplicate
  end.
