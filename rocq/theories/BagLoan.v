(** What the iterator of a bag hands out (src/index.rs:618-684): [BagIter::next] gives a reference to the whole table and one to the iterator's own
    cell, both [transmute]d to the lifetime of the table's lock.  Here: the programs that rustc accepts, and whether they use references
    that are still good.  (What the iterator does to the table, with all columns: BagTab.v.) *)
From Coq Require Import List Arith Bool.
From Verif Require Import Base Context ContextUnwind.
Import ListNotations.

(** Rows are numbers. *)
Inductive bop :=
| BNext                   (* let (t, d) = it.next()?: item j, if there is a row *)
| BMove                   (* the iterator is moved: returned, boxed, given to collect *)
| BDrop                   (* the iterator is dropped *)
| BMark (j : nat)         (* d.delete() of item j *)
| BGet (j i : nat)        (* row i is read through t of item j; here and below: checked *)
| BPush (j x : nat)       (* t.push(x) *)
| BDelete (j i : nat).    (* t.delete(i) *)

(** An item: the tag of its reference to the table; row and place of the cell of its [Deletable], which [delete] consumes
    (src/index.rs:618-630). *)
Record bitem := BI { bi_tag : nat; bi_mark : option (nat * nat) }.
(** src/index.rs:632-637: place of the iterator (of its cell [delete]), [i], [last]. *)
Record biter := IT { it_loc : nat; it_i : nat; it_last : option nat }.
(** [bw_cells]: memory; a place that the iterator has left is [None].  [bw_stack]: which references may be used to reach the table, in the
    rules known as Stacked Borrows: using one ends those above it.  The iterator's own is 0. *)
Record bworld := BW { bw_rows : list nat; bw_cells : list (option bool); bw_stack : list nat; bw_iter : option biter; bw_items : list bitem }.

(** [iter_mut()] (macros/output.rs:681-688) *)
Definition b_start (rows : list nat) : bworld := BW rows [Some false] [0] (Some (IT 0 0 None)) [].

(** rustc: the iterator is not used after it is dropped, no [Deletable] twice.  It does not ask that the iterator be there when an item is
    used: the item's lifetime is the table's. *)
Definition b_compiles (s : bworld) (o : bop) : bool :=
  match o with
  | BNext | BMove | BDrop => match bw_iter s with Some _ => true | None => false end
  | BMark j => match nth_error (bw_items s) j with Some (BI _ (Some _)) => true | _ => false end
  | BGet j _ | BPush j _ | BDelete j _ => j <? length (bw_items s)
  end.

(** Use a reference to the table: [None] if it is not good any more. *)
Fixpoint pop_to (tag : nat) (stack : list nat) : option (list nat) :=
  match stack with
  | [] => None
  | t :: rest => if t =? tag then Some (t :: rest) else pop_to tag rest
  end.
(** macros/output.rs:853-870, [None] if there is no such row *)
Definition b_delete (rows : list nat) (i : nat) : option (list nat) :=
  if i <? length rows then
    Some (firstn (length rows - 1) (if i <? length rows - 1 then upd rows i (nth (length rows - 1) rows 0) else rows))
  else None.

(** src/index.rs:639-675.  Gives whether there is an item. *)
Definition b_next (s : bworld) (it : biter) : bworld * ending (option nat) :=
  match pop_to 0 (bw_stack s), nth_error (bw_cells s) (it_loc it) with
  | Some st, Some (Some del) =>
      let tag := S (length (bw_items s)) in
      if length (bw_rows s) <=? it_i it then (BW (bw_rows s) (bw_cells s) st (bw_iter s) (bw_items s), Done None)
      else if del then
        match it_last it with
        | None => (s, Unwound PUnwrap)
        | Some l =>
            let cells := upd (bw_cells s) (it_loc it) (Some false) in
            match b_delete (bw_rows s) l with
            | None => (BW (bw_rows s) cells st (bw_iter s) (bw_items s), Unwound PIndexOOB)
            | Some rows => (BW rows cells (tag :: st) (bw_iter s) (bw_items s ++ [BI tag (Some (l, it_loc it))]), Done (Some l))
            end
        end
      else
        (BW (bw_rows s) (bw_cells s) (tag :: st) (Some (IT (it_loc it) (S (it_i it)) (Some (it_i it))))
            (bw_items s ++ [BI tag (Some (it_i it, it_loc it))]), Done (Some (it_i it)))
  | _, _ => (s, Undefined)
  end.
(** src/index.rs:676-684 *)
Definition b_drop (s : bworld) (it : biter) : bworld * ending (option nat) :=
  match nth_error (bw_cells s) (it_loc it) with
  | Some (Some del) =>
      let cells := upd (bw_cells s) (it_loc it) None in
      match it_last it, del with
      | Some l, true =>
          match pop_to 0 (bw_stack s) with
          | Some st => match b_delete (bw_rows s) l with
                       | Some rows => (BW rows cells st None (bw_items s), Done None)
                       | None => (BW (bw_rows s) cells st None (bw_items s), Unwound PIndexOOB)
                       end
          | None => (s, Undefined)
          end
      | _, _ => (BW (bw_rows s) cells (bw_stack s) None (bw_items s), Done None)
      end
  | _ => (s, Undefined)
  end.
(** A call through the table reference of item j. *)
Definition b_table (s : bworld) (j : nat) (f : list nat -> ending (list nat * option nat)) : bworld * ending (option nat) :=
  match nth_error (bw_items s) j with
  | Some it =>
      match pop_to (bi_tag it) (bw_stack s) with
      | Some st => match f (bw_rows s) with
                   | Done (rows, a) => (BW rows (bw_cells s) st (bw_iter s) (bw_items s), Done a)
                   | e => (BW (bw_rows s) (bw_cells s) st (bw_iter s) (bw_items s), not_done e)
                   end
      | None => (s, Undefined)
      end
  | None => (s, Undefined)
  end.
Definition b_step (s : bworld) (o : bop) : bworld * ending (option nat) :=
  match o with
  | BNext => match bw_iter s with Some it => b_next s it | None => (s, Undefined) end
  | BMove =>
      match bw_iter s with
      | Some it =>
          match nth_error (bw_cells s) (it_loc it) with
          | Some (Some del) =>
              (BW (bw_rows s) (upd (bw_cells s) (it_loc it) None ++ [Some del]) (bw_stack s)
                 (Some (IT (length (bw_cells s)) (it_i it) (it_last it))) (bw_items s), Done None)
          | _ => (s, Undefined)
          end
      | None => (s, Undefined)
      end
  | BDrop => match bw_iter s with Some it => b_drop s it | None => (s, Undefined) end
  | BMark j =>
      match nth_error (bw_items s) j with
      | Some (BI tag (Some (row, loc))) =>
          match nth_error (bw_cells s) loc with
          | Some (Some _) => (BW (bw_rows s) (upd (bw_cells s) loc (Some true)) (bw_stack s) (bw_iter s) (upd (bw_items s) j (BI tag None)), Done None)
          | _ => (s, Undefined)
          end
      | _ => (s, Undefined)
      end
  | BGet j i => b_table s j (fun rows => match nth_error rows i with Some x => Done (rows, Some x) | None => Unwound PIndexOOB end)
  | BPush j x => b_table s j (fun rows => Done (rows ++ [x], None))
  | BDelete j i => b_table s j (fun rows => match b_delete rows i with Some rows => Done (rows, None) | None => Unwound PIndexOOB end)
  end.
(** As [c_run] of ContextUnwind.v. *)
Fixpoint b_run (s : bworld) (os : list bop) : option (bworld * list (option nat) * ending unit) :=
  match os with
  | [] => Some (s, [], Done tt)
  | o :: os =>
      if b_compiles s o then
        match b_step s o with
        | (s, Done a) => match b_run s os with Some (s, r, e) => Some (s, a :: r, e) | None => None end
        | (s, Unwound _) => match b_run s os with Some (s, r, e) => Some (s, None :: r, e) | None => None end
        | (s, e) => Some (s, [], not_done e)
        end
      else None
  end.
