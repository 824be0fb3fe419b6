(** The columns of a locked table are public fields whose lifetimes are [transmute]d to that of the universe (macros/output.rs:1615-1690).
    Here: the programs that rustc accepts, and whether a column is used only while its table is locked. *)
From Coq Require Import List Arith Bool.
From Verif Require Import Base Context ContextUnwind.
Import ListNotations.

(** One table in several universes: by universe, the columns.  Columns of other tables are of other types, as [Col] has the table as type
    parameter (src/columns.rs:55-58).  Elements are numbers. *)
Definition tabs := list (list (list nat)).
(** The reference in a [RefA], [MutA] or [EditA] (src/columns.rs:112-148): universe, column, and the period in which it was made: a number
    that goes up whenever the last lock of the table is given back. *)
Record handle := HD { hd_uni : nat; hd_col : nat; hd_period : nat }.
(** [Read] or [Write] (macros/output.rs:480-498) in a variable. *)
Record lvar := LV { lv_uni : nat; lv_write : bool; lv_cols : list handle }.
Record lworld := LW { lw_tabs : tabs; lw_period : list nat; lw_vars : list (option lvar) }.

Inductive lop :=
| LLock (u : nat) (w : bool)            (* let v = write(&u); or read *)
| LDrop (v : nat)                       (* drop(v) *)
| LGet (v k i : nat) (checked : bool)   (* v.k[i]; or let i = i.check(&v); v.k[i] *)
| LSet (v k i x : nat) (checked : bool) (* v.k[i] = x; if checked, with an id from such a check just before *)
| LPush (v : nat) (row : list nat)      (* v.push(row) *)
| LSwap (v k v' k' : nat).              (* mem::swap(&mut v.k, &mut v'.k') *)

Section Types.
(** The types of the columns. *)
Variable types : list nat.

Definition the_var (s : lworld) (v : nat) : option lvar := match nth_error (lw_vars s) v with Some x => x | None => None end.
Definition col_ty (k : nat) : nat := nth k types 0.
(** What rustc accepts: [Read] and [Write] implement [Drop], so columns cannot be moved out (macros/output.rs:845, 1158-1171), but they can
    be swapped for another of the same type. *)
Definition l_compiles (s : lworld) (o : lop) : bool :=
  match o with
  | LLock u _ => u <? length (lw_tabs s)
  | LDrop v => match the_var s v with Some _ => true | None => false end
  | LGet v k _ _ => match the_var s v with Some _ => k <? length types | None => false end
  | LSet v k _ _ _ => match the_var s v with Some x => (k <? length types) && lv_write x | None => false end
  | LPush v row => match the_var s v with Some x => lv_write x && (length row =? length types) | None => false end
  | LSwap v k v' k' =>
      match the_var s v, the_var s v' with
      | Some x, Some x' => Bool.eqb (lv_write x) (lv_write x') && (k <? length types) && (k' <? length types) &&
                           (col_ty k =? col_ty k') && negb ((v =? v') && (k =? k'))
      | _, _ => false
      end
  end.

Definition locks_on (s : lworld) (u : nat) : list lvar :=
  flat_map (fun x => match x with Some x => if lv_uni x =? u then [x] else [] | None => [] end) (lw_vars s).
Definition period (s : lworld) (u : nat) : nat := nth u (lw_period s) 0.
(** The table has been locked all the time since the reference was made. *)
Definition valid (s : lworld) (h : handle) : bool :=
  negb (length (locks_on s (hd_uni h)) =? 0) && (hd_period h =? period s (hd_uni h)).
Definition column (s : lworld) (h : handle) : list nat := nth (hd_col h) (nth (hd_uni h) (lw_tabs s) []) [].
Definition set_column (s : lworld) (h : handle) (l : list nat) : lworld :=
  LW (upd (lw_tabs s) (hd_uni h) (upd (nth (hd_uni h) (lw_tabs s) []) (hd_col h) l)) (lw_period s) (lw_vars s).
Definition set_var (s : lworld) (v : nat) (x : option lvar) : lworld := LW (lw_tabs s) (lw_period s) (upd (lw_vars s) v x).

(** macros/output.rs:1615-1690 *)
Definition convert_guard (s : lworld) (u : nat) (w : bool) : lvar :=
  LV u w (map (fun k => HD u k (period s u)) (seq 0 (length types))).
(** Indexing a column (src/columns.rs:75-111): with an id that is not checked the column's own length is looked at; a checked one was below
    the length of the first column (src/index.rs:503-519, macros/output.rs:766-770).  No rows are deleted here. *)
Definition l_index (s : lworld) (x : lvar) (k i : nat) (checked : bool) : ending handle :=
  match nth_error (lv_cols x) k, nth_error (lv_cols x) 0 with
  | Some h, Some h0 =>
      if checked && negb (valid s h0) then Undefined
      else if checked && negb (i <? length (column s h0)) then Unwound PIndexOOB
      else if negb (valid s h) then Undefined
      else if i <? length (column s h) then Done h
      else if checked then Undefined else Unwound PIndexOOB
  | _, _ => Undefined
  end.
(** macros/output.rs:1221-1255 for an append table: onto every column *)
Fixpoint l_push (s : lworld) (hs : list handle) (row : list nat) : lworld * ending unit :=
  match hs, row with
  | h :: hs, x :: row => if valid s h then l_push (set_column s h (column s h ++ [x])) hs row else (s, Undefined)
  | [], [] => (s, Done tt)
  | _, _ => (s, Undefined)
  end.

(** One statement; gives the element that is read. *)
Definition l_step (s : lworld) (o : lop) : lworld * ending (option nat) :=
  match o with
  | LLock u w =>
      if existsb (fun x => w || lv_write x) (locks_on s u) then (s, Waits)
      else (LW (lw_tabs s) (lw_period s) (lw_vars s ++ [Some (convert_guard s u w)]), Done None)
  | LDrop v =>
      match the_var s v with
      | Some x =>
          let s := set_var s v None in
          (if length (locks_on s (lv_uni x)) =? 0
           then LW (lw_tabs s) (upd (lw_period s) (lv_uni x) (S (period s (lv_uni x)))) (lw_vars s) else s, Done None)
      | None => (s, Undefined)
      end
  | LGet v k i c =>
      match the_var s v with
      | Some x => match l_index s x k i c with Done h => (s, Done (nth_error (column s h) i)) | e => (s, not_done e) end
      | None => (s, Undefined)
      end
  | LSet v k i y c =>
      match the_var s v with
      | Some x => match l_index s x k i c with
                  | Done h => (set_column s h (upd (column s h) i y), Done None)
                  | e => (s, not_done e)
                  end
      | None => (s, Undefined)
      end
  | LPush v row =>
      match the_var s v with
      | Some x => match l_push s (lv_cols x) row with (s, Done _) => (s, Done None) | (s, e) => (s, not_done e) end
      | None => (s, Undefined)
      end
  | LSwap v k v' k' =>
      match the_var s v, the_var s v' with
      | Some x, Some x' =>
          match nth_error (lv_cols x) k, nth_error (lv_cols x') k' with
          | Some h, Some h' =>
              let s := set_var s v (Some (LV (lv_uni x) (lv_write x) (upd (lv_cols x) k h'))) in
              match the_var s v' with
              | Some x' => (set_var s v' (Some (LV (lv_uni x') (lv_write x') (upd (lv_cols x') k' h))), Done None)
              | None => (s, Undefined)
              end
          | _, _ => (s, Undefined)
          end
      | _, _ => (s, Undefined)
      end
  end.
(** What a program reads, and how it ends: as the first statement that neither returns nor panics; panics are caught.  [None]: rustc does
    not accept it. *)
Fixpoint l_run (s : lworld) (os : list lop) : option (lworld * list (option nat) * ending unit) :=
  match os with
  | [] => Some (s, [], Done tt)
  | o :: os =>
      if l_compiles s o then
        match l_step s o with
        | (s, Done a) => match l_run s os with Some (s, r, e) => Some (s, a :: r, e) | None => None end
        | (s, Unwound _) => match l_run s os with Some (s, r, e) => Some (s, None :: r, e) | None => None end
        | (s, e) => Some (s, [], not_done e)
        end
      else None
  end.
End Types.
