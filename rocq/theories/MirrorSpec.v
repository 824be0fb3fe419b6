(** Vocabulary of the property about a tracker that keeps book (C83). *)
From Coq Require Import List Arith Bool.
From Verif Require Import Base Column Order RowRange Table SortedTab BagTab TableSpec Hist Events Cascade CascadeSpec Extract IntegritySpec.
Import ListNotations.

(** A tracker that keeps book of the rows of its table, going by what it is told only: rows named with a removal event
    are struck out (all rows, if all are meant), rows named with any other event are written down.
    [q], [m]: its table, and its position among the trackers of it. *)
Definition jot (q m : nat) (b : list nat) (n : note) : list nat :=
  if (n_table n =? q) && (n_pos n =? m) then
    match n_rows n, ev_removal (n_event n) with
    | SAll, true => []
    | SAll, false => b
    | SThese l, true => filter (fun i => negb (mem i l)) b
    | SThese l, false => b ++ l
    end
  else b.
Definition book (q m : nat) (notes : list note) : list nat := fold_left (jot q m) notes [].

(** The calls [es] under a lock of [t], which has become [w]: no row of a consistent table is deleted twice, and only
    rows that are there are selected. *)
Definition tidy (t : table) (w : wlock) (es : list op) : Prop :=
  t_kind t = Consistent -> NoDup (deleted es) /\ forall i, In (OSelect i) es -> exists r, t_get_row (w_tab w) i = Ok r.

(** Programs as in C80, of tidy sessions. *)
Inductive tended (pr : profile) (umax fuel : nat) (null : nat -> nat -> Prop) (order : nat -> row -> row -> comparison) (u0 : universe) : universe -> Prop :=
| tended_start : tended pr umax fuel null order u0 u0
| tended_on u p t es w ev u' : tended pr umax fuel null order u0 u -> careful null order u p es ev ->
    nth_error (u_tabs u) p = Some t -> do_edits pr umax (w_new t) es = Ok w -> t_len (w_tab w) <= t_imax (w_tab w) -> tidy t w es ->
    flush pr umax fuel u [] p w ev = Ok u' -> tended pr umax fuel null order u0 u'.
