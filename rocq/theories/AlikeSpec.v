(** When two tables look alike, and programs that keep away from deleted rows (C91). *)
From Coq Require Import List Arith Bool.
From Verif Require Import Base Column RowRange Table SortedTab Hist Answers.
Import ListNotations.

(** Both or neither locked for writing, the locks remembering the same; no BagIter is open. *)
Definition locked_alike (st st' : state) : Prop :=
  match st, st' with
  | Free _, Free _ => True
  | Locked w [], Locked w' [] => w_changes w = w_changes w' /\ w_pushed w = w_pushed w' /\ w_delete w = w_delete w'
  | _, _ => False
  end.
(** As many rows, the same ids deleted, and the same values in the rows that are not. *)
Definition alike (st st' : state) : Prop :=
  t_len (st_tab st) = t_len (st_tab st') /\
  (forall i, t_contains (st_tab st) i = t_contains (st_tab st') i) /\
  (forall i, t_contains (st_tab st) i = true -> t_get_row (st_tab st) i = t_get_row (st_tab st') i) /\
  locked_alike st st'.

(** The call indexes a column with the id of a deleted row ([table.column[i]], src/columns.rs:75-93). *)
Definition pokes (st : state) (c : call) : bool :=
  match c with
  | Do (OCell _ i) | Do (OAssign _ i _) => (i <? t_len (st_tab st)) && negb (t_contains (st_tab st) i)
  | _ => false
  end.
Section Keeps.
Variable pr : profile.
Variable umax : nat.
(** No call does, nor empties the columns while rows are deleted (see C17). *)
Fixpoint keeps_away (st : state) (cs : list call) : Prop :=
  match cs with
  | [] => True
  | c :: cs => pokes st c = false /\ sane_op st (op_of c) /\ forall st', step pr umax st (op_of c) = Ok st' -> keeps_away st' cs
  end.
End Keeps.
