(** What it means that a row id keeps its meaning (C90). *)
From Coq Require Import List Arith Bool.
From Verif Require Import Base Column RowRange Table SortedTab Events Cascade Hist Answers DbHist.
Import ListNotations.

(** The row a program finds under id [i] of table [p], with [get_row]. *)
Definition row_in (d : db) (p i : nat) : option row :=
  match nth_error (u_tabs (d_u d)) p with
  | Some t => match t_get_row t i with Ok r => Some r | Err _ => None end
  | None => None
  end.
(** The call stores into row [i] of table [p]: [table.column[i] = ..]. *)
Definition stores (c : db_call) (p i : nat) : Prop := exists k v, c = On p (Do (OAssign k i v)).
(** Calls that may take rows of table [p] away: flushes and what else tells trackers and handlers about rows, and [clear_raw]. *)
Definition may_take (c : db_call) (p : nat) : Prop :=
  match c with
  | On q (Do OClearRaw) => q = p
  | Flush _ _ | LiveFlush _ _ | RemoveRows _ _ _ | WRemove _ _ _ | Select _ _ _ => True
  | _ => False
  end.

Section Life.
Variable pr : profile.
Variable umax fuel : nat.
(** The universes programs can get to. *)
Inductive comes_to (schs : list schema) : db -> Prop :=
| comes_new : comes_to schs (db_new schs)
| comes_call d c d' a : comes_to schs d -> db_step pr umax fuel d c = Ok (d', a) -> comes_to schs d'.
(** From [d] the program goes on to [d'], and all the time there is a row [i] in table [p], into which nothing is stored. *)
Inductive left_alone (p i : nat) : db -> db -> Prop :=
| alone_now d : row_in d p i <> None -> left_alone p i d d
| alone_call d c d1 a d' : row_in d p i <> None -> ~ stores c p i -> db_step pr umax fuel d c = Ok (d1, a) ->
    left_alone p i d1 d' -> left_alone p i d d'.
End Life.
