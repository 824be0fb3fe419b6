(** What it means that a row id keeps its meaning while threads run (C105). *)
From Coq Require Import List Arith Bool.
From Verif Require Import Base Column RowRange Table Hist Cascade Extract Threads.
Import ListNotations.

(** The row under id [i] of table [p], as [get_row] finds it. *)
Definition found (c : threads) (p i : nat) : option row :=
  match nth_error (u_tabs (xu_u (th_x c))) p with
  | Some t => match t_get_row t i with Ok r => Some r | Err _ => None end
  | None => None
  end.
(** The call neither stores into row [i] nor discards all rows at once. *)
Definition spares (i : nat) (o : op) : Prop := o <> OClearRaw /\ forall k v, o <> OAssign k i v.
