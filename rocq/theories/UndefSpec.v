(** What it takes to make a bag of a release build reach out of its columns (C11). *)
From Coq Require Import List Arith Bool.
From Verif Require Import Column Table.
Import ListNotations.

(** Of the rows [l] selected in a bag with [n] rows, more than [n] come before the first row it does not have; where a
    tracker asked for sorted rows it is enough that more than [n] are rows it has. *)
Definition overdrawn (srt : bool) (n : nat) (l : list nat) : Prop :=
  if srt then n < length (filter (fun i => i <? n) l)
  else n < length l /\ forall k, k <= n -> nth k l n < n.

(** The first column is a [VecCol]; [BoolCol] checks what it is asked. *)
Definition unguarded (sch : schema) : Prop := exists c cs, s_cols sch = c :: cs /\ ct_base c = TVec.

(** This flush gets as far as deleting the rows [l]. *)
Definition deletes (w : wlock) (ev : event) (l : list nat) : Prop :=
  ev_removal ev = true /\ ev_creation ev = false /\ ev_id ev < max_event_types /\ (w_pushed w = false \/ w_delete w = false) /\
  w_changes w = SThese l.
