(** Tables of another kind (C134). *)
From Coq Require Import List Arith Bool.
From Verif Require Import Base Column RowRange Table TableSpec Hist Answers.
Import ListNotations.

Definition with_kind (s : schema) (k : kind) : schema := Sch k (s_imax s) (s_cols s).
(** The call deletes no rows, and tells of no removal.  ([clear_raw] is the same for all kinds.) *)
Definition deletes_nothing (c : call) : bool :=
  match c with
  | Do (ODelete _ | OClear | ORemoveRows _ _ _) => false
  | Do (OFlush _ ev | OLiveFlush _ ev) => negb (ev_removal ev)
  | _ => true
  end.
(** Locks are flushed, not just closed, and with an event that trackers can be registered for. *)
Definition tells (c : call) : bool :=
  match c with
  | Do OClose => false
  | Do (OFlush _ ev | OLiveFlush _ ev) => ev_id ev <? max_event_types
  | _ => true
  end.
