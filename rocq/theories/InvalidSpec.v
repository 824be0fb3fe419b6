(** What it means that a row refers to nothing. *)
From Coq Require Import List.
From Verif Require Import Base Column Table Cascade CascadeSpec Invalid.

(** The table still has an id to spare, and the invalid one is not in use. *)
Definition not_full (t : table) : Prop := t_len t <= invalid (t_sch t).

(** Whatever row [j] of table [c] refers to by a [#[foreign_auto]] column is the invalid id of a table that is not full. *)
Definition refers_to_nothing (u : universe) (c j : nat) : Prop :=
  forall q k key i, In (TAuto c k key) (u_trackers u q) -> refers u c k j i ->
    exists t, nth_error (u_tabs u) q = Some t /\ not_full t /\ i = invalid (t_sch t).
