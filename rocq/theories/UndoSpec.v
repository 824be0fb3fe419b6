(** Bringing back rows that were deleted (C122). *)
From Coq Require Import List Arith Bool.
From Verif Require Import Base Column Order RowRange Table SortedTab BagTab TableSpec Hist Events Cascade CascadeSpec Extract ExtractSpec ImportSpec.
Import ListNotations.

(** Every column that refers to a table ([foreign], see ExtractSpec.v) is [#[foreign_auto]]. *)
Definition cascading (foreign : nat -> list (nat * nat)) (u : universe) : Prop :=
  forall c k q, In (k, q) (foreign c) -> (exists tq, nth_error (u_tabs u) q = Some tq) /\ exists key, In (TAuto c k key) (u_trackers u q).

(** What is [lost] is, exactly, rows [sel c] of the tables [c] of [ps]; these are consistent, ids of their rows are remapped as usual, and nobody holds
    the locks of their trackers. *)
Definition covers (x : xuni) (lost : nat -> nat -> Prop) (ps : list nat) (sel : nat -> list nat) : Prop :=
  NoDup ps /\ (forall c i, lost c i -> In c ps) /\
  forall c, In c ps -> (exists t f, nth_error (u_tabs (xu_u x)) c = Some t /\ t_kind t = Consistent /\
    nth_error (xu_fl x) c = Some f /\ fs_ident f = false /\ fs_leaked f = 0) /\
    NoDup (sel c) /\ forall i, In i (sel c) <-> lost c i.
(** Rows that are lost refer to rows that are lost too, or to tables that stay, see [stays_put]. *)
Definition self_contained (foreign : nat -> list (nat * nat)) (x : xuni) (lost : nat -> nat -> Prop) (ps : list nat) : Prop :=
  forall c k q i t r, lost c i -> nth_error (u_tabs (xu_u x)) c = Some t -> t_get_row t i = Ok r -> In (k, q) (foreign c) ->
    exists a, nth_error r k = Some (VRow a) /\ (lost q a \/ stays_put x ps q).
(** Lost if the rows of table [p] are deleted with all that refers to them, for clearing it (see [doomed] for single rows). *)
Definition wiped (u : universe) (p c i : nat) : Prop :=
  (c = p \/ downstream u p c) /\ exists t r, nth_error (u_tabs u) c = Some t /\ t_get_row t i = Ok r.

(** [u'] has the rows of [u] and no others, at other ids perhaps: row [i] of table [c] is [f c i] now, and so it is called in the columns that
    refer to the table. *)
Definition renamed_key (f : nat -> nat -> nat) (q : nat) (v : val) : val := match v with VRow a => VRow (f q a) | _ => v end.
Definition renumbered (foreign : nat -> list (nat * nat)) (f : nat -> nat -> nat) (u u' : universe) : Prop :=
  length (u_tabs u') = length (u_tabs u) /\
  forall c t, nth_error (u_tabs u) c = Some t -> exists t', nth_error (u_tabs u') c = Some t' /\
    (forall i r, t_get_row t i = Ok r -> exists r', t_get_row t' (f c i) = Ok r' /\ same_but_foreign (foreign c) r r' /\
       forall k q v, In (k, q) (foreign c) -> nth_error r k = Some v -> nth_error r' k = Some (renamed_key f q v)) /\
    (forall i j r s, t_get_row t i = Ok r -> t_get_row t j = Ok s -> f c i = f c j -> i = j) /\
    forall j r', t_get_row t' j = Ok r' -> exists i r, t_get_row t i = Ok r /\ f c i = j.
