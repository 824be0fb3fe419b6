(** Deleting rows in several steps (C124). *)
From Coq Require Import List Arith Bool.
From Verif Require Import Base Column Order RowRange Table SortedTab BagTab TableSpec Hist Events Cascade CascadeSpec Extract.
Import ListNotations.

(** A program locks table [p], deletes those of the rows [ids] that are there, and flushes. *)
Definition deletes (pr : profile) (umax fuel : nat) (x : xuni) (p : nat) (ids : list nat) (ev : event) (x' : xuni) : Prop :=
  exists t w, nth_error (u_tabs (xu_u x)) p = Some t /\ do_edits pr umax (w_new t) (map ODelete (filter (t_contains t) ids)) = Ok w /\
    x_flush pr umax fuel x [] p w ev = Ok x'.
(** It does so any number of times, with tables, rows and events [bs]. *)
Inductive deletes_all (pr : profile) (umax fuel : nat) (x : xuni) : list (nat * list nat * event) -> xuni -> Prop :=
| deletes_none : deletes_all pr umax fuel x [] x
| deletes_more p ids ev bs x1 x2 : deletes pr umax fuel x p ids ev x1 -> deletes_all pr umax fuel x1 bs x2 -> deletes_all pr umax fuel x ((p, ids, ev) :: bs) x2.
(** No row is named twice, the table is consistent, and the event is one for which rows that refer to the rows are deleted. *)
Definition batch (u : universe) (b : nat * list nat * event) : Prop :=
  let '(p, ids, ev) := b in NoDup ids /\ plain_removal ev /\ nth_error (u_hdl u) (ev_id ev) = Some HDelete /\
  exists t, nth_error (u_tabs u) p = Some t /\ t_kind t = Consistent.
(** Row [i] of table [p] is among those named. *)
Definition asked (bs : list (nat * list nat * event)) (p i : nat) : Prop := exists ids ev, In (p, ids, ev) bs /\ In i ids.
(** The same rows at the same ids, and as many ids in use or free, in all tables. *)
Definition same_rows (u u' : universe) : Prop :=
  length (u_tabs u') = length (u_tabs u) /\
  forall c t t', nth_error (u_tabs u) c = Some t -> nth_error (u_tabs u') c = Some t' ->
    t_len t' = t_len t /\ forall i r, t_get_row t i = Ok r <-> t_get_row t' i = Ok r.

(** ** Clearing (C125) *)
(** Every row of the tables that depend on [p] refers to some row of [p] or of one of these tables, and not to nothing (see [refs_ok]). *)
Definition no_strays (null : nat -> nat -> Prop) (u : universe) (p : nat) : Prop :=
  forall c t j r, downstream u p c -> nth_error (u_tabs u) c = Some t -> t_get_row t j = Ok r ->
  exists q k key i, (q = p \/ downstream u p q) /\ In (TAuto c k key) (u_trackers u q) /\ nth_error r k = Some (VRow i) /\ ~ null q i.
(** The program has the same rows at the same ids, but not the same ids free. *)
Definition alike_rows (u u' : universe) : Prop :=
  forall c t t', nth_error (u_tabs u) c = Some t -> nth_error (u_tabs u') c = Some t' -> forall i r, t_get_row t i = Ok r <-> t_get_row t' i = Ok r.
