(** Vocabulary of the properties of saving and restoring. *)
From Coq Require Import List Arith Bool.
From Verif Require Import Base Column RowRange Table Events Cascade Extract.
Import ListNotations.

(** [r] is what indexing the columns of [t] with the id [i] reads (also if the row is deleted). *)
Definition row_of (t : table) (i : nat) (r : row) : Prop :=
  length r = length (t_cols t) /\ forall k v, nth_error r k = Some v -> t_read t k i = Ok v.

(** Every row of [t] is in [t'], the same. *)
Definition keeps (t t' : table) : Prop := forall i r, t_get_row t i = Ok r -> t_get_row t' i = Ok r.

(** The event is handled by doing nothing. *)
Definition handled_by_nothing (u : universe) (ev : event) : Prop :=
  ev_removal ev = false /\ nth_error (u_hdl u) (ev_id ev) = Some HNull.

(** The tables of [x'] are those of [x] except [p]. *)
Definition only_changes (x x' : xuni) (p : nat) : Prop :=
  forall q, q <> p -> nth_error (u_tabs (xu_u x')) q = nth_error (u_tabs (xu_u x)) q.

(** ** Foreign keys *)
(** Columns of table [c] that refer to other tables: (column, table). *)
Definition is_foreign (fc : list (nat * nat)) (k : nat) : Prop := exists q, In (k, q) fc.
(** [r'] is [r] but for the columns that refer to other tables. *)
Definition same_but_foreign (fc : list (nat * nat)) (r r' : row) : Prop :=
  length r' = length r /\ forall k, ~ is_foreign fc k -> nth_error r' k = nth_error r k.
(** [tp'] has, at [b], what [tp] has at [a] (but for its own foreign keys). *)
Definition same_contents (fp : list (nat * nat)) (tp tp' : table) (a b : nat) : Prop :=
  exists ra rb, row_of tp a ra /\ t_get_row tp' b = Ok rb /\ same_but_foreign fp ra rb.

(** ** Locks never released *)
(** Guards of the trackers' lock of [p] that are never dropped. *)
Definition leaked (x : xuni) (p : nat) : nat := match nth_error (xu_fl x) p with Some f => fs_leaked f | None => 0 end.
(** The step is a [live_flush] of [p] with something to tell, while ids of [p] are remapped. *)
Definition leaks (pr : profile) (umax : nat) (x : xuni) (o : xop) (p : nat) : Prop :=
  exists es ev t w f, o = XLive p es ev /\ u_get (xu_u x) p = Ok t /\ do_edits pr umax (w_new t) es = Ok w /\
    sel_empty (w_changes w) = false /\ nth_error (xu_fl x) p = Some f /\ fs_remap f <> [].
