(** Rows added to a database in use. *)
From Coq Require Import List Arith.
From Verif Require Import Base Column RowRange Table SortedTab BagTab TableSpec Hist Events Cascade Extract ExtractSpec.
Import ListNotations.

(** How many rows [t] has. *)
Definition rows_in (t : table) : nat := length (filter (t_contains t) (seq 0 (t_len t))).

(** [n] rows more can be restored into table [p] of [x]: the table, of which only what is said by [sane] is known, can have so many, its ids
    are remapped as usual, and nobody holds the lock of its trackers. *)
Definition can_take (pr : profile) (umax : nat) (x : xuni) (p n : nat) (sch : schema) : Prop :=
  exists d f, nth_error (u_tabs (xu_u x)) p = Some d /\ t_sch d = sch /\ sane pr umax sch (Free d) /\
    t_len d <= t_imax d /\ rows_in d + n <= t_imax d /\
    nth_error (xu_fl x) p = Some f /\ fs_ident f = false /\ fs_leaked f = 0.

(** Every row saved of the tables [ps], if it refers to others, refers to rows that are saved too. *)
Definition complete (foreign : nat -> list (nat * nat)) (ps : list nat) (src : nat -> table) (es : nat -> extraction) : Prop :=
  forall c k q i r, In c ps -> In (k, q) (foreign c) -> In i (ex_sel (es c)) -> row_of (src c) i r ->
    exists a, nth_error r k = Some (VRow a) /\ In a (ex_sel (es q)).

(** [d'] has the rows of [d], the same, and those of [t] that were saved; row [i] of [t] is its row [f p i].  Of these the foreign keys are
    exchanged in the same way: [a], of table [q], for [f q a]. *)
Definition added (fc : list (nat * nat)) (f : nat -> nat -> nat) (p : nat) (sel : list nat) (t d d' : table) : Prop :=
  keeps d d' /\
  (forall i, In i sel -> t_contains d (f p i) = false /\
     exists r r', row_of t i r /\ t_get_row d' (f p i) = Ok r' /\ same_but_foreign fc r r' /\
       forall k q, In (k, q) fc -> exists a, nth_error r k = Some (VRow a) /\ nth_error r' k = Some (VRow (f q a))) /\
  (forall i j, In i sel -> In j sel -> f p i = f p j -> i = j) /\
  (forall j r, t_get_row d' j = Ok r -> t_get_row d j = Ok r \/ exists i, In i sel /\ j = f p i).

(** The same as [complete] and [in_order], but for keys that refer to tables that are not restored ([stays]). *)
Definition complete_but (stays : nat -> Prop) (foreign : nat -> list (nat * nat)) (ps : list nat) (src : nat -> table) (es : nat -> extraction) : Prop :=
  forall c k q i r, In c ps -> In (k, q) (foreign c) -> In i (ex_sel (es c)) -> row_of (src c) i r ->
    exists a, nth_error r k = Some (VRow a) /\ (In a (ex_sel (es q)) \/ stays q).
Definition in_order_but (stays : nat -> Prop) (foreign : nat -> list (nat * nat)) (ps : list nat) : Prop :=
  forall before c after, ps = before ++ c :: after -> forall k q, In (k, q) (foreign c) -> In q before \/ stays q.
(** Table [q] is not among those restored; its ids are remapped to themselves. *)
Definition stays_put (x : xuni) (ps : list nat) (q : nat) : Prop :=
  ~ In q ps /\ exists f, nth_error (xu_fl x) q = Some f /\ fs_ident f = true.
