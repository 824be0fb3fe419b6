(** Copies of a whole database. *)
From Coq Require Import List Arith.
From Verif Require Import Base Column RowRange Table Events Cascade Extract ExtractSpec.
Import ListNotations.

(** The id that row [i] of [t] has in a copy: the rows are numbered anew, from 0, in the same order. *)
Definition new_id (t : table) (i : nat) : nat := length (filter (t_contains t) (seq 0 i)).

(** [r'] is [r], and its foreign keys refer to the same rows as those of [r] do, by their new ids. *)
Definition renamed (fc : list (nat * nat)) (tabs : list table) (r r' : row) : Prop :=
  same_but_foreign fc r r' /\
  forall k q, In (k, q) fc -> exists t a, nth_error tabs q = Some t /\ nth_error r k = Some (VRow a) /\ nth_error r' k = Some (VRow (new_id t a)).

(** [t'] has the rows of [t] by their new ids, and no others. *)
Definition copy_of (fc : list (nat * nat)) (tabs : list table) (t t' : table) : Prop :=
  (forall i r, t_get_row t i = Ok r -> exists r', t_get_row t' (new_id t i) = Ok r' /\ renamed fc tabs r r') /\
  (forall j r', t_get_row t' j = Ok r' -> exists i r, t_get_row t i = Ok r /\ j = new_id t i).

(** No row of [t] is deleted. *)
Definition no_gaps (t : table) : Prop := forall i, i < t_len t -> t_contains t i = true.

(** All foreign keys are ids of rows. *)
Definition whole (foreign : nat -> list (nat * nat)) (tabs : list table) : Prop :=
  forall c t k q i r, nth_error tabs c = Some t -> In (k, q) (foreign c) -> t_get_row t i = Ok r ->
    exists tq a, nth_error tabs q = Some tq /\ nth_error r k = Some (VRow a) /\ t_contains tq a = true.

(** Each table comes after those it refers to. *)
Definition in_order (foreign : nat -> list (nat * nat)) (ps : list nat) : Prop :=
  forall before c after, ps = before ++ c :: after -> forall k q, In (k, q) (foreign c) -> In q before.

(** One table after another is restored.  No error is returned. *)
Fixpoint restore_all (pr : profile) (umax : nat) (heads : nat -> header) (foreign : nat -> list (nat * nat))
    (order : nat -> row -> row -> comparison) (fuel : nat) (es : nat -> extraction) (ev : event) (ps : list nat) (x x' : xuni) : Prop :=
  match ps with
  | [] => x' = x
  | p :: ps => exists x1, restore pr umax heads foreign order fuel x [] p (es p) ev = Ok (x1, None) /\
                 restore_all pr umax heads foreign order fuel es ev ps x1 x'
  end.

(** In [x] all ids are remapped as usual, or they are remapped to themselves and the table [t] saved has no gaps; nobody holds the
    lock of the trackers. *)
Definition remaps (x : xuni) (p : nat) (t : table) : Prop :=
  exists f, nth_error (xu_fl x) p = Some f /\ (fs_ident f = true -> no_gaps t) /\ fs_leaked f = 0.
