(** Vocabulary of the properties of cascading removal. *)
From Coq Require Import List Arith Bool Sorting.Sorted Sorting.Permutation.
From Verif Require Import Base Column RowRange Table SortedTab BagTab TableSpec Hist Events Cascade.
Import ListNotations.

(** Column [k] of row [j] of table [c] holds the row id [i]. *)
Definition refers (u : universe) (c k j i : nat) : Prop :=
  exists t r, nth_error (u_tabs u) c = Some t /\ t_get_row t j = Ok r /\ nth_error r k = Some (VRow i).

(** Rows to be removed when the rows [ids] of table [p] are: these, and whatever refers to such a
    row through a [#[foreign_auto]] column. *)
Inductive doomed (u : universe) (p : nat) (ids : list nat) : nat -> nat -> Prop :=
| doomed_marked i : In i ids -> doomed u p ids p i
| doomed_dependent q i c k key j : doomed u p ids q i -> In (TAuto c k key) (u_trackers u q) -> refers u c k j i ->
    doomed u p ids c j.

(** [t'] has the rows of [t] except those [dead] (in [t]'s numbering). *)
Definition loses (dead : nat -> Prop) (t t' : table) : Prop :=
  match t_kind t with
  | Consistent => t_len t' = t_len t /\ forall j r, t_get_row t' j = Ok r <-> t_get_row t j = Ok r /\ ~ dead j
  | Sorted => exists ids, (forall j, j < t_len t -> (In j ids <-> dead j)) /\
                forall rows, holds t rows -> holds t' (without 0 rows ids)
  | _ => t' = t
  end.

(** Column [k] of [t], which is ascending. *)
Definition ascending_column (t : table) (k : nat) : Prop :=
  forall i j r s a b, i < j -> t_get_row t i = Ok r -> t_get_row t j = Ok s ->
    nth_error r k = Some a -> nth_error s k = Some b -> val_cmp a b <> Gt.

(** What the macro and [register_tracker] ensure of a table with [#[foreign_auto]] on column [k], if the
    table is consistent or sorted (see C36 for the other kinds).
    Rows can only be found while the type of ids is not exhausted (see C18). *)
Definition dependent_ok (pr : profile) (umax : nat) (u : universe) (c k : nat) (key : bool) : Prop :=
  exists t b, nth_error (u_tabs u) c = Some t /\ sane pr umax (t_sch t) (Free t) /\ t_len t <= t_imax t /\
    nth_error (s_cols (t_sch t)) k = Some b /\
    (if key then t_kind t = Sorted /\ ascending_column t k
     else (t_kind t = Consistent \/ t_kind t = Sorted) /\ exists t, b = Indexed t).

(** Tables refer to tables of a higher rank only, so not in a circle.  Only consistent tables have
    trackers (src/tracking.rs:315-321). *)
Definition linked (pr : profile) (umax : nat) (rank : nat -> nat) (u : universe) : Prop :=
  (forall p c k key, In (TAuto c k key) (u_trackers u p) -> rank c < rank p /\ dependent_ok pr umax u c k key) /\
  (forall p t, nth_error (u_tabs u) p = Some t -> t_kind t <> Consistent -> u_trackers u p = []).

(** No row is removed twice, or no sorted table is searched with an index. *)
Definition no_repeats (u : universe) (ids : list nat) : Prop :=
  NoDup ids \/ forall p c k t, In (TAuto c k false) (u_trackers u p) -> nth_error (u_tabs u) c = Some t -> t_kind t <> Sorted.

(** What [#[foreign_auto]] columns refer to is there. *)
Definition integrity (u : universe) : Prop :=
  forall p c k key t j i, In (TAuto c k key) (u_trackers u p) -> nth_error (u_tabs u) p = Some t ->
    refers u c k j i -> exists r, t_get_row t i = Ok r.

(** ** Notifications *)
(** The same rows, perhaps in another order. *)
Definition same_rows (a b : select) : Prop :=
  match a, b with
  | SAll, SAll => True
  | SThese l, SThese m => Permutation l m
  | _, _ => False
  end.
Definition in_order (a : select) : Prop := match a with SAll => True | SThese l => StronglySorted le l end.
(** Trackers that ask for rows in order: the user's own if they say so, derived ones if their table is sorted. *)
Definition asks_order (u : universe) (tr : tracker) : Prop :=
  match tr with
  | TUser srt _ => srt = true
  | TAuto c _ _ => exists t, nth_error (u_tabs u) c = Some t /\ t_kind t = Sorted
  end.
(** The trackers of [p] that consider the event, with their positions, in order. *)
Definition listeners (u : universe) (p : nat) (ev : event) : list (nat * tracker) :=
  filter (fun x => match snd x with TAuto _ _ _ => true | TUser _ f => f ev end)
         (combine (seq 0 (length (u_trackers u p))) (u_trackers u p)).
(** [n] is the call that tracker [x] of table [p] is owed for changes [sel]. *)
Definition told (u : universe) (p : nat) (ev : event) (sel : select) (x : nat * tracker) (n : note) : Prop :=
  n_table n = p /\ n_pos n = fst x /\ n_event n = ev /\ same_rows sel (n_rows n) /\ (asks_order u (snd x) -> in_order (n_rows n)).
(** The rows named in the calls of the tracker at position [m] of table [q], one after the other. *)
Definition heard (q m : nat) (notes : list note) : list nat :=
  flat_map (fun n => match n_rows n with SThese l => l | SAll => [] end)
           (filter (fun n => (n_table n =? q) && (n_pos n =? m)) notes).
(** Which trackers a flush of [p] calls, in order: tables and positions, down [n] levels.  A derived tracker of a
    column of [c] has the trackers of [c] called; [twice]: two times if [c] is consistent. *)
Fixpoint calls (n : nat) (twice : bool) (u : universe) (ev : event) (p : nat) : list (nat * nat) :=
  match n with
  | 0 => []
  | S n =>
      flat_map (fun x => (p, fst x) ::
        match snd x with
        | TAuto c _ _ =>
            (if twice && match nth_error (u_tabs u) c with Some t => kind_eqb (t_kind t) Consistent | None => false end
             then calls n twice u ev c else []) ++ calls n twice u ev c
        | TUser _ _ => []
        end) (listeners u p ev)
  end.
(** [c] is [d] levels below [p]. *)
Inductive below (u : universe) (p : nat) : nat -> nat -> Prop :=
| below_here : below u p p 0
| below_more q d c k key : below u p q d -> In (TAuto c k key) (u_trackers u q) -> below u p c (S d).
(** No table depends on others through more than one column. *)
Definition one_parent (u : universe) : Prop :=
  forall p m c k key p' m' k' key', nth_error (u_trackers u p) m = Some (TAuto c k key) ->
    nth_error (u_trackers u p') m' = Some (TAuto c k' key') -> p = p' /\ m = m'.
(** Tables refer to tables of a higher rank only. *)
Definition acyclic (rank : nat -> nat) (u : universe) : Prop :=
  forall p c k key, In (TAuto c k key) (u_trackers u p) -> rank c < rank p.

(** ** Removing everything *)
(** [c] depends on [p], directly or not. *)
Inductive downstream (u : universe) (p : nat) : nat -> Prop :=
| downstream_one c k key : In (TAuto c k key) (u_trackers u p) -> downstream u p c
| downstream_more q c k key : downstream u p q -> In (TAuto c k key) (u_trackers u q) -> downstream u p c.

(** Dependent tables exist and are consistent or sorted; sorted tables have no trackers. *)
Definition removable (u : universe) : Prop :=
  forall p c k key, In (TAuto c k key) (u_trackers u p) ->
    exists t, nth_error (u_tabs u) c = Some t /\ (t_kind t = Consistent \/ t_kind t = Sorted /\ u_trackers u c = []).
