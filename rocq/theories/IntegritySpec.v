(** Vocabulary of the property that references never dangle (C80). *)
From Coq Require Import List Arith Bool.
From Verif Require Import Base Column Order RowRange Table SortedTab BagTab TableSpec Hist Events Cascade CascadeSpec Extract.
Import ListNotations.

(** [cmp] looks at column [k] first. *)
Definition sorts_by (cmp : row -> row -> comparison) (k : nat) : Prop :=
  forall r s a b, nth_error r k = Some a -> nth_error s k = Some b -> cmp r s <> Gt -> val_cmp a b <> Gt.

(** What the declarations ensure: tables with a [#[foreign_auto]] column exist, are consistent or sorted (see C36 for
    the other kinds), and have the column indexed or as sort key; they are not in a circle; only consistent tables have
    trackers.  The table of handlers has its size.  [order c]: the [Ord] of the rows of [c]. *)
Definition wired (rank : nat -> nat) (order : nat -> row -> row -> comparison) (u : universe) : Prop :=
  (forall p c k key, In (TAuto c k key) (u_trackers u p) -> rank c < rank p /\
     exists t b, nth_error (u_tabs u) c = Some t /\ nth_error (s_cols (t_sch t)) k = Some b /\
       (if key then t_kind t = Sorted /\ sorts_by (order c) k
        else (t_kind t = Consistent \/ t_kind t = Sorted) /\ exists ty, b = Indexed ty)) /\
  (forall p t, nth_error (u_tabs u) p = Some t -> t_kind t <> Consistent -> u_trackers u p = []) /\
  length (u_hdl u) = max_event_types.
(** Nothing has been put into the tables yet. *)
Definition all_new (u : universe) : Prop :=
  forall p t, nth_error (u_tabs u) p = Some t -> s_cols (t_sch t) <> [] /\ t = t_new (t_sch t).

(** [null p i]: the program uses the row id [i] of table [p] to refer to nothing (such as [RowId::default()]).
    What the [#[foreign_auto]] columns of [r], as a row of [c], refer to is there, or is meant to be nothing. *)
Definition refs_ok (null : nat -> nat -> Prop) (u : universe) (c : nat) (r : row) : Prop :=
  forall p k key t i, In (TAuto c k key) (u_trackers u p) -> nth_error (u_tabs u) p = Some t ->
    nth_error r k = Some (VRow i) -> (exists r', t_get_row t i = Ok r') \/ null p i.
(** The same of all rows. *)
Definition sound (null : nat -> nat -> Prop) (u : universe) : Prop :=
  forall p c k key t j i, In (TAuto c k key) (u_trackers u p) -> nth_error (u_tabs u) p = Some t ->
    refers u c k j i -> (exists r, t_get_row t i = Ok r) \/ null p i.
(** The rows a call adds. *)
Definition new_rows (o : op) : list row :=
  match o with
  | OPush r | OMergeSingle _ r => [r]
  | OPushAll rs | OPushArray rs | OMerge _ rs | OMergeLogged _ _ _ _ rs => rs
  | _ => []
  end.
(** Calls that concern all rows (these break tables with deleted rows, see C17). *)
Definition wholesale (o : op) : bool := match o with OSelectAll | OClear | OClearRaw => true | _ => false end.
(** Calls that add and select nothing. *)
Definition deletes_only (o : op) : bool :=
  match o with OPush _ | OPushAll _ | OPushArray _ | OSelect _ => false | _ => true end.
Definition deleted (es : list op) : list nat := flat_map (fun o => match o with ODelete i => [i] | _ => [] end) es.

(** The program locks table [p], makes the calls [es] and flushes with [ev].
    Rows may be added and changed freely as long as they refer to rows that are there (or to nothing); rows are deleted with an event
    whose handler deletes what refers to them, and other events have a handler that does nothing (as it is by default).
    In append, list and bag tables anything goes (but see C11 about flushing bags with removal events). *)
Definition careful (null : nat -> nat -> Prop) (order : nat -> row -> row -> comparison) (u : universe) (p : nat) (es : list op) (ev : event) : Prop :=
  forall t, nth_error (u_tabs u) p = Some t ->
  match t_kind t with
  | Consistent =>
      Forall (fun o => op_ty (s_cols (t_sch t)) o /\ Forall (refs_ok null u p) (new_rows o) /\ wholesale o = false) es /\
      (ev_removal ev = false /\ (nth_error (u_hdl u) (ev_id ev) = Some HNull \/ u_trackers u p = []) \/
       plain_removal ev /\ nth_error (u_hdl u) (ev_id ev) = Some HDelete /\
       Forall (fun o => deletes_only o = true) es /\ no_repeats u (deleted es))
  | Sorted =>
      Forall (fun o => op_ty (s_cols (t_sch t)) o /\ Forall (refs_ok null u p) (new_rows o) /\ keeps_order (order p) o /\
                match o with OAssign k _ _ => forall q key, ~ In (TAuto p k key) (u_trackers u q) | _ => True end) es
  | Bag => Forall (op_ty (s_cols (t_sch t))) es /\ ev_removal ev = false
  | Append | List_ => Forall (op_ty (s_cols (t_sch t))) es
  end.

(** Programs of such sessions, and what they bring the universe [u0] to.
    Only the last id of its type may not be used up (then rows can not be found any more, see C18). *)
Inductive lives (pr : profile) (umax fuel : nat) (null : nat -> nat -> Prop) (order : nat -> row -> row -> comparison) (u0 : universe) : universe -> Prop :=
| lives_start : lives pr umax fuel null order u0 u0
| lives_on u p t es w ev u' : lives pr umax fuel null order u0 u -> careful null order u p es ev ->
    nth_error (u_tabs u) p = Some t -> do_edits pr umax (w_new t) es = Ok w -> t_len (w_tab w) <= t_imax (w_tab w) ->
    flush pr umax fuel u [] p w ev = Ok u' -> lives pr umax fuel null order u0 u'.
