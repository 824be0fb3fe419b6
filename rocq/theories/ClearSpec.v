(** Programs that clear tables (C119). *)
From Coq Require Import List Arith Bool.
From Verif Require Import Base Column Order RowRange Table SortedTab BagTab TableSpec Hist Events Cascade CascadeSpec Extract IntegritySpec MirrorSpec.
Import ListNotations.

(** Calls that add and change nothing. *)
Definition sweeping (o : op) : bool := match o with OPush _ | OPushAll _ | OPushArray _ | OAssign _ _ _ | OClearRaw => false | _ => true end.
(** Such calls, among them [clear] or [select_all]. *)
Definition wipes (es : list op) : Prop := Forall (fun o => sweeping o = true) es /\ Exists (fun o => o = OClear \/ o = OSelectAll) es.
(** No row is deleted at present of table [p] and those that depend on it (otherwise they are not as new after clearing, see C17). *)
Definition none_deleted (u : universe) (p : nat) : Prop :=
  forall q t, q = p \/ downstream u p q -> nth_error (u_tabs u) q = Some t -> all_present t.

(** Programs as in C80 that also clear consistent tables.  [fussy]: the other sessions are tidy (see C83). *)
Inductive sweeps (fussy : bool) (pr : profile) (umax fuel : nat) (null : nat -> nat -> Prop) (order : nat -> row -> row -> comparison) (u0 : universe) : universe -> Prop :=
| sweeps_start : sweeps fussy pr umax fuel null order u0 u0
| sweeps_on u p t es w ev u' : sweeps fussy pr umax fuel null order u0 u -> careful null order u p es ev ->
    nth_error (u_tabs u) p = Some t -> do_edits pr umax (w_new t) es = Ok w -> t_len (w_tab w) <= t_imax (w_tab w) ->
    (fussy = true -> tidy t w es) -> flush pr umax fuel u [] p w ev = Ok u' -> sweeps fussy pr umax fuel null order u0 u'
| sweeps_clear u p t es w ev u' : sweeps fussy pr umax fuel null order u0 u -> nth_error (u_tabs u) p = Some t -> t_kind t = Consistent ->
    wipes es -> none_deleted u p -> plain_removal ev -> nth_error (u_hdl u) (ev_id ev) = Some HDelete ->
    do_edits pr umax (w_new t) es = Ok w -> flush pr umax fuel u [] p w ev = Ok u' -> sweeps fussy pr umax fuel null order u0 u'.
