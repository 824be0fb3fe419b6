(** Programs that flush without unlocking (C118). *)
From Coq Require Import List Arith Bool.
From Verif Require Import Base Column Order RowRange Table SortedTab BagTab TableSpec Hist Events Cascade CascadeSpec Extract IntegritySpec MirrorSpec.
Import ListNotations.

(** Programs as in C80, and where they bring [u0]: to which universe, and whether a table is locked for writing then, with which lock.
    A table is locked, changed and flushed with [live_flush], any number of times (tables that are not consistent have nothing to flush),
    then flushed with [flush] or unlocked.  [fussy]: the sessions are tidy (see C83). *)
Inductive works (fussy : bool) (pr : profile) (umax fuel : nat) (null : nat -> nat -> Prop) (order : nat -> row -> row -> comparison) (u0 : universe)
  : universe -> option (nat * wlock) -> Prop :=
| works_start : works fussy pr umax fuel null order u0 u0 None
| works_lock u p t : works fussy pr umax fuel null order u0 u None -> nth_error (u_tabs u) p = Some t ->
    works fussy pr umax fuel null order u0 u (Some (p, w_new t))
| works_live u p t w es w1 ev u' w' : works fussy pr umax fuel null order u0 u (Some (p, w)) -> careful null order u p es ev ->
    nth_error (u_tabs u) p = Some t -> t_kind t = Consistent -> do_edits pr umax w es = Ok w1 -> t_len (w_tab w1) <= t_imax (w_tab w1) ->
    (fussy = true -> tidy t w1 es) -> live_flush pr umax fuel u [] p w1 ev = Ok (u', w') ->
    works fussy pr umax fuel null order u0 u' (Some (p, w'))
| works_flush u p t w es w1 ev u' : works fussy pr umax fuel null order u0 u (Some (p, w)) -> careful null order u p es ev ->
    nth_error (u_tabs u) p = Some t -> do_edits pr umax w es = Ok w1 -> t_len (w_tab w1) <= t_imax (w_tab w1) ->
    (fussy = true -> tidy t w1 es) -> flush pr umax fuel u [] p w1 ev = Ok u' -> works fussy pr umax fuel null order u0 u' None
| works_close u p w t : works fussy pr umax fuel null order u0 u (Some (p, w)) -> w_drop w = Ok t ->
    works fussy pr umax fuel null order u0 (u_put u p t) None.
