(** Event handlers: src/event.rs. *)
From Coq Require Import List Arith Bool.
From Verif Require Import Base Column Table.
Import ListNotations.

(** src/event.rs:44-68: [EVENT_LIST], in order *)
Definition event_list : list event :=
  [Ev 0 false false; Ev 1 false true; Ev 2 true false; Ev 3 false false; Ev 4 false true; Ev 5 false false;
   Ev 6 true false; Ev 7 false true; Ev 8 true false; Ev 9 false true; Ev 10 true false; Ev 11 false false;
   Ev 12 false false; Ev 13 false false; Ev 14 false false; Ev 15 false false; Ev 16 false false; Ev 17 false false].
Definition invalid_event : event := Ev 0 false false.

(** The handlers of the crate: DeleteHandler, NullHandler, PanickingHandler (src/event.rs:125-152). *)
Inductive handler := HDelete | HNull | HPanic.

(** src/event.rs:160-177 *)
Definition default_handlers : list handler :=
  map (fun i => let e := nth i event_list invalid_event in
                if ev_removal e then HDelete else if ev_creation e then HNull else HPanic)
      (seq 0 max_event_types).

(** src/event.rs:8: derived equality *)
Definition event_eqb (a b : event) : bool :=
  (ev_id a =? ev_id b) && eqb (ev_removal a) (ev_removal b) && eqb (ev_creation a) (ev_creation b).

(** Any type of handlers. *)
(** src/event.rs:180-188; the handler that was there is returned *)
Definition handlers_add {H} (hs : list H) (ev : event) (h : H) : res (list H * H) :=
  if event_eqb ev invalid_event then panic PInvalidEvent
  else match nth_error hs (ev_id ev) with
       | Some old => Ok (upd hs (ev_id ev) h, old)
       | None => panic PEventId
       end.
(** src/event.rs:192-194 *)
Definition handlers_get {H} (hs : list H) (ev : event) : res H :=
  match nth_error hs (ev_id ev) with Some h => Ok h | None => panic PEventId end.
