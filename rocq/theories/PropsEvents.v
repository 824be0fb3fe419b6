(** Property theorems about event handlers and type-erased selections: C51, C53. *)
From Coq Require Import List Arith Bool ZArith.
From Verif Require Import Base Column RowRange Table TableSpec Events Cascade CascadeSpec EventFacts AnySlice AnySliceFacts Cases CascadeCases.
Import ListNotations.

(** C51.  In a new universe the standard removal events delete, creation events do nothing, others panic. *)
Theorem C51_defaults :
  forall ev, In ev event_list ->
  handlers_get default_handlers ev = Ok (if ev_removal ev then HDelete else if ev_creation ev then HNull else HPanic).
Proof. exact handlers_default. Qed.
Print Assumptions C51_defaults.
Example C51_defaults_case :
  In ev_delete event_list /\ In ev_create event_list /\ In ev_update event_list /\
  map (handlers_get default_handlers) [ev_delete; ev_create; ev_update] = [Ok HDelete; Ok HNull; Ok HPanic].
Proof. repeat split; cbn; tauto. Qed.

(** C51.  The standard events have the numbers 0 to 17.  DELETE, UNLOAD, UNSYNCED, MOVE_OUT are removals; CREATE,
    DESERIALIZE, SYNCED, MOVE_IN are creations; the others are neither. *)
Theorem C51_standard :
  forall ev, In ev event_list <->
  ev_id ev < 18 /\ ev_removal ev = mem (ev_id ev) [2; 6; 8; 10] /\ ev_creation ev = mem (ev_id ev) [1; 4; 7; 9].
Proof. exact events_standard. Qed.
Print Assumptions C51_standard.
(** C51.  In a new universe the handler goes by the number alone, also for events of the program's own; numbers from 32
    on have none. *)
Theorem C51_fallback :
  forall ev, handlers_get default_handlers ev =
    if mem (ev_id ev) [2; 6; 8; 10] then Ok HDelete else if mem (ev_id ev) [1; 4; 7; 9] then Ok HNull
    else if ev_id ev <? 32 then Ok HPanic else panic PEventId.
Proof. exact handlers_fallback. Qed.
Print Assumptions C51_fallback.
Example C51_fallback_case :
  In (Ev 6 true false) event_list /\ ~ In (Ev 6 false false) event_list /\
  map (handlers_get default_handlers) [Ev 6 false true; Ev 20 true false; Ev 40 true false] = [Ok HDelete; Ok HPanic; panic PEventId].
Proof. split; [cbn; tauto|]. split; [cbn; intuition discriminate|calc]. Qed.

(** C51.  Installing a handler replaces exactly the one with the event's number and returns the one replaced;
    INVALID_EVENT and numbers out of range are refused. *)
Theorem C51_install :
  forall H (hs : list H) ev h,
  (ev = invalid_event -> handlers_add hs ev h = panic PInvalidEvent) /\
  (ev <> invalid_event -> length hs <= ev_id ev -> handlers_add hs ev h = panic PEventId) /\
  (ev <> invalid_event -> ev_id ev < length hs ->
     exists hs' old, handlers_add hs ev h = Ok (hs', old) /\ handlers_get hs ev = Ok old /\ length hs' = length hs /\
       forall ev', handlers_get hs' ev' = if ev_id ev' =? ev_id ev then Ok h else handlers_get hs ev').
Proof. exact @handlers_add_spec. Qed.
Print Assumptions C51_install.
Example C51_install_case :
  exists hs, handlers_add default_handlers ev_update HNull = Ok (hs, HPanic) /\
  handlers_get hs ev_update = Ok HNull /\ handlers_get hs ev_delete = Ok HDelete /\
  handlers_add default_handlers (Ev 32 true false) HNull = panic PEventId.
Proof. eexists. calcs. Qed.

(** C51.  After any series of installations the handler of an event is the one installed last for its number,
    else the one there was. *)
Theorem C51_series :
  forall H (l : list (event * H)) hs hs', fold_res install l hs = Ok hs' ->
  forall ev, handlers_get hs' ev =
    match find (fun x => ev_id (fst x) =? ev_id ev) (rev l) with Some x => Ok (snd x) | None => handlers_get hs ev end.
Proof. exact @install_series. Qed.
Print Assumptions C51_series.
Example C51_series_case :
  exists hs, fold_res install [(ev_update, HNull); (ev_delete, HPanic); (ev_update, HDelete)] default_handlers = Ok hs /\
  map (handlers_get hs) [ev_delete; ev_create; ev_update] = [Ok HPanic; Ok HNull; Ok HDelete].
Proof. eexists. calcs. Qed.

(** C51.  An event whose handler panics makes the flush panic as soon as there is a dependent table.
    (What deleting and doing nothing do: C33, C35_C51_quiet.) *)
Theorem C51_unhandled :
  forall pr umax rank u ev,
  linked pr umax rank u -> ev_removal ev && ev_creation ev = false -> nth_error (u_hdl u) (ev_id ev) = Some HPanic ->
  forall fuel p w c k key, rank p < fuel -> nth_error (u_tabs u) p = Some (w_tab w) ->
  In (TAuto c k key) (u_trackers u p) -> w_pushed w && w_delete w = false -> sel_empty (w_changes w) = false ->
  flush pr umax fuel u [] p w ev = panic PNoHandler.
Proof. exact flush_unhandled. Qed.
Print Assumptions C51_unhandled.
Example C51_unhandled_case :
  linked Debug 255 town_rank town /\ nth_error (u_hdl town) (ev_id ev_update) = Some HPanic /\
  In (TAuto 1 1 false) (u_trackers town 0) /\ sel_empty (w_changes marked) = false /\
  flush Debug 255 3 town [] 0 marked ev_update = panic PNoHandler.
Proof. split; [exact town_linked|]. split; [calc|]. split; [left; reflexivity|]. calcs. Qed.

(** C53.  Downcasting an erased slice succeeds exactly at the type it was made from and gives the same slice;
    types have ids that are equal only for equal types. *)
Theorem C53_downcast :
  forall ty (eqb : ty -> ty -> bool), (forall a b, eqb a b = true <-> a = b) ->
  forall e s s', as_downcast ty eqb e (as_from ty s) = Some s' <-> e = sl_ty ty s /\ s' = s.
Proof. exact downcast_exact. Qed.
Print Assumptions C53_downcast.
(** ... so reading through it is reading what was there, with no reinterpretation. *)
Theorem C53_read :
  forall ty (eqb : ty -> ty -> bool), (forall a b, eqb a b = true <-> a = b) ->
  forall m e s s', (forall i, i < sl_len ty s -> fst (m (sl_ptr ty s + i)) = sl_ty ty s) ->
  as_downcast ty eqb e (as_from ty s) = Some s' ->
  sl_read ty eqb m s' = Ok (map (fun i => snd (m (sl_ptr ty s + i))) (seq 0 (sl_len ty s))).
Proof. exact downcast_read. Qed.
Print Assumptions C53_read.
(** ... and the erased slice says how many elements there are. *)
Theorem C53_len :
  forall ty (eqb : ty -> ty -> bool), (forall a b, eqb a b = true <-> a = b) ->
  forall m s l, (forall i, i < sl_len ty s -> fst (m (sl_ptr ty s + i)) = sl_ty ty s) -> sl_read ty eqb m s = Ok l ->
  as_len ty (as_from ty s) = length l /\ (as_is_empty ty (as_from ty s) = true <-> l = []).
Proof. exact erased_len. Qed.
Print Assumptions C53_len.
(** ... and a table refuses a selection of another table's rows. *)
Theorem C53_selection :
  forall ty (eqb : ty -> ty -> bool), (forall a b, eqb a b = true <-> a = b) ->
  forall e sel,
  match sel with SelThese s => sl_ty ty s <> e | SelAll => False end /\
    downcast_any_selection ty eqb e (sel_as_any ty sel) = panic PWrongRows \/
  match sel with SelThese s => sl_ty ty s = e | SelAll => True end /\
    downcast_any_selection ty eqb e (sel_as_any ty sel) = Ok sel.
Proof. exact downcast_selection. Qed.
Print Assumptions C53_selection.
(** Ids of tables 4 and 5; three ids of table 4 in memory from address 10. *)
Example C53_case :
  let s := Slice nat 4 10 3 in
  as_downcast nat Nat.eqb 4 (as_from nat s) = Some s /\ as_downcast nat Nat.eqb 5 (as_from nat s) = None /\
  sl_read nat Nat.eqb (fun a => (4, VRow (a - 10))) s = Ok [VRow 0; VRow 1; VRow 2] /\
  sl_read nat Nat.eqb (fun a => (4, VRow (a - 10))) (Slice nat 5 10 3) = Err EUB /\
  downcast_any_selection nat Nat.eqb 5 (SelThese (as_from nat s)) = panic PWrongRows.
Proof. intro s. calcs. Qed.
