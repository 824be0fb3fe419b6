(** Property theorems about a tracker that keeps book of the rows of its table, C83. *)
From Coq Require Import List Arith Bool ZArith.
From Verif Require Import Base Column Order RowRange Table SortedTab BagTab TableSpec Hist Events Cascade CascadeSpec CascadeCases Cases Extract
  IntegritySpec IntegrityCases MirrorSpec MirrorFacts MirrorCases.
Import ListNotations.

(** C83.  Programs as in C80 (tables start empty, careful sessions) that delete no row twice in a session and select only
    rows that are there.  A tracker that considers every event and does nothing but keep book of what it is told (see
    [book]) has, after every session, exactly the rows of its table in its book, whichever tables the program has worked on. *)
Theorem C83_mirror :
  forall pr umax fuel rank null order, (forall c, total_preorder (order c)) ->
  forall u0 u, (forall p, rank p < fuel) -> wired rank order u0 -> all_new u0 -> u_log u0 = [] -> tended pr umax fuel null order u0 u ->
  forall q m srt f t, nth_error (u_trackers u q) m = Some (TUser srt f) -> (forall ev, f ev = true) -> nth_error (u_tabs u) q = Some t ->
  forall i, In i (book q m (u_log u)) <-> exists r, t_get_row t i = Ok r.
Proof. intros pr umax fuel rank null order Or u0 u Hf W N L T. exact (tended_mirror pr umax fuel rank null order Or u0 u Hf W N L T). Qed.
Print Assumptions C83_mirror.
(** Tables 0, 1 and 3 are filled and kept book of; rows 0 and 2 of table 0 are deleted, and with them rows of tables 1
    and 3; row 0 of table 1 comes back. *)
Example C83_case :
  (forall c, total_preorder (orders c)) /\ (forall p, town_rank p < 3) /\ wired town_rank orders desk /\ all_new desk /\ u_log desk = [] /\
  tended Debug 255 3 nothing orders desk desk4 /\ tended Debug 255 3 nothing orders desk desk5 /\ tended Debug 255 3 nothing orders desk desk6 /\
  nth_error (u_trackers desk6 1) 0 = Some (TUser true (fun _ => true)) /\
  map (fun q => book (fst q) (snd q) (u_log desk4)) [(0, 1); (1, 0); (3, 0)] = [[0; 1; 2]; [0; 1; 2; 3]; [0; 1]] /\
  map (fun q => book (fst q) (snd q) (u_log desk5)) [(0, 1); (1, 0); (3, 0)] = [[1]; [1; 3]; [1]] /\
  map (fun q => book (fst q) (snd q) (u_log desk6)) [(0, 1); (1, 0); (3, 0)] = [[1]; [1; 3; 0; 1]; [1; 1]] /\
  rows_of desk6 1 4 = [Some [VInt 15; VRow 1]; Some [VInt 11; VRow 1]; None; Some [VInt 14; VRow 7]].
Proof.
  split; [exact orders_ok|]. split; [intros [|[|p]]; repeat constructor|]. split; [exact desk_wired|]. split; [exact site_new|]. split; [reflexivity|].
  split; [exact desk4_tended|]. split; [exact desk5_tended|]. split; [exact desk6_tended|]. split; [reflexivity|]. calcs.
Qed.

(** Rows removed with [Table::remove_rows], though it takes an event and flushes: no tracker is told, whatever the universe. *)
Theorem C83_silent :
  forall pr umax fuel u h c ev l t u', nth_error (u_tabs u) c = Some t -> t_kind t = Consistent ->
  remove_rows pr umax fuel u h c ev (SThese l) = Ok u' -> u_log u' = u_log u.
Proof. exact removed_silently. Qed.
Print Assumptions C83_silent.
(** So the book, right until then, names rows that are gone, and what referred to them is not removed either. *)
Theorem C83_direct_refuted :
  exists u0 u c ev l u' m srt t i, wired town_rank orders u0 /\ all_new u0 /\ u_log u0 = [] /\ tended Debug 255 3 nothing orders u0 u /\
    plain_removal ev /\ nth_error (u_hdl u) (ev_id ev) = Some HDelete /\ remove_rows Debug 255 3 u [] c ev (SThese l) = Ok u' /\
    nth_error (u_trackers u' c) m = Some (TUser srt (fun _ => true)) /\ nth_error (u_tabs u') c = Some t /\
    In i (book c m (u_log u')) /\ (forall r, t_get_row t i <> Ok r) /\ sound nothing u /\ ~ sound nothing u'.
Proof.
  exists desk, desk6, 1, ev_delete, [1]. eexists. exists 0, true. eexists. exists 1.
  split; [exact desk_wired|]. split; [exact site_new|]. split; [reflexivity|]. split; [exact desk6_tended|]. split; [repeat constructor|]. split; [reflexivity|].
  split; [vm_compute; reflexivity|]. split; [reflexivity|]. split; [reflexivity|]. split; [vm_compute; auto|]. split; [intro r; vm_compute; discriminate|].
  split; [|].
  - apply (IntegrityFacts.i_int Debug 255 town_rank nothing orders). eapply IntegrityFacts.lives_inv with (fuel := 3); [exact orders_ok|intros [|[|p]]; repeat constructor|exact desk_wired|exact site_new|].
    apply tended_lives. exact desk6_tended.
  - intro S. destruct (S 1 3 1 false _ 1 1 (or_intror (or_introl eq_refl)) eq_refl) as [[r H]|H]; [|vm_compute in H; discriminate H|discriminate H].
    eexists. eexists. repeat split; reflexivity.
Qed.
Print Assumptions C83_direct_refuted.
(** If the handler of a removal event has been replaced by one that does nothing, the trackers of dependent tables are
    told that rows are removed which stay. *)
Theorem C83_handler_refuted :
  exists u0 u p t i w ev u' q m srt tq j r, wired town_rank orders u0 /\ all_new u0 /\ u_log u0 = [] /\ tended Debug 255 3 nothing orders u0 u /\
    nth_error (u_tabs u) p = Some t /\ do_edits Debug 255 (w_new t) [ODelete i] = Ok w /\ plain_removal ev /\
    nth_error (u_hdl u) (ev_id ev) = Some HNull /\ flush Debug 255 3 u [] p w ev = Ok u' /\
    nth_error (u_trackers u' q) m = Some (TUser srt (fun _ => true)) /\ nth_error (u_tabs u') q = Some tq /\
    t_get_row tq j = Ok r /\ In j (book q m (u_log u)) /\ ~ In j (book q m (u_log u')).
Proof.
  exists dull, dull2, 0. eexists. exists 1. eexists. exists ev_delete. eexists. exists 1, 0, true. eexists. exists 1. eexists.
  split; [exact dull_wired|]. split; [exact site_new|]. split; [reflexivity|]. split; [exact dull2_tended|]. split; [reflexivity|].
  split; [vm_compute; reflexivity|]. split; [repeat constructor|]. split; [reflexivity|]. split; [vm_compute; reflexivity|]. split; [reflexivity|]. split; [reflexivity|].
  split; [vm_compute; reflexivity|]. split; [vm_compute; auto|]. vm_compute. intuition discriminate.
Qed.
Print Assumptions C83_handler_refuted.
(** Selecting a row that has been deleted, which nothing prevents: its tracker is told of a row that is not there. *)
Theorem C83_select_refuted :
  exists u0 u p t i w ev u' m srt, wired town_rank orders u0 /\ all_new u0 /\ u_log u0 = [] /\ tended Debug 255 3 nothing orders u0 u /\
    nth_error (u_tabs u) p = Some t /\ do_edits Debug 255 (w_new t) [OSelect i] = Ok w /\ careful nothing orders u p [OSelect i] ev /\
    flush Debug 255 3 u [] p w ev = Ok u' /\ nth_error (u_trackers u' p) m = Some (TUser srt (fun _ => true)) /\
    nth_error (u_tabs u') p = Some t /\ In i (book p m (u_log u')) /\ forall r, t_get_row t i <> Ok r.
Proof.
  exists desk, desk5, 0. eexists. exists 2. eexists. exists ev_create. eexists. exists 1, false.
  split; [exact desk_wired|]. split; [exact site_new|]. split; [reflexivity|]. split; [exact desk5_tended|]. split; [reflexivity|]. split; [vm_compute; reflexivity|].
  split; [intros t [= <-]; split; [typed2|]; left; split; [reflexivity|left; reflexivity]|]. split; [vm_compute; reflexivity|]. split; [reflexivity|]. split; [reflexivity|].
  split; [vm_compute; auto|]. intro r. vm_compute. discriminate.
Qed.
Print Assumptions C83_select_refuted.
