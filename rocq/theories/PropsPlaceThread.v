(** C138 for threads. *)
From Coq Require Import List Arith Bool ZArith Lia.
From Verif Require Import Base Names Column Order RowRange Table SortedTab TableSpec Events Cascade Hist Cases Answers DbHist CascadeCases Extract ExtractCases Threads ThreadSpec ThreadFacts ThreadCases
  PlaceSpec PlaceXSpec PropsPlaceX ThreadBuildSpec PlaceThreadSpec PlaceThreadFacts.
Import ListNotations.

(** C138, for any number of threads and any interleaving of their steps: wherever they can get, the same threads with the tables at other places can get to the same: the same tables, remappings and trackers,
    the same told, the same locks held and waited for, the same threads ended in the same way; and other tables are left alone. *)
Theorem C138_threads : forall pr umax fuel sg heads heads' foreign foreign' order order' x x' tss c,
  x_placed sg x x' -> same_code sg (tables_of x) heads heads' foreign foreign' order order' -> Forall (Forall (top_about (tables_of x))) tss ->
  thread_steps (started x (map (p_run pr umax heads foreign order fuel) tss)) c ->
  exists c', thread_steps (started x' (map (p_run pr umax heads' foreign' order' fuel) (map (map (place_top sg)) tss))) c' /\ alike_placed sg c c' /\
    forall q, elsewhere sg x q -> nth_error (u_tabs (xu_u (th_x c'))) q = nth_error (u_tabs (xu_u x')) q.
Proof. exact placing_threads. Qed.
Print Assumptions C138_threads.
(** And they can get nowhere else. *)
Theorem C138_threads_back : forall pr umax fuel sg heads heads' foreign foreign' order order' x x' tss c',
  x_placed sg x x' -> same_code sg (tables_of x) heads heads' foreign foreign' order order' -> Forall (Forall (top_about (tables_of x))) tss ->
  thread_steps (started x' (map (p_run pr umax heads' foreign' order' fuel) (map (map (place_top sg)) tss))) c' ->
  exists c, thread_steps (started x (map (p_run pr umax heads foreign order fuel) tss)) c /\ alike_placed sg c c' /\
    forall q, elsewhere sg x q -> nth_error (u_tabs (xu_u (th_x c'))) q = nth_error (u_tabs (xu_u x')) q.
Proof. exact placing_threads_back. Qed.
Print Assumptions C138_threads_back.

(** The universes of [C138_restoring_case]; three threads, of which one waits for another. *)
Example C138_threads_case :
  let sched := [(0, 7); (2, 1); (0, 99)] in
  let c := schedule sched (started x3 (map (p_run Debug 255 heads foreign order 3) two_restores)) in
  let c' := schedule sched (started x5 (map (p_run Debug 255 (fun q => heads (came_from q)) foreign5 order 3) (map (map (place_top moved_to)) two_restores))) in
  Forall (Forall (top_about 3)) two_restores /\
  thread_steps (started x3 (map (p_run Debug 255 heads foreign order 3) two_restores)) c /\
  thread_steps (started x5 (map (p_run Debug 255 (fun q => heads (came_from q)) foreign5 order 3) (map (map (place_top moved_to)) two_restores))) c' /\
  map (fun t => (fst t, stage_of (snd t))) (th_ts c) = [([(LF 0, false)], Wants (LT 1) false); ([], Wants (LT 0) true); ([(LT 1, true)], Touches)] /\
  map (fun t => (fst t, stage_of (snd t))) (th_ts c') = [([(LF 2, false)], Wants (LT 4) false); ([], Wants (LT 2) true); ([(LT 4, true)], Touches)].
Proof.
  cbv zeta. split; [repeat constructor; cbn; lia|]. split; [apply schedule_steps|]. split; [apply schedule_steps|]. split; vm_compute; reflexivity.
Qed.
