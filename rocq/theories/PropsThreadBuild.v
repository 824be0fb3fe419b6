(** C129 for threads. *)
From Coq Require Import List Arith Bool ZArith.
From Verif Require Import Base Names Column Order RowRange Table SortedTab TableSpec Hist Events Cascade CascadeCases Extract ExtractCases
  Threads ThreadSpec ThreadFacts ThreadCases Poison PoisonSpec PoisonCases ThreadBuildSpec ThreadBuildFacts CrowdBuildFacts.
Import ListNotations.

(** C129, for any number of threads whose steps are interleaved in any way.  Wherever they get in a debug build, either one of them has stopped there with the panic of an
    arithmetic overflow, or in every build, on every machine with a [usize] at least as large, they can get to the same: the same universe, the same locks held, the same
    locks waited for, the same threads ended and in the same way. *)
Theorem C129_threads :
  forall umax umax' pr heads foreign order fuel x tss c, umax <= umax' ->
  thread_steps (started x (map (p_run Debug umax heads foreign order fuel) tss)) c ->
  one_overflowed c \/
  exists c', thread_steps (started x (map (p_run pr umax' heads foreign order fuel) tss)) c' /\ alike c c'.
Proof. exact threads_near. Qed.
Print Assumptions C129_threads.

(** And nothing else happens in another build: wherever they get there, they can get to the same in a debug build, unless one of them can stop with an overflow there. *)
Theorem C129_threads_back :
  forall umax umax' pr heads foreign order fuel x tss c', umax <= umax' ->
  thread_steps (started x (map (p_run pr umax' heads foreign order fuel) tss)) c' ->
  exists c, thread_steps (started x (map (p_run Debug umax heads foreign order fuel) tss)) c /\ (one_overflowed c \/ alike c c').
Proof. exact threads_back. Qed.
Print Assumptions C129_threads_back.

(** The five threads of C68, in the midst of what they do; and two that wait for each other for ever, in both builds. *)
Example C129_threads_case :
  let sched := [(0, 9); (3, 4); (1, 99); (4, 3); (2, 1); (0, 5); (4, 99); (2, 99); (0, 99); (3, 99)] in
  let d := schedule sched (started town_x (map (p_run Debug 255 heads foreign order 3) quiet)) in
  let r := schedule sched (started town_x (map (p_run Release 511 heads foreign order 3) quiet)) in
  thread_steps (started town_x (map (p_run Debug 255 heads foreign order 3) quiet)) d /\
  thread_steps (started town_x (map (p_run Release 511 heads foreign order 3) quiet)) r /\
  map (fun t => stage_of (snd t)) (th_ts d) = [Wants (LT 1) false; Wants (LT 1) true; Wants (LT 0) true; Wants (LT 0) true; Wants (LF 0) true] /\
  map (fun t => (fst t, stage_of (snd t))) (th_ts d) = map (fun t => (fst t, stage_of (snd t))) (th_ts r) /\ u_tabs (xu_u (th_x d)) = u_tabs (xu_u (th_x r)).
Proof. cbv zeta. split; [apply schedule_steps|]. split; [apply schedule_steps|]. split; [vm_compute; reflexivity|]. split; vm_compute; reflexivity. Qed.
Example C129_threads_stuck :
  let sched := [(0, 10); (1, 99); (0, 99); (1, 99)] in
  map (fun t => stage_of (snd t)) (th_ts (schedule sched (started town_x (map (p_run Debug 255 heads foreign order 3) locks_vs_flush)))) =
  map (fun t => stage_of (snd t)) (th_ts (schedule sched (started town_x (map (p_run Release 511 heads foreign order 3) locks_vs_flush)))) /\
  deadlockedb (schedule sched (started town_x (map (p_run Release 511 heads foreign order 3) locks_vs_flush))) = true.
Proof. cbv zeta. split; vm_compute; reflexivity. Qed.

(** The same with poisoned locks as in C74: threads that panic for other reasons poison the same locks in both builds, and others stop there in the same way. *)
Theorem C129_poisoning :
  forall umax umax' pr heads foreign order fuel x tss d, umax <= umax' ->
  crowd_steps (begun x (map (p_run Debug umax heads foreign order fuel) tss)) d ->
  one_overflowed (cr_c d) \/
  exists d', crowd_steps (begun x (map (p_run pr umax' heads foreign order fuel) tss)) d' /\ alike (cr_c d) (cr_c d') /\ cr_bad d = cr_bad d'.
Proof. exact poison_near. Qed.
Print Assumptions C129_poisoning.
Theorem C129_poisoning_back :
  forall umax umax' pr heads foreign order fuel x tss d', umax <= umax' ->
  crowd_steps (begun x (map (p_run pr umax' heads foreign order fuel) tss)) d' ->
  exists d, crowd_steps (begun x (map (p_run Debug umax heads foreign order fuel) tss)) d /\
    (one_overflowed (cr_c d) \/ alike (cr_c d) (cr_c d') /\ cr_bad d = cr_bad d').
Proof. exact poison_back. Qed.
Print Assumptions C129_poisoning_back.
(** A thread deletes a row that is not there and panics; the second finds the lock poisoned. *)
Example C129_poisoning_case :
  let run pr umax := cschedule [(0, 99); (1, 99); (2, 99)] (begun town_x (map (p_run pr umax heads foreign order 3) clumsy)) in
  crowd_steps (begun town_x (map (p_run Debug 255 heads foreign order 3) clumsy)) (run Debug 255) /\
  map (fun t => stage_of (snd t)) (th_ts (cr_c (run Debug 255))) = [Ended (panic PIndexOOB); Ended (panic PPoisoned); Ended (Ok tt)] /\
  map (fun t => stage_of (snd t)) (th_ts (cr_c (run Release 511))) = [Ended (panic PIndexOOB); Ended (panic PPoisoned); Ended (Ok tt)] /\
  cr_bad (run Debug 255) = [LT 1] /\ cr_bad (run Release 511) = [LT 1].
Proof. cbv zeta. split; [apply cschedule_steps|]. repeat split; vm_compute; reflexivity. Qed.
