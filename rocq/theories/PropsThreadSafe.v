(** C70, C71: what threads do to tables. *)
From Coq Require Import List Arith Bool ZArith Lia.
From Verif Require Import Base Names Column Order RowRange Table SortedTab TableSpec Hist Events Cascade CascadeSpec CascadeCases Extract ExtractSpec
  ExtractCases Threads ThreadSpec ThreadSeq ThreadFacts ThreadSafe ThreadCases.
Import ListNotations.

(** C70.  However threads are interleaved, nothing undefined happens, and nothing undefined can happen to the tables
    they leave at any point. *)
Theorem C70_no_undefined_behaviour : forall pr umax heads foreign order fuel x tss c,
  made pr umax (xu_u x) -> (forall p t, nth_error (u_tabs (xu_u x)) p = Some t -> pr = Debug \/ t_kind t <> Bag) ->
  Forall (Forall (top_ty (xu_u x))) tss ->
  thread_steps (started x (map (p_run pr umax heads foreign order fuel) tss)) c ->
  (forall g, ~ In (g, Ret (Err EUB)) (th_ts c)) /\
  forall p t, nth_error (u_tabs (xu_u (th_x c))) p = Some t ->
    (exists t0, nth_error (u_tabs (xu_u x)) p = Some t0 /\ t_sch t = t_sch t0) /\
    forall ops, Forall (op_ty (s_cols (t_sch t))) ops -> run pr umax (Free t) ops <> Err EUB.
Proof. exact safe_threads. Qed.
Print Assumptions C70_no_undefined_behaviour.

(** A flush and two restores; here until they wait for each other. *)
Example C70_case : made Debug 255 (xu_u x_id) /\ Forall (Forall (top_ty (xu_u x_id))) two_restores /\
  thread_steps (started x_id (map (p_run Debug 255 heads foreign order 3) two_restores)) c2 /\
  map t_len (u_tabs (xu_u x_id)) = [3; 1; 0] /\ map t_len (u_tabs (xu_u (th_x (busy x_id 40)))) = [4; 1; 0].
Proof.
  split; [exact x_id_made|]. split; [exact two_restores_ty|]. split; [apply schedule_steps|]. split; vm_compute; reflexivity.
Qed.

(** C71.  Whenever a table changes, one thread has it locked for writing and no other thread has it locked; the same for
    the trackers of a table and its remapping. *)
Theorem C71_tables : forall pr umax heads foreign order fuel x tss c c' p,
  thread_steps (started x (map (p_run pr umax heads foreign order fuel) tss)) c -> thread_step c c' ->
  nth_error (u_tabs (xu_u (th_x c'))) p <> nth_error (u_tabs (xu_u (th_x c))) p -> exclusive c c' (LT p).
Proof. intros pr umax heads foreign order fuel x tss c c' p. exact (locked_threads pr umax heads foreign order fuel x tss c c' (LT p)). Qed.
Print Assumptions C71_tables.

Theorem C71_trackers : forall pr umax heads foreign order fuel x tss c c' p,
  thread_steps (started x (map (p_run pr umax heads foreign order fuel) tss)) c -> thread_step c c' ->
  behind (th_x c') p <> behind (th_x c) p -> exclusive c c' (LF p).
Proof. intros pr umax heads foreign order fuel x tss c c' p. exact (locked_threads pr umax heads foreign order fuel x tss c c' (LF p)). Qed.
Print Assumptions C71_trackers.

(** The step that stores the restored rows, and the step that stores the remapping. *)
Example C71_case :
  move (busy x_id 6) 1 = Some (busy x_id 7) /\ map t_len (u_tabs (xu_u (th_x (busy x_id 6)))) = [3; 1; 0] /\
  map t_len (u_tabs (xu_u (th_x (busy x_id 7)))) = [4; 1; 0] /\
  map (fun t => (fst t, wanted t)) (th_ts (busy x_id 6)) = [([], Some (LT 0, true)); ([(LT 0, true)], None); ([], Some (LT 1, true))] /\
  move (busy x0 4) 1 = Some (busy x0 5) /\ snd (behind (th_x (busy x0 4)) 0) = Some (false, []) /\
  snd (behind (th_x (busy x0 5)) 0) = Some (false, [(2, 3); (0, 1)]) /\
  map fst (th_ts (busy x0 4)) = [[]; [(LF 0, true); (LT 0, true)]; []].
Proof. repeat split; vm_compute; reflexivity. Qed.
