(** C76, C77: threads that change tables at the same time, and one after the other. *)
From Coq Require Import List Arith Bool ZArith Lia Sorting.Permutation.
From Verif Require Import Base Names Column Order RowRange Table SortedTab TableSpec Hist Cases Events Cascade CascadeSpec CascadeCases Extract ExtractSpec
  ExtractCases Threads ThreadSpec ThreadSeq ThreadFacts ThreadSafe ThreadReads ThreadSerial ThreadCases Poison PoisonSpec PoisonFacts PoisonCases.
Import ListNotations.

(** C76.  Threads whose events remove nothing: at every moment the tables are what some sessions of theirs, one after the
    other, make of the tables at the beginning: of each thread the first ones, in its order, and all if it is done. *)
Theorem C76_one_by_one : forall pr umax heads foreign order fuel x tss c,
  Forall (Forall (no_removal (u_hdl (xu_u x)))) tss ->
  thread_steps (started x (map (p_run pr umax heads foreign order fuel) tss)) c ->
  exists ds l, Forall2 (fun d ops => exists rest, filter is_session ops = d ++ rest) ds tss /\ interleaved ds l /\
    fold_res (one_session pr umax) l (u_tabs (xu_u x)) = Ok (u_tabs (xu_u (th_x c))) /\
    forall i g ops, nth_error (th_ts c) i = Some (g, Ret (Ok tt)) -> nth_error tss i = Some ops -> nth_error ds i = Some (filter is_session ops).
Proof. exact sessions_serial. Qed.
Print Assumptions C76_one_by_one.

(** [one_session] is what the calls do if nothing else happens. *)
Theorem C76_alone : forall pr umax heads foreign order fuel x ops y,
  Forall (no_removal (u_hdl (xu_u x))) ops -> fold_res (seq_top pr umax heads foreign order fuel) ops x = Ok y ->
  fold_res (one_session pr umax) (filter is_session ops) (u_tabs (xu_u x)) = Ok (u_tabs (xu_u y)).
Proof. exact sessions_alone. Qed.
Print Assumptions C76_alone.

(** Also with panics, for the tables that are not poisoned. *)
Theorem C76_after_panics : forall pr umax heads foreign order fuel x tss d,
  Forall (Forall (no_removal (u_hdl (xu_u x)))) tss ->
  crowd_steps (begun x (map (p_run pr umax heads foreign order fuel) tss)) d ->
  exists ds l ts, Forall2 (fun d ops => exists rest, filter is_session ops = d ++ rest) ds tss /\ interleaved ds l /\
    fold_res (one_session pr umax) l (u_tabs (xu_u x)) = Ok ts /\
    forall p, ~ In (LT p) (cr_bad d) -> nth_error (u_tabs (xu_u (th_x (cr_c d)))) p = nth_error ts p.
Proof. exact sessions_crowd. Qed.
Print Assumptions C76_after_panics.

(** Two threads push to table 1 and change it; a third pushes to table 3 and locks. *)
Definition c76_threads := [[TDo (XFlush 1 [OPush [VInt 13; VRow 0]; OAssign 0 0 (VInt 3)] ev_create); TDo (XLive 1 [OPush [VInt 14; VRow 0]] ev_create)];
  [TDo (XFlush 1 [OPush [VInt 15; VRow 2]] ev_create); TSelect 0 ev_create SAll]; [TDo (XFlush 3 [OPush [VInt 22; VRow 0]] ev_create); TLocks [(1, true)]]].
Definition c76 := schedule [(0, 4); (1, 9); (2, 5); (0, 9); (1, 99); (0, 99); (2, 99)] (started town_x (map (p_run Debug 255 heads foreign order 3) c76_threads)).
Definition shown (x : xuni) (p : nat) : list (res row) :=
  match nth_error (u_tabs (xu_u x)) p with Some t => map (t_get_row t) (seq 0 (t_len t)) | None => [] end.
Example C76_case : Forall (Forall (no_removal (u_hdl (xu_u town_x)))) c76_threads /\
  thread_steps (started town_x (map (p_run Debug 255 heads foreign order 3) c76_threads)) c76 /\
  map snd (th_ts c76) = [Ret (Ok tt); Ret (Ok tt); Ret (Ok tt)] /\
  shown town_x 1 = map Ok [[VInt 10; VRow 0]; [VInt 11; VRow 1]; [VInt 12; VRow 2]] /\
  shown (th_x c76) 1 = map Ok [[VInt 3; VRow 0]; [VInt 11; VRow 1]; [VInt 12; VRow 2]; [VInt 13; VRow 0]; [VInt 15; VRow 2]; [VInt 14; VRow 0]].
Proof.
  split; [repeat constructor; discriminate|]. split; [apply schedule_steps|]. calcs.
Qed.

(** C77.  Not so if rows are deleted.  A row is pushed to table 1 while the row of table 0 that it refers to is there; that
    row is deleted, and with it all rows that refer to it, but not the new one.  No order explains it. *)
Definition late := [[TDo (XFlush 0 [ODelete 1] ev_delete)]; [TDo (XFlush 1 [OPush [VInt 5; VRow 1]] ev_create)]].
Definition during := schedule [(0, 12); (1, 99)] (started town_x (map (p_run Debug 255 heads foreign order 3) late)).
Definition after := schedule [(0, 99); (1, 99)] during.
Theorem C77_dependents_refuted : exists x tss c c' i tp tc tp' tc',
  made Debug 255 (xu_u x) /\ Forall (Forall (top_ty (xu_u x))) tss /\ linked Debug 255 town_rank (xu_u x) /\ In (TAuto 1 1 false) (u_trackers (xu_u x) 0) /\
  thread_steps (started x (map (p_run Debug 255 heads foreign order 3) tss)) c /\ thread_steps c c' /\ (forall t, In t (th_ts c') -> snd t = Ret (Ok tt)) /\
  nth_error (u_tabs (xu_u (th_x c))) 0 = Some tp /\ nth_error (u_tabs (xu_u (th_x c))) 1 = Some tc /\
  nth_error (u_tabs (xu_u (th_x c'))) 0 = Some tp' /\ nth_error (u_tabs (xu_u (th_x c'))) 1 = Some tc' /\
  t_contains tp 1 = true /\ t_get_row tc i = Ok [VInt 5; VRow 1] /\ t_contains tc i = true /\
  t_contains tp' 1 = false /\ t_get_row tc' i = Ok [VInt 5; VRow 1] /\ t_contains tc' i = true.
Proof.
  exists town_x, late, during, after, 3. do 4 eexists. split; [exact town_made|]. split.
  { unfold late. repeat match goal with |- Forall _ (_ :: _) => constructor | |- Forall _ [] => constructor end; intros t [= <-]; repeat constructor; cbn; eauto. }
  split; [exact town_linked|]. split; [left; reflexivity|]. split; [apply schedule_steps|]. split; [apply schedule_steps|].
  split; [vm_compute; intros t [<-|[<-|[]]]; reflexivity|]. do 4 (split; [vm_compute; reflexivity|]). calcs.
Qed.
Print Assumptions C77_dependents_refuted.
Theorem C77_one_by_one_refuted : exists x tss c,
  thread_steps (started x (map (p_run Debug 255 heads foreign order 3) tss)) c /\ (forall t, In t (th_ts c) -> snd t = Ret (Ok tt)) /\
  forall l y, interleaved tss l -> fold_res (seq_top Debug 255 heads foreign order 3) l x = Ok y -> u_tabs (xu_u y) <> u_tabs (xu_u (th_x c)).
Proof.
  exists town_x, late, after. split; [eapply steps_trans; apply schedule_steps|].
  split; [vm_compute; intros t [<-|[<-|[]]]; reflexivity|]. intros l y Il H E. apply interleaved_perm in Il. apply Permutation_length_2_inv in Il.
  destruct Il as [-> | ->]; vm_compute in H; injection H as <-; vm_compute in E; discriminate.
Qed.
Print Assumptions C77_one_by_one_refuted.
