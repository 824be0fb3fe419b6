(** C68, C69: threads that wait for each other. *)
From Coq Require Import List Arith Bool ZArith Lia.
From Verif Require Import Base Names Column Order RowRange Table SortedTab TableSpec Hist Events Cascade CascadeSpec CascadeCases Extract ExtractSpec
  ExtractCases Threads ThreadSpec ThreadSeq ThreadFacts ThreadCases.
Import ListNotations.

(** C68 *)
(** A thread alone does what the other properties say. *)
Theorem C68_alone : forall pr umax heads foreign order fuel ops x y,
  fold_res (seq_top pr umax heads foreign order fuel) ops x = Ok y ->
  thread_steps (started x [p_run pr umax heads foreign order fuel ops]) (TH y [([], Ret (Ok tt))]).
Proof. exact alone_run. Qed.
Print Assumptions C68_alone.

Theorem C68_no_deadlock : forall pr umax heads foreign order rank live fuel x tss c,
  (forall p, rank p < fuel) -> calm rank live x -> Forall (Forall (orderly foreign rank live)) tss ->
  thread_steps (started x (map (p_run pr umax heads foreign order fuel) tss)) c ->
  (forall t, In t (th_ts c) -> finished t) \/ exists i, goes_on c i.
Proof.
  intros pr umax heads foreign order rank live fuel x tss c D C O S. apply (progress rank live).
  exact (all_ok_steps _ _ _ _ S (started_ok rank live pr umax heads foreign order fuel D x tss C O)).
Qed.
Print Assumptions C68_no_deadlock.

Theorem C68_no_endless_run : forall s : nat -> threads, ~ forall n, thread_step (s n) (s (S n)).
Proof. exact no_endless_run. Qed.
Print Assumptions C68_no_endless_run.

(** From wherever they are, all can finish, and then nothing is locked. *)
Theorem C68_all_finish : forall pr umax heads foreign order rank live fuel x tss c,
  (forall p, rank p < fuel) -> calm rank live x -> Forall (Forall (orderly foreign rank live)) tss ->
  thread_steps (started x (map (p_run pr umax heads foreign order fuel) tss)) c ->
  exists c', thread_steps c c' /\ forall t, In t (th_ts c') -> finished t /\ owned t = [].
Proof.
  intros pr umax heads foreign order rank live fuel x tss c D C O S. apply (all_finish rank live).
  exact (all_ok_steps _ _ _ _ S (started_ok rank live pr umax heads foreign order fuel D x tss C O)).
Qed.
Print Assumptions C68_all_finish.

(** Five threads, each about to take a lock; the last three have to wait. *)
Example C68_case : (forall p, town_rank p < 3) /\ calm town_rank (eq 1) town_x /\ Forall (Forall (orderly foreign town_rank (eq 1))) quiet /\
  thread_steps (started town_x (map (p_run Debug 255 heads foreign order 3) quiet)) midway /\
  map (fun t => (fst t, wanted t)) (th_ts midway) =
    [([(LF 0, false)], Some (LT 1, false)); ([], Some (LT 1, true)); ([], Some (LT 0, true)); ([], Some (LT 0, true)); ([(LT 0, true)], Some (LF 0, true))].
Proof.
  split; [intros [|[|p]]; cbn; lia|]. split; [exact town_x_calm1|]. split; [exact quiet_orderly|]. split; [apply schedule_steps|].
  vm_compute. reflexivity.
Qed.

(** C69 *)
(** [live_flush] of a table while one that refers to it is restored. *)
Theorem C69_live_restore_refuted : exists pr umax heads foreign order rank live fuel x p es ev c e ev',
  (forall p, rank p < fuel) /\ calm rank live x /\
  may_become pr umax heads foreign order fuel x [[TDo (XLive p es ev)]; [TDo (XRestore c e ev')]] deadlocked.
Proof.
  exists Debug, 255, heads, foreign, order, town_rank, (fun _ => True), 3, x_id, 0, [ODelete 0], ev_delete, 1, e_c, ev_create.
  split; [intros [|[|p]]; cbn; lia|]. split; [exact x_id_calm|]. split.
  - intros ops [<-|[<-|[]]]; eexists; vm_compute; reflexivity.
  - exists c1. split; [apply schedule_steps|]. apply deadlockedb_ok. vm_compute. reflexivity.
Qed.
Print Assumptions C69_live_restore_refuted.

(** [flush] of a table while it and one that refers to it are restored. *)
Theorem C69_restores_refuted : exists pr umax heads foreign order rank live fuel x p es ev e ev' c e' ev'',
  (forall p, rank p < fuel) /\ calm rank live x /\
  may_become pr umax heads foreign order fuel x [[TDo (XFlush p es ev)]; [TDo (XRestore p e ev')]; [TDo (XRestore c e' ev'')]] deadlocked.
Proof.
  exists Debug, 255, heads, foreign, order, town_rank, (fun _ => True), 3, x_id, 0, [ODelete 0], ev_delete, e_p, ev_create, 1, e_c, ev_create.
  split; [intros [|[|p]]; cbn; lia|]. split; [exact x_id_calm|]. split.
  - intros ops [<-|[<-|[<-|[]]]]; eexists; vm_compute; reflexivity.
  - exists c2. split; [apply schedule_steps|]. apply deadlockedb_ok. vm_compute. reflexivity.
Qed.
Print Assumptions C69_restores_refuted.

(** A table with two columns that refer to the same table is restored while that table is flushed, if readers wait for
    waiting writers. *)
Theorem C69_two_columns_refuted : exists pr umax heads foreign order rank live fuel x c e ev p es ev',
  (forall p, rank p < fuel) /\ calm rank live x /\
  may_become pr umax heads foreign order fuel x [[TDo (XRestore c e ev)]; [TDo (XFlush p es ev')]] jammed.
Proof.
  exists Debug, 255, heads, foreign2, order, town_rank, (fun _ => True), 3, x_id, 1, e_2, ev_create, 0, [ODelete 0], ev_delete.
  split; [intros [|[|p]]; cbn; lia|]. split; [exact x_id_calm|]. split.
  - intros ops [<-|[<-|[]]]; eexists; vm_compute; reflexivity.
  - exists c3. split; [apply schedule_steps|]. split.
    + intros [|[|[|i]]]; [apply goes_onb_ok; vm_compute; reflexivity..|]. intros (t & E & _). vm_compute in E. destruct i; discriminate.
    + eexists. split; [vm_compute; left; reflexivity|]. intros [r E]. discriminate.
Qed.
Print Assumptions C69_two_columns_refuted.

(** [flush] of a table while others lock a table two levels below it and then the one between. *)
Theorem C69_lock_order_refuted : exists pr umax heads foreign order rank live fuel x p es ev d c,
  (forall p, rank p < fuel) /\ calm rank live x /\
  may_become pr umax heads foreign order fuel x [[TDo (XFlush p es ev)]; [TLocks [(d, true); (c, true)]]] deadlocked.
Proof.
  exists Debug, 255, heads, foreign, order, town_rank, (fun _ => True), 3, town_x, 0, [ODelete 1], ev_delete, 3, 1.
  split; [intros [|[|p]]; cbn; lia|]. split; [exact town_x_calm|]. split.
  - intros ops [<-|[<-|[]]]; eexists; vm_compute; reflexivity.
  - exists c4. split; [apply schedule_steps|]. apply deadlockedb_ok. vm_compute. reflexivity.
Qed.
Print Assumptions C69_lock_order_refuted.

(** Who waits for what: the live flush has table 0 and wants table 1; restoring has table 1 and wants table 0. *)
Example C69_case : map (fun t => (fst t, wanted t)) (th_ts c1) =
    [([(LF 0, false); (LT 0, true)], Some (LT 1, false)); ([(LT 1, true)], Some (LT 0, false))] /\
  map (fun t => (fst t, wanted t)) (th_ts c2) =
    [([(LF 0, false)], Some (LT 1, false)); ([(LT 0, true)], Some (LF 0, true)); ([(LT 1, true)], Some (LT 0, false))] /\
  map (fun t => (fst t, wanted t)) (th_ts c3) =
    [([(LF 0, false); (LT 0, false); (LT 1, true)], Some (LT 0, false)); ([], Some (LT 0, true))] /\
  map (fun t => (fst t, wanted t)) (th_ts c4) =
    [([(LF 1, false); (LT 1, false); (LF 0, false)], Some (LT 3, false)); ([(LT 3, true)], Some (LT 1, true))].
Proof. repeat split; vm_compute; reflexivity. Qed.
