(** C74: what other threads see of a panic. *)
From Coq Require Import List Arith Bool ZArith Lia.
From Verif Require Import Base Names Column Order RowRange Table SortedTab TableSpec Hist Events Cascade CascadeSpec CascadeCases Extract ExtractSpec
  ExtractCases Threads ThreadSpec ThreadSeq ThreadFacts ThreadSafe ThreadReads ThreadCases Poison PoisonSpec PoisonFacts PoisonCases.
Import ListNotations.

(** C74.  A thread that is not panicking has no poisoned lock. *)
Theorem C74_never_locked : forall pr umax heads foreign order fuel x tss d t l wr,
  crowd_steps (begun x (map (p_run pr umax heads foreign order fuel) tss)) d -> In t (th_ts (cr_c d)) -> In (l, wr) (owned t) -> ~ In l (cr_bad d).
Proof. exact crowd_clean. Qed.
Print Assumptions C74_never_locked.

(** Whatever panics leave in the tables that were locked, every thread does what it would do, and everything that is not
    poisoned is what it would be, if the unfinished changes of a panicking call were dropped at once. *)
Theorem C74_as_if_undone : forall pr umax heads foreign order fuel x tss d,
  crowd_steps (begun x (map (p_run pr umax heads foreign order fuel) tss)) d ->
  exists c, thread_steps (started x (map (p_run pr umax heads foreign order fuel) tss)) c /\
    Forall2 alike (th_ts (cr_c d)) (th_ts c) /\ same_but (cr_bad d) (th_x c) (th_x (cr_c d)).
Proof. exact crowd_as_if. Qed.
Print Assumptions C74_as_if_undone.

Theorem C74_no_undefined_behaviour : forall pr umax heads foreign order fuel x tss d,
  made pr umax (xu_u x) -> (forall p t, nth_error (u_tabs (xu_u x)) p = Some t -> pr = Debug \/ t_kind t <> Bag) ->
  Forall (Forall (top_ty (xu_u x))) tss ->
  crowd_steps (begun x (map (p_run pr umax heads foreign order fuel) tss)) d ->
  (forall g, ~ In (g, Ret (Err EUB)) (th_ts (cr_c d))) /\
  forall p t, ~ In (LT p) (cr_bad d) -> nth_error (u_tabs (xu_u (th_x (cr_c d)))) p = Some t ->
    forall ops, Forall (op_ty (s_cols (t_sch t))) ops -> run pr umax (Free t) ops <> Err EUB.
Proof. exact crowd_safe. Qed.
Print Assumptions C74_no_undefined_behaviour.

(** Nobody waits for ever because somebody panicked. *)
Theorem C74_no_deadlock : forall pr umax heads foreign order fuel x tss rank live d,
  (forall p, rank p < fuel) -> calm rank live x -> Forall (Forall (orderly foreign rank live)) tss ->
  crowd_steps (begun x (map (p_run pr umax heads foreign order fuel) tss)) d ->
  (forall t, In t (th_ts (cr_c d)) -> gone t) \/ exists i, crowd_on d i.
Proof. exact crowd_progress. Qed.
Print Assumptions C74_no_deadlock.

Theorem C74_no_endless_run : forall s : nat -> crowd, ~ forall n, crowd_step (s n) (s (S n)).
Proof. exact no_endless_crowd. Qed.
Print Assumptions C74_no_endless_run.

Theorem C74_all_finish : forall pr umax heads foreign order fuel x tss rank live d,
  (forall p, rank p < fuel) -> calm rank live x -> Forall (Forall (orderly foreign rank live)) tss ->
  crowd_steps (begun x (map (p_run pr umax heads foreign order fuel) tss)) d ->
  exists d', crowd_steps d d' /\ forall t, In t (th_ts (cr_c d')) -> gone t.
Proof. exact crowd_finish. Qed.
Print Assumptions C74_all_finish.

(** The first thread panics with table 1 locked; the second waits for that table, and then panics too; the third, that
    needs only table 3, is not disturbed.  Table 1 is left torn. *)
Example C74_case : (forall p, town_rank p < 3) /\ calm town_rank (fun _ => True) town_x /\ Forall (Forall (orderly foreign town_rank (fun _ => True))) clumsy /\
  crowd_steps (begun town_x (map (p_run Debug 255 heads foreign order 3) clumsy)) falling /\
  crowd_steps (begun town_x (map (p_run Debug 255 heads foreign order 3) clumsy)) fallen /\
  map (fun t => (fst t, wanted t)) (th_ts (cr_c falling)) = [([(LT 1, true)], None); ([(LF 0, false)], Some (LT 1, false)); ([], Some (LT 3, true))] /\
  cr_bad fallen = [LT 1] /\ map snd (th_ts (cr_c fallen)) = [Ret (panic PIndexOOB); Ret (panic PPoisoned); Ret (Ok tt)] /\
  map (fun t => length (t_cols t)) (u_tabs (xu_u (th_x (cr_c fallen)))) = [2; 1; 2; 2] /\
  made Debug 255 (xu_u town_x) /\ Forall (Forall (top_ty (xu_u town_x))) clumsy.
Proof.
  split; [intros [|[|p]]; cbn; lia|]. split; [exact town_x_calm|]. split; [repeat constructor|].
  split; [apply cschedule_steps|]. split; [apply cschedule_steps|].
  split; [vm_compute; reflexivity|]. split; [vm_compute; reflexivity|]. split; [vm_compute; reflexivity|]. split; [vm_compute; reflexivity|].
  split; [exact town_made|exact clumsy_ty].
Qed.
