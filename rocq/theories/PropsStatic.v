(** Property theorems about threads that register and look up properties, C104. *)
From Coq Require Import List Arith Bool Lia.
From Verif Require Import Base Names Table Extract Registry RegistrySpec RegistryCases PropThreads PropThreadsSpec PropThreadsFacts.
Import ListNotations.

(** C104.  Threads that register and look up properties have no data race, in any order of their steps and whoever panics, if every property
    that more than one of them calls on was registered or looked up before they start, or is registered by each of them before it looks it up. *)
Theorem C104_no_race :
  forall w progs, (forall k, shares_well w progs k) -> forall sched, ~ data_race (p_run (p_start w progs) sched).
Proof. exact no_race. Qed.
Print Assumptions C104_no_race.
(** The registry and what the calls return are then as if the calls were made one after the other, each thread's in its order. *)
Theorem C104_in_order :
  forall w progs, (forall k, shares_well w progs k) -> forall sched, let s := p_run (p_start w progs) sched in
  exists order, pw_reg s = fst (seq_run w order) /\
  forall t th p, nth_error (pw_thr s) t = Some th -> nth_error progs t = Some p ->
    (exists later, p = of_thread t order ++ later /\ (pt_pc th = AtRest -> later = pt_rest th)) /\
    (pt_pc th = AtRest \/ pt_pc th = Dead -> pt_ans th = of_thread t (snd (seq_run w order))).
Proof. exact one_by_one. Qed.
Print Assumptions C104_in_order.
(** And some thread can go on, until each of them is over. *)
Theorem C104_goes_on :
  forall w progs, (forall k, shares_well w progs k) -> forall sched, let s := p_run (p_start w progs) sched in
  (exists t, p_step s t <> None) \/ (forall t th, nth_error (pw_thr s) t = Some th -> pt_pc th = Dead \/ pt_pc th = AtRest /\ pt_rest th = []).
Proof. exact goes_on. Qed.
Print Assumptions C104_goes_on.
(** For programs whose calls would succeed there is no other way to share them: anything else has a data race. *)
Theorem C104_exact :
  forall w progs, w_poison w = false -> (forall p, In p progs -> orderly w p) ->
  (forall k, shares_well w progs k) <-> (forall sched, ~ data_race (p_run (p_start w progs) sched)).
Proof. exact exactly. Qed.
Print Assumptions C104_exact.

(** Properties 0 and 2 are registered, 1 is a twin of 0 and 4 is new: two threads register 4, one of them looks 1 up. *)
Definition shared := [[PReg 4; PUse 4; PUse 0; PUse 2]; [PUse 0; PUse 1; PReg 4; PUse 4]].
Example C104_case :
  w_poison w_setup = false /\ (forall p, In p shared -> orderly w_setup p) /\ (forall k, shares_well w_setup shared k) /\
  (let s := p_run (p_start w_setup shared) [0; 1; 0; 0; 1; 1; 1; 1; 1; 0; 1; 1; 0; 0; 0; 1; 1; 1; 1; 1; 1; 1; 0; 0; 0; 0; 0; 0; 0; 0] in
   map pt_rest (pw_thr s) = [[]; []] /\ map (fun th => length (pt_ans th)) (pw_thr s) = [4; 4] /\ w_stat (pw_reg s) <> w_stat w_setup).
Proof.
  split; [vm_compute; reflexivity|]. split; [|split; [|vm_compute; repeat split; discriminate]].
  - assert (forall k, In k [0; 1; 2] -> call_ok w_setup (PUse k)) as U.
    { intros k [<-|[<-|[<-|[]]]]; vm_compute; eauto. }
    assert (call_ok w_setup (PReg 4)) as R by (vm_compute; eauto).
    intros p [<-|[<-|[]]] p1 c p2 E.
    + destruct p1 as [|x1 p1]; [injection E as <- _; left; exact R|]. injection E as <- E.
      destruct p1 as [|x2 p1]; [injection E as <- _; right; exists 4; cbn; auto|]. injection E as <- E.
      destruct p1 as [|x3 p1]; [injection E as <- _; left; apply U; cbn; auto|]. injection E as <- E.
      destruct p1 as [|x4 p1]; [injection E as <- _; left; apply U; cbn; auto|]. injection E as <- E. destruct p1; discriminate.
    + destruct p1 as [|x1 p1]; [injection E as <- _; left; apply U; cbn; auto|]. injection E as <- E.
      destruct p1 as [|x2 p1]; [injection E as <- _; left; apply U; cbn; auto|]. injection E as <- E.
      destruct p1 as [|x3 p1]; [injection E as <- _; left; exact R|]. injection E as <- E.
      destruct p1 as [|x4 p1]; [injection E as <- _; right; exists 4; cbn; auto|]. injection E as <- E. destruct p1; discriminate.
  - intros k. destruct k as [|[|[|[|[|k]]]]].
    + left. eexists _, _. vm_compute. reflexivity.
    + right. left. intros [|[|t]] [|[|t']] p p' E E'; cbn in E, E'; try reflexivity; try (destruct t; discriminate); try (destruct t'; discriminate);
        injection E as <-; injection E' as <-; vm_compute; discriminate.
    + left. eexists _, _. vm_compute. reflexivity.
    + right. right. intros p [<-|[<-|[]]]; reflexivity.
    + right. right. intros p [<-|[<-|[]]]; reflexivity.
    + right. right. intros p [<-|[<-|[]]]; reflexivity.
Qed.

(** Registering is over, a universe is made, and threads only look properties up, with success: still there is a data race, if a property was
    registered by its twin only. *)
Theorem C104_lookups_refuted :
  exists w progs sched, RegistrySpec.reached w /\ w_unis w <> [] /\ w_poison w = false /\
  (forall p c, In p progs -> In c p -> exists k, c = PUse k /\ call_ok w c) /\ data_race (p_run (p_start w progs) sched).
Proof.
  exists w1, [[PUse 1]; [PUse 1]], [0; 1; 0; 0]. split; [exact w1_reached|]. split; [vm_compute; discriminate|]. split; [vm_compute; reflexivity|]. split.
  - intros p c [<-|[<-|[]]] [<-|[]]; exists 1; (split; [reflexivity|vm_compute; eauto]).
  - exists 0, 1. eexists _, _, 1, false. split; [discriminate|]. split; [vm_compute; reflexivity|]. split; [vm_compute; reflexivity|]. split; reflexivity.
Qed.
Print Assumptions C104_lookups_refuted.
(** One thread registers a property, and another looks up what it knows is registered, by a twin. *)
Theorem C104_register_refuted :
  exists w progs sched, RegistrySpec.reached w /\ w_poison w = false /\ (forall p c, In p progs -> In c p -> call_ok w c) /\
  (forall p, In p progs -> length p = 1) /\ data_race (p_run (p_start w progs) sched).
Proof.
  exists w_setup, [[PReg 1]; [PUse 1]], [0; 1; 0; 0]. split; [exact w_setup_reached|]. split; [vm_compute; reflexivity|]. split.
  - intros p c [<-|[<-|[]]] [<-|[]]; vm_compute; eauto.
  - split; [intros p [<-|[<-|[]]]; reflexivity|]. exists 0, 1. eexists _, _, 1, false. split; [discriminate|]. split; [vm_compute; reflexivity|]. split; [vm_compute; reflexivity|]. split; reflexivity.
Qed.
Print Assumptions C104_register_refuted.
