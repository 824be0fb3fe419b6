(** C78: threads that use different tables. *)
From Coq Require Import List Arith Bool ZArith Lia.
From Verif Require Import Base Names Column Order RowRange Table SortedTab TableSpec Hist Cases Events Cascade CascadeSpec CascadeCases Extract ExtractSpec
  ExtractCases Threads ThreadSpec ThreadSeq ThreadFacts ThreadSafe ThreadReads ThreadCases Poison PoisonSpec PoisonFacts PoisonCases ThreadApart.
Import ListNotations.

(** C78.  Thread [i] uses only the tables [ss i], which no other thread uses, and which have trackers only among themselves.
    If it comes to an end, that is what the calls lead to without any threads; also if others panic. *)
Theorem C78_result : forall pr umax heads foreign order fuel x tss (ss : nat -> nat -> Prop) d,
  made pr umax (xu_u x) -> (forall p t, nth_error (u_tabs (xu_u x)) p = Some t -> pr = Debug \/ t_kind t <> Bag) -> Forall (Forall (top_ty (xu_u x))) tss ->
  (forall i j p, ss i p -> ss j p -> i = j) -> (forall i, self_contained (ss i) (xu_u x)) ->
  (forall i ops, nth_error tss i = Some ops -> Forall (uses_only foreign (ss i)) ops) ->
  crowd_steps (begun x (map (p_run pr umax heads foreign order fuel) tss)) d ->
  forall i ops g r, nth_error tss i = Some ops -> nth_error (th_ts (cr_c d)) i = Some (g, Ret r) ->
  match r with
  | Ok _ => exists y, fold_res (seq_top pr umax heads foreign order fuel) ops x = Ok y /\
      forall p, ss i p -> nth_error (u_tabs (xu_u (th_x (cr_c d)))) p = nth_error (u_tabs (xu_u y)) p /\ behind (th_x (cr_c d)) p = behind y p
  | Err e => fold_res (seq_top pr umax heads foreign order fuel) ops x = Err e
  end.
Proof. exact apart_result. Qed.
Print Assumptions C78_result.

(** And it never has to wait for others, even under the strictest rule for locks. *)
Theorem C78_no_waiting : forall pr umax heads foreign order fuel x tss (ss : nat -> nat -> Prop) d,
  made pr umax (xu_u x) -> (forall p t, nth_error (u_tabs (xu_u x)) p = Some t -> pr = Debug \/ t_kind t <> Bag) -> Forall (Forall (top_ty (xu_u x))) tss ->
  (forall i j p, ss i p -> ss j p -> i = j) -> (forall i, self_contained (ss i) (xu_u x)) ->
  (forall i ops, nth_error tss i = Some ops -> Forall (uses_only foreign (ss i)) ops) ->
  crowd_steps (begun x (map (p_run pr umax heads foreign order fuel) tss)) d ->
  forall i ops t, nth_error tss i = Some ops -> nth_error (th_ts (cr_c d)) i = Some t -> finished t \/ crowd_on d i \/
    fold_res (seq_top pr umax heads foreign order fuel) ops x = Err EDeadlock \/ fold_res (seq_top pr umax heads foreign order fuel) ops x = Err EFuel.
Proof. exact apart_goes. Qed.
Print Assumptions C78_no_waiting.

(** Table 1 refers to table 0; tables 2 and 3 are on their own.  One thread deletes from table 0 and pushes to table 1; one
    panics with table 2 locked; one pushes to table 3 and has it watched. *)
Definition parted := XU (Uni (u_tabs town) [[TAuto 1 1 false]; []; []; []] default_handlers []) [fs_new; fs_new; fs_new; fs_new].
Definition parted_threads := [[TDo (XFlush 0 [ODelete 1] ev_delete); TDo (XFlush 1 [OPush [VInt 13; VRow 0]] ev_create)];
  [TDo (XFlush 2 [OClear; OGet 99] ev_delete)]; [TDo (XFlush 3 [OPush [VInt 22; VRow 0]] ev_create); TDo (XRegister 3 (TUser true (fun _ => true))); TSelect 3 ev_create SAll]].
Definition part (i p : nat) : Prop := (i = 0 /\ (p = 0 \/ p = 1)) \/ (i = 1 /\ p = 2) \/ (i = 2 /\ p = 3).
Definition partway := cschedule [(0, 9); (1, 3); (2, 5); (0, 9); (1, 99)] (begun parted (map (p_run Debug 255 heads foreign order 3) parted_threads)).
Definition parting := cschedule [(2, 99); (0, 99)] partway.
Example C78_case : made Debug 255 (xu_u parted) /\ Forall (Forall (top_ty (xu_u parted))) parted_threads /\ (forall i j p, part i p -> part j p -> i = j) /\
  (forall i, self_contained (part i) (xu_u parted)) /\ (forall i ops, nth_error parted_threads i = Some ops -> Forall (uses_only foreign (part i)) ops) /\
  crowd_steps (begun parted (map (p_run Debug 255 heads foreign order 3) parted_threads)) partway /\
  map finishedb (th_ts (cr_c partway)) = [false; true; false] /\
  crowd_steps (begun parted (map (p_run Debug 255 heads foreign order 3) parted_threads)) parting /\
  map snd (th_ts (cr_c parting)) = [Ret (Ok tt); Ret (panic PIndexOOB); Ret (Ok tt)] /\ cr_bad parting = [LT 2].
Proof.
  split; [exact town_made|]. split.
  { unfold parted_threads. repeat match goal with |- Forall _ (_ :: _) => constructor | |- Forall _ [] => constructor end; try exact I; intros t [= <-]; repeat constructor; cbn; eauto. }
  split; [unfold part; intros; lia|]. split.
  { intros i p c k key Hp H. destruct p as [|[|[|[|p]]]]; cbn in H; try (destruct H as [H|[]]; injection H as <- <- <-; unfold part in *; lia); try destruct H. destruct p; destruct H. }
  split. { intros [|[|[|i]]] ops E; cbn in E; try (injection E as <-; repeat constructor; unfold part; cbn; lia). destruct i; discriminate. }
  split; [apply cschedule_steps|]. split; [vm_compute; reflexivity|]. split; [eapply crowd_steps_trans; apply cschedule_steps|]. split; vm_compute; reflexivity.
Qed.
