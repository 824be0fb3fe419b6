(** Properties about tables that are used on after a caught panic.  See CaughtSpec.v and UnwindSpec.v for the
    vocabulary. *)
From Coq Require Import List Arith Bool ZArith Lia.
From Verif Require Import Base Column Order RowRange Table Visit SortedTab BagTab TableSpec Hist Unwind UnwindSpec Cases
  UnwindCases CaughtSpec CaughtCases CaughtFacts.
Import ListNotations.
Local Open Scope nat_scope.

(** C108.  Whatever calls are made on a table and wherever closures, iterators, trackers or the library itself panic
    in them: if the program catches the panics and still has the table, all columns are of the same length, and every
    row that is not deleted can be read and has values of the types of the columns. *)
Theorem C108_in_step : forall careful pr umax sch st, caught careful pr umax sch st -> in_step (st_tab st).
Proof. exact caught_in_step. Qed.
Print Assumptions C108_in_step.
(** The indexes agree with the rows then, and deleted ids are those of rows, unless the table was emptied while rows
    were deleted. *)
Theorem C108_finds : forall pr umax sch st, caught true pr umax sch st ->
  finds_right (st_tab st) /\ Forall (fun i => i < t_len (st_tab st)) (t_free (st_tab st)).
Proof. exact caught_finds. Qed.
Print Assumptions C108_finds.
Example C108_case : exists st, urun Debug 255 (Free (t_new (sch Consistent))) bumpy = Live st /\ caught true Debug 255 (sch Consistent) st /\
  map (t_get_row (st_tab st)) [0; 1; 2; 3] = map Ok [r2; r2; r3; r3] /\ t_find (st_tab st) 1 (VInt 5) = Ok [0; 1].
Proof.
  eexists. split; [calc|]. split; [|calcs].
  eapply (caught_case (sch Consistent) bumpy); [apply caught_new; discriminate| | | |].
  - unfold bumpy, calmly. repeat (apply Forall_cons; [split; cbn; repeat constructor|]). constructor.
  - unfold bumpy, calmly. repeat (apply Forall_cons; [intros ? ?; reflexivity|]). constructor.
  - calc.
  - calc.
Qed.
(** Without the bound on the number of rows it does not hold: [push] of one row too many panics between the columns. *)
Theorem C108_too_many_refuted :
  exists sch l st, s_cols sch <> [] /\ Forall (fun c => uop_ok sch (snd c)) l /\ Forall no_ord_panic l /\
    urun Debug 255 (Free (t_new sch)) l = Live st /\ ~ in_step (st_tab st).
Proof.
  exists small, too_many. eexists. split; [discriminate|]. split.
  { unfold too_many, calmly. repeat (apply Forall_cons; [split; cbn; repeat constructor|]). constructor. }
  split; [unfold too_many, calmly; repeat (apply Forall_cons; [intros ? ?; reflexivity|]); constructor|]. split; [calc|].
  intros [F _]. inversion_clear F. inversion_clear H0. inversion_clear H2. vm_compute in H0. discriminate.
Qed.
Print Assumptions C108_too_many_refuted.
(** Nor is [find] right after a caught panic of [Ord]: here it misses a row that has the value and reports one that
    has not. *)
Theorem C108_ord_refuted :
  exists sch l st v i j, s_cols sch <> [] /\ Forall (fun c => uop_ok sch (snd c)) l /\
    urun Debug 255 (Free (t_new sch)) l = Live st /\ t_find (st_tab st) 1 v = Ok [i] /\
    (exists r, t_get_row (st_tab st) i = Ok r /\ nth_error r 1 <> Some v) /\
    i <> j /\ (exists r, t_get_row (st_tab st) j = Ok r /\ nth_error r 1 = Some v).
Proof.
  exists (sch Bag), halfway. eexists. exists (VInt 5), 1, 0. split; [discriminate|]. split.
  { unfold halfway, calmly. repeat (apply Forall_cons; [split; cbn; repeat constructor|]). constructor. }
  split; [calc|]. split; [calc|]. split; [eexists; split; [calc|discriminate]|]. split; [discriminate|].
  eexists. split; calc.
Qed.
Print Assumptions C108_ord_refuted.
(** And the rows may be torn: of two rows pushed into a bag, of which one was then to be deleted, neither is left. *)
Theorem C108_torn_refuted :
  exists sch rows boom i st, s_cols sch <> [] /\ Forall (row_ty (s_cols sch)) rows /\
    urun Debug 255 (Free (t_new sch)) [calmly (UCall OLock); calmly (UPushAll rows false); (boom, UDelete i)] = Live st /\
    t_len (st_tab st) = length rows /\ forall k r, t_get_row (st_tab st) k = Ok r -> ~ In r rows.
Proof.
  exists (sch Bag), [r1; r3], (fun k _ => match k with (VInt 6, 0) => true | _ => false end), 0. eexists. split; [discriminate|].
  split; [repeat constructor; eexists; reflexivity|]. split; [calc|]. split; [calc|].
  intros [|[|[|k]]] r G; vm_compute in G; try discriminate; injection G as <-; intros [X|[X|[]]]; discriminate.
Qed.
Print Assumptions C108_torn_refuted.

(** C109.  The table is lost to everyone - the lock is poisoned, or the process aborts - exactly if: [flush] of a
    consistent table has told the trackers a removal event and then finds that one of the changed rows is not in the
    table; [remove_rows] is given such a row; or the lock of a consistent table with unflushed changes is dropped. *)
Theorem C109_flush_lost : forall careful pr umax sch w boom srt ev,
  s_kind sch = Consistent -> caught careful pr umax sch (Locked w []) -> no_ord_panic (boom, UFlush srt false ev) ->
  ustep pr umax (Locked w []) (boom, UFlush srt false ev) = Lost <->
  told w ev /\ ev_removal ev = true /\ exists l, w_changes w = SThese l /\ exists i, In i l /\ t_len (w_tab w) <= i.
Proof. exact caught_flush_lost. Qed.
Print Assumptions C109_flush_lost.
Theorem C109_remove_lost : forall careful pr umax sch t boom srt ev rows,
  s_kind sch = Consistent -> caught careful pr umax sch (Free t) -> no_ord_panic (boom, URemoveRows srt false ev rows) ->
  ustep pr umax (Free t) (boom, URemoveRows srt false ev rows) = Lost <->
  exists l, rows = SThese l /\ exists i, In i l /\ t_len t <= i.
Proof. exact caught_remove_lost. Qed.
Print Assumptions C109_remove_lost.
Theorem C109_close_lost : forall careful pr umax sch w boom, caught careful pr umax sch (Locked w []) ->
  ustep pr umax (Locked w []) (boom, UClose) = Lost <-> s_kind sch = Consistent /\ w_changes w <> SThese [].
Proof. exact caught_close_lost. Qed.
Print Assumptions C109_close_lost.
Example C109_case : exists w, urun Debug 255 (Free (t_new (sch Consistent))) beyond = Live (Locked w []) /\
  caught true Debug 255 (sch Consistent) (Locked w []) /\
  ustep Debug 255 (Locked w []) (calmly (UFlush true false ev_delete)) = Lost /\ told w ev_delete /\
  ustep Debug 255 (Locked w []) (calmly UClose) = Lost /\
  ustep Debug 255 (Free (w_tab w)) (calmly (URemoveRows true false ev_delete (SThese [0; 2]))) = Lost.
Proof.
  eexists. split; [calc|]. split.
  { eapply (caught_case (sch Consistent) beyond); [apply caught_new; discriminate| | | |].
    - unfold beyond, calmly. repeat (apply Forall_cons; [split; cbn; repeat constructor|]). constructor.
    - unfold beyond, calmly. repeat (apply Forall_cons; [intros ? ?; reflexivity|]). constructor.
    - calc.
    - calc. }
  split; [calc|]. split; [|split; calc].
  split; [intros [X _]; discriminate|]. split; [intros [_ X]; discriminate|]. vm_compute. lia.
Qed.
