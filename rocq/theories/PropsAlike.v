(** C91: deleted rows are forgotten. *)
From Coq Require Import List Arith Bool ZArith.
From Verif Require Import Base Column Order RowRange Table SortedTab TableSpec Hist Answers PlainSpec AlikeSpec AlikeFacts Cases.
Import ListNotations.

(** Two tables that look alike, whatever was in the rows that have been deleted since and however they came to be, cannot be told
    apart by any program that does not index columns with ids of deleted rows: both runs are told the same, or both panic. *)
Theorem C91_alike umax sch st st' cs :
  sane Debug umax sch st -> sane Debug umax sch st' -> alike st st' ->
  Forall (call_ty (s_cols sch)) cs -> all_legal sch (match st with Free _ => false | _ => true end) cs = true -> keeps_away Debug umax st cs ->
  match talks Debug umax st cs with
  | Ok l => talks Debug umax st' cs = Ok l
  | Err _ => exists c, talks Debug umax st' cs = panic c
  end.
Proof. exact (alike_talks umax sch st st' cs). Qed.
Print Assumptions C91_alike.

(** Indexing a column with such an id shows the value the deleted row had: the flush that deletes rows changes no cell. *)
Theorem C91_cells_stay pr umax w srt ev st' k i :
  t_kind (w_tab w) = Consistent -> w_changes w <> SAll -> step pr umax (Locked w []) (OFlush srt ev) = Ok st' ->
  t_read (st_tab st') k i = t_read (w_tab w) k i.
Proof. exact (flush_cells pr umax w srt ev st' k i). Qed.
Print Assumptions C91_cells_stay.

(** Tables with a hole: row 1 of three was deleted; the rows deleted differ, and so do the ways there. *)
Definition secret : row := [VInt 99; VInt 6].
Definition way1 := hole.
Definition way2 := [OLock; OPush r2; OPushArray [secret; r3]; OFlush false ev_create; OLock; OAssign 0 0 (VInt 1); OSelect 0; OLiveFlush false ev_create; ODelete 1; OFlush false ev_delete].
Definition from (ops : list op) : state := match at_end Consistent ops with Some st => st | None => Free (t_new (sch Consistent)) end.
Definition curious : list call :=
  [Do (OFind 1 (VInt 6)); Do (OIter [ItNext; ItNext; ItNext]); Do (OCell 0 2); Do OLock; Do ONextPushed; Do (OPush r1); Do (OCell 0 1);
   Do (OFind 1 (VInt 5)); Do (OFlush true ev_create); Do OLast].
Lemma both_sane : sane Debug 255 (sch Consistent) (from way1) /\ sane Debug 255 (sch Consistent) (from way2).
Proof.
  split.
  - apply (sane_case Consistent way1); [repeat constructor|vm_compute; reflexivity|vm_compute; reflexivity].
  - apply (sane_case Consistent way2); [|vm_compute; reflexivity|vm_compute; reflexivity].
    unfold way2. repeat (constructor; [cbn [op_ty]; try exact I; try (repeat constructor; fail); intros ty E; vm_compute in E; injection E as <-; exact I|]). constructor.
Qed.
Lemma both_alike : alike (from way1) (from way2).
Proof.
  split; [vm_compute; reflexivity|]. split; [|split; [|vm_compute; exact I]].
  - intros i. do 3 (destruct i as [|i]; [vm_compute; reflexivity|]). vm_compute. reflexivity.
  - intros i. do 3 (destruct i as [|i]; [vm_compute; intros; first [reflexivity|discriminate]|]). vm_compute. discriminate.
Qed.
Example C91_case :
  sane Debug 255 (sch Consistent) (from way1) /\ sane Debug 255 (sch Consistent) (from way2) /\ alike (from way1) (from way2) /\
  Forall (call_ty (s_cols (sch Consistent))) curious /\ all_legal (sch Consistent) false curious = true /\ keeps_away Debug 255 (from way1) curious /\
  talks Debug 255 (from way1) curious =
    Ok [AIds [2]; AItems [Some 0; Some 2; None] [[VInt 1; VInt 5]; r3; []]; AVal (VInt 3); ANothing; AId (Some 1); AId (Some 1); AVal (VInt 1);
        AIds [0; 1]; ANothing; AId (Some 2)].
Proof.
  split; [apply both_sane|]. split; [apply both_sane|]. split; [exact both_alike|]. split; [repeat constructor|]. split; [vm_compute; reflexivity|].
  split; [|vm_compute; reflexivity].
  unfold curious. repeat (split; [vm_compute; reflexivity|split; [intro X; vm_compute in X; discriminate X|intros st' E; vm_compute in E; injection E as <-]]). exact I.
Qed.
(** Without that condition the program can tell. *)
Theorem C91_refuted :
  exists umax sch st st' cs, sane Debug umax sch st /\ sane Debug umax sch st' /\ alike st st' /\
    Forall (call_ty (s_cols sch)) cs /\ all_legal sch (match st with Free _ => false | _ => true end) cs = true /\
    talks Debug umax st cs = Ok [AVal (VInt 2)] /\ talks Debug umax st' cs = Ok [AVal (VInt 99)].
Proof.
  exists 255, (sch Consistent), (from way1), (from way2), [Do (OCell 0 1)].
  split; [apply both_sane|]. split; [apply both_sane|]. split; [exact both_alike|]. split; [repeat constructor|]. repeat split; vm_compute; reflexivity.
Qed.
Print Assumptions C91_refuted.
(** The values of the row before and after the flush that deletes it. *)
Example C91_cells_case :
  exists w st', from (three ++ [OLock; ODelete 1]) = Locked w [] /\ t_kind (w_tab w) = Consistent /\ w_changes w <> SAll /\
    step Debug 255 (Locked w []) (OFlush true ev_delete) = Ok st' /\ t_contains (w_tab w) 1 = true /\ t_contains (st_tab st') 1 = false /\
    t_read (st_tab st') 0 1 = Ok (VInt 2) /\ t_read (w_tab w) 0 1 = Ok (VInt 2).
Proof.
  destruct (from (three ++ [OLock; ODelete 1])) as [t|w its] eqn:E; [vm_compute in E; discriminate|]. vm_compute in E. injection E as <- <-.
  eexists _, _. split; [reflexivity|]. split; [reflexivity|]. split; [discriminate|]. split; [vm_compute; reflexivity|]. repeat split; vm_compute; reflexivity.
Qed.
