(** Property theorem about what an index does not change, C110. *)
From Coq Require Import List Arith Bool ZArith.
From Verif Require Import Base Column Order RowRange Table Visit SortedTab BagTab TableSpec Hist Cases Answers IndexedSpec IndexedFacts.
Import ListNotations.

(** C110.  Two tables of any kind whose declarations differ in [#[index]] on some columns only: a program that can be compiled for both, and
    asks no index that one of them lacks, is told the same by both, in every build; or it panics on both, at the same call, or it runs into
    undefined behaviour on both, or does not end on both. *)
Theorem C110_same :
  forall pr umax sch sch', same_but_indexes sch sch' -> s_cols sch <> [] ->
  forall cs, Forall (fun c => op_ty (s_cols sch) (op_of c)) cs -> Forall (suits sch sch') cs ->
  same_way eq (talks pr umax (Free (t_new sch)) cs) (talks pr umax (Free (t_new sch')) cs).
Proof. exact (fun pr umax s s' A B cs => talks_alike pr umax s s' cs A B). Qed.
Print Assumptions C110_same.

(** The second column is indexed in [sch k]; here the first one is. *)
Definition turned (k : kind) : schema := Sch k 7 [Indexed TVec; Plain TVec].
(** Rows are deleted and put again, and a closure looks into the lock. *)
Definition chat : list call :=
  [Do OLock; Do (OPushAll [r1; r2; r3]); Do (OFlush true ev_create); Do OLock; Do (ODelete 1); Do (OFlush true ev_delete);
   Do (OIter [ItNext; ItNext; ItNext]); Do OLock; Do (OPush r1); Do (OPushArray [r2; r3]); Do (OGet 4); Do (OFlush true ev_create); Do OLast].
Definition chat_sorted : list call :=
  [Do OLock; Do (OMerge (by_col 0) [r3; r1; r2]); Do (ORetain nat (fun n w i => (n + t_len (w_tab w), negb (Nat.even (n + i)))) 0);
   CMergeLogged (by_col 0) [r1; r2]; Do ODump; Do (OMergeSingle (by_col 0) r3); Do (ORemoveSorted [0; 2]); Do ODump].
Definition chat_bag : list call :=
  [Do OLock; Do (OPushAll [r1; r2]); Do OBagNew; Do (OBagNext 0); Do (OBagMark 0); Do (OBagNext 0); Do (OBagEnd 0); Do ODump;
   Do (OSelect 0); Do (OSelect 0); Do (OFlush true ev_delete)].
Example C110_case :
  (forall k, same_but_indexes (sch k) (turned k) /\ s_cols (sch k) <> []) /\
  (forall k cs, In cs [chat; chat_sorted; chat_bag] ->
     Forall (fun c => op_ty (s_cols (sch k)) (op_of c)) cs /\ Forall (suits (sch k) (turned k)) cs) /\
  (forall s, In s [sch Consistent; turned Consistent] ->
     talks Debug 255 (Free (t_new s)) chat =
       Ok [ANothing; ANothing; ANothing; ANothing; ANothing; ANothing; AItems [Some 0; Some 2; None] [r1; r3; []]; ANothing;
           AId (Some 1); ASpan 3 5; ARow r3; ANothing; AId (Some 4)] /\
     exists c, talks Debug 255 (Free (t_new s)) (chat ++ [Do (OGet 5)]) = panic c) /\
  (forall s, In s [sch Sorted; turned Sorted] -> exists l, talks Release 255 (Free (t_new s)) chat_sorted = Ok l) /\
  (forall s, In s [sch Bag; turned Bag] -> talks Release 255 (Free (t_new s)) chat_bag = Err EUB).
Proof.
  repeat match goal with |- _ /\ _ => split end.
  - intro k. split; [repeat split|discriminate].
  - intros k cs H. cbn in H. destruct H as [<-|[<-|[<-|[]]]]; split; repeat constructor; cbn.
    intros a w w' i (T & _). assert (E : t_len (w_tab w) = t_len (w_tab w')); [|rewrite E; auto]. destruct T as (_ & C & _). unfold t_len. destruct C; auto.
    apply alike_len; auto.
  - intros s [<-|[<-|[]]]; (split; [vm_compute; reflexivity|eexists; vm_compute; reflexivity]).
  - intros s [<-|[<-|[]]]; eexists; vm_compute; reflexivity.
  - intros s [<-|[<-|[]]]; vm_compute; reflexivity.
Qed.
