(** C134: for programs that delete nothing, the kind of a table does not matter. *)
From Coq Require Import List Arith Bool ZArith.
From Verif Require Import Base Column Order RowRange Table Visit SortedTab TableSpec Hist Cases Answers PlainSpec KindSpec KindFacts.
Import ListNotations.

(** C134.  In a debug build, a program that compiles for two kinds of tables (but sorted ones), deletes nothing, and succeeds with the one kind, succeeds with the other and is told the
    same.  If only the other is consistent, locks must be flushed, with an event that trackers can be registered for. *)
Theorem C134_kind :
  forall umax sch k cs l, s_kind sch <> Sorted -> k <> Sorted -> s_cols sch <> [] -> Forall (call_ty (s_cols sch)) cs ->
  all_legal sch false cs = true -> all_legal (with_kind sch k) false cs = true ->
  forallb deletes_nothing cs = true -> (k = Consistent -> s_kind sch = Consistent \/ forallb tells cs = true) ->
  talks Debug umax (Free (t_new sch)) cs = Ok l -> talks Debug umax (Free (t_new (with_kind sch k))) cs = Ok l.
Proof. exact other_kind. Qed.
Print Assumptions C134_kind.

Definition some_table (k : kind) : schema := Sch k 7 [Plain TVec; Indexed TVec].
Definition fill : list call :=
  [Do OLock; Do (OPushArray [r1; r2]); Do ONextPushed; Do (OPush r3); Do (OAssign 0 1 (VInt 9%Z)); Do (OFlush true ev_create); Do (OFind 1 (VInt 5)); Do (OGet 1); Do (OIter [ItNext; ItSkip 1; ItNext]);
   Do OLock; Do OClearRaw; Do (OPushAll [r2; r1]); Do (OSelect 1); Do (OLiveFlush true ev_create); Do (OCell 0 0); Do OLast].
Example C134_case :
  Forall (call_ty (s_cols (some_table Append))) fill /\ Forall (fun k => all_legal (some_table k) false fill = true) [Append; List_; Bag; Consistent] /\
  forallb deletes_nothing fill = true /\ forallb tells fill = true /\
  exists l, Forall (fun k => talks Debug 255 (Free (t_new (some_table k))) fill = Ok l) [Append; List_; Bag; Consistent] /\
    firstn 9 l = [ANothing; ASpan 0 2; AId (Some 2); AId (Some 2); ANothing; ANothing; AIds [0; 1]; ARow [VInt 9%Z; VInt 5%Z]; AItems [Some 0; Some 2] [r1; r3]].
Proof.
  split; [repeat constructor; intros x E; injection E as <-; exact I|]. split; [repeat constructor|]. split; [reflexivity|]. split; [reflexivity|]. eexists. split.
  - constructor; [vm_compute; reflexivity|]. constructor; [vm_compute; reflexivity|]. constructor; [vm_compute; reflexivity|]. constructor; [vm_compute; reflexivity|]. constructor.
  - vm_compute. reflexivity.
Qed.

(** C134 (refuted if locks are just closed).  Consistent tables want to be flushed (see C19). *)
Theorem C134_close_refuted :
  exists umax sch cs l, s_kind sch <> Sorted /\ s_cols sch <> [] /\ Forall (call_ty (s_cols sch)) cs /\ all_legal sch false cs = true /\ all_legal (with_kind sch Consistent) false cs = true /\
    forallb deletes_nothing cs = true /\ talks Debug umax (Free (t_new sch)) cs = Ok l /\ exists c, talks Debug umax (Free (t_new (with_kind sch Consistent))) cs = panic c.
Proof.
  exists 255, (some_table Append), [Do OLock; Do (OPush r1); Do OClose]. eexists. split; [discriminate|]. split; [discriminate|]. split; [repeat constructor|]. split; [reflexivity|]. split; [reflexivity|].
  split; [reflexivity|]. split; [vm_compute; reflexivity|]. eexists. vm_compute. reflexivity.
Qed.
Print Assumptions C134_close_refuted.

(** C134 (refuted with deletions).  Bags move the last row to the place of the deleted one, consistent tables leave it free. *)
Theorem C134_delete_refuted :
  exists umax sch cs l l', s_kind sch = Bag /\ s_cols sch <> [] /\ Forall (call_ty (s_cols sch)) cs /\ all_legal sch false cs = true /\ all_legal (with_kind sch Consistent) false cs = true /\
    forallb tells cs = true /\ talks Debug umax (Free (t_new sch)) cs = Ok l /\ talks Debug umax (Free (t_new (with_kind sch Consistent))) cs = Ok l' /\ l <> l'.
Proof.
  exists 255, (some_table Bag), [Do OLock; Do (OPushArray [r1; r2]); Do (OFlush true ev_create); Do OLock; Do (ODelete 0); Do (OFlush true ev_delete); Do OLast]. do 2 eexists.
  split; [reflexivity|]. split; [discriminate|]. split; [repeat constructor|]. split; [reflexivity|]. split; [reflexivity|].
  split; [reflexivity|]. split; [vm_compute; reflexivity|]. split; [vm_compute; reflexivity|]. discriminate.
Qed.
Print Assumptions C134_delete_refuted.
