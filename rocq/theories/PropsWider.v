(** C133: a larger type of row ids changes nothing for programs that fit in the smaller one. *)
From Coq Require Import List Arith Bool ZArith.
From Verif Require Import Base Column Order RowRange Table Visit SortedTab TableSpec Hist Cases Answers PlainSpec WiderSpec WiderFacts.
Import ListNotations.

(** C133.  In a debug build, a program that succeeds with row ids up to [s_imax sch] also succeeds with row ids up to [big], and is told the same; only the row with the largest of the
    smaller ids is found now, and an empty [push_array] names another empty range. *)
Theorem C133_wider :
  forall umax sch big, s_imax sch <= big ->
  forall cs l, s_cols sch <> [] -> Forall (call_ty (s_cols sch)) cs -> all_legal sch false cs = true -> talks Debug umax (Free (t_new sch)) cs = Ok l ->
  exists l', talks Debug umax (Free (t_new (with_ids sch big))) cs = Ok l' /\ Forall2 (fun cx x' => wider (s_imax sch) big (fst cx) (snd cx) x') (combine cs l) l'.
Proof. exact wider_ok. Qed.
Print Assumptions C133_wider.

(** Ids up to 3, then up to 7: the table becomes full, and an id is used again. *)
Definition few (k : kind) : schema := Sch k 3 [Plain TVec; Indexed TVec].
Definition fill_up : list call :=
  [Do OLock; Do (OPushArray []); Do (OPushArray [r1; r2]); Do (OIter [ItNext; ItSkip 1; ItNext]); Do (OFlush true ev_create); Do OLock; Do (ODelete 0); Do (OFlush true ev_delete);
   Do OLock; Do (OPush r2); Do (OPushAll [r1; r2]); Do (OFind 1 (VInt 5)); Do (OGet 3); Do OLast].
Example C133_case :
  s_imax (few Consistent) <= 7 /\ Forall (call_ty (s_cols (few Consistent))) (fill_up ++ [Do (OPush r1)]) /\ all_legal (few Consistent) false (fill_up ++ [Do (OPush r1)]) = true /\
  talks Debug 255 (Free (t_new (few Consistent))) fill_up =
    Ok [ANothing; ASpan 3 3; ASpan 0 2; AItems [Some 0; None] [r1; []]; ANothing; ANothing; ANothing; ANothing; ANothing; AId (Some 0); ANothing; AIds [0; 1; 2]; ARow r2; AId (Some 3)] /\
  talks Debug 255 (Free (t_new (with_ids (few Consistent) 7))) fill_up =
    Ok [ANothing; ASpan 7 7; ASpan 0 2; AItems [Some 0; None] [r1; []]; ANothing; ANothing; ANothing; ANothing; ANothing; AId (Some 0); ANothing; AIds [0; 1; 2; 3]; ARow r2; AId (Some 3)] /\
  (exists c, talks Debug 255 (Free (t_new (few Consistent))) (fill_up ++ [Do (OPush r1)]) = panic c) /\
  (exists l, talks Debug 255 (Free (t_new (with_ids (few Consistent) 7))) (fill_up ++ [Do (OPush r1)]) = Ok l).
Proof. split; [repeat constructor|]. split; [repeat constructor|]. split; [reflexivity|]. split; [vm_compute; reflexivity|]. split; [vm_compute; reflexivity|]. split; eexists; vm_compute; reflexivity. Qed.

(** C133 (refuted for release builds).  [push_array] that fills the table returns a range that ends at 0 (see C14); with larger ids it ends where it should. *)
Theorem C133_release_refuted :
  exists sch big cs l l', s_imax sch <= big /\ s_cols sch <> [] /\ Forall (call_ty (s_cols sch)) cs /\ all_legal sch false cs = true /\
    talks Release 255 (Free (t_new sch)) cs = Ok l /\ talks Release 255 (Free (t_new (with_ids sch big))) cs = Ok l' /\
    ~ Forall2 (fun cx x' => wider (s_imax sch) big (fst cx) (snd cx) x') (combine cs l) l'.
Proof.
  exists (few Append), 7, [Do OLock; Do (OPushArray [r1; r2; r3; r1])]. do 2 eexists. split; [repeat constructor|]. split; [discriminate|]. split; [repeat constructor|]. split; [reflexivity|].
  split; [vm_compute; reflexivity|]. split; [vm_compute; reflexivity|]. intro F. inversion F as [|? ? ? ? _ F1]; subst. inversion F1 as [|? ? ? ? W _]; subst. discriminate W.
Qed.
Print Assumptions C133_release_refuted.
