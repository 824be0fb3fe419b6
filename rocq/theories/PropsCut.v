(** C131: a column added at the end of a declaration changes nothing about the others. *)
From Coq Require Import List Arith Bool ZArith.
From Verif Require Import Base Column Order RowRange Table Visit SortedTab BagTab TableSpec Hist Cases Answers PlainSpec CutSpec CutFacts CutMore.
Import ListNotations.

(** C131.  A program that succeeds on a table also succeeds on the table without the columns after the first [n], when the calls about these columns are left out; it is told the
    same, rows without those columns.  [left_calls] and [left_answers] are for the calls that are left. *)
Theorem C131_fewer_columns :
  forall pr umax n sch ps l, 1 <= n -> s_cols sch <> [] -> Forall (fun x => op_ty (s_cols sch) (op_of (fst x))) ps -> cut_program n ps ->
  talks pr umax (Free (t_new sch)) (map fst ps) = Ok l ->
  talks pr umax (Free (t_new (cut_sch n sch))) (left_calls ps) = Ok (left_answers n ps l).
Proof. exact (fun pr umax n s ps l N => cut_talks pr umax n N s ps l). Qed.
Print Assumptions C131_fewer_columns.

(** Two more columns. *)
Definition wide (k : kind) : schema := Sch k 7 [Plain TVec; Indexed TVec; Indexed TVec; Plain TBool].
Definition wide_row (a b c : Z) (d : bool) : row := [VInt a; VInt b; VInt c; VBool d].
Definition both (c : call) : call * option call := (c, Some c).
Definition smaller (r : row) : bool := match r with VInt z :: _ => Z.ltb z 3 | _ => false end.
Definition wide_program : list (call * option call) :=
  [both (Do OLock); (Do (OPushAll [wide_row 1 5 9 true; wide_row 2 5 8 false]), Some (Do (OPushAll [[VInt 1; VInt 5]; [VInt 2; VInt 5]])));
   both (Do (OFlush true ev_create)); (Do (OFind 2 (VInt 8)), None); both (Do (OFind 1 (VInt 5))); both (Do OLock); both (Do (ODelete 0)); both (Do (OFlush true ev_delete));
   both (Do OLock); (Do (OAssign 3 1 (VBool true)), None); (Do (OPush (wide_row 3 5 7 true)), Some (Do (OPush [VInt 3; VInt 5])));
   both (Do (OAssign 0 1 (VInt 6))); both (Do (OIter [ItNext; ItNext; ItNext]));
   both (Do (OGet 1))].
Definition wide_sorted : list (call * option call) :=
  [both (Do OLock); (Do (OMerge (by_col 0) [wide_row 4 5 9 true; wide_row 2 5 8 false; wide_row 3 1 1 true]), Some (Do (OMerge (by_col 0) [[VInt 4; VInt 5]; [VInt 2; VInt 5]; [VInt 3; VInt 1]])));
   (CRetain nat (fun k r => (k, negb (smaller r))) 0, Some (CRetain nat (fun k r => (k, negb (smaller r))) 0)); both (Do ODump);
   (CMergeLogged (by_col 0) [wide_row 1 1 1 true; wide_row 9 1 2 true], Some (CMergeLogged (by_col 0) [[VInt 1; VInt 1]; [VInt 9; VInt 1]])); (Do (OCell 2 0), None); both (Do ODump)].
Lemma by_first x y : by_col 0 (firstn 2 x) (firstn 2 y) = by_col 0 x y.
Proof. destruct x as [|a [|]], y as [|b [|]]; reflexivity. Qed.
Lemma smaller_first r : smaller (firstn 2 r) = smaller r.
Proof. destruct r; reflexivity. Qed.
Example C131_case :
  s_cols (wide Consistent) <> [] /\ cut_sch 2 (wide Consistent) = sch Consistent /\
  (forall k ps, In ps [wide_program; wide_sorted] -> Forall (fun x => op_ty (s_cols (wide k)) (op_of (fst x))) ps /\ cut_program 2 ps) /\
  (exists l, talks Debug 255 (Free (t_new (wide Consistent))) (map fst wide_program) = Ok l /\ nth 3 l ANothing = AIds [1] /\ nth 13 l ANothing = ARow (wide_row 6 5 8 true) /\
     talks Debug 255 (Free (t_new (sch Consistent))) (left_calls wide_program) =
       Ok [ANothing; ANothing; ANothing; AIds [0; 1]; ANothing; ANothing; ANothing; ANothing; AId (Some 0); ANothing; AItems [Some 0; Some 1; None] [[VInt 3; VInt 5]; [VInt 6; VInt 5]; []]; ARow [VInt 6; VInt 5]]) /\
  (exists l, talks Debug 255 (Free (t_new (wide Sorted))) (map fst wide_sorted) = Ok l /\
     talks Debug 255 (Free (t_new (sch Sorted))) (left_calls wide_sorted) =
       Ok [ANothing; ANothing; ANothing; ARows [[VInt 3; VInt 1]; [VInt 4; VInt 5]]; AIds [0; 3]; ARows [[VInt 1; VInt 1]; [VInt 3; VInt 1]; [VInt 4; VInt 5]; [VInt 9; VInt 1]]]).
Proof.
  split; [discriminate|]. split; [reflexivity|]. split; [|split].
  - intros k ps [<-|[<-|[]]]; split.
    + repeat (constructor; [first [vm_compute; repeat constructor; fail | intros t [= <-]; vm_compute; eauto; fail | idtac]|]). all: repeat constructor. all: vm_compute; eauto.
    + repeat (constructor; [cbn; first [apply fw_do; constructor; cbn; auto; fail | auto; fail]|]). constructor.
    + repeat (constructor; [first [vm_compute; repeat constructor; fail | idtac]|]). all: repeat constructor. all: vm_compute; eauto.
    + repeat (constructor; [cbn; first [apply fw_do; constructor; cbn; auto using by_first; fail | exact (fw_do 2 _ _ (fo_merge 2 (by_col 0) (by_col 0) [wide_row 4 5 9 true; wide_row 2 5 8 false; wide_row 3 1 1 true] by_first))
        | apply fw_retain; intros; rewrite smaller_first; reflexivity | exact (fw_logged 2 (by_col 0) (by_col 0) [wide_row 1 1 1 true; wide_row 9 1 2 true] by_first) | auto; fail]|]). constructor.
  - eexists. split; [vm_compute; reflexivity|]. split; [reflexivity|]. split; [reflexivity|]. vm_compute; reflexivity.
  - eexists. split; vm_compute; reflexivity.
Qed.

(** The other way: in a debug build, a program without calls that are only about the additional columns succeeds on the larger table if it does on the smaller one.  [all_legal]: it
    compiles and does not wait for its own lock, and uses no closures but those of Answers.v (as in C85). *)
Theorem C131_more_columns :
  forall umax n sch cs cs' l', 1 <= n -> s_cols sch <> [] -> Forall (call_ty (s_cols sch)) cs -> Forall (call_ty (s_cols (cut_sch n sch))) cs' -> Forall2 (fewer n) cs cs' ->
  all_legal sch false cs = true -> talks Debug umax (Free (t_new (cut_sch n sch))) cs' = Ok l' ->
  exists l, talks Debug umax (Free (t_new sch)) cs = Ok l /\ l' = map (cut_answer n) l.
Proof. exact cut_back. Qed.
Print Assumptions C131_more_columns.

(** A row is deleted and its id used again; then one more call fails for both. *)
Definition wide_calls : list call :=
  [Do OLock; Do (OPushAll [wide_row 1 5 9 true; wide_row 2 5 8 false]); Do (OFlush true ev_create); Do OLock; Do (ODelete 0); Do (OFlush true ev_delete);
   Do OLock; Do (OPush (wide_row 3 5 7 true)); Do (OGet 0)].
Definition cut_calls : list call :=
  [Do OLock; Do (OPushAll [[VInt 1; VInt 5]; [VInt 2; VInt 5]]); Do (OFlush true ev_create); Do OLock; Do (ODelete 0); Do (OFlush true ev_delete);
   Do OLock; Do (OPush [VInt 3; VInt 5]); Do (OGet 0)].
Example C131_more_case :
  Forall (call_ty (s_cols (wide Consistent))) wide_calls /\ Forall (call_ty (s_cols (cut_sch 2 (wide Consistent)))) cut_calls /\ Forall2 (fewer 2) wide_calls cut_calls /\
  all_legal (wide Consistent) false (wide_calls ++ [Do (ODelete 2)]) = true /\
  talks Debug 255 (Free (t_new (cut_sch 2 (wide Consistent)))) cut_calls = Ok [ANothing; ANothing; ANothing; ANothing; ANothing; ANothing; ANothing; AId (Some 0); ARow [VInt 3; VInt 5]] /\
  (exists c, talks Debug 255 (Free (t_new (cut_sch 2 (wide Consistent)))) (cut_calls ++ [Do (ODelete 2)]) = panic c) /\
  (exists c, talks Debug 255 (Free (t_new (wide Consistent))) (wide_calls ++ [Do (ODelete 2)]) = panic c).
Proof.
  split; [repeat constructor; vm_compute; eauto|]. split; [repeat constructor|]. split; [repeat (constructor; [apply fw_do; constructor; cbn; auto; fail|]); constructor|].
  split; [reflexivity|]. split; [vm_compute; reflexivity|]. split; eexists; vm_compute; reflexivity.
Qed.

(** C131 (refuted for an order of the rows that depends on a column that is left out).  Then no order of the smaller rows gives the same. *)
Theorem C131_order_refuted :
  exists l, talks Debug 255 (Free (t_new (wide Sorted)))
      [Do OLock; Do (OMerge (by_col 2) [wide_row 1 1 1 true; wide_row 2 2 2 true]); Do ODump; Do OClearRaw;
       Do (OMerge (by_col 2) [wide_row 1 1 2 true; wide_row 2 2 1 true]); Do ODump] = Ok l /\
    forall cmp, talks Debug 255 (Free (t_new (sch Sorted)))
      [Do OLock; Do (OMerge cmp [[VInt 1; VInt 1]; [VInt 2; VInt 2]]); Do ODump; Do OClearRaw;
       Do (OMerge cmp [[VInt 1; VInt 1]; [VInt 2; VInt 2]]); Do ODump] <> Ok (map (cut_answer 2) l).
Proof.
  eexists. split; [vm_compute; reflexivity|]. intro cmp. 
  pose proof (merge_first Debug 255 cmp [[VInt 1; VInt 1]; [VInt 2; VInt 2]]) as M.
  rewrite (M _ [Do OLock] _ : talks _ _ _ (_ :: _ :: _) = _). cbn [app]. rewrite (M _ [Do OLock; _; Do ODump; Do OClearRaw] _ : talks _ _ _ (_ :: _ :: _ :: _ :: Do (OMerge _ _) :: _) = _).
  unfold sort_rows, fold_right, ins_row. destruct (cmp _ _); vm_compute; discriminate.
Qed.
Print Assumptions C131_order_refuted.
