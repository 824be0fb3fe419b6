(** C132: the order in which columns are declared does not matter. *)
From Coq Require Import List Arith Bool ZArith.
From Verif Require Import Base Column Order RowRange Table Visit SortedTab TableSpec Hist Cases Answers PlainSpec PropsCut ChooseSpec ChooseFacts.
Import ListNotations.

(** C132.  [pi] lists the columns of the new declaration (all of them in another order, or some).  In a debug build the program, with rows and columns of the new declaration, succeeds
    on the new table exactly if the program does on the old one, and is told the same, rows with the columns of the new table; else both panic. *)
Theorem C132_order_of_columns :
  forall umax pi sch cs cs', pi <> [] -> NoDup pi -> Forall (fun k => k < length (s_cols sch)) pi ->
  Forall (call_ty (s_cols sch)) cs -> Forall (call_ty (s_cols (choose_sch pi sch))) cs' -> Forall2 (moved pi (length (s_cols sch))) cs cs' -> all_legal sch false cs = true ->
  match talks Debug umax (Free (t_new sch)) cs with
  | Ok l => talks Debug umax (Free (t_new (choose_sch pi sch))) cs' = Ok (map (choose_answer pi) l)
  | Err e => (exists c, e = EPanic c) /\ exists c, talks Debug umax (Free (t_new (choose_sch pi sch))) cs' = panic c
  end.
Proof. exact chosen. Qed.
Print Assumptions C132_order_of_columns.

(** The columns of [wide] turned around: the indexed ones are in the middle, the first one was last. *)
Definition around : list nat := [3; 2; 1; 0].
Definition turned_row (a b c : Z) (d : bool) : row := [VBool d; VInt c; VInt b; VInt a].
Definition old_calls : list call :=
  [Do OLock; Do (OMerge (by_col 0) [wide_row 4 5 9 true; wide_row 2 5 8 false; wide_row 3 1 1 true]); Do (OFind 2 (VInt 8)); Do (OAssign 3 0 (VBool true));
   CRetain nat (fun k r => (k, negb (Z.eqb (key 1 r) 1))) 0; CMergeLogged (by_col 0) [wide_row 1 1 1 true; wide_row 9 1 2 true]; Do (OCell 2 1); Do ODump].
Definition new_calls : list call :=
  [Do OLock; Do (OMerge (by_col 3) [turned_row 4 5 9 true; turned_row 2 5 8 false; turned_row 3 1 1 true]); Do (OFind 1 (VInt 8)); Do (OAssign 0 0 (VBool true));
   CRetain nat (fun k r => (k, negb (Z.eqb (key 2 r) 1))) 0; CMergeLogged (by_col 3) [turned_row 1 1 1 true; turned_row 9 1 2 true]; Do (OCell 1 1); Do ODump].
Lemma key_around k k' r : nth_error around k' = Some k -> length r = 4 -> key k' (choose_row around r) = key k r.
Proof. intros E L. destruct r as [|a [|b [|c [|d [|]]]]]; try discriminate L. destruct k' as [|[|[|[|[|]]]]]; cbn in E; try discriminate E; injection E as <-; reflexivity. Qed.
Lemma order_around : same_order around 4 (by_col 0) (by_col 3).
Proof. intros x y Hx Hy. unfold by_col. rewrite !(key_around 0 3) by (auto; reflexivity). reflexivity. Qed.
Example C132_case :
  NoDup around /\ Forall (fun k => k < length (s_cols (wide Sorted))) around /\ s_cols (choose_sch around (wide Sorted)) = [Plain TBool; Indexed TVec; Indexed TVec; Plain TVec] /\
  Forall (call_ty (s_cols (wide Sorted))) old_calls /\ Forall (call_ty (s_cols (choose_sch around (wide Sorted)))) new_calls /\ Forall2 (moved around 4) old_calls new_calls /\
  all_legal (wide Sorted) false old_calls = true /\
  talks Debug 255 (Free (t_new (wide Sorted))) old_calls =
    Ok [ANothing; ANothing; AIds [0]; ANothing; ANothing; AIds [0; 3]; AVal (VInt 8); ARows [wide_row 1 1 1 true; wide_row 2 5 8 true; wide_row 4 5 9 true; wide_row 9 1 2 true]] /\
  talks Debug 255 (Free (t_new (choose_sch around (wide Sorted)))) new_calls =
    Ok [ANothing; ANothing; AIds [0]; ANothing; ANothing; AIds [0; 3]; AVal (VInt 8); ARows [turned_row 1 1 1 true; turned_row 2 5 8 true; turned_row 4 5 9 true; turned_row 9 1 2 true]].
Proof.
  split; [repeat constructor; cbn; intuition discriminate|]. split; [repeat constructor|]. split; [reflexivity|].
  split; [repeat constructor; cbn; eauto; intros t [= <-]; vm_compute; eauto|]. split; [repeat constructor; cbn; eauto; intros t [= <-]; vm_compute; eauto|]. split.
  - constructor; [apply mv_same; exact I|]. constructor; [exact (mv_merge around 4 (by_col 0) (by_col 3) [wide_row 4 5 9 true; wide_row 2 5 8 false; wide_row 3 1 1 true] order_around)|].
    constructor; [apply mv_find; reflexivity|]. constructor; [apply mv_assign; reflexivity|]. constructor; [apply mv_retain; intros a r L; rewrite (key_around 1 2) by (auto; reflexivity); reflexivity|].
    constructor; [exact (mv_logged around 4 (by_col 0) (by_col 3) [wide_row 1 1 1 true; wide_row 9 1 2 true] order_around)|]. constructor; [apply mv_cell; reflexivity|]. constructor; [apply mv_same; exact I|constructor].
  - split; [reflexivity|]. split; vm_compute; reflexivity.
Qed.

(** C132 (refuted for a column that is there twice).  Only one of them is assigned. *)
Theorem C132_twice_refuted :
  exists pi sch cs cs' l, pi <> [] /\ Forall (fun k => k < length (s_cols sch)) pi /\
    Forall (call_ty (s_cols sch)) cs /\ Forall (call_ty (s_cols (choose_sch pi sch))) cs' /\ Forall2 (moved pi (length (s_cols sch))) cs cs' /\ all_legal sch false cs = true /\
    talks Debug 255 (Free (t_new sch)) cs = Ok l /\ exists l', talks Debug 255 (Free (t_new (choose_sch pi sch))) cs' = Ok l' /\ l' <> map (choose_answer pi) l.
Proof.
  exists [0; 0], (sch Append), [Do OLock; Do (OPush r1); Do (OAssign 0 0 (VInt 7)); Do (OGet 0)], [Do OLock; Do (OPush [VInt 1; VInt 1]); Do (OAssign 0 0 (VInt 7)); Do (OGet 0)]. eexists.
  split; [discriminate|]. split; [repeat constructor|]. split; [repeat constructor; intros t [= <-]; exact I|]. split; [repeat constructor; intros t [= <-]; exact I|]. split.
  - constructor; [apply mv_same; exact I|]. constructor; [exact (mv_push [0; 0] 2 r1)|]. constructor; [apply mv_assign; reflexivity|]. constructor; [apply mv_same; exact I|constructor].
  - split; [reflexivity|]. split; [vm_compute; reflexivity|]. eexists. split; [vm_compute; reflexivity|]. discriminate.
Qed.
Print Assumptions C132_twice_refuted.
