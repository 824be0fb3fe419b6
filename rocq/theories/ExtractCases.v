(** A small universe for the examples of PropsExtract.v. *)
From Coq Require Import List Arith Bool ZArith Lia String.
From Verif Require Import Base Names Column Order RowRange Table Visit SortedTab BagTab TableSpec Hist Cases Events Cascade
  CascadeSpec CascadeCases Extract ExtractSpec.
Import ListNotations.

(** Saved: table 0 with rows 0 and 2; table 1, that refers to them with column 1; the sorted table 2, that refers to them
    with column 0. *)
Definition kids2 := [OLock; OPushAll [[VInt 10; VRow 2]; [VInt 11; VRow 0]]; OFlush true ev_create].
Definition ranked2 := [OLock; OMerge by_key [[VRow 0; VInt 1]; [VRow 2; VInt 4]]; OFlush true ev_create].
Definition src_p := Eval vm_compute in tab_of (at_end Consistent hole).
Definition src_c := Eval vm_compute in tab_of (at_end Consistent kids2).
Definition src_s := Eval vm_compute in tab_of (at_end Sorted ranked2).
(** Restored into: tables that have a row already, and a hole. *)
Definition home_p := [OLock; OPushAll [[VInt 7; VInt 7]; r2; [VInt 9; VInt 9]]; OFlush true ev_create; OLock; ODelete 1; OFlush true ev_delete].
Definition home_c := [OLock; OPush [VInt 8; VRow 2]; OFlush true ev_create].
Definition dst_p := Eval vm_compute in tab_of (at_end Consistent home_p).
Definition dst_c := Eval vm_compute in tab_of (at_end Consistent home_c).
Definition heads (p : nat) : header :=
  HD 1 (nm "D") (match p with 0 => nm "parents" | 1 => nm "kids" | _ => nm "ranked" end) 1
     [CM (nm "a") (nm "X") 0; CM (nm "b") (nm "Y") 0].
Definition foreign (p : nat) : list (nat * nat) := match p with 1 => [(1, 0)] | 2 => [(0, 0)] | _ => [] end.
Definition order (_ : nat) := by_key.
Definition world (tp tc ts : table) : xuni :=
  XU (Uni [tp; tc; ts] [[TAuto 1 1 false; TAuto 2 0 true]] default_handlers []) [fs_new; fs_new; fs_new].
Definition x0 := Eval vm_compute in world dst_p dst_c (t_new (sch Sorted)).
(** All tables empty. *)
Definition x_empty := Eval vm_compute in world (t_new (sch Consistent)) (t_new (sch Consistent)) (t_new (sch Sorted)).
Definition got (x : res extraction) : extraction := match x with Ok e => e | Err _ => EX (heads 0) [] [] end.
Definition e_p := Eval vm_compute in got (extract_selection Debug (heads 0) src_p SAll).
Definition e_c := Eval vm_compute in got (extract_selection Debug (heads 1) src_c SAll).
Definition e_s := Eval vm_compute in got (extract_selection Debug (heads 2) src_s SAll).
(** Only row 0 of table 0. *)
Definition e_p0 := Eval vm_compute in got (extract_selection Debug (heads 0) src_p (SThese [0])).
Definition after (x : res (xuni * option verror)) : xuni := match x with Ok y => fst y | Err _ => x0 end.
Definition x1 := Eval vm_compute in after (restore Debug 255 heads foreign order 3 x0 [] 0 e_p ev_create).
Definition x2 := Eval vm_compute in after (restore Debug 255 heads foreign order 3 x1 [] 1 e_c ev_create).

Lemma trackers_case tp tc ts p c k key : In (TAuto c k key) (u_trackers (xu_u (world tp tc ts)) p) ->
  (p, c, k, key) = (0, 1, 1, false) \/ (p, c, k, key) = (0, 2, 0, true).
Proof.
  destruct p as [|p]; cbn.
  - intros [H|[H|[]]]; inversion H; subst; auto.
  - destruct p; intros [].
Qed.
Lemma x_empty_linked : linked Debug 255 town_rank (xu_u x_empty).
Proof.
  split.
  - intros p c k key H. apply trackers_case in H. destruct H as [H|H]; inversion H; subst; clear H.
    + split; [cbn; lia|]. exists (t_new (sch Consistent)), (Indexed TVec). split; [reflexivity|].
      split; [apply sane_new; discriminate|]. split; [vm_compute; lia|]. split; [reflexivity|]. split; [left; reflexivity|eauto].
    + split; [cbn; lia|]. exists (t_new (sch Sorted)), (Plain TVec). split; [reflexivity|].
      split; [apply sane_new; discriminate|]. split; [vm_compute; lia|]. split; [reflexivity|]. split; [reflexivity|].
      intros i j r s a b L Hr. vm_compute in Hr. destruct i; discriminate.
  - intros p t H K. destruct p as [|[|[|p]]]; inversion H; subst; try (elim K; reflexivity); try reflexivity.
Qed.

Definition x1' := Eval vm_compute in after (restore Debug 255 heads foreign order 3 x0 [] 0 e_p0 ev_create).
(** Too few columns. *)
Definition e_short := EX (HD 1 (nm "D") (nm "parents") 1 [CM (nm "a") (nm "X") 0]) [] [].
(** Another version of the schema. *)
Definition e_other := EX (HD 1 (nm "D") (nm "parents") 2 [CM (nm "a") (nm "X") 0]) [] [].
(** Restore, then [live_flush]. *)
Definition leak_ops := [XRestore 0 e_p ev_create; XLive 0 [OSelect 0] ev_create].
Definition x_of (x : res xuni) : xuni := match x with Ok x => x | Err _ => x0 end.
Definition x_leak := Eval vm_compute in x_of (x_run Debug 255 heads foreign order 3 x0 leak_ops).
