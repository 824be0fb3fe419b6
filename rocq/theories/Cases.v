(** Small concrete tables for the examples beside the property theorems. *)
From Coq Require Import List Arith Bool ZArith.
From Verif Require Import Base Column Order RowRange Table Visit SortedTab BagTab TableSpec Hist.
Import ListNotations.

(** A table with an ordinary and an indexed column and row ids 0..7. *)
Definition sch (k : kind) : schema := Sch k 7 [Plain TVec; Indexed TVec].
Definition r1 : row := [VInt 1; VInt 5].
Definition r2 : row := [VInt 2; VInt 5].
Definition r3 : row := [VInt 3; VInt 6].
Definition at_end (k : kind) (ops : list op) : option state :=
  match run Debug 255 (Free (t_new (sch k))) ops with Ok st => Some st | Err _ => None end.
Definition three := [OLock; OPushAll [r1; r2; r3]; OFlush true ev_create].
(** Rows 0 and 2 of three; row 1 is deleted. *)
Definition hole := three ++ [OLock; ODelete 1; OFlush true ev_delete].
Lemma reachable_case k ops st : Forall (op_ty (s_cols (sch k))) ops -> at_end k ops = Some st ->
  reachable Debug 255 (sch k) st.
Proof.
  unfold at_end. intros T H. split; [discriminate|]. exists ops. split; auto.
  destruct (run _ _ _ _); congruence.
Qed.
Ltac reached ops :=
  match goal with |- reachable _ _ (sch ?k) _ =>
    let x := eval vm_compute in (at_end k ops) in
    match x with Some ?st => apply (reachable_case k ops st); [repeat constructor|vm_compute; reflexivity] end
  end.

(** No call of the history empties columns. *)
Fixpoint never_empties (st : state) (ops : list op) : bool :=
  match ops with
  | [] => true
  | o :: ops => negb (empties st o) &&
      match step Debug 255 st o with Ok st => never_empties st ops | Err _ => false end
  end.
Lemma sane_run s ops : forall st st', sane Debug 255 s st -> Forall (op_ty (s_cols s)) ops ->
  never_empties st ops = true -> run Debug 255 st ops = Ok st' -> sane Debug 255 s st'.
Proof.
  induction ops as [|o ops IH]; intros st st' S T N H.
  - injection H as <-. exact S.
  - unfold run in H. cbn [fold_res never_empties] in *. destruct (step Debug 255 st o) as [st1|] eqn:E; [|discriminate].
    apply andb_true_iff in N. destruct N as [N1 N2]. apply negb_true_iff in N1.
    inversion_clear T. apply (IH st1); auto. apply (sane_step _ _ _ st o); auto. intro X. congruence.
Qed.
Lemma sane_case k ops st : Forall (op_ty (s_cols (sch k))) ops -> never_empties (Free (t_new (sch k))) ops = true ->
  at_end k ops = Some st -> sane Debug 255 (sch k) st.
Proof.
  unfold at_end. intros T N H. eapply sane_run; eauto; [constructor; discriminate|].
  destruct (run _ _ _ _); congruence.
Qed.
Ltac sane_by ops :=
  match goal with |- sane _ _ (sch ?k) _ =>
    let x := eval vm_compute in (at_end k ops) in
    match x with Some ?st => apply (sane_case k ops st); [repeat constructor|vm_compute; reflexivity|vm_compute; reflexivity] end
  end.
Ltac calc := vm_compute; reflexivity.
Ltac calcs := repeat match goal with |- _ /\ _ => split end; calc.

(** Ordering by the integer in column [k]. *)
Definition key (k : nat) (r : row) : Z := match nth_error r k with Some (VInt z) => z | _ => 0%Z end.
Definition by_col (k : nat) (r r' : row) : comparison := Z.compare (key k r) (key k r').
Lemma by_col_order k : total_preorder (by_col k).
Proof.
  split; unfold by_col.
  - intros x y. apply Z.compare_antisym.
  - intros x y z. rewrite !Z.compare_le_iff. apply Z.le_trans.
Qed.
