(** Concrete programs for PropsCaught.v. *)
From Coq Require Import List Arith Bool ZArith.
From Verif Require Import Base Column Order RowRange Table Visit SortedTab BagTab TableSpec Hist Unwind UnwindSpec UnwindCases CaughtSpec.
From Verif Require Cases.
Import ListNotations.
Local Open Scope nat_scope.
Local Notation r1 := Cases.r1.
Local Notation r2 := Cases.r2.
Local Notation r3 := Cases.r3.

(** No call of the program empties columns, and there are never too many rows. *)
Fixpoint fits (s : schema) (st : state) (l : list ((key -> list key -> bool) * uop)) : bool :=
  match l with
  | [] => true
  | c :: l => negb (empties st (calm (snd c))) &&
      match ustep Debug 255 st c with Live st => (t_len (st_tab st) <=? S (s_imax s)) && fits s st l | _ => false end
  end.
Lemma caught_case s l : forall st st', caught true Debug 255 s st -> Forall (fun c => uop_ok s (snd c)) l -> Forall no_ord_panic l ->
  fits s st l = true -> urun Debug 255 st l = Live st' -> caught true Debug 255 s st'.
Proof.
  induction l as [|c l IH]; intros st st' C U N F R.
  - injection R as <-. exact C.
  - cbn [fits] in F. unfold urun in R. cbn [fold_left ustep_all] in R. inversion_clear U. inversion_clear N.
    apply andb_true_iff in F. destruct F as [F1 F2]. destruct (ustep Debug 255 st c) as [st1| | |] eqn:E; try discriminate.
    apply andb_true_iff in F2. destruct F2 as [F2 F3]. apply (IH st1); auto.
    apply (caught_step _ _ _ _ st c); auto; [|apply Nat.leb_le; exact F2]. intros _ X. rewrite X in F1. discriminate.
Qed.
(** A tracker panics at the creation of three rows, an iterator after a fourth, deleting a row that is not there
    panics, and so does flushing the deletion of row 1: the row is still there. *)
Definition bumpy : list ((key -> list key -> bool) * uop) :=
  [calmly (UCall OLock); calmly (UPushAll [r1; r2; r3] false); calmly (ULiveFlush true true ev_create);
   calmly (UPushAll [r3] true); calmly (UDelete 6); calmly (ULiveFlush true false ev_create);
   calmly (UDelete 1); calmly (ULiveFlush true true ev_delete); calmly (UDelete 0); calmly (ULiveFlush true false ev_delete);
   calmly (UPush r2)].
(** More rows than the ids 0 and 1. *)
Definition small : schema := Sch Append 1 [Plain TVec; Indexed TVec; Plain TVec].
Definition too_many : list ((key -> list key -> bool) * uop) :=
  [calmly (UCall OLock); calmly (UPush [VInt 1; VInt 1; VInt 1]); calmly (UPush [VInt 2; VInt 2; VInt 2]); calmly (UPush [VInt 3; VInt 3; VInt 3])].
(** A bag deletes its first row, [Ord] panics at the last change of the index. *)
Definition halfway : list ((key -> list key -> bool) * uop) :=
  [calmly (UCall OLock); calmly (UPushAll [r1; r3] false); (fun k _ => match k with (VInt 6, 0) => true | _ => false end, UDelete 0)].
(** Row 9 is selected for deletion, there are two rows. *)
Definition beyond : list ((key -> list key -> bool) * uop) :=
  [calmly (UCall OLock); calmly (UPushAll [r1; r2] false); calmly (ULiveFlush true false ev_create); calmly (UCall (OSelect 6))].
