(** Concrete programs for PropsUnwind.v. *)
From Coq Require Import List Arith Bool ZArith.
From Verif Require Import Base Column Order RowRange Table Visit SortedTab BagTab TableSpec Hist Unwind UnwindSpec UnwindUb.
From Verif Require Cases.
Import ListNotations.
Local Open Scope nat_scope.
Local Notation r1 := Cases.r1.
Local Notation r2 := Cases.r2.
Local Notation r3 := Cases.r3.

Definition calmly (o : uop) : (key -> list key -> bool) * uop := (fun _ _ => false, o).
(** A tracker that panics, a closure that panics at the third row, an iterator that panics after one row, and then
    the table is read. *)
Definition rough : list ((key -> list key -> bool) * uop) :=
  [calmly (UCall OLock); calmly (UPushAll [r1; r2; r3] false); calmly (ULiveFlush true true ev_create);
   calmly (URetain nat (fun n _ _ => (Datatypes.S n, nth_error [false; true] n)) 0);
   calmly (UPushArray [r1] true); calmly (UCell 1 3); calmly (UCall (OIter [ItNext; ItNext; ItNext; ItNext; ItNext]))].
(** The tables of the examples are such: [Ord] panics at the second row, the row is there all the same, but not in
    the index. *)
Definition unindexed : list ((key -> list key -> bool) * uop) :=
  [calmly (UCall OLock); calmly (UPush r1); (second, UPush r2); calmly (UCell 0 1); calmly (UCell 1 1)].

(** Removes the first two rows and panics at the fourth. *)
Definition picky (s : unit) (w : wlock) (i : nat) : unit * option bool := (s, nth i [Some false; Some false; Some true] None).
Definition r4 : row := [VInt 4; VInt 7].
(** Adds a row after the first one and panics at the third. *)
Definition greedy (s : unit) (w : wlock) (i : nat) : unit * uaction :=
  (s, nth i [UContinue false [r4] false; UContinue false [] false] UPanic).
(** A [log] that panics at its second call. *)
Definition log_once (n : nat) (w : wlock) (i : nat) : option nat := nth_error [1] n.
