(** Property theorems about selections, C107. *)
From Coq Require Import List Arith Bool Permutation Sorted.
From Verif Require Import Base AnySlice Selects SelectsSpec SelectsFacts.
Import ListNotations.

(** C107.  Whatever a program does with a selection of some rows, handing it through the erased form included, it selects these rows and
    those pushed, as often as they were pushed. *)
Theorem C107_made : forall l os, exists s, sel_run os (SelThese l) = Ok s /\ se_is_all s = false /\
  (se_is_empty s = true <-> l = [] /\ pushed os = []) /\
  exists l', se_unwrap s = Ok l' /\ Permutation l' (l ++ pushed os) /\ forall all, gives (se_iter_or_all s all) l'.
Proof. exact made. Qed.
Print Assumptions C107_made.
(** C107.  They come in the order in which they were pushed, and after [sort] in order of the ids. *)
Theorem C107_order : forall l a b, ~ In SSort b ->
  sel_run b (SelThese l) = Ok (SelThese (l ++ pushed b)) /\
  exists l', sel_run (a ++ SSort :: b) (SelThese l) = Ok (SelThese (l' ++ pushed b)) /\ Permutation l' (l ++ pushed a) /\ StronglySorted le l'.
Proof. exact made_order. Qed.
Print Assumptions C107_order.
(** C107.  A selection of all rows stays one; it is not empty even if there are no rows. *)
Theorem C107_all : forall os, exists s, sel_run os SelAll = Ok s /\ se_is_all s = true /\ se_is_empty s = false /\ se_unwrap s = panic PUnwrap /\
  forall all, gives (se_iter_or_all s all) all.
Proof. exact made_all. Qed.
Print Assumptions C107_all.
(** C107.  Another table refuses the erased selection, unless it is of all rows: then it takes it for all of its own. *)
Theorem C107_other : forall ty ty' s, ty <> ty' ->
  se_downcast ty' (se_as_any ty s) = match s with SelAll => Ok SelAll | _ => panic PWrongRows end.
Proof. exact other_table. Qed.
Print Assumptions C107_other.
Example C107_case :
  sel_run [SPush 5; SReserve 9; SPush 2; SRound 1; SSort; SPush 3; SPush 2] (SelThese [4]) = Ok (SelThese [2; 4; 5; 3; 2]) /\
  gives (se_iter_or_all (SelThese [2; 4; 5; 3; 2]) [0; 1]) [2; 4; 5; 3; 2] /\
  sel_run [SPush 5; SSort; SRound 1] SelAll = Ok SelAll /\ gives (se_iter_or_all SelAll [0; 1]) [0; 1] /\
  se_is_empty (SelThese []) = true /\ se_downcast 2 (se_as_any 1 (SelThese [4])) = panic PWrongRows.
Proof. split; [reflexivity|]. split; [intros n; apply take_these|]. split; [reflexivity|]. split; [intros n; apply take_all|]. split; reflexivity. Qed.
