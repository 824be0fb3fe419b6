(** Vocabulary of the property of selections (C107). *)
From Coq Require Import List Arith.
From Verif Require Import Base AnySlice Selects.
Import ListNotations.

(** The rows pushed *)
Fixpoint pushed (os : list sel_op) : list nat :=
  match os with [] => [] | SPush r :: os => r :: pushed os | _ :: os => pushed os end.
(** All that an iterator gives *)
Definition gives (i : sel_iter) (l : list nat) : Prop := forall n, length l < n -> si_take n i = l.
