(** What it means, for C87, that a call does not return: the loops of [visit], [retain] and [merge] cut off after a number
    of turns. *)
From Coq Require Import List Arith Bool.
From Verif Require Import Base Column RowRange Table Visit SortedTab.
Import ListNotations.

(** The loop of [visit] (macros/output.rs:1382-1410) cut off after [n] turns: [Err EFuel] if it is not done by then. *)
Definition visit_turns (pr : profile) {S} (f : S -> wlock -> nat -> S * action) (s : S) (w : wlock) (n : nat) :=
  rug_loop pr f n s w [] 0 0 false.
(** The closure [retain] passes on (macros/output.rs:1337-1345). *)
Definition keeping {S} (f : S -> wlock -> nat -> S * bool) (s : S) (w : wlock) (i : nat) : S * action :=
  (fst (f s w i), Continue (negb (snd (f s w i))) []).
(** The first loop of [merge] (macros/output.rs:1480-1482) cut off after [n] turns. *)
Definition merge_turns (pr : profile) (cmp : row -> row -> comparison) (t : table) (first : row) (n : nat) :=
  merge_skip pr cmp n t first 0.

(** However many turns the loop is given, it is not done. *)
Definition endless {A} (x : nat -> res A) : Prop := forall n, x n = Err EFuel.
(** The call returns or panics. *)
Definition ends {A} (x : res A) : Prop := (exists a, x = Ok a) \/ exists c, x = panic c.
