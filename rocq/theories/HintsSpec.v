(** Vocabulary of the property of size hints. *)
From Coq Require Import List Arith Bool.
From Verif Require Import Base RowRange Hints.
Import ListNotations.

(** What [next] gives until it gives nothing. *)
Inductive yields (pr : profile) (imax : nat) : hiter -> list nat -> Prop :=
| Y_end h h' : h_next pr imax h = Ok (h', None) -> yields pr imax h []
| Y_more h h' x l : h_next pr imax h = Ok (h', Some x) -> yields pr imax h' l -> yields pr imax h (x :: l).

(** The iterators that a program can make: over a range of a locked table of [len] rows (with the free list of a consistent one), over a range
    alone, or over a selection. *)
Inductive made (imax len : nat) : hiter -> Prop :=
| M_checked r it : ci_from len r = Ok it -> made imax len (HChecked it)
| M_consistent r it free : ci_from len r = Ok it -> made imax len (HConsistent (cons_new it free))
| M_slow r : r_start r <= imax -> r_end r <= imax -> made imax len (HUnchecked (rr_iter_slow r))
| M_edit r free : r_start r <= imax -> r_end r <= imax -> made imax len (HEdit (cons_new (rr_iter_slow r) free))
| M_all h : made imax len h -> made imax len (HAll h)
| M_these l : made imax len (HThese l).

(** The position is past the end. *)
Fixpoint overrun (h : hiter) : Prop :=
  match h with
  | HChecked it | HUnchecked it => it_end it < it_i it
  | HConsistent _ | HEdit _ | HThese _ => False
  | HAll h => overrun h
  end.
(** No deleted rows are to be skipped, so that the number of rows is known. *)
Fixpoint counted (h : hiter) : Prop :=
  match h with HConsistent _ | HEdit _ => False | HAll h => counted h | HChecked _ | HUnchecked _ | HThese _ => True end.
(** What size_hint is to say if [n] items are to come. *)
Definition hint_ok (n : nat) (hint : nat * option nat) : Prop :=
  fst hint <= n /\ match snd hint with Some m => n <= m | None => True end.
(** Nothing is skipped but rows that are there. *)
Fixpoint skips_rows (pr : profile) (imax umax : nat) (ops : list it_op) (h : hiter) : Prop :=
  match ops with
  | [] => True
  | ItNext :: os => forall h' x, h_next pr imax h = Ok (h', x) -> skips_rows pr imax umax os h'
  | ItSkip n :: os => (forall l, counted h -> yields pr imax h l -> n <= length l) /\ forall h', h_skip pr imax umax h n = Ok h' -> skips_rows pr imax umax os h'
  end.
