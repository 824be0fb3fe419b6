(** Vocabulary of the properties of threads that panic. *)
From Coq Require Import List Arith Bool.
From Verif Require Import Base Names Column RowRange Table SortedTab TableSpec Hist Events Cascade CascadeSpec Extract Threads ThreadSpec Poison.
Import ListNotations.

(** All threads at their beginning, and no lock poisoned. *)
Definition begun (x : xuni) (ms : list (prog unit)) : crowd := CR (started x ms) [].
(** The two threads are at the same point, and have the same locks unless they panicked. *)
Definition alike (t t' : guards * prog unit) : Prop := snd t = snd t' /\ owned t = owned t'.
(** The tables and trackers whose locks are not poisoned are the same. *)
Definition same_but (bad : list lock) (x y : xuni) : Prop :=
  (forall p, ~ In (LT p) bad -> nth_error (u_tabs (xu_u y)) p = nth_error (u_tabs (xu_u x)) p) /\
  (forall p, ~ In (LF p) bad -> behind y p = behind x p).
(** Finished and everything given back. *)
Definition gone (t : guards * prog unit) : Prop := finished t /\ fst t = [].
(** Thread [i] can do something now, under the strictest rule; or it panicked and has locks to give back. *)
Definition crowd_on (d : crowd) (i : nat) : Prop :=
  exists t, nth_error (th_ts (cr_c d)) i = Some t /\
  match snd t with
  | Ret (Err _) => fst t <> []
  | Ret (Ok _) | Endless => False
  | Acq l wr _ => free_for (cr_c d) l wr /\ (wr = false -> forall t' k, In t' (th_ts (cr_c d)) -> snd t' <> Acq l true k)
  | Rel _ _ _ | Act _ _ => True
  end.
