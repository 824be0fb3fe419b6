(** What C129 says of threads. *)
From Coq Require Import List Arith Bool.
From Verif Require Import Base Extract Threads.
Import ListNotations.

(** What a thread does next, as far as others can tell. *)
Inductive stage := Ended (r : res unit) | Forever | Wants (l : lock) (wr : bool) | GivesBack (l : lock) (wr : bool) | Touches.
Definition stage_of (m : prog unit) : stage :=
  match m with Ret r => Ended r | Endless => Forever | Acq l wr _ => Wants l wr | Rel l wr _ => GivesBack l wr | Act _ _ => Touches end.
(** The same universe; each thread has the same locks, and does the same kind of thing next, or has ended in the same way. *)
Definition alike (c c' : threads) : Prop :=
  th_x c = th_x c' /\ Forall2 (fun t t' => fst t = fst t' /\ stage_of (snd t) = stage_of (snd t')) (th_ts c) (th_ts c').
(** Some thread has stopped with the panic of an arithmetic overflow. *)
Definition one_overflowed (c : threads) : Prop := exists t, In t (th_ts c) /\ snd t = Ret (panic POverflow).
