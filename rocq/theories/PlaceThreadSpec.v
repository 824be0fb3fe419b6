(** The place of tables for threads (C138). *)
From Coq Require Import List Arith Bool.
From Verif Require Import Base Column Table Events Cascade Extract Threads PlaceSpec PlaceXSpec ThreadBuildSpec.
Import ListNotations.

Section Place.
(** Table [p] becomes table [sg p]. *)
Variable sg : nat -> nat.
Definition place_lock (l : lock) : lock := match l with LT p => LT (sg p) | LF p => LF (sg p) end.
Definition place_guards (g : guards) : guards := map (fun x => (place_lock (fst x), snd x)) g.
Definition place_stage (s : stage) : stage :=
  match s with Wants l wr => Wants (place_lock l) wr | GivesBack l wr => GivesBack (place_lock l) wr | _ => s end.
Definition place_top (o : top) : top :=
  match o with
  | TDo o => TDo (place_xop sg o)
  | TSelect p ev s => TSelect (sg p) ev s
  | TLocks ls => TLocks (map (fun x => (sg (fst x), snd x)) ls)
  end.
(** The same universe with the tables at their new places; each thread has the same locks and does the same kind of thing next, or has ended in the same way. *)
Definition alike_placed (c c' : threads) : Prop :=
  x_placed sg (th_x c) (th_x c') /\
  Forall2 (fun t t' => fst t' = place_guards (fst t) /\ stage_of (snd t') = place_stage (stage_of (snd t))) (th_ts c) (th_ts c').
End Place.
(** The call is about tables that there are, [n] in all. *)
Definition top_about (n : nat) (o : top) : Prop :=
  match o with TDo o => x_about n o | TSelect p _ _ => p < n | TLocks ls => Forall (fun x => fst x < n) ls end.
