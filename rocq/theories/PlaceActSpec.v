(** The place of tables in a database whose trackers act (C138). *)
From Coq Require Import List Arith Bool.
From Verif Require Import Base Column Table Events Cascade Answers DbHist Acting PlaceSpec.
Import ListNotations.

Section Place.
(** There are [n] tables; table [p] becomes table [sg p]. *)
Variables (sg : nat -> nat) (n : nat).
(** The same plan with the tables at their new places. *)
Inductive same_plan : plan -> plan -> Prop :=
| sp_end : same_plan PEnd PEnd
| sp_panic : same_plan PPanic PPanic
| sp_call c k k' : about n c -> (forall x, same_plan (k x) (k' x)) -> same_plan (PThen (Call c) k) (PThen (Call (place_call sg c)) k')
| sp_hand c ev rows k k' : c < n -> (forall x, same_plan (k x) (k' x)) -> same_plan (PThen (Hand c ev rows) k) (PThen (Hand (sg c) ev rows) k')
| sp_run c ev rows k k' : c < n -> (forall x, same_plan (k x) (k' x)) -> same_plan (PThen (Run c ev rows) k) (PThen (Run (sg c) ev rows) k').
(** Trackers do the same if they were told the same. *)
Definition same_trackers (react react' : list note -> plan) : Prop := forall log, same_plan (react log) (react' (map (place_note sg) log)).
End Place.
