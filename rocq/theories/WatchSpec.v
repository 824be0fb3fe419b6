(** Programs with and without some of their trackers (C126). *)
From Coq Require Import List Arith Bool.
From Verif Require Import Base Column Table Events Cascade Answers DbHist.
Import ListNotations.

(** The calls of a program are marked: [false] for some that register a tracker which only watches and does not ask for ids in order. *)
Definition quiet (tr : tracker) : Prop := exists f, tr = TUser false f.
Definition droppable (x : db_call * bool) : Prop := snd x = true \/ exists p tr, fst x = Track p tr /\ quiet tr.
(** The program without these. *)
Definition thinner (mcs : list (db_call * bool)) : list db_call := map fst (filter snd mcs).
(** The marks of the trackers of table [p], in the order they are registered. *)
Definition marks (mcs : list (db_call * bool)) (p : nat) : list bool :=
  flat_map (fun x => match fst x with Track q _ => if q =? p then [snd x] else [] | _ => [] end) mcs.
(** What is told to the trackers that are left: their positions are those among them. *)
Definition heard (ms : nat -> list bool) (n : note) : list note :=
  if nth (n_pos n) (ms (n_table n)) false
  then [Note (n_table n) (length (filter (fun b => b) (firstn (n_pos n) (ms (n_table n))))) (n_event n) (n_rows n)] else [].
(** What the calls that are left return, and what those trackers are told meanwhile. *)
Definition thinner_talk (mcs : list (db_call * bool)) (l : list (answer * list note)) : list (answer * list note) :=
  map (fun x => (fst (snd x), flat_map (heard (marks mcs)) (snd (snd x)))) (filter (fun x => snd (fst x)) (combine mcs l)).
