(** Programs on groups of tables that have nothing to do with each other (C130). *)
From Coq Require Import List Arith Bool.
From Verif Require Import Base Column Table Events Cascade Answers DbHist.
Import ListNotations.

(** [g p]: the group of table [p].  The calls on tables of group [k]; handlers are for all tables. *)
Definition of_group (g : nat -> nat) (k : nat) (c : db_call) : bool :=
  match c with
  | On p _ | Flush p _ | LiveFlush p _ | RemoveRows p _ _ | WRemove p _ _ | Select p _ _ | Track p _ => g p =? k
  | Handle _ _ => true
  end.
(** Tables refer only to tables of their group. *)
Definition apart (g : nat -> nat) (cs : list db_call) : Prop := forall p q k key, In (Track p (TAuto q k key)) cs -> g q = g p.
(** Of what the calls of a program return, that of the calls of group [k]. *)
Definition part (g : nat -> nat) (k : nat) {A} (cs : list db_call) (l : list A) : list A := map snd (filter (fun x => of_group g k (fst x)) (combine cs l)).
