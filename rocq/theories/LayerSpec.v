(** Programs with and without the tables that refer to the others (C128). *)
From Coq Require Import List Arith Bool.
From Verif Require Import Base Column Table Events Cascade Answers DbHist WatchSpec.
Import ListNotations.

(** Some of the tables are [out].  A call that is not about them: neither on such a table nor registering such a table as one that refers to another. *)
Definition inner (out : nat -> bool) (c : db_call) : bool :=
  match c with
  | On p _ | Flush p _ | LiveFlush p _ | RemoveRows p _ _ | WRemove p _ _ | Select p _ _ | Track p (TUser _ _) => negb (out p)
  | Track p (TAuto q _ _) => negb (out p) && negb (out q)
  | Handle _ _ => true
  end.
(** Tables that are [out] may refer to those that are not, but not the other way; and if they do they are consistent. *)
Definition layered (out : nat -> bool) (schs : list schema) (cs : list db_call) : Prop :=
  forall p q k key, In (Track p (TAuto q k key)) cs ->
    (out p = true -> out q = true) /\ (out p = false -> out q = true -> exists s, nth_error schs q = Some s /\ s_kind s = Consistent).
(** The calls, and whether they stay. *)
Definition split_calls (out : nat -> bool) (cs : list db_call) : list (db_call * bool) := map (fun c => (c, inner out c)) cs.
