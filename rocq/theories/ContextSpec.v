(** Vocabulary of the properties of contexts. *)
From Coq Require Import List Arith Bool.
From Verif Require Import Base Context.
Import ListNotations.

(** All locks of a context or tuple of contexts. *)
Fixpoint locks_of (o : old_ctx) : list guard :=
  match o with
  | OldCtx gs => gs
  | OldUnit => []
  | OldTuple1 a => locks_of a
  | OldTuple2 a b => locks_of a ++ locks_of b
  | OldTuple3 a b c => locks_of a ++ locks_of b ++ locks_of c
  end.
(** The guards that exist are different ones and exclude each other as RwLock wants. *)
Definition world_ok (wd : world) : Prop :=
  NoDup (map g_id (wd_held wd)) /\ Forall (fun g => g_id g < wd_next wd) (wd_held wd) /\
  ForallOrdPairs (fun g h => conflict (g_ty g) (g_ty h) = false) (wd_held wd).
(** The names of lock types are unique, as the trait demands (src/context.rs:31-32). *)
Definition names_unique (ls : list lockty) : Prop :=
  forall a b, In a ls -> In b ls -> lt_name a = lt_name b -> a = b.
(** TypeIds differ, as Rust guarantees.  The names may collide: the one of a table's lock has no types of columns in it
    (macros/output.rs:1800-1815). *)
Definition ids_unique (ls : list lockty) : Prop :=
  forall a b, In a ls -> In b ls -> lt_tid a = lt_tid b -> a = b.
(** The world without these guards. *)
Definition world_without (wd : world) (gs : list guard) : world :=
  Wd (filter (fun h => negb (mem (g_id h) (map g_id gs))) (wd_held wd)) (wd_next wd) (wd_trace wd).
