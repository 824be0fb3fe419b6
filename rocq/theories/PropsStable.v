(** C90: what a row id stands for. *)
From Coq Require Import List Arith Bool ZArith.
From Verif Require Import Base Column Order RowRange Table SortedTab Events Cascade Hist Answers DbHist StableSpec StableFacts Cases StableCases.
Import ListNotations.

(** In a consistent table an id stands for the same row, with the same values, as long as there is a row under it into which nothing is
    stored: whatever the program does to this table and others meanwhile, flushes, trackers and cascades included. *)
Theorem C90_stable pr umax fuel schs d p sch i d' :
  comes_to pr umax fuel schs d -> nth_error schs p = Some sch -> s_kind sch = Consistent ->
  left_alone pr umax fuel p i d d' -> row_in d' p i = row_in d p i.
Proof. exact (stable pr umax fuel schs d p sch i d'). Qed.
Print Assumptions C90_stable.

(** And the row stays there: only flushes (and what else runs trackers and handlers) and [clear_raw] take rows away.
    In particular [delete] and [clear] themselves do not. *)
Theorem C90_stays pr umax fuel schs d p sch i r c d' a :
  comes_to pr umax fuel schs d -> nth_error schs p = Some sch -> s_kind sch = Consistent ->
  row_in d p i = Some r -> db_step pr umax fuel d c = Ok (d', a) -> (forall j, ~ stores c p j) -> ~ may_take c p ->
  row_in d' p i = Some r.
Proof. exact (kept pr umax fuel schs d p sch i r c d' a). Qed.
Print Assumptions C90_stays.

(** In tables of every other kind it is not so. *)
Theorem C90_other_kinds_refuted pr k : k <> Consistent ->
  exists umax fuel d d' i, comes_to pr umax fuel [sch k] d /\ left_alone pr umax fuel 0 i d d' /\ row_in d 0 i = Some r2 /\ row_in d' 0 i = Some r3.
Proof. intros N. exists 255, 3, (filled pr k), (dropped pr k), 1. exact (shifted pr k N). Qed.
Print Assumptions C90_other_kinds_refuted.

(** Table 1 refers to rows of table 0.  Deleting row 0 of table 0, which deletes row 0 of table 1, pushing again and storing elsewhere
    leave row 1 of both tables alone; row 0 of table 0 is another row afterwards, for the id is used again. *)
Definition pair_of_tables := [sch Consistent; sch Consistent].
Definition setup : list db_call :=
  [Track 0 (TAuto 1 1 false);
   On 0 (Do OLock); On 0 (Do (OPushAll [r1; r2])); Flush 0 ev_create;
   On 1 (Do OLock); On 1 (Do (OPushAll [[VInt 10; VRow 0]; [VInt 11; VRow 1]])); Flush 1 ev_create].
Definition busy : list db_call :=
  [On 0 (Do OLock); On 0 (Do (ODelete 0)); Flush 0 ev_delete;
   On 0 (Do OLock); On 0 (Do (OPush r3)); On 0 (Do (OAssign 0 0 (VInt 9))); Flush 0 ev_create].
Definition pair_then := or_new (db_after Debug (db_new pair_of_tables) setup).
Definition pair_later := or_new (db_after Debug pair_then busy).
Example C90_case :
  comes_to Debug 255 3 pair_of_tables pair_then /\
  left_alone Debug 255 3 0 1 pair_then pair_later /\ left_alone Debug 255 3 1 1 pair_then pair_later /\
  row_in pair_then 0 1 = Some r2 /\ row_in pair_then 1 1 = Some [VInt 11; VRow 1] /\
  row_in pair_later 0 1 = Some r2 /\ row_in pair_later 1 1 = Some [VInt 11; VRow 1] /\
  row_in pair_then 0 0 = Some r1 /\ row_in pair_later 0 0 = Some [VInt 9; VInt 6] /\ row_in pair_then 1 0 = Some [VInt 10; VRow 0] /\ row_in pair_later 1 0 = None.
Proof.
  split; [|split; [|split]].
  - apply (after_comes Debug _ setup (db_new pair_of_tables)); [constructor|vm_compute; reflexivity].
  - apply (after_alone Debug 0 1 busy). vm_compute. reflexivity.
  - apply (after_alone Debug 1 1 busy). vm_compute. reflexivity.
  - vm_compute. repeat split.
Qed.
Definition pair_locked := or_new (db_after Debug pair_then [On 0 (Do OLock)]).
Definition pair_marked := or_new (db_after Debug pair_then [On 0 (Do OLock); On 0 (Do (ODelete 1))]).
Example C90_stays_case :
  comes_to Debug 255 3 pair_of_tables pair_locked /\ row_in pair_locked 0 1 = Some r2 /\
  db_step Debug 255 3 pair_locked (On 0 (Do (ODelete 1))) = Ok (pair_marked, ANothing) /\
  (forall j, ~ stores (On 0 (Do (ODelete 1))) 0 j) /\ ~ may_take (On 0 (Do (ODelete 1))) 0 /\ row_in pair_marked 0 1 = Some r2.
Proof.
  split; [|split; [|split; [|split; [|split]]]].
  - apply (after_comes Debug _ (setup ++ [On 0 (Do OLock)]) (db_new pair_of_tables)); [constructor|vm_compute; reflexivity].
  - vm_compute. reflexivity.
  - vm_compute. reflexivity.
  - intros j (k & v & E). discriminate E.
  - intros [].
  - vm_compute. reflexivity.
Qed.
