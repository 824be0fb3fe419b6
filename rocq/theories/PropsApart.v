(** C130: groups of tables that do not refer to each other have nothing to do with each other. *)
From Coq Require Import List Arith Bool ZArith.
From Verif Require Import Base Column Order RowRange Table SortedTab TableSpec Events Cascade Hist Cases Answers DbHist PropsDb WatchSpec PropsWatch ApartSpec ApartFacts.
Import ListNotations.

(** C130.  If a program succeeds, then so does the program that is left of it for each group alone, with the same answers, and the trackers are told the same. *)
Theorem C130_parts :
  forall pr umax fuel g schs cs l, apart g cs -> db_talks pr umax fuel (db_new schs) cs = Ok l ->
  forall k, db_talks pr umax fuel (db_new schs) (filter (of_group g k) cs) = Ok (part g k cs l).
Proof. exact parts. Qed.
Print Assumptions C130_parts.

(** If the program for each group succeeds alone, then so does the whole. *)
Theorem C130_whole :
  forall pr umax fuel g schs cs, apart g cs ->
  (forall k, exists l, db_talks pr umax fuel (db_new schs) (filter (of_group g k) cs) = Ok l) -> exists l, db_talks pr umax fuel (db_new schs) cs = Ok l.
Proof. exact whole. Qed.
Print Assumptions C130_whole.

(** So calls on tables of different groups may be made in any order. *)
Theorem C130_shuffle :
  forall pr umax fuel g schs cs cs' l, apart g cs -> (forall k, filter (of_group g k) cs' = filter (of_group g k) cs) ->
  db_talks pr umax fuel (db_new schs) cs = Ok l ->
  exists l', db_talks pr umax fuel (db_new schs) cs' = Ok l' /\ forall k, part g k cs' l' = part g k cs l.
Proof. exact shuffle. Qed.
Print Assumptions C130_shuffle.

(** Tables 0 and 2, and tables 1 and 3.  Group 0 is used while group 1 is locked, and the other way; or one after the other. *)
Definition four_tables := [sch Consistent; sch Consistent; sch Consistent; sch Sorted].
Definition odd_even (p : nat) : nat := if Nat.odd p then 1 else 0.
Definition mixed_up : list db_call :=
  [Track 0 (TAuto 2 1 false); Track 1 (TAuto 3 1 false); Track 0 watcher; Track 1 watcher; Handle ev_create HNull;
   On 0 (Do OLock); On 1 (Do OLock); On 0 (Do (OPushAll [r1; r2; r3])); On 1 (Do (OPushAll [r2; r3])); Flush 0 ev_create; On 2 (Do OLock);
   Flush 1 ev_create; On 3 (Do OLock); On 3 (Do (OMerge by_int [[VInt 3; VRow 1]; [VInt 1; VRow 0]])); On 2 (Do (OPushAll [[VInt 10; VRow 1]; [VInt 11; VRow 2]]));
   Flush 2 ev_create; On 0 (Do OLock); Flush 3 ev_create; On 1 (Do OLock); On 1 (Do (ODelete 0)); On 0 (Do (ODelete 1)); Flush 0 ev_delete; Flush 1 ev_delete;
   On 3 (Do ODump); On 2 (Do (OIter [ItNext; ItNext]))].
Definition sorted_out : list db_call :=
  [Track 0 (TAuto 2 1 false); Track 0 watcher; Track 1 (TAuto 3 1 false); Track 1 watcher; Handle ev_create HNull] ++
  filter (of_group odd_even 1) (skipn 5 mixed_up) ++ filter (of_group odd_even 0) (skipn 5 mixed_up).
Example C130_case :
  apart odd_even mixed_up /\ (forall k, filter (of_group odd_even k) sorted_out = filter (of_group odd_even k) mixed_up) /\ sorted_out <> mixed_up /\
  exists l l', db_talks Debug 255 3 (db_new four_tables) mixed_up = Ok l /\ db_talks Debug 255 3 (db_new four_tables) sorted_out = Ok l' /\
    part odd_even 0 sorted_out l' = part odd_even 0 mixed_up l /\ part odd_even 1 sorted_out l' = part odd_even 1 mixed_up l /\
    nth 21 l (ANothing, []) = (ANothing, [Note 0 0 ev_delete (SThese [1]); Note 0 1 ev_delete (SThese [1])]) /\
    skipn 23 l = [(ARows [[VInt 3; VRow 1]], []); (AItems [Some 1; None] [[VInt 11; VRow 2]; []], [])].
Proof.
  split; [|split; [|split]].
  - intros p q k key I. unfold mixed_up in I. cbn [In] in I. repeat (destruct I as [I|I]; [try discriminate I; injection I as <- <- _ _; reflexivity|]). destruct I.
  - intros [|[|k]]; vm_compute; reflexivity.
  - intro H. apply (f_equal (fun l => nth_error l 1)) in H. vm_compute in H. discriminate H.
  - do 2 eexists. split; [vm_compute; reflexivity|]. split; [vm_compute; reflexivity|]. split; [vm_compute; reflexivity|]. split; [vm_compute; reflexivity|]. split; vm_compute; reflexivity.
Qed.

(** C130 (refuted for tables that refer across groups).  Then a program may fail though the groups alone do not: here the table that refers is locked. *)
Theorem C130_refer_refuted :
  exists g schs cs, ~ apart g cs /\ (forall k, exists l, db_talks Debug 255 3 (db_new schs) (filter (of_group g k) cs) = Ok l) /\
    db_talks Debug 255 3 (db_new schs) cs = Err EDeadlock.
Proof.
  exists (fun p => p), [sch Consistent; sch Consistent],
    [Track 0 (TAuto 1 1 false); On 0 (Do OLock); On 0 (Do (OPushAll [r1; r2])); Flush 0 ev_create; On 1 (Do OLock); On 0 (Do OLock); On 0 (Do (ODelete 0)); Flush 0 ev_delete; On 1 (Do OClose)].
  split; [intro H; specialize (H 0 1 1 false (or_introl eq_refl)); discriminate H|]. split; [|vm_compute; reflexivity].
  intros [|[|k]]; eexists; vm_compute; reflexivity.
Qed.
Print Assumptions C130_refer_refuted.
