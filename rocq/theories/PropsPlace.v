(** C138: the place of tables in a database does not matter, nor do other tables. *)
From Coq Require Import List Arith Bool ZArith Lia.
From Verif Require Import Base Column Order RowRange Table SortedTab TableSpec Events Cascade Hist Cases Answers DbHist PropsDb PlaceSpec PlaceFacts.
Import ListNotations.

(** C138.  Declare the tables of a database in any other order, and other tables among them ([sg p] is the new number of table [p]).  In every build any program does the same with the renumbered
    tables: all calls return the same, trackers are told the same in the same order, and it fails at the same call with the same panic, or waits for ever for the same lock, if it did. *)
Theorem C138_place :
  forall pr umax fuel sg schs schs' cs, placed sg schs schs' -> Forall (about (length schs)) cs ->
  db_talks pr umax fuel (db_new schs') (map (place_call sg) cs) = match db_talks pr umax fuel (db_new schs) cs with Ok l => Ok (map (place_said sg) l) | Err e => Err e end.
Proof. exact placing. Qed.
Print Assumptions C138_place.

(** The tables of [C89_case] in the order 2, 0, 1 with two others between them; also a program that waits for its own lock. *)
Definition spread (p : nat) : nat := match p with 0 => 2 | 1 => 4 | _ => 0 end.
Definition five_tables : list schema := [sch Sorted; sch Bag; sch Consistent; sch Append; sch Consistent].
Example C138_case :
  placed spread three_tables five_tables /\ Forall (about 3) talk_three /\
  firstn 3 (map (place_call spread) talk_three) = [Track 2 (TAuto 4 1 false); Track 4 (TUser true (fun _ => true)); Track 4 (TAuto 0 1 false)] /\
  (exists l, db_talks Release 255 3 (db_new five_tables) (map (place_call spread) talk_three) = Ok l /\ skipn 14 l =
     [(ANothing, [Note 2 0 ev_delete (SThese [1]); Note 4 0 ev_delete (SThese [0; 2]); Note 4 1 ev_delete (SThese [0; 2])]);
      (AIds [], []); (AItems [Some 1; None] [[VInt 11; VRow 2]; []], []); (ARows [[VInt 23; VRow 1]], []);
      (ANothing, []); (AId (Some 0), []); (ANothing, [Note 4 0 ev_create (SThese [0]); Note 4 1 ev_create (SThese [0])])]) /\
  (let stuck := [On 1 (Do OLock); Select 1 ev_create SAll] in
   db_talks Debug 255 3 (db_new three_tables) stuck = Err EDeadlock /\ db_talks Debug 255 3 (db_new five_tables) (map (place_call spread) stuck) = Err EDeadlock).
Proof.
  split; [split|].
  - intros [|[|[|p]]] s E; cbn in E; try (injection E as <-; reflexivity). destruct p; discriminate E.
  - intros [|[|[|p]]] [|[|[|q]]] Hp Hq E; cbn in Hp, Hq; try lia; try discriminate E; reflexivity.
  - split; [unfold talk_three; repeat (constructor; [cbn; lia|]); constructor|]. split; [reflexivity|]. split; [eexists; split; vm_compute; reflexivity|]. split; vm_compute; reflexivity.
Qed.

(** C138 (refuted if two tables become one): the second program finds the rows of the first table in the second. *)
Theorem C138_apart_refuted :
  exists pr umax fuel (sg : nat -> nat) schs cs l l', (forall p s, nth_error schs p = Some s -> nth_error schs (sg p) = Some s) /\ Forall (about (length schs)) cs /\
    db_talks pr umax fuel (db_new schs) cs = Ok l /\ db_talks pr umax fuel (db_new schs) (map (place_call sg) cs) = Ok l' /\ l' <> map (place_said sg) l.
Proof.
  exists Debug, 255, 3, (fun p => match p with 1 => 0 | _ => p end), [sch Append; sch Append], [On 0 (Do OLock); On 0 (Do (OPush r1)); Flush 0 ev_create; On 1 (Do OLast)]. do 2 eexists.
  split; [intros [|[|p]] s E; exact E|]. split; [repeat (constructor; [cbn; lia|]); constructor|]. split; [vm_compute; reflexivity|]. split; [vm_compute; reflexivity|]. discriminate.
Qed.
Print Assumptions C138_apart_refuted.
