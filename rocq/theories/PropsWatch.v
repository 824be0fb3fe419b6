(** C126: watching changes nothing. *)
From Coq Require Import List Arith Bool ZArith.
From Verif Require Import Base Column Order RowRange Table SortedTab TableSpec Events Cascade Hist Cases Answers DbHist PropsDb WatchSpec WatchFacts.
Import ListNotations.

(** C126.  Of any program on any tables, some calls are left out that register trackers which only watch and do not ask for ids in order.  All other calls
    return what they returned, and the other trackers are told what they were told, of the same rows in the same order; and if the program fails, it still fails
    likewise, unless what failed was one of the calls left out. *)
Theorem C126_watching :
  forall pr umax fuel schs mcs, Forall droppable mcs ->
  match db_talks pr umax fuel (db_new schs) (map fst mcs) with
  | Ok l => db_talks pr umax fuel (db_new schs) (thinner mcs) = Ok (thinner_talk mcs l)
  | Err er => db_talks pr umax fuel (db_new schs) (thinner mcs) = Err er \/
      exists mcs1 p tr mcs2 l, mcs = mcs1 ++ (Track p tr, false) :: mcs2 /\ db_talks pr umax fuel (db_new schs) (map fst mcs1) = Ok l /\
        db_talks pr umax fuel (db_new schs) (map fst mcs1 ++ [Track p tr]) = Err er
  end.
Proof. exact watching. Qed.
Print Assumptions C126_watching.

(** The program of C89 with three trackers more, one of them registered after rows were pushed. *)
Definition watcher := TUser false (fun _ => true).
Definition watched : list (db_call * bool) :=
  [(Track 0 watcher, false)] ++ map (fun c => (c, true)) (firstn 2 talk_three) ++ [(Track 1 watcher, false)] ++
  map (fun c => (c, true)) (firstn 7 (skipn 2 talk_three)) ++ [(Track 0 watcher, false)] ++ map (fun c => (c, true)) (skipn 9 talk_three).
Example C126_case :
  Forall droppable watched /\ thinner watched = talk_three /\
  (exists l l', db_talks Debug 255 3 (db_new three_tables) (map fst watched) = Ok l /\ db_talks Debug 255 3 (db_new three_tables) talk_three = Ok l' /\
     l' = thinner_talk watched l /\
     nth 17 l (ANothing, []) = (ANothing,
       [Note 0 0 ev_delete (SThese [1]); Note 0 1 ev_delete (SThese [1]); Note 1 0 ev_delete (SThese [0; 2]); Note 1 1 ev_delete (SThese [0; 2]);
        Note 1 2 ev_delete (SThese [0; 2]); Note 0 2 ev_delete (SThese [1])]) /\
     nth 14 l' (ANothing, []) = (ANothing,
       [Note 0 0 ev_delete (SThese [1]); Note 1 0 ev_delete (SThese [0; 2]); Note 1 1 ev_delete (SThese [0; 2])])).
Proof.
  split; [repeat (constructor; [first [left; reflexivity|right; do 2 eexists; split; [reflexivity|eexists; reflexivity]]|]); constructor|]. split; [reflexivity|].
  do 2 eexists. split; [vm_compute; reflexivity|]. split; [vm_compute; reflexivity|]. repeat split; vm_compute; reflexivity.
Qed.

(** C126 (refuted for trackers that ask for ids in order).  Those after it are told of the rows in another order than without it. *)
Theorem C126_sorted_refuted :
  exists schs p f mcs1 mcs2 l l', let mcs := map (fun c => (c, true)) mcs1 ++ (Track p (TUser true f), false) :: map (fun c => (c, true)) mcs2 in
    db_talks Debug 255 3 (db_new schs) (map fst mcs) = Ok l /\ db_talks Debug 255 3 (db_new schs) (thinner mcs) = Ok l' /\
    map fst l' = map fst (thinner_talk mcs l) /\ l' <> thinner_talk mcs l.
Proof.
  exists three_tables, 0, (fun _ => true), [],
    [Track 0 watcher; On 0 (Do OLock); On 0 (Do (OPushAll [r1; r2; r3])); Flush 0 ev_create; On 0 (Do OLock); On 0 (Do (ODelete 2)); On 0 (Do (ODelete 0)); Flush 0 ev_delete].
  do 2 eexists. split; [vm_compute; reflexivity|]. split; [vm_compute; reflexivity|]. split; [vm_compute; reflexivity|].
  vm_compute. intro H. discriminate H.
Qed.
Print Assumptions C126_sorted_refuted.
