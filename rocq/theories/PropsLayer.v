(** C128: tables that refer to others change nothing for these. *)
From Coq Require Import List Arith Bool ZArith.
From Verif Require Import Base Column Order RowRange Table SortedTab TableSpec Events Cascade Hist Cases Answers DbHist PropsDb WatchSpec PropsWatch LayerSpec LayerFacts.
Import ListNotations.

(** C128.  Some of the tables of a database are left out of any program, with all calls on them; they may refer to other tables (if consistent), and to one
    another in any way, but no other table refers to them.  If the program succeeds with them, it succeeds without them, all calls that are left return what they
    returned, and the trackers of the other tables are told what they were told. *)
Theorem C128_layers :
  forall pr umax fuel out schs cs l, layered out schs cs -> db_talks pr umax fuel (db_new schs) cs = Ok l ->
  db_talks pr umax fuel (db_new schs) (filter (inner out) cs) = Ok (thinner_talk (split_calls out cs) l).
Proof. exact layers. Qed.
Print Assumptions C128_layers.

(** The program of C89 with two trackers of table 0 and more deletions, with and without tables 1 and 2. *)
Definition two_layers : list db_call := Track 0 watcher :: firstn 3 talk_three ++ Track 0 (TUser true ev_removal) :: skipn 3 talk_three ++
  [On 0 (Do OLock); On 0 (Do (ODelete 2)); On 0 (Do (ODelete 0)); Flush 0 ev_delete; On 0 (Do (OFind 1 (VRow 0)))].
Definition others (p : nat) : bool := 1 <=? p.
Example C128_case :
  layered others three_tables two_layers /\
  filter (inner others) two_layers =
    [Track 0 watcher; Track 0 (TUser true ev_removal); On 0 (Do OLock); On 0 (Do (OPushAll [r1; r2; r3])); Flush 0 ev_create;
     On 0 (Do OLock); On 0 (Do (ODelete 1)); Flush 0 ev_delete; On 0 (Do OLock); On 0 (Do (ODelete 2)); On 0 (Do (ODelete 0)); Flush 0 ev_delete; On 0 (Do (OFind 1 (VRow 0)))] /\
  (exists l l', db_talks Debug 255 3 (db_new three_tables) two_layers = Ok l /\ db_talks Debug 255 3 (db_new three_tables) (filter (inner others) two_layers) = Ok l' /\
     l' = thinner_talk (split_calls others two_layers) l /\
     nth 26 l (ANothing, []) = (ANothing,
       [Note 0 0 ev_delete (SThese [2; 0]); Note 0 1 ev_delete (SThese [2; 0]); Note 1 0 ev_delete (SThese [0; 1]); Note 1 1 ev_delete (SThese [0; 1]);
        Note 0 2 ev_delete (SThese [0; 2])]) /\
     nth 11 l' (ANothing, []) = (ANothing, [Note 0 0 ev_delete (SThese [2; 0]); Note 0 1 ev_delete (SThese [0; 2])])).
Proof.
  split; [|split; [reflexivity|]].
  - assert (A : forall p q k key, In (Track p (TAuto q k key)) two_layers -> p = 0 /\ q = 1 \/ p = 1 /\ q = 2).
    { intros p q k key I. unfold two_layers, talk_three in I. cbn [firstn skipn app] in I. repeat (destruct I as [I|I]; [try discriminate I; injection I as <- <- _ _; auto|]). destruct I. }
    intros p q k key I. destruct (A _ _ _ _ I) as [[-> ->]|[-> ->]]; (split; [intro H; try discriminate H; reflexivity|intros H _; try discriminate H]).
    exists (sch Consistent). split; reflexivity.
  - do 2 eexists. split; [vm_compute; reflexivity|]. split; [vm_compute; reflexivity|]. repeat split; vm_compute; reflexivity.
Qed.
(** The other way round it does not hold: a program may succeed only without them, here because one of them is locked. *)
Example C128_locked_case :
  let cs := firstn 17 two_layers in let bad := firstn 14 cs ++ On 1 (Do OLock) :: skipn 14 cs in
  layered others three_tables bad /\ db_talks Debug 255 3 (db_new three_tables) bad = Err EDeadlock /\
  filter (inner others) bad = filter (inner others) cs /\ exists l, db_talks Debug 255 3 (db_new three_tables) (filter (inner others) bad) = Ok l.
Proof.
  cbv zeta. split; [|split; [vm_compute; reflexivity|split; [reflexivity|eexists; vm_compute; reflexivity]]].
  destruct C128_case as [A _]. intros p q k key I. apply (A p q k key). unfold two_layers, talk_three in *. cbn [firstn skipn app] in *.
  repeat (destruct I as [I|I]; [try discriminate I; rewrite I; cbn; auto 12|]). destruct I.
Qed.

(** C128 (refuted for sorted tables that refer).  Trackers registered after such a reference are told of the rows in another order than without it. *)
Theorem C128_sorted_refuted :
  exists out schs cs l l', (forall p q k key, In (Track p (TAuto q k key)) cs -> out p = true -> out q = true) /\
    db_talks Debug 255 3 (db_new schs) cs = Ok l /\ db_talks Debug 255 3 (db_new schs) (filter (inner out) cs) = Ok l' /\
    map fst l' = map fst (thinner_talk (split_calls out cs) l) /\ l' <> thinner_talk (split_calls out cs) l.
Proof.
  exists others, [sch Consistent; sch Sorted],
    [Track 0 (TAuto 1 1 false); Track 0 watcher; On 0 (Do OLock); On 0 (Do (OPushAll [r1; r2; r3])); Flush 0 ev_create; On 0 (Do OLock); On 0 (Do (ODelete 2)); On 0 (Do (ODelete 0)); Flush 0 ev_delete].
  do 2 eexists. split; [|split; [vm_compute; reflexivity|split; [vm_compute; reflexivity|split; [vm_compute; reflexivity|]]]].
  - intros p q k key I. repeat (destruct I as [I|I]; [try discriminate I; injection I as <- <- _ _; intro H; discriminate H|]). destruct I.
  - vm_compute. intro H. discriminate H.
Qed.
Print Assumptions C128_sorted_refuted.
