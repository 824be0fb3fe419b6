(** C136 and C137: C132 and C135 for databases, with references and trackers. *)
From Coq Require Import List Arith Bool ZArith Lia.
From Verif Require Import Base Column Order RowRange Table Visit SortedTab TableSpec Events Cascade Hist Cases Answers PlainSpec DbHist DbSpec PropsDb ChooseSpec RenameSpec ViewSpec ViewFacts.
Import ListNotations.

(** C136.  Take other columns of each table, in any order ([pi p] of table [p]), among them those that refer to other tables.  In a debug build the program for these tables succeeds exactly
    if the old one does, returns the chosen columns of what the old one returns, and every tracker is told the same; else both panic. *)
Theorem C136_columns :
  forall umax fuel pi schs, (forall p sch, nth_error schs p = Some sch -> pi p <> [] /\ NoDup (pi p) /\ Forall (fun k => k < length (s_cols sch)) (pi p)) ->
  forall rank cs cs', Forall (db_ty schs) cs -> Forall (db_ty (choose_schs pi schs)) cs' -> Forall2 (db_moved pi schs) cs cs' -> all_db_legal schs rank fuel None cs = true ->
  match db_talks Debug umax fuel (db_new schs) cs with
  | Ok l => db_talks Debug umax fuel (db_new (choose_schs pi schs)) cs' = Ok (each_answer (db_choose_answer pi) cs l)
  | Err e => (exists c, e = EPanic c) /\ exists c, db_talks Debug umax fuel (db_new (choose_schs pi schs)) cs' = panic c
  end.
Proof. exact db_chosen. Qed.
Print Assumptions C136_columns.

(** C136, any build. *)
Theorem C136_any_build :
  forall umax umax' pr, umax <= umax' -> forall fuel pi schs,
  (forall p sch, nth_error schs p = Some sch -> pi p <> [] /\ NoDup (pi p) /\ Forall (fun k => k < length (s_cols sch)) (pi p)) ->
  forall rank cs cs' l, Forall (db_ty schs) cs -> Forall (db_ty (choose_schs pi schs)) cs' -> Forall2 (db_moved pi schs) cs cs' -> all_db_legal schs rank fuel None cs = true ->
  db_talks Debug umax fuel (db_new schs) cs = Ok l -> db_talks pr umax' fuel (db_new (choose_schs pi schs)) cs' = Ok (each_answer (db_choose_answer pi) cs l).
Proof. exact db_chosen_any. Qed.
Print Assumptions C136_any_build.

(** The tables of [C89_case] with their two columns exchanged. *)
Definition turned (p : nat) : list nat := [1; 0].
Definition by_second (x y : row) : comparison := match x, y with _ :: VInt a :: _, _ :: VInt b :: _ => Z.compare a b | _, _ => Eq end.
Definition talk_turned : list db_call :=
  [Track 0 (TAuto 1 0 false); Track 1 (TUser true (fun _ => true)); Track 1 (TAuto 2 0 false);
   On 0 (Do OLock); On 0 (Do (OPushAll (map (choose_row [1; 0]) [r1; r2; r3]))); Flush 0 ev_create;
   On 1 (Do OLock); On 1 (Do (OPushAll (map (choose_row [1; 0]) [[VInt 10; VRow 1]; [VInt 11; VRow 2]; [VInt 12; VRow 1]]))); Flush 1 ev_create;
   On 2 (Do OLock); On 2 (Do (OMerge by_second (map (choose_row [1; 0]) [[VInt 23; VRow 1]; [VInt 21; VRow 2]; [VInt 20; VRow 0]; [VInt 22; VRow 0]]))); Flush 2 ev_create;
   On 0 (Do OLock); On 0 (Do (ODelete 1)); Flush 0 ev_delete;
   On 1 (Do (OFind 0 (VRow 1))); On 1 (Do (OIter [ItNext; ItNext])); On 2 (Do ODump);
   On 1 (Do OLock); On 1 (Do (OPush (choose_row [1; 0] [VInt 13; VRow 0]))); Flush 1 ev_create].
Lemma by_second_same : same_order [1; 0] 2 by_int by_second.
Proof. intros [|x0 [|x1 [|]]] [|y0 [|y1 [|]]] Hx Hy; try discriminate Hx; try discriminate Hy. destruct x0, y0; reflexivity. Qed.
Example C136_case :
  Forall (db_ty three_tables) talk_three /\ Forall (db_ty (choose_schs turned three_tables)) talk_turned /\ Forall2 (db_moved turned three_tables) talk_three talk_turned /\
  all_db_legal three_tables rank_three 3 None talk_three = true /\
  map s_cols (choose_schs turned three_tables) = [[Indexed TVec; Plain TVec]; [Indexed TVec; Plain TVec]; [Indexed TVec; Plain TVec]] /\
  exists l, db_talks Release 511 3 (db_new (choose_schs turned three_tables)) talk_turned = Ok l /\ skipn 14 l =
       [(ANothing, [Note 0 0 ev_delete (SThese [1]); Note 1 0 ev_delete (SThese [0; 2]); Note 1 1 ev_delete (SThese [0; 2])]);
        (AIds [], []); (AItems [Some 1; None] [[VRow 2; VInt 11]; []], []); (ARows [[VRow 1; VInt 23]], []);
        (ANothing, []); (AId (Some 0), []); (ANothing, [Note 1 0 ev_create (SThese [0]); Note 1 1 ev_create (SThese [0])])].
Proof.
  split; [unfold talk_three; repeat (constructor; [cbn [db_ty]; try exact I; intros sch0 [= <-]; repeat constructor|]); constructor|].
  split; [unfold talk_turned; repeat (constructor; [cbn [db_ty]; try exact I; intros sch0 [= <-]; repeat constructor|]); constructor|].
  split; [|split; [vm_compute; reflexivity|split; [reflexivity|eexists; split; vm_compute; reflexivity]]].
  unfold talk_three, talk_turned.
  repeat (constructor; [first [apply dm_same; exact I | apply dm_auto; [cbn; lia|reflexivity] |
    eapply dm_on; [reflexivity|first [apply mv_same; exact I | apply mv_push_all | apply mv_push | apply mv_merge; exact by_second_same | apply mv_find; reflexivity]]]|]). constructor.
Qed.

(** C137.  Replace the values in the columns of each table by others ([rho p k] in column [k] of table [p]), maybe of other types ([ts p]), except references.  In a debug build the program with
    the other values succeeds exactly if the old one does, is told the same with other values, and every tracker is told the same; else both panic. *)
Theorem C137_values :
  forall umax fuel rho ts schs, (forall p sch, nth_error schs p = Some sch -> s_cols sch <> [] /\ same_indexes (s_cols sch) (ts p)) ->
  forall rank cs cs', Forall (db_ty schs) cs -> Forall (db_ty (retyped ts schs)) cs' -> Forall2 (db_renamed rho schs) cs cs' -> all_db_legal schs rank fuel None cs = true ->
  match db_talks Debug umax fuel (db_new schs) cs with
  | Ok l => db_talks Debug umax fuel (db_new (retyped ts schs)) cs' = Ok (each_answer (db_rename_answer rho) cs l)
  | Err e => (exists c, e = EPanic c) /\ exists c, db_talks Debug umax fuel (db_new (retyped ts schs)) cs' = panic c
  end.
Proof. exact db_renaming. Qed.
Print Assumptions C137_values.

(** C137, any build. *)
Theorem C137_any_build :
  forall umax umax' pr, umax <= umax' -> forall fuel rho ts schs,
  (forall p sch, nth_error schs p = Some sch -> s_cols sch <> [] /\ same_indexes (s_cols sch) (ts p)) ->
  forall rank cs cs' l, Forall (db_ty schs) cs -> Forall (db_ty (retyped ts schs)) cs' -> Forall2 (db_renamed rho schs) cs cs' -> all_db_legal schs rank fuel None cs = true ->
  db_talks Debug umax fuel (db_new schs) cs = Ok l -> db_talks pr umax' fuel (db_new (retyped ts schs)) cs' = Ok (each_answer (db_rename_answer rho) cs l).
Proof. exact db_renaming_any. Qed.
Print Assumptions C137_any_build.

(** In the tables of [C89_case] the numbers of the first column become bits in tables 0 and 1, and larger in table 2. *)
Definition other_numbers (p k : nat) (v : val) : val :=
  match k, v with 0, VInt z => if p =? 2 then VInt (z + 100) else VBool (Z.even z) | _, _ => v end.
Definition other_types (p : nat) : list ctype := [Plain (if p =? 2 then TVec else TBool); Indexed TVec].
Definition talk_other : list db_call :=
  [Track 0 (TAuto 1 1 false); Track 1 (TUser true (fun _ => true)); Track 1 (TAuto 2 1 false);
   On 0 (Do OLock); On 0 (Do (OPushAll (map (rename_row (other_numbers 0)) [r1; r2; r3]))); Flush 0 ev_create;
   On 1 (Do OLock); On 1 (Do (OPushAll (map (rename_row (other_numbers 1)) [[VInt 10; VRow 1]; [VInt 11; VRow 2]; [VInt 12; VRow 1]]))); Flush 1 ev_create;
   On 2 (Do OLock); On 2 (Do (OMerge by_int (map (rename_row (other_numbers 2)) [[VInt 23; VRow 1]; [VInt 21; VRow 2]; [VInt 20; VRow 0]; [VInt 22; VRow 0]]))); Flush 2 ev_create;
   On 0 (Do OLock); On 0 (Do (ODelete 1)); Flush 0 ev_delete;
   On 1 (Do (OFind 1 (VRow 1))); On 1 (Do (OIter [ItNext; ItNext])); On 2 (Do ODump);
   On 1 (Do OLock); On 1 (Do (OPush (rename_row (other_numbers 1) [VInt 13; VRow 0]))); Flush 1 ev_create].
Lemma by_int_kept : order_kept (other_numbers 2) 2 by_int by_int.
Proof.
  intros [|x0 [|x1 [|]]] [|y0 [|y1 [|]]] Hx Hy; try discriminate Hx; try discriminate Hy. destruct x0 as [a|b1|n1], y0 as [b|b2|n2]; try reflexivity.
  change ((a + 100 ?= b + 100)%Z = (a ?= b)%Z). rewrite (Z.add_comm a), (Z.add_comm b). apply Zcompare_plus_compat.
Qed.
Example C137_case :
  Forall (db_ty (retyped other_types three_tables)) talk_other /\ Forall2 (db_renamed other_numbers three_tables) talk_three talk_other /\
  map s_cols (retyped other_types three_tables) = [[Plain TBool; Indexed TVec]; [Plain TBool; Indexed TVec]; [Plain TVec; Indexed TVec]] /\
  exists l, db_talks Release 511 3 (db_new (retyped other_types three_tables)) talk_other = Ok l /\ skipn 14 l =
       [(ANothing, [Note 0 0 ev_delete (SThese [1]); Note 1 0 ev_delete (SThese [0; 2]); Note 1 1 ev_delete (SThese [0; 2])]);
        (AIds [], []); (AItems [Some 1; None] [[VBool false; VRow 2]; []], []); (ARows [[VInt 123; VRow 1]], []);
        (ANothing, []); (AId (Some 0), []); (ANothing, [Note 1 0 ev_create (SThese [0]); Note 1 1 ev_create (SThese [0])])].
Proof.
  split; [unfold talk_other; repeat (constructor; [cbn [db_ty]; try exact I; intros sch0 [= <-]; repeat constructor; vm_compute; eauto|]); constructor|].
  split; [|split; [reflexivity|eexists; split; vm_compute; reflexivity]].
  unfold talk_three, talk_other.
  repeat (constructor; [first [apply dr_same; exact I | apply dr_auto; [cbn; lia|reflexivity] |
    eapply dr_on; [reflexivity|first [apply rn_same; exact I | apply rn_push_all | apply rn_push | apply rn_merge; exact by_int_kept | apply rn_find; intros x E; exact E]]]|]). constructor.
Qed.

(** C137 (refuted if references change too): other rows are deleted with the row referred to, even if different references stay different. *)
Theorem C137_references_refuted :
  exists umax fuel (rho : nat -> nat -> val -> val) schs rank r r' e l',
    let prog f := [Track 0 (TAuto 1 1 false); On 0 (Do OLock); On 0 (Do (OPush r)); On 0 (Do (OPush r)); Flush 0 ev_create; On 1 (Do OLock); On 1 (Do (OPush (f r'))); Flush 1 ev_create;
      On 0 (Do OLock); On 0 (Do (ODelete 0)); Flush 0 ev_delete; On 1 (Do (OGet 0))] in
    Forall (fun s => s_cols s <> []) schs /\ Forall (db_ty schs) (prog (fun r => r)) /\ Forall (db_ty schs) (prog (rename_row (rho 1))) /\
    all_db_legal schs rank fuel None (prog (fun r => r)) = true /\ (forall p k v v', rho p k v = rho p k v' -> v = v') /\ (forall k v, rho 0 k v = v) /\
    db_talks Debug umax fuel (db_new schs) (prog (fun r => r)) = panic e /\ db_talks Debug umax fuel (db_new schs) (prog (rename_row (rho 1))) = Ok l'.
Proof.
  exists 255, 3, (fun p k v => match p, k, v with 1, 1, VRow 0 => VRow 1 | 1, 1, VRow 1 => VRow 0 | _, _, _ => v end), [sch Consistent; sch Consistent], (fun p => 1 - p), r1, [VInt 3; VRow 0]. do 2 eexists. cbv zeta.
  split; [repeat constructor; discriminate|]. split; [repeat (constructor; [cbn [db_ty]; try exact I; intros sch0 [= <-]; repeat constructor|]); constructor|].
  split; [repeat (constructor; [cbn [db_ty]; try exact I; intros sch0 [= <-]; repeat constructor|]); constructor|].
  split; [vm_compute; reflexivity|]. split.
  { intros [|[|p]] [|[|k]] v v' E; try exact E. destruct v as [| |[|[|n]]], v' as [| |[|[|n']]]; try exact E; try discriminate E; try reflexivity. }
  split; [intros; reflexivity|]. split; vm_compute; reflexivity.
Qed.
Print Assumptions C137_references_refuted.
