(** Property theorems about a universe of tables as plain lists of rows, C89. *)
From Coq Require Import List Arith Bool ZArith Lia.
From Verif Require Import Base Column Order RowRange Table SortedTab TableSpec Events Cascade Hist Cases Answers PlainSpec PlainFacts DbHist DbSpec DbFacts DbSaid.
Import ListNotations.

(** C89.  Whatever a program does with tables that refer to each other, it and the trackers are told exactly what the plain lists of
    DbSpec.v would tell, and it panics if and where they fail. *)
Theorem C89_answers :
  forall pr umax fuel schs, Forall (fun sch => s_cols sch <> []) schs ->
  forall cs, Forall (db_ty schs) cs ->
  match db_plays pr umax fuel (pls_new schs) cs with
  | Fine l => db_talks pr umax fuel (db_new schs) cs = Ok l
  | Fails => exists c, db_talks pr umax fuel (db_new schs) cs = panic c
  | Unsaid => True
  end.
Proof.
  exact (fun pr umax fuel schs N cs T =>
    match db_plays pr umax fuel (pls_new schs) cs as o return
      fits (fun l r => r = l) o (db_talks pr umax fuel (db_new schs) cs) ->
      match o with Fine l => db_talks pr umax fuel (db_new schs) cs = Ok l | Fails => exists c, db_talks pr umax fuel (db_new schs) cs = panic c | Unsaid => True end
    with
    | Fine l => fun H => match H with ex_intro _ r (conj E Q) => eq_trans E (f_equal Ok Q) end
    | Fails => fun H => H
    | Unsaid => fun H => H
    end (db_plays_ok pr umax fuel schs cs (pls_new schs) (db_new schs) (db_new_ok schs N) T)).
Qed.
Print Assumptions C89_answers.

(** The plain lists have an answer to every program of a debug build that compiles, does not wait for its own locks, and whose references
    (by indexed columns) do not go round in circles. *)
Theorem C89_said :
  forall umax fuel schs rank cs, all_db_legal schs rank fuel None cs = true -> db_plays Debug umax fuel (pls_new schs) cs <> Unsaid.
Proof. exact (fun umax fuel schs rank cs => db_plays_said schs rank umax fuel cs (pls_new schs) None (new_inv schs rank)). Qed.
Print Assumptions C89_said.

(** Table 1 refers to table 0, table 2 (sorted) to table 1.  Row 1 of table 0 is deleted: rows 0 and 2 of table 1 go, and with them rows of
    table 2.  The deleted ids of table 1 are used again. *)
Definition by_int (x y : row) : comparison := match x, y with VInt a :: _, VInt b :: _ => Z.compare a b | _, _ => Eq end.
Definition three_tables := [sch Consistent; sch Consistent; sch Sorted].
Definition talk_three : list db_call :=
  [Track 0 (TAuto 1 1 false); Track 1 (TUser true (fun _ => true)); Track 1 (TAuto 2 1 false);
   On 0 (Do OLock); On 0 (Do (OPushAll [r1; r2; r3])); Flush 0 ev_create;
   On 1 (Do OLock); On 1 (Do (OPushAll [[VInt 10; VRow 1]; [VInt 11; VRow 2]; [VInt 12; VRow 1]])); Flush 1 ev_create;
   On 2 (Do OLock); On 2 (Do (OMerge by_int [[VInt 23; VRow 1]; [VInt 21; VRow 2]; [VInt 20; VRow 0]; [VInt 22; VRow 0]])); Flush 2 ev_create;
   On 0 (Do OLock); On 0 (Do (ODelete 1)); Flush 0 ev_delete;
   On 1 (Do (OFind 1 (VRow 1))); On 1 (Do (OIter [ItNext; ItNext])); On 2 (Do ODump);
   On 1 (Do OLock); On 1 (Do (OPush [VInt 13; VRow 0])); Flush 1 ev_create].
Definition rank_three (p : nat) : nat := 2 - p.
Example C89_case :
  Forall (fun sch => s_cols sch <> []) three_tables /\
  Forall (db_ty three_tables) (talk_three ++ [On 1 (Do (OGet 2))]) /\
  all_db_legal three_tables rank_three 3 None (talk_three ++ [On 1 (Do (OGet 2))]) = true /\
  db_plays Debug 255 3 (pls_new three_tables) talk_three =
    Fine [(ANothing, []); (ANothing, []); (ANothing, []);
          (ANothing, []); (ANothing, []);
          (ANothing, [Note 0 0 ev_create (SThese [0; 1; 2]); Note 1 0 ev_create (SThese []); Note 1 1 ev_create (SThese [])]);
          (ANothing, []); (ANothing, []); (ANothing, [Note 1 0 ev_create (SThese [0; 1; 2]); Note 1 1 ev_create (SThese [0; 1; 2])]);
          (ANothing, []); (ANothing, []); (ANothing, []);
          (ANothing, []); (ANothing, []);
          (ANothing, [Note 0 0 ev_delete (SThese [1]); Note 1 0 ev_delete (SThese [0; 2]); Note 1 1 ev_delete (SThese [0; 2])]);
          (AIds [], []); (AItems [Some 1; None] [[VInt 11; VRow 2]; []], []); (ARows [[VInt 23; VRow 1]], []);
          (ANothing, []); (AId (Some 0), []); (ANothing, [Note 1 0 ev_create (SThese [0]); Note 1 1 ev_create (SThese [0])])] /\
  db_plays Debug 255 3 (pls_new three_tables) (talk_three ++ [On 1 (Do (OGet 2))]) = Fails /\
  db_plays Debug 255 3 (pls_new three_tables) (talk_three ++ [Track 2 (TUser false ev_removal)]) = Fails.
Proof.
  split; [|split; [|split; [|split; [|split]]]].
  - repeat constructor; discriminate.
  - unfold talk_three. cbn [app]. repeat (constructor; [cbn [db_ty]; try exact I; intros sch0 [= <-]; repeat constructor|]). constructor.
  - vm_compute. reflexivity.
  - vm_compute. reflexivity.
  - vm_compute. reflexivity.
  - vm_compute. reflexivity.
Qed.

(** By sort key; a live flush, [remove_rows] on the lock (of everything), a selection without removal, a handler exchanged. *)
Definition two_tables := [sch Consistent; sch Sorted].
Definition by_ref (x y : row) : comparison := match x, y with VRow a :: _, VRow b :: _ => Nat.compare a b | _, _ => Eq end.
Definition talk_two : list db_call :=
  [Track 0 (TAuto 1 0 true);
   On 0 (Do OLock); On 0 (Do (OPushAll [r1; r2; r3])); LiveFlush 0 ev_create; On 0 (Do OClose);
   On 1 (Do OLock); On 1 (Do (OMerge by_ref [[VRow 2; VInt 1]; [VRow 0; VInt 2]; [VRow 1; VInt 3]; [VRow 0; VInt 4]])); On 1 (Do OClose);
   On 0 (Do OLock); On 0 (Do (ODelete 2)); On 0 (Do (ODelete 0)); LiveFlush 0 ev_delete; On 0 (Do (OGet 1)); On 0 (Do OClose); On 1 (Do ODump);
   Select 0 ev_create (SThese [1]); Handle ev_delete HNull;
   On 0 (Do OLock); WRemove 0 ev_delete SAll; On 0 (Do OLast); On 1 (Do ODump); RemoveRows 1 ev_delete (SThese [0]); On 1 (Do ODump)].
Example C89_key_case :
  Forall (db_ty two_tables) talk_two /\
  db_plays Debug 255 2 (pls_new two_tables) talk_two =
    Fine [(ANothing, []);
          (ANothing, []); (ANothing, []); (ANothing, [Note 0 0 ev_create (SThese [0; 1; 2])]); (ANothing, []);
          (ANothing, []); (ANothing, []); (ANothing, []);
          (ANothing, []); (ANothing, []); (ANothing, []); (ANothing, [Note 0 0 ev_delete (SThese [0; 2])]); (ARow r2, []); (ANothing, []); (ARows [[VRow 1; VInt 3]], []);
          (ANothing, [Note 0 0 ev_create (SThese [1])]); (ANothing, []);
          (ANothing, []); (ANothing, [Note 0 0 ev_delete SAll]); (AId None, []); (ARows [[VRow 1; VInt 3]], []); (ANothing, []); (ARows [], [])].
Proof.
  split.
  - unfold talk_two. repeat (constructor; [cbn [db_ty]; try exact I; intros sch0 [= <-]; repeat constructor|]). constructor.
  - vm_compute. reflexivity.
Qed.
