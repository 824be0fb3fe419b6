(** Property theorems about tables as plain lists of rows, C85. *)
From Coq Require Import List Arith Bool ZArith.
From Verif Require Import Base Column Order RowRange Table Visit SortedTab TableSpec Hist Cases Answers PlainSpec PlainFacts.
Import ListNotations.

(** C85.  Whatever a program does with a table, of any kind, it is told exactly what the plain list of rows of PlainSpec.v
    would tell, and panics if and where the plain list fails. *)
Theorem C85_answers :
  forall pr umax sch, s_cols sch <> [] ->
  forall cs, Forall (call_ty (s_cols sch)) cs ->
  match plays pr umax sch p_new cs with
  | Fine l => talks pr umax (Free (t_new sch)) cs = Ok l
  | Fails => exists c, talks pr umax (Free (t_new sch)) cs = panic c
  | Unsaid => True
  end.
Proof. exact (fun pr umax sch N cs T => plays_ok pr umax sch cs p_new (Free (t_new sch)) (new_rel sch N) T). Qed.
Print Assumptions C85_answers.

(** The plain list has an answer to every program of a debug build that compiles. *)
Theorem C85_said :
  forall umax sch cs, all_legal sch false cs = true -> plays Debug umax sch p_new cs <> Unsaid.
Proof. exact (fun umax sch cs => plays_said umax sch cs p_new). Qed.
Print Assumptions C85_said.

(** Consistent: row 1 is deleted, not found any more, used again by the next push; then a row that does not exist is asked for. *)
Definition talk_cons : list call := map Do
  [OLock; OPushAll [r1; r2; r3]; OPush r2; OFlush true ev_create;
   OLock; ODelete 1; OFind 1 (VInt 5); OFlush true ev_delete;
   OFind 1 (VInt 5); OIter [ItNext; ItNext; ItNext; ItNext];
   OLock; ONextPushed; OPush r3; OPushArray [r1; r1]; OAssign 0 2 (VInt 9); OFind 1 (VInt 5); OFlush false ev_create; OGet 2; OLast].
Example C85_case :
  Forall (call_ty (s_cols (sch Consistent))) (talk_cons ++ [Do (OGet 6)]) /\
  all_legal (sch Consistent) false (talk_cons ++ [Do (OGet 6)]) = true /\
  plays Debug 255 (sch Consistent) p_new talk_cons =
    Fine [ANothing; ANothing; AId (Some 3); ANothing;
          ANothing; ANothing; AIds [0; 1; 3]; ANothing;
          AIds [0; 3]; AItems [Some 0; Some 2; Some 3; None] [r1; r3; r2; []];
          ANothing; AId (Some 1); AId (Some 1); ASpan 4 6; ANothing; AIds [0; 3; 4; 5]; ANothing; ARow [VInt 9; VInt 6]; AId (Some 5)] /\
  plays Debug 255 (sch Consistent) p_new (talk_cons ++ [Do (OGet 6)]) = Fails.
Proof.
  split; [|split; [|split]].
  - unfold talk_cons. cbn [map app]. repeat constructor. intros t [= <-]. exact I.
  - vm_compute. reflexivity.
  - vm_compute. reflexivity.
  - vm_compute. reflexivity.
Qed.

(** Sorted: rows merged in (equal rows: the old one first), rows removed, rows kept by a closure that counts. *)
Definition by_first (x y : row) : comparison :=
  match x, y with VInt a :: _, VInt b :: _ => Z.compare a b | _, _ => Eq end.
Definition n5 : row := [VInt 2; VInt 7].
Definition talk_sorted : list call :=
  [Do OLock; Do (OMerge by_first [r3; r1; r2]); CMergeLogged by_first [r1; n5; r3]; Do ODump; Do (OMergeSingle by_first r2);
   Do (ORemoveSorted [0; 3]); Do ODump; CRetain nat (fun n _ => (S n, Nat.even n)) 0; Do ODump; Do OClose].
Example C85_sorted_case :
  Forall (call_ty (s_cols (sch Sorted))) talk_sorted /\
  all_legal (sch Sorted) false talk_sorted = true /\
  plays Debug 255 (sch Sorted) p_new talk_sorted =
    Fine [ANothing; ANothing; AIds [0; 3; 5]; ARows [r1; r1; r2; n5; r3; r3]; AId (Some 2);
          ANothing; ARows [r1; r2; n5; r3; r3]; ANothing; ARows [r1; n5; r3]; ANothing] /\
  plays Debug 255 (sch Sorted) p_new (talk_sorted ++ [Do OLock; Do (ORemoveSorted [1; 0])]) = Fails.
Proof.
  split; [|split; [|split]].
  - unfold talk_sorted. repeat constructor.
  - vm_compute. reflexivity.
  - vm_compute. reflexivity.
  - vm_compute. reflexivity.
Qed.

(** Bags and lists: deletion moves the last row, [visit] adds behind and stops. *)
Definition talk_bag : list call :=
  [Do OLock; Do (OPushAll [r1; r2; r3]); Do (ODelete 0); Do ODump;
   CVisit nat (fun n r => match n with 0 => (1, Continue true [r1; r3]) | _ => (2, Break) end) 0; Do ODump; Do OClear; Do OLast; Do (OGet 0)].
Example C85_bag_case :
  Forall (call_ty (s_cols (sch Bag))) talk_bag /\
  all_legal (sch Bag) false talk_bag = true /\
  plays Debug 255 (sch Bag) p_new (firstn 8 talk_bag) =
    Fine [ANothing; ANothing; ANothing; ARows [r3; r2]; ANothing; ARows [r1; r3; r2]; ANothing; AId None] /\
  plays Debug 255 (sch Bag) p_new talk_bag = Fails.
Proof.
  split; [|split; [|split]].
  - unfold talk_bag. repeat constructor. cbn [call_ty]. intros [|n] r s' rm add [= <- <- <-]; repeat constructor.
  - vm_compute. reflexivity.
  - vm_compute. reflexivity.
  - vm_compute. reflexivity.
Qed.

(** A list using all eight ids: [visit] that puts in as many rows as it took out and then stops goes well; [retain] and [dump] fail. *)
Definition talk_full : list call :=
  [Do OLock; Do (OPushAll [r1; r2; r3; r1; r2; r3; r1; r2]);
   CVisit nat (fun n _ => match n with 0 => (1, Continue true []) | 1 => (2, Continue false [r3]) | _ => (3, Break) end) 0; Do (OGet 0); Do (OGet 1); Do (OGet 7)].
Example C85_full_case :
  Forall (call_ty (s_cols (sch List_))) talk_full /\
  all_legal (sch List_) false talk_full = true /\
  plays Debug 255 (sch List_) p_new talk_full = Fine [ANothing; ANothing; ANothing; ARow r2; ARow r3; ARow r2] /\
  plays Debug 255 (sch List_) p_new (talk_full ++ [CRetain unit (fun u _ => (u, true)) tt]) = Fails /\
  plays Debug 255 (sch List_) p_new (talk_full ++ [Do ODump]) = Fails.
Proof.
  split; [|split; [|split; [|split]]].
  - unfold talk_full. repeat constructor. cbn [call_ty]. intros [|[|n]] r s' rm add [= <- <- <-]; repeat constructor.
  - vm_compute. reflexivity.
  - vm_compute. reflexivity.
  - vm_compute. reflexivity.
  - vm_compute. reflexivity.
Qed.
