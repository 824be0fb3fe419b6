(** Databases with the columns of their tables in another order (C136), or with other values (C137). *)
From Coq Require Import List Arith Bool.
From Verif Require Import Base Column RowRange Table SortedTab Events Cascade Hist Answers DbHist ChooseSpec RenameSpec.
Import ListNotations.

(** The declarations, changed table by table. *)
Definition each_table (f : nat -> schema -> schema) (schs : list schema) : list schema := map (fun q => f (fst q) (snd q)) (combine (seq 0 (length schs)) schs).
(** What a program is told, the answers changed call by call. *)
Definition each_answer (f : db_call -> answer -> answer) (cs : list db_call) (l : list (answer * list note)) : list (answer * list note) :=
  map (fun q => (f (fst q) (fst (snd q)), snd (snd q))) (combine cs l).

Section Choose.
(** Column [k] of table [p] is column [nth k (pi p)] of what table [p] was. *)
Variables (pi : nat -> list nat) (schs : list schema).
Definition choose_schs : list schema := each_table (fun p => choose_sch (pi p)) schs.
Inductive db_moved : db_call -> db_call -> Prop :=
| dm_on p sch c c' : nth_error schs p = Some sch -> moved (pi p) (length (s_cols sch)) c c' -> db_moved (On p c) (On p c')
| dm_auto p c k k' key : c < length schs -> nth_error (pi c) k' = Some k -> db_moved (Track p (TAuto c k key)) (Track p (TAuto c k' key))
| dm_same c : match c with On _ _ | Track _ (TAuto _ _ _) => False | _ => True end -> db_moved c c.
Definition db_choose_answer (c : db_call) (a : answer) : answer := match c with On p _ => choose_answer (pi p) a | _ => a end.
End Choose.

Section Rename.
(** [rho p k v] stands for [v] in column [k] of table [p]; [ts p]: the types of the columns now. *)
Variables (rho : nat -> nat -> val -> val) (ts : nat -> list ctype) (schs : list schema).
Definition retyped : list schema := each_table (fun p s => with_types s (ts p)) schs.
(** References stay what they are. *)
Inductive db_renamed : db_call -> db_call -> Prop :=
| dr_on p sch c c' : nth_error schs p = Some sch -> renamed (rho p) (length (s_cols sch)) c c' -> db_renamed (On p c) (On p c')
| dr_auto p c k key : c < length schs -> (forall v, rho c k v = v) -> db_renamed (Track p (TAuto c k key)) (Track p (TAuto c k key))
| dr_same c : match c with On _ _ | Track _ (TAuto _ _ _) => False | _ => True end -> db_renamed c c.
Definition db_rename_answer (c : db_call) (a : answer) : answer := match c with On p c => rename_answer (rho p) c a | _ => a end.
End Rename.
