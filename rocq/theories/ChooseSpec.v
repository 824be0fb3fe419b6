(** Tables with the columns in another order, or only some of them (C132). *)
From Coq Require Import List Arith Bool.
From Verif Require Import Base Column RowRange Table Visit SortedTab TableSpec Hist Answers.
Import ListNotations.

Section Choose.
(** Column [k] of the new table is column [nth k pi] of a table with [m] columns. *)
Variables (pi : list nat) (m : nat).
Definition choose_sch (s : schema) : schema := Sch (s_kind s) (s_imax s) (map (fun k => nth k (s_cols s) (Plain TVec)) pi).
(** The end of an iterator has no row. *)
Definition choose_row (r : row) : row := match r with [] => [] | _ => map (fun k => nth k r (VBool false)) pi end.
Definition choose_act (a : action) : action := match a with Continue rm add => Continue rm (map choose_row add) | Break => Break end.
Definition choose_answer (a : answer) : answer :=
  match a with ARow r => ARow (choose_row r) | ARows l => ARows (map choose_row l) | AItems l rs => AItems l (map choose_row rs) | _ => a end.

(** The same order of rows. *)
Definition same_order (cmp cmp' : row -> row -> comparison) : Prop :=
  forall x y, length x = m -> length y = m -> cmp' (choose_row x) (choose_row y) = cmp x y.
(** The same call, with the rows and columns of the new table; closures and orders do the same. *)
Inductive moved : call -> call -> Prop :=
| mv_same o : match o with
              | OCell _ _ | OFind _ _ | OAssign _ _ _ | OPush _ | OPushAll _ | OPushArray _ | ORetain _ _ _ | OVisit _ _ _ | OMergeLogged _ _ _ _ _ | OMerge _ _ | OMergeSingle _ _ => False
              | _ => True
              end -> moved (Do o) (Do o)
| mv_cell k k' i : nth_error pi k' = Some k -> moved (Do (OCell k i)) (Do (OCell k' i))
| mv_find k k' v : nth_error pi k' = Some k -> moved (Do (OFind k v)) (Do (OFind k' v))
| mv_assign k k' i v : nth_error pi k' = Some k -> moved (Do (OAssign k i v)) (Do (OAssign k' i v))
| mv_push r : moved (Do (OPush r)) (Do (OPush (choose_row r)))
| mv_push_all rs : moved (Do (OPushAll rs)) (Do (OPushAll (map choose_row rs)))
| mv_push_array rs : moved (Do (OPushArray rs)) (Do (OPushArray (map choose_row rs)))
| mv_retain A g g' s : (forall a r, length r = m -> g' a (choose_row r) = g a r) -> moved (CRetain A g s) (CRetain A g' s)
| mv_visit A g g' s : (forall a r, length r = m -> g' a (choose_row r) = (fst (g a r), choose_act (snd (g a r)))) -> moved (CVisit A g s) (CVisit A g' s)
| mv_merge cmp cmp' rows : same_order cmp cmp' -> moved (Do (OMerge cmp rows)) (Do (OMerge cmp' (map choose_row rows)))
| mv_single cmp cmp' r : same_order cmp cmp' -> moved (Do (OMergeSingle cmp r)) (Do (OMergeSingle cmp' (choose_row r)))
| mv_logged cmp cmp' rows : same_order cmp cmp' -> moved (CMergeLogged cmp rows) (CMergeLogged cmp' (map choose_row rows)).
End Choose.
