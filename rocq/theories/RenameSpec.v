(** Tables that hold other values (C135). *)
From Coq Require Import List Arith Bool.
From Verif Require Import Base Column RowRange Table Visit SortedTab TableSpec Hist Answers.
Import ListNotations.

(** The declaration with other types of elements; which columns are indexed stays. *)
Definition with_types (s : schema) (ts : list ctype) : schema := Sch (s_kind s) (s_imax s) ts.
Definition same_indexes (ts ts' : list ctype) : Prop :=
  Forall2 (fun x y => match x, y with Plain _, Plain _ | Indexed _, Indexed _ => True | _, _ => False end) ts ts'.

Section Rename.
(** [rho k v] stands for the value [v] in column [k]; rows of the old table have [m] columns. *)
Variables (rho : nat -> val -> val) (m : nat).
Fixpoint rename_from (k : nat) (r : row) : row := match r with [] => [] | v :: r => rho k v :: rename_from (S k) r end.
Definition rename_row (r : row) : row := rename_from 0 r.
Definition rename_act (a : action) : action := match a with Continue rm add => Continue rm (map rename_row add) | Break => Break end.
Definition rename_answer (c : call) (a : answer) : answer :=
  match a with
  | ARow r => ARow (rename_row r)
  | ARows l => ARows (map rename_row l)
  | AItems l rs => AItems l (map rename_row rs)
  | AVal v => match c with Do (OCell k _) => AVal (rho k v) | _ => a end
  | _ => a
  end.
Definition rename_answers (cs : list call) (l : list answer) : list answer := map (fun p => rename_answer (fst p) (snd p)) (combine cs l).

(** The same order of rows. *)
Definition order_kept (cmp cmp' : row -> row -> comparison) : Prop :=
  forall x y, length x = m -> length y = m -> cmp' (rename_row x) (rename_row y) = cmp x y.
(** The same call with other values; closures and orders do the same.  What is looked for has a name of its own in its column. *)
Inductive renamed : call -> call -> Prop :=
| rn_same o : match o with
              | OFind _ _ | OAssign _ _ _ | OPush _ | OPushAll _ | OPushArray _ | ORetain _ _ _ | OVisit _ _ _ | OMergeLogged _ _ _ _ _ | OMerge _ _ | OMergeSingle _ _ => False
              | _ => True
              end -> renamed (Do o) (Do o)
| rn_find k v : (forall x, rho k x = rho k v -> x = v) -> renamed (Do (OFind k v)) (Do (OFind k (rho k v)))
| rn_assign k i v : renamed (Do (OAssign k i v)) (Do (OAssign k i (rho k v)))
| rn_push r : renamed (Do (OPush r)) (Do (OPush (rename_row r)))
| rn_push_all rs : renamed (Do (OPushAll rs)) (Do (OPushAll (map rename_row rs)))
| rn_push_array rs : renamed (Do (OPushArray rs)) (Do (OPushArray (map rename_row rs)))
| rn_retain A g g' s : (forall a r, length r = m -> g' a (rename_row r) = g a r) -> renamed (CRetain A g s) (CRetain A g' s)
| rn_visit A g g' s : (forall a r, length r = m -> g' a (rename_row r) = (fst (g a r), rename_act (snd (g a r)))) -> renamed (CVisit A g s) (CVisit A g' s)
| rn_merge cmp cmp' rows : order_kept cmp cmp' -> renamed (Do (OMerge cmp rows)) (Do (OMerge cmp' (map rename_row rows)))
| rn_single cmp cmp' r : order_kept cmp cmp' -> renamed (Do (OMergeSingle cmp r)) (Do (OMergeSingle cmp' (rename_row r)))
| rn_logged cmp cmp' rows : order_kept cmp cmp' -> renamed (CMergeLogged cmp rows) (CMergeLogged cmp' (map rename_row rows)).
End Rename.
