(** Tables with and without their last columns (C131). *)
From Coq Require Import List Arith Bool.
From Verif Require Import Base Column RowRange Table Visit SortedTab TableSpec Hist Answers.
Import ListNotations.

(** All columns have the same length. *)
Definition in_step (t : table) : Prop := exists m, Forall (fun c => c_len c = m) (t_cols t).

Section Cut.
(** The first [n] columns are left. *)
Variable n : nat.
Definition cut_sch (s : schema) : schema := Sch (s_kind s) (s_imax s) (firstn n (s_cols s)).
Definition cut_tab (t : table) : table := Tab (cut_sch (t_sch t)) (firstn n (t_cols t)) (t_free t).
Definition cut_w (w : wlock) : wlock := W (cut_tab (w_tab w)) (w_changes w) (w_pushed w) (w_delete w).
Definition cut_act (a : action) : action := match a with Continue rm add => Continue rm (map (firstn n) add) | Break => Break end.
Definition cut_answer (a : answer) : answer :=
  match a with ARow r => ARow (firstn n r) | ARows l => ARows (map (firstn n) l) | AItems l rs => AItems l (map (firstn n) rs) | _ => a end.

(** The same call with the rows cut; it names only columns that are left.  Closures and orders do the same as before, so do not depend on the other columns. *)
Inductive fewer_op : op -> op -> Prop :=
| fo_same o : match o with
              | OCell k _ | OFind k _ | OAssign k _ _ => k < n
              | OPush _ | OPushAll _ | OPushArray _ | ORetain _ _ _ | OVisit _ _ _ | OMergeLogged _ _ _ _ _ | OMerge _ _ | OMergeSingle _ _ => False
              | _ => True
              end -> fewer_op o o
| fo_push r : fewer_op (OPush r) (OPush (firstn n r))
| fo_push_all rs : fewer_op (OPushAll rs) (OPushAll (map (firstn n) rs))
| fo_push_array rs : fewer_op (OPushArray rs) (OPushArray (map (firstn n) rs))
| fo_retain A f f' s : (forall a w i, in_step (w_tab w) -> i < t_len (w_tab w) -> f' a (cut_w w) i = f a w i) -> fewer_op (ORetain A f s) (ORetain A f' s)
| fo_visit A f f' s : (forall a w i, in_step (w_tab w) -> i < t_len (w_tab w) -> f' a (cut_w w) i = (fst (f a w i), cut_act (snd (f a w i)))) ->
                      fewer_op (OVisit A f s) (OVisit A f' s)
| fo_logged cmp cmp' A log log' s rows : (forall x y, cmp' (firstn n x) (firstn n y) = cmp x y) -> (forall a w i, in_step (w_tab w) -> log' a (cut_w w) i = log a w i) ->
                      fewer_op (OMergeLogged cmp A log s rows) (OMergeLogged cmp' A log' s (map (firstn n) rows))
| fo_merge cmp cmp' rows : (forall x y, cmp' (firstn n x) (firstn n y) = cmp x y) -> fewer_op (OMerge cmp rows) (OMerge cmp' (map (firstn n) rows))
| fo_single cmp cmp' r : (forall x y, cmp' (firstn n x) (firstn n y) = cmp x y) -> fewer_op (OMergeSingle cmp r) (OMergeSingle cmp' (firstn n r)).
Inductive fewer : call -> call -> Prop :=
| fw_do o o' : fewer_op o o' -> fewer (Do o) (Do o')
| fw_retain A g g' s : (forall a r, g' a (firstn n r) = g a r) -> fewer (CRetain A g s) (CRetain A g' s)
| fw_visit A g g' s : (forall a r, g' a (firstn n r) = (fst (g a r), cut_act (snd (g a r)))) -> fewer (CVisit A g s) (CVisit A g' s)
| fw_logged cmp cmp' rows : (forall x y, cmp' (firstn n x) (firstn n y) = cmp x y) -> fewer (CMergeLogged cmp rows) (CMergeLogged cmp' (map (firstn n) rows)).
(** A call that is only about a column that is not left. *)
Definition only_extra (c : call) : Prop :=
  match c with Do (OCell k _) | Do (OFind k _) | Do (OAssign k _ _) => n <= k | _ => False end.

(** A program: each call, and what becomes of it. *)
Definition cut_program (ps : list (call * option call)) : Prop :=
  Forall (fun x => match snd x with Some c' => fewer (fst x) c' | None => only_extra (fst x) end) ps.
Definition left_calls (ps : list (call * option call)) : list call := flat_map (fun x => match snd x with Some c => [c] | None => [] end) ps.
Definition left_answers (ps : list (call * option call)) (l : list answer) : list answer :=
  flat_map (fun x : call * option call * answer => match snd (fst x) with Some _ => [cut_answer (snd x)] | None => [] end) (combine ps l).
End Cut.
