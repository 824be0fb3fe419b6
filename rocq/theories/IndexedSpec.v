(** Tables that differ in the indexes of their columns only: what C110 compares. *)
From Coq Require Import List Arith Bool.
From Verif Require Import Base Column RowRange Table Visit SortedTab TableSpec Hist Answers.
Import ListNotations.

Definition is_indexed (t : ctype) : bool := match t with Indexed _ => true | Plain _ => false end.
Definition has_index (c : col) : bool := match c with CIdx _ _ => true | CPlain _ => false end.

(** The same declaration, but for [#[index]] on some columns. *)
Definition same_but_indexes (s s' : schema) : Prop :=
  s_kind s = s_kind s' /\ s_imax s = s_imax s' /\ map ct_base (s_cols s) = map ct_base (s_cols s').

(** The same column, or the same elements once with an index (whatever is in it) and once without. *)
Definition col_alike (c c' : col) : Prop := c = c' \/ (c_base c = c_base c' /\ has_index c <> has_index c').
Definition tab_alike (t t' : table) : Prop :=
  same_but_indexes (t_sch t) (t_sch t') /\ Forall2 col_alike (t_cols t) (t_cols t') /\ t_free t = t_free t'.
Definition lock_alike (w w' : wlock) : Prop :=
  tab_alike (w_tab w) (w_tab w') /\ w_changes w = w_changes w' /\ w_pushed w = w_pushed w' /\ w_delete w = w_delete w'.

(** Column [k] is indexed in both tables or in none. *)
Definition both_or_none (s s' : schema) (k : nat) : Prop :=
  match nth_error (s_cols s) k, nth_error (s_cols s') k with
  | Some t, Some t' => is_indexed t = is_indexed t'
  | _, _ => True
  end.
(** The call does not use an index that only one of the tables has, nor assign to a column that is indexed in one only (it does not
    compile for that table); closures given to it do the same on tables that are alike. *)
Definition suits (s s' : schema) (c : call) : Prop :=
  match c with
  | Do (OFind k _) | Do (OAssign k _ _) => both_or_none s s' k
  | Do (ORetain _ f _) => forall a w w' i, lock_alike w w' -> f a w i = f a w' i
  | Do (OVisit _ f _) => forall a w w' i, lock_alike w w' -> f a w i = f a w' i
  | Do (OMergeLogged _ _ f _ _) => forall a w w' i, lock_alike w w' -> f a w i = f a w' i
  | _ => True
  end.

(** Both return, with results that are related; or both panic, or both have undefined behaviour, or both go on for ever. *)
Definition same_way {A B} (R : A -> B -> Prop) (x : res A) (y : res B) : Prop :=
  match x, y with
  | Ok a, Ok b => R a b
  | Err (EPanic _), Err (EPanic _) => True
  | Err EUB, Err EUB => True
  | Err EDeadlock, Err EDeadlock => True
  | Err EFuel, Err EFuel => True
  | _, _ => False
  end.
