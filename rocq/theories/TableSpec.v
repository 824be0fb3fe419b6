(** Vocabulary of the table properties: what a table holds, and what its operations should do. *)
From Coq Require Import List Arith Bool.
From Verif Require Import Base Column RowRange Table Visit BagTab.
Import ListNotations.

(** A row of the right Rust type. *)
Definition row_ty (ts : list ctype) (r : row) : Prop := Forall2 (fun t v => v_ty (ct_base t) v) ts r.

(** The table reads as the sequence [rows] (no deleted rows). *)
Definition holds (t : table) (rows : list row) : Prop :=
  t_len t = length rows /\ forall i r, nth_error rows i = Some r -> t_get_row t i = Ok r.

(** ** visit *)
(** What the answers of the callback ask for. *)
Fixpoint visit_spec (rows : list row) (acts : list action) : list row :=
  match rows, acts with
  | r :: rs, Continue remove add :: acts => (if remove then [] else [r]) ++ add ++ visit_spec rs acts
  | _, _ => rows
  end.
(** The callback is asked until it says Break or [n] rows have been shown. *)
Fixpoint acts_complete (n : nat) (acts : list action) : Prop :=
  match n, acts with
  | 0, [] => True
  | S n, Continue _ _ :: acts => acts_complete n acts
  | S _, [Break] => True
  | _, _ => False
  end.
(** A callback that records its calls: row id, table as seen, answer. *)
Definition recording {S A} (f : S -> wlock -> nat -> S * A) (p : S * list (nat * wlock * A)) (w : wlock) (i : nat)
  : (S * list (nat * wlock * A)) * A :=
  let q := f (fst p) w i in ((fst q, snd p ++ [(i, w, snd q)]), snd q).

(** ** sorted tables *)
(** [l] without the elements at the positions [ids] (its first element is at position [i]). *)
Fixpoint without {A} (i : nat) (l : list A) (ids : list nat) : list A :=
  match l with
  | [] => []
  | x :: xs => if mem i ids then without (S i) xs ids else x :: without (S i) xs ids
  end.
(** Merge, elements of [l] first among equals. *)
Fixpoint stable_merge {A} (cmp : A -> A -> comparison) (l : list A) : list A -> list A :=
  fix go (r : list A) : list A :=
  match l, r with
  | [], _ => r
  | _, [] => l
  | x :: l', y :: r' => match cmp x y with Gt => y :: go r' | _ => x :: stable_merge cmp l' r end
  end.
Fixpoint take_while {A} (p : A -> bool) (l : list A) : list A :=
  match l with [] => [] | x :: xs => if p x then x :: take_while p xs else [] end.
Fixpoint drop_while {A} (p : A -> bool) (l : list A) : list A :=
  match l with [] => [] | x :: xs => if p x then drop_while p xs else l end.
Definition is_lt {A} (cmp : A -> A -> comparison) (y x : A) : bool := match cmp x y with Lt => true | _ => false end.

(** The order [merge] leaves the rows in: the stable merge, except that the first new row comes before
    the rows equal to it. *)
Definition merge_order {A} (cmp : A -> A -> comparison) (rows new : list A) : list A :=
  match new with
  | [] => rows
  | first :: rest => take_while (is_lt cmp first) rows ++ first :: stable_merge cmp (drop_while (is_lt cmp first) rows) rest
  end.

(** ** bags *)
Definition removes (c : choice) : bool := match c with Remove | StopRemove => true | _ => false end.
Definition stops (c : choice) : bool := match c with StopKeep | StopRemove => true | _ => false end.
(** The rows kept among the visited ones. *)
Definition kept (ids : list nat) (tr : list (nat * wlock * choice)) : list nat :=
  map fst (filter (fun p => negb (removes (snd (snd p)))) (combine ids tr)).

(** ** iteration *)
(** A cursor on the rows [a..e): [next] gives the first row present at or after it and moves past it
    (or to the end), [skip_fast n] adds [n] to it and fails if that is no row id. *)
Fixpoint walk (imax umax : nat) (present : nat -> bool) (ops : list it_op) (a e : nat) : option (list (option nat)) :=
  match ops with
  | [] => Some []
  | ItNext :: os =>
      match filter present (seq a (e - a)) with
      | [] => option_map (cons None) (walk imax umax present os (Nat.max a e) e)
      | x :: _ => option_map (cons (Some x)) (walk imax umax present os (S x) e)
      end
  | ItSkip n :: os => if (a + n <=? imax) && (a + n <=? umax) then walk imax umax present os (a + n) e else None
  end.
(** The iterator [it] over the table [t] yields the present rows of [a..e): by a loop, and by any mixture of
    [next] and [skip_fast] (in a debug build). *)
Definition iterates (t : table) (pr : profile) (umax : nat) (it : cons_iter) (a e : nat) : Prop :=
  (forall fuel, e - a < fuel -> cons_collect pr (t_imax t) fuel it = Ok (filter (t_contains t) (seq a (e - a)))) /\
  forall ops, match walk (t_imax t) umax (t_contains t) ops a e with
              | Some l => cons_run Debug (t_imax t) umax ops it = Ok l
              | None => exists p, cons_run Debug (t_imax t) umax ops it = panic p
              end.

(** ** pushing and deleting *)
(** Row [j] reads the same in both tables. *)
Definition same_row (t t' : table) (j : nat) : Prop :=
  (forall x, t_get_row t' j = Ok x <-> t_get_row t j = Ok x) /\ t_contains t' j = t_contains t j /\
  t_is_deleted t' j = t_is_deleted t j.
(** The deleted row with the smallest id. *)
Definition least_deleted (t : table) (i : nat) : Prop :=
  t_is_deleted t i = true /\ forall j, t_is_deleted t j = true -> i <= j.
(** A removal event a flush accepts. *)
Definition plain_removal (ev : event) : Prop := ev_removal ev = true /\ ev_creation ev = false /\ ev_id ev < max_event_types.

(** [n] calls of [next] on a bag's iterator: the ids of the handles, until it ends. *)
Fixpoint nexts (pr : profile) (umax n : nat) (b : bag_iter) : res (bag_iter * list nat) :=
  match n with
  | 0 => Ok (b, [])
  | S n => let* p := bag_next pr umax b in
           match snd p with
           | None => Ok (fst p, [])
           | Some i => let* q := nexts pr umax n (fst p) in Ok (fst q, i :: snd q)
           end
  end.
