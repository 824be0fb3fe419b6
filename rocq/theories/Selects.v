(** Selections of rows: [Select], [SelectOwned], [SelectRows], [SelectAny] and [SelectIter], src/tracking.rs:18-163.  Slices and vectors are
    lists of ids; [as_ref] and [as_slice] then change nothing. *)
From Coq Require Import List Arith Bool.
From Verif Require Import Base AnySlice.
Import ListNotations.

(** src/tracking.rs:27-34 *)
Definition se_map {I R} (f : I -> R) (s : sel_of I) : sel_of R :=
  match s with SelAll => SelAll | SelThese i => SelThese (f i) end.
(** src/tracking.rs:36-41 *)
Definition se_as_ref {I} (s : sel_of I) : sel_of I := match s with SelAll => SelAll | SelThese i => SelThese i end.
(** [as_mut] (43-48) followed by [map] with a function that changes the rows in place *)
Definition se_change {I} (f : I -> I) (s : sel_of I) : sel_of I := match s with SelAll => SelAll | SelThese i => SelThese (f i) end.
(** src/tracking.rs:50-55 *)
Definition se_unwrap {I} (s : sel_of I) : res I := match s with SelAll => panic PUnwrap | SelThese i => Ok i end.
(** src/tracking.rs:57-62 *)
Definition se_is_all {I} (s : sel_of I) : bool := match s with SelAll => true | _ => false end.

(** src/tracking.rs:137-144 *)
Inductive sel_iter := SIAll (l : list nat) | SIThese (l : list nat).
(** src/tracking.rs:67-82; the iterator is the list of what it gives *)
Definition se_iter_or_all (s : sel_of (list nat)) (all : list nat) : sel_iter :=
  match s with SelAll => SIAll all | SelThese l => SIThese l end.
(** src/tracking.rs:84-90, from slices with their type of ids *)
Definition se_as_any (ty : nat) (s : sel_of (list nat)) : sel_of (nat * list nat) := se_map (fun l => (ty, l)) (se_as_ref s).
(** macros/output.rs:629-637, src/any_slice.rs:33-45 *)
Definition se_downcast (ty : nat) (s : sel_of (nat * list nat)) : res (sel_of (list nat)) :=
  match s with
  | SelAll => Ok SelAll
  | SelThese (ty', l) => if ty' =? ty then Ok (SelThese l) else panic PWrongRows
  end.
(** src/tracking.rs:92-97 *)
Definition se_is_empty (s : sel_of (list nat)) : bool :=
  match s with SelAll => false | SelThese l => match l with [] => true | _ => false end end.
(** src/tracking.rs:99-104 *)
Definition se_to_owned (s : sel_of (list nat)) : sel_of (list nat) := match s with SelAll => SelAll | SelThese l => SelThese (map (fun i => i) l) end.
(** src/tracking.rs:107-111 *)
Definition se_as_slice (s : sel_of (list nat)) : sel_of (list nat) := se_map (fun l => l) (se_as_ref s).
(** src/tracking.rs:113-117 *)
Definition se_sort : sel_of (list nat) -> sel_of (list nat) := se_change sort_ids.
(** src/tracking.rs:119-123 *)
Definition se_push (r : nat) : sel_of (list nat) -> sel_of (list nat) := se_change (fun l => l ++ [r]).
(** src/tracking.rs:125-129: capacity is not modelled *)
Definition se_reserve (n : nat) : sel_of (list nat) -> sel_of (list nat) := se_change (fun l => l).

(** src/tracking.rs:151-156 *)
Definition si_next (i : sel_iter) : sel_iter * option nat :=
  match i with
  | SIAll [] => (SIAll [], None)
  | SIAll (x :: l) => (SIAll l, Some x)
  | SIThese [] => (SIThese [], None)
  | SIThese (x :: l) => (SIThese l, Some x)
  end.
(** A [for] loop that goes round at most [n] times *)
Fixpoint si_take (n : nat) (i : sel_iter) : list nat :=
  match n with
  | 0 => []
  | S n => match si_next i with (j, Some x) => x :: si_take n j | (_, None) => [] end
  end.

(** What a program does with a [SelectOwned] of the table whose ids have type [ty].  [SRound]: it is passed on, erased, recognised by the
    table, and copied. *)
Inductive sel_op := SPush (r : nat) | SSort | SReserve (n : nat) | SRound (ty : nat).
Definition sel_do (o : sel_op) (s : sel_of (list nat)) : res (sel_of (list nat)) :=
  match o with
  | SPush r => Ok (se_push r s)
  | SSort => Ok (se_sort s)
  | SReserve n => Ok (se_reserve n s)
  | SRound ty => let* s := se_downcast ty (se_as_any ty (se_as_slice s)) in Ok (se_to_owned s)
  end.
Fixpoint sel_run (os : list sel_op) (s : sel_of (list nat)) : res (sel_of (list nat)) :=
  match os with [] => Ok s | o :: os => let* s := sel_do o s in sel_run os s end.
