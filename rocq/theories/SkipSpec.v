(** What C88 says an iterator that is skipped around in yields. *)
From Coq Require Import List Arith Bool.
From Verif Require Import Base RowRange.
Import ListNotations.

Section W.
Variables (pr : profile) (imax umax : nat).
Variable present : nat -> bool.
(** [a]: the row looked at next.  [m]: the highest row looked at so far; which rows below it are deleted is forgotten.
    Skipping past the largest [usize] (a release build) goes back. *)
Fixpoint wander (ops : list it_op) (a m e : nat) : option (list (option nat)) :=
  match ops with
  | [] => Some []
  | ItNext :: os =>
      match filter (fun x => present x || (x <? m)) (seq a (e - a)) with
      | [] => option_map (cons None) (wander os (Nat.max a e) (if a <? e then Nat.max m (e - 1) else m) e)
      | x :: _ => option_map (cons (Some x)) (wander os (S x) (Nat.max m x) e)
      end
  | ItSkip n :: os =>
      if a + n <=? umax then if a + n <=? imax then wander os (a + n) m e else None
      else match pr with Debug => None | Release => wander os (a + n - S umax) m e end
  end.
End W.

(** The amounts skipped are [usize]. *)
Definition skips_usize (umax : nat) (ops : list it_op) : Prop := forall n, In (ItSkip n) ops -> n <= umax.
Definition skipped (ops : list it_op) : nat := list_sum (map (fun o => match o with ItSkip n => n | ItNext => 0 end) ops).
(** The rows among the answers. *)
Definition somes (l : list (option nat)) : list nat := flat_map (fun o => match o with Some x => [x] | None => [] end) l.
