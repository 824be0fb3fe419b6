(** Tables with another type of row ids (C133). *)
From Coq Require Import List Arith Bool.
From Verif Require Import Base Column RowRange Table TableSpec Hist Answers.
Import ListNotations.

(** [big]: the largest row id of the new type. *)
Definition with_ids (s : schema) (big : nat) : schema := Sch (s_kind s) big (s_cols s).
(** [x'] is what the table with the larger type returns for [x]: the same; but the row with the largest id of the smaller type is found now (see C04), and the empty range that
    [push_array] of no rows returns lies at the largest id (macros/output.rs:1539-1608). *)
Definition wider (imax big : nat) (c : call) (x x' : answer) : Prop :=
  match c with
  | Do (OFind _ _) => exists l l', x = AIds l /\ x' = AIds l' /\ l = filter (fun i => negb (i =? imax) || (big =? imax)) l'
  | Do (OPushArray []) => x = ASpan imax imax /\ x' = ASpan big big
  | _ => x' = x
  end.
