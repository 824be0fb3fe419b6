(** Row ids, row ranges, range iterators and merge-join: src/index.rs, src/joincore.rs. *)
From Coq Require Import List Arith Bool.
From Verif Require Import Base.
Import ListNotations.

(** Build profile: overflow of integer arithmetic panics in Debug and wraps in Release;
    [debug_assert!] is only active in Debug. *)
Inductive profile := Debug | Release.

Record rrange := RR { r_start : nat; r_end : nat }.

Section RowIds.
Variable pr : profile.
(** Largest value of the row-id type, largest [usize]. *)
Variables imax umax : nat.

(** src/index.rs:56-58 *)
Definition rid_from_usize (i : nat) : res nat := if i <=? imax then Ok i else panic PRowIdRange.

(** src/index.rs:62-64 *)
Definition rid_next (i : nat) : res nat :=
  if i <? imax then Ok (S i) else match pr with Debug => panic POverflow | Release => Ok 0 end.

(** src/index.rs:66-68 *)
Definition rid_prev (i : nat) : res nat :=
  match i with
  | S j => Ok j
  | 0 => match pr with Debug => panic POverflow | Release => Ok imax end
  end.

(** [usize] subtraction and addition *)
Definition usub (a b : nat) : res nat :=
  if b <=? a then Ok (a - b)
  else match pr with Debug => panic POverflow | Release => Ok (S umax + a - b) end.
Definition uadd (a b : nat) : res nat :=
  if a + b <=? umax then Ok (a + b)
  else match pr with Debug => panic POverflow | Release => Ok (a + b - S umax) end.

(** src/index.rs:294-299 *)
Definition rr_empty : rrange := RR imax imax.

(** src/index.rs:303-308 *)
Definition rr_on (i : nat) : res rrange := let* n := rid_next i in Ok (RR i n).

(** src/index.rs:312-325 *)
Definition rr_offset (r : rrange) (n : nat) : option nat :=
  if r_start r + n <=? imax then
    if r_end r <? r_start r + n then None else Some (r_start r + n)
  else None.

(** src/index.rs:329-331 *)
Definition rr_len (r : rrange) : res nat := usub (r_end r) (r_start r).

(** src/index.rs:335-337 *)
Definition rr_contains (r : rrange) (o : nat) : bool := (r_start r <=? o) && (o <? r_end r).

(** src/index.rs:341-349 *)
Definition rr_intersects (a b : rrange) : res bool :=
  let* _ := match pr with
            | Debug =>
                let* _ := assert_ (r_start a <=? r_end a) PRangeOrder in
                assert_ (r_start b <=? r_end b) PRangeOrder
            | Release => Ok tt
            end in
  Ok (negb ((r_end a <=? r_start b) || (r_end b <=? r_start a))).

(** src/index.rs:353-359 *)
Definition rr_inner_index (r : rrange) (o : nat) : option nat :=
  if rr_contains r o then Some (o - r_start r) else None.

(** ** Iterators.  State of CheckedIter (src/index.rs:411-415) and UncheckedIter (462-465);
    the reference to the table is left out. *)
Record riter := RI { it_i : nat; it_end : nat }.

(** src/index.rs:362-367 *)
Definition rr_iter_slow (r : rrange) : riter := RI (r_start r) (r_end r).

(** src/index.rs:417-425; [len] is [table.len()] *)
Definition ci_from (len : nat) (r : rrange) : res riter :=
  let* _ := assert_ ((r_start r <? len) || (r_start r =? r_end r)) PIterRange in
  let* _ := assert_ (r_end r <=? len) PIterRange in
  Ok (RI (r_start r) (r_end r)).

(** src/index.rs:428-433 *)
Definition ci_uncheck (it : riter) : rrange := RR (it_i it) (it_end it).

(** src/index.rs:435-438, 467-470 *)
Definition it_skip_fast (it : riter) (n : nat) : res riter :=
  let* s := uadd (it_i it) n in
  let* i := rid_from_usize s in
  Ok (RI i (it_end it)).

(** src/index.rs:443-454, 475-486 *)
Definition it_next (it : riter) : res (riter * option nat) :=
  if it_end it <=? it_i it then Ok (it, None)
  else let* n := rid_next (it_i it) in Ok (RI n (it_end it), Some (it_i it)).

(** src/index.rs:456-459, 488-491 *)
Definition it_size_hint (it : riter) : res nat := usub (it_end it) (it_i it).

(** A [for] loop over the iterator. *)
Fixpoint it_collect (fuel : nat) (it : riter) : res (list nat) :=
  match fuel with
  | 0 => Err EFuel
  | S f => let* p := it_next it in
           match snd p with
           | None => Ok []
           | Some x => let* l := it_collect f (fst p) in Ok (x :: l)
           end
  end.

(** ** JoinCore, src/joincore.rs.  The state is what remains of the right iterator. *)
Inductive join_out (B : Type) := JNext | JStop | JMatch (b : B).
Arguments JNext {B}. Arguments JStop {B}. Arguments JMatch {B}.

(** src/joincore.rs:46-71 *)
Fixpoint join {A B} (cmp : A -> B -> comparison) (l : A) (right : list B) : join_out B * list B :=
  match right with
  | [] => (JStop, [])
  | r :: rs =>
      match cmp l r with
      | Lt => (JNext, right)
      | Eq => (JMatch r, right)
      | Gt => join cmp l rs
      end
  end.

(** src/joincore.rs:73-98 *)
Fixpoint join_next {A B} (cmp : A -> B -> comparison) (l : A) (right : list B) : join_out B * list B :=
  match right with
  | [] => (JStop, [])
  | r :: rs =>
      match cmp l r with
      | Lt => (JNext, right)
      | Eq => (JMatch r, rs)
      | Gt => join_next cmp l rs
      end
  end.

(** A loop joining each left item in turn. *)
Fixpoint join_run {A B} (step : A -> list B -> join_out B * list B) (left : list A) (right : list B)
  : list (join_out B) :=
  match left with
  | [] => []
  | l :: ls => let p := step l right in fst p :: join_run step ls (snd p)
  end.

(** ** Iterators that skip deleted rows: ConsistentIter (src/index.rs:548-582) and
    EditIter (587-616), which have the same structure. *)
Record cons_iter := CI { ci_rows : riter; ci_del : list nat }.

(** src/index.rs:553-558, 592-597; the keys of the free list are ascending. *)
Definition cons_new (it : riter) (free : list nat) : cons_iter := CI it free.

(** src/index.rs:560-562 *)
Definition cons_with_deleted (c : cons_iter) : riter := ci_rows c.

(** src/index.rs:564-567, 599-602 *)
Definition cons_skip_fast (c : cons_iter) (n : nat) : res cons_iter :=
  let* r := it_skip_fast (ci_rows c) n in Ok (CI r (ci_del c)).

(** src/index.rs:572-581, 606-615: the [while let] loop *)
Fixpoint cons_loop (fuel : nat) (c : cons_iter) : res (cons_iter * option nat) :=
  match fuel with
  | 0 => Err EFuel
  | S f =>
      let* p := it_next (ci_rows c) in
      match snd p with
      | None => Ok (CI (fst p) (ci_del c), None)
      | Some row =>
          let q := join Nat.compare row (ci_del c) in
          let c' := CI (fst p) (snd q) in
          match fst q with
          | JNext | JStop => Ok (c', Some row)
          | JMatch _ => cons_loop f c'
          end
      end
  end.
(** Each turn of the loop advances the range by one row, so this fuel is enough. *)
Definition cons_next (c : cons_iter) : res (cons_iter * option nat) :=
  cons_loop (S (it_end (ci_rows c) - it_i (ci_rows c))) c.

(** What a program can do with such an iterator. *)
Inductive it_op := ItNext | ItSkip (n : nat).
Fixpoint cons_run (ops : list it_op) (c : cons_iter) : res (list (option nat)) :=
  match ops with
  | [] => Ok []
  | ItNext :: os =>
      let* p := cons_next c in let* l := cons_run os (fst p) in Ok (snd p :: l)
  | ItSkip n :: os => let* c' := cons_skip_fast c n in cons_run os c'
  end.
Fixpoint it_run (ops : list it_op) (c : riter) : res (list (option nat)) :=
  match ops with
  | [] => Ok []
  | ItNext :: os =>
      let* p := it_next c in let* l := it_run os (fst p) in Ok (snd p :: l)
  | ItSkip n :: os => let* c' := it_skip_fast c n in it_run os c'
  end.

(** A [for] loop over the iterator. *)
Fixpoint cons_collect (fuel : nat) (c : cons_iter) : res (list nat) :=
  match fuel with
  | 0 => Err EFuel
  | S f => let* p := cons_next c in
           match snd p with
           | None => Ok []
           | Some x => let* l := cons_collect f (fst p) in Ok (x :: l)
           end
  end.

End RowIds.
Arguments JNext {B}. Arguments JStop {B}. Arguments JMatch {B}.
