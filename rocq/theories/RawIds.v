(** Row ids of any integer type: the type given by [#[row_id = "…"]] (macros/parse.rs:59, macros/output.rs:167-170) may be signed or
    wider than [usize].  The other parts of the model take ids as natural numbers. *)
From Coq Require Import List ZArith Bool.
From Verif Require Import Base RowRange.
Import ListNotations.
Local Open Scope Z_scope.

(** A primitive integer type, [i8] … [u128]: whether it is signed, and its width less one *)
Record ity := IT { t_signed : bool; t_wid : nat }.
Definition width (t : ity) : Z := Z.of_nat (S (t_wid t)).
Definition t_min (t : ity) : Z := if t_signed t then - 2 ^ (width t - 1) else 0.
Definition t_max (t : ity) : Z := if t_signed t then 2 ^ (width t - 1) - 1 else 2 ^ width t - 1.
Definition in_ty (t : ity) (z : Z) : bool := (t_min t <=? z) && (z <=? t_max t).
(** [as], and overflow in release builds: the number of the type with the same low bits *)
Definition wrap (t : ity) (z : Z) : Z := (z - t_min t) mod 2 ^ width t + t_min t.

Section RawIds.
Variable pr : profile.
(** The type of the ids, and [usize] *)
Variables t us : ity.

Definition arith (z : Z) : res Z :=
  if in_ty t z then Ok z else match pr with Debug => panic POverflow | Release => Ok (wrap t z) end.
(** [usize] arithmetic *)
Definition uarith (z : Z) : res Z :=
  if in_ty us z then Ok z else match pr with Debug => panic POverflow | Release => Ok (wrap us z) end.

(** src/index.rs:56-58; num_traits' [from_usize] gives [None] for what the type does not hold *)
Definition z_from_usize (n : Z) : res Z := if in_ty t n then Ok n else panic PRowIdRange.
(** src/index.rs:59, 92 *)
Definition z_to_usize (i : Z) : res Z := if in_ty us i then Ok i else panic PUnwrap.
(** src/index.rs:62-64, and 94 *)
Definition z_next (i : Z) : res Z := arith (i + 1).
(** src/index.rs:66-68 *)
Definition z_prev (i : Z) : res Z := arith (i - 1).
(** src/index.rs:105-111 *)
Definition z_default : Z := t_max t.
(** macros/output.rs:197-200 *)
Definition z_first : Z := 0.
(** macros/output.rs:204-207: [usize::MAX as RawType] *)
Definition z_invalid : Z := wrap t (t_max us).

(** A [GenericRowId] or a [CheckedRowId] (src/index.rs:22-28, 80-86), without the table *)
Inductive any_id := Gen (i : Z) | Chk (i : Z).
Definition raw (a : any_id) : Z := match a with Gen i | Chk i => i end.
(** [==]: src/index.rs:140-159 for two of a sort, 180-205 for one of each *)
Definition id_eq (a b : any_id) : bool :=
  match a, b with
  | Gen i, Gen j | Chk i, Chk j => i =? j
  | Gen i, Chk j | Chk i, Gen j => i =? j
  end.
(** [partial_cmp]: the same lines *)
Definition id_cmp (a b : any_id) : option comparison :=
  match a, b with
  | Gen i, Gen j | Chk i, Chk j => Some (i ?= j)
  | Gen i, Chk j | Chk i, Gen j => Some (i ?= j)
  end.
(** [hash], src/index.rs:167-174: what is fed to the hasher.  Checked ids have no [Hash], since no locked table has. *)
Definition id_hash (i : Z) : list Z := [i].

(** ** Ranges *)
Record zrange := ZR { z_start : Z; z_end : Z }.
(** src/index.rs:294-299 *)
Definition zr_empty : zrange := ZR z_default z_default.
(** src/index.rs:303-308 *)
Definition zr_on (i : Z) : res zrange := let* n := z_next i in Ok (ZR i n).
(** src/index.rs:312-325 *)
Definition zr_offset (r : zrange) (n : Z) : option Z :=
  if in_ty t (z_start r + n) then
    if z_end r <? z_start r + n then None else Some (z_start r + n)
  else None.
(** src/index.rs:329-331 *)
Definition zr_len (r : zrange) : res Z :=
  let* e := z_to_usize (z_end r) in let* s := z_to_usize (z_start r) in uarith (e - s).
(** src/index.rs:335-337 *)
Definition zr_contains (r : zrange) (o : Z) : bool := (z_start r <=? o) && (o <? z_end r).
(** src/index.rs:341-349 *)
Definition zr_intersects (a b : zrange) : res bool :=
  let* _ := match pr with
            | Debug =>
                let* _ := assert_ (z_start a <=? z_end a) PRangeOrder in
                assert_ (z_start b <=? z_end b) PRangeOrder
            | Release => Ok tt
            end in
  Ok (negb ((z_end a <=? z_start b) || (z_end b <=? z_start a))).
(** src/index.rs:353-359 *)
Definition zr_inner_index (r : zrange) (o : Z) : res (option Z) :=
  if zr_contains r o then let* d := arith (o - z_start r) in Ok (Some d) else Ok None.

(** ** Iterators: src/index.rs:411-415, 462-465 *)
Record ziter := ZI { zi_i : Z; zi_end : Z }.
(** src/index.rs:362-367 *)
Definition zr_iter_slow (r : zrange) : ziter := ZI (z_start r) (z_end r).
(** src/index.rs:417-425; [len] is [table.len()].  [||] does not look at its right side if the left is true. *)
Definition zc_from (len : Z) (r : zrange) : res ziter :=
  let* s := z_to_usize (z_start r) in
  let* _ := assert_ ((s <? len) || (z_start r =? z_end r)) PIterRange in
  let* e := z_to_usize (z_end r) in
  let* _ := assert_ (e <=? len) PIterRange in
  Ok (ZI (z_start r) (z_end r)).
(** src/index.rs:435-438, 467-470 *)
Definition zi_skip_fast (it : ziter) (n : Z) : res ziter :=
  let* u := z_to_usize (zi_i it) in
  let* s := uarith (u + n) in
  let* i := z_from_usize s in
  Ok (ZI i (zi_end it)).
(** src/index.rs:443-454, 475-486 *)
Definition zi_next (it : ziter) : res (ziter * option Z) :=
  if zi_end it <=? zi_i it then Ok (it, None)
  else let* n := z_next (zi_i it) in Ok (ZI n (zi_end it), Some (zi_i it)).
(** src/index.rs:456-459, 488-491 *)
Definition zi_size_hint (it : ziter) : res Z :=
  let* e := z_to_usize (zi_end it) in let* i := z_to_usize (zi_i it) in uarith (e - i).
(** A [for] loop over the iterator *)
Fixpoint zi_collect (fuel : nat) (it : ziter) : res (list Z) :=
  match fuel with
  | O => Err EFuel
  | S f => let* p := zi_next it in
           match snd p with
           | None => Ok []
           | Some x => let* l := zi_collect f (fst p) in Ok (x :: l)
           end
  end.

(** ** Ids and tables.  Of a table only the length (of every column, C11) and the deleted ids. *)
Variable len : Z.
Variable dead : list Z.
(** [check], src/index.rs:503-517 *)
Definition z_check (i : Z) : res Z :=
  let* u := z_to_usize i in
  if len <=? u then panic PIndexOOB else
  if existsb (Z.eqb i) dead then panic PDeletedRow else Ok i.
(** [column[id]], src/columns.rs:65-70, 75-94: the element that is looked at *)
Definition z_index (i : Z) : res Z :=
  let* u := z_to_usize i in
  if len <=? u then panic PIndexOOB else Ok u.
(** [column[checked]], src/columns.rs:95-111: [get_unchecked], at an id from [z_check] *)
Definition z_index_checked (i : Z) : res Z :=
  let* u := z_to_usize i in
  if u <? len then Ok u else Err EUB.
(** [contains], macros/output.rs:649-652 (of consistent tables; 743-746 of the others, where nothing is deleted).
    [&&] does not look at its right side if the left is false. *)
Definition z_contains (i : Z) : res bool :=
  let* u := z_to_usize i in Ok ((u <? len) && negb (existsb (Z.eqb i) dead)).
End RawIds.
