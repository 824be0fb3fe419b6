(** Property theorems about row ids of any integer type, C106. *)
From Coq Require Import List ZArith Bool Lia.
From Verif Require Import Base RowRange RawIds RawIdsSpec RawIdsFacts.
Import ListNotations.
Local Open Scope Z_scope.
Local Ltac calc := vm_compute; reflexivity.

(** C106.  Checked and unchecked ids, mixed as one likes, are compared by one total order; [==] and [Hash] agree with it. *)
Theorem C106_order :
  (forall a b, id_eq a b = true <-> id_cmp a b = Some Eq) /\
  (forall a b, id_cmp b a = option_map CompOpp (id_cmp a b)) /\
  (forall a b c o, id_cmp a b = Some o -> (id_cmp b c = Some o \/ id_eq b c = true) -> id_cmp a c = Some o) /\
  (forall a b c, id_eq a b = true -> id_cmp a c = id_cmp b c) /\
  (forall i j, id_eq (Gen i) (Gen j) = true <-> id_hash i = id_hash j).
Proof. exact order. Qed.
Print Assumptions C106_order.
(** C106.  [next] and [prev] go by one; at the end of the type they panic, or in release builds go round. *)
Theorem C106_next : forall pr t i, of_ty t i ->
  z_next pr t i = (if i =? t_max t then match pr with Debug => panic POverflow | Release => Ok (t_min t) end else Ok (i + 1)) /\
  z_prev pr t i = (if i =? t_min t then match pr with Debug => panic POverflow | Release => Ok (t_max t) end else Ok (i - 1)).
Proof. intros pr t i H. split; [exact (next_exact pr t i H)|exact (prev_exact pr t i H)]. Qed.
Print Assumptions C106_next.
(** C106.  [from_usize] and [to_usize] undo each other; the one fails exactly for numbers the type does not hold, the other for
    ids that are negative or greater than any [usize]. *)
Theorem C106_usize : forall t us, t_signed us = false ->
  (forall n i, of_ty us n -> z_from_usize t n = Ok i -> z_to_usize us i = Ok n) /\
  (forall i n, of_ty t i -> z_to_usize us i = Ok n -> z_from_usize t n = Ok i) /\
  (forall n, (exists i, z_from_usize t n = Ok i) <-> of_ty t n) /\
  (forall i, (exists n, z_to_usize us i = Ok n) <-> 0 <= i <= t_max us).
Proof.
  intros t us U. split; [exact (proj1 (usize_back t us U))|]. split; [exact (proj2 (usize_back t us U))|]. split.
  - intros n. rewrite <- in_ty_spec. unfold z_from_usize. destruct (in_ty t n); split; try discriminate; [reflexivity|intros _; eexists; reflexivity|intros [i H]; discriminate H].
  - intros i. split.
    + intros [n H]. destruct (Z.leb_spec 0 i); [destruct (Z.leb_spec i (t_max us)); [lia|]|]; rewrite to_usize_bad in H by (assumption || lia); discriminate H.
    + intros H. exists i. apply to_usize_ok; assumption.
Qed.
Print Assumptions C106_usize.
Example C106_next_case : of_ty (IT true 7) 126 /\ z_next Debug (IT true 7) 126 = Ok 127 /\ z_next Release (IT true 7) 127 = Ok (-128) /\
  z_prev Debug (IT true 7) z_first = Ok (-1) /\ z_prev Debug (IT false 7) z_first = panic POverflow /\ z_prev Release (IT false 7) z_first = Ok 255 /\
  z_from_usize (IT true 7) 127 = Ok 127 /\ z_from_usize (IT true 7) 128 = panic PRowIdRange /\ z_to_usize (IT false 63) (-1) = panic PUnwrap.
Proof. split; [vm_compute; split; discriminate|]. repeat split. Qed.

(** C106.  [on] gives the range of the one id, the empty range has none.  For the last id of the type it panics, or in release builds
    gives a range without ids. *)
Theorem C106_on : forall pr t i, of_ty t i ->
  (forall o, zr_contains (zr_empty t) o = false) /\
  (i <> t_max t -> exists r, zr_on pr t i = Ok r /\ forall o, zr_contains r o = true <-> o = i) /\
  (i = t_max t -> match pr with Debug => zr_on pr t i = panic POverflow | Release => exists r, zr_on pr t i = Ok r /\ forall o, zr_contains r o = false end).
Proof. exact on_exact. Qed.
Print Assumptions C106_on.
Example C106_on_case : of_ty (IT true 7) (-3) /\ zr_on Debug (IT true 7) (-3) = Ok (ZR (-3) (-2)) /\ zr_on Release (IT true 7) 127 = Ok (ZR 127 (-128)).
Proof. split; [vm_compute; split; discriminate|split; calc]. Qed.

(** C106.  On ids that are natural numbers fitting into [usize] ranges and iterators do exactly what they do in the model with natural
    numbers (C05-C08, C88, C103), whatever the type. *)
Theorem C106_natural_ranges : forall pr t us, t_signed us = false -> forall r, both t us (r_start r) -> both t us (r_end r) ->
  zr_len pr us (z_of_range r) = lift Z.of_nat (rr_len pr (Z.to_nat (t_max us)) r) /\
  (forall o, zr_contains (z_of_range r) (Z.of_nat o) = rr_contains r o) /\
  (forall o, both t us o -> zr_inner_index pr t (z_of_range r) (Z.of_nat o) = Ok (option_map Z.of_nat (rr_inner_index r o))) /\
  (forall n, zr_offset t (z_of_range r) (Z.of_nat n) = option_map Z.of_nat (rr_offset (Z.to_nat (t_max t)) r n)) /\
  (forall q, zr_intersects pr (z_of_range r) (z_of_range q) = rr_intersects pr r q) /\
  (forall len, zc_from us (Z.of_nat len) (z_of_range r) = lift z_of_iter (ci_from len r)).
Proof. exact nat_ranges. Qed.
Print Assumptions C106_natural_ranges.
Theorem C106_natural_iters : forall pr t us, t_signed us = false -> forall i, both t us (it_i i) -> both t us (it_end i) ->
  zi_next pr t (z_of_iter i) = lift z_of_item (it_next pr (Z.to_nat (t_max t)) i) /\
  zi_size_hint pr us (z_of_iter i) = lift Z.of_nat (it_size_hint pr (Z.to_nat (t_max us)) i) /\
  (forall n, Z.of_nat n <= t_max us ->
     zi_skip_fast pr t us (z_of_iter i) (Z.of_nat n) = lift z_of_iter (it_skip_fast pr (Z.to_nat (t_max t)) (Z.to_nat (t_max us)) i n)).
Proof. exact nat_iters. Qed.
Print Assumptions C106_natural_iters.
Example C106_natural_case : both (IT true 7) (IT false 63) 3 /\ both (IT true 7) (IT false 63) 127 /\
  zr_len Debug (IT false 7) (z_of_range (RR 3 127)) = Ok 124 /\ zr_offset (IT true 7) (z_of_range (RR 3 127)) 124 = Some 127 /\
  zr_offset (IT true 7) (z_of_range (RR 3 127)) 125 = None /\ zr_inner_index Debug (IT true 7) (z_of_range (RR 3 127)) 100 = Ok (Some 97).
Proof. split; [vm_compute; split; discriminate|]. split; [vm_compute; split; discriminate|]. repeat split. Qed.

(** C106.  Whatever the id, a table is asked for a row it does not have only with a panic, never by undefined behaviour:
    [check] lets pass only ids of rows that are there, and so do the iterators over a range. *)
Theorem C106_access : forall pr t us, t_signed us = false -> forall len dead, 0 <= len <= t_max us -> forall i b,
  z_check us len dead i <> Err EUB /\ z_index us len i <> Err EUB /\ z_contains us len dead i <> Err EUB /\
  (forall j, z_check us len dead i = Ok j -> j = i /\ 0 <= i < len /\ ~ In i dead /\ z_index_checked us len j = Ok i) /\
  (forall j, z_index us len i = Ok j -> j = i /\ 0 <= i < len) /\
  (forall it, zc_from us len (ZR i b) = Ok it ->
     forall fuel l x, of_ty t i -> of_ty t b -> zi_collect pr t fuel it = Ok l -> In x l -> z_index_checked us len x = Ok x).
Proof. exact strange_from. Qed.
Print Assumptions C106_access.
(** C106.  Ids that are negative or greater than any [usize] are refused by panicking, also by [contains]; for the others
    [contains] tells whether the row is there. *)
Theorem C106_strange : forall pr us, t_signed us = false -> forall len dead i, i < 0 \/ t_max us < i ->
  z_check us len dead i = panic PUnwrap /\ z_index us len i = panic PUnwrap /\ z_contains us len dead i = panic PUnwrap /\
  (forall b, zr_len pr us (ZR i b) = panic PUnwrap /\ zr_len pr us (ZR b i) = panic PUnwrap) /\
  (forall b, zc_from us len (ZR i b) = panic PUnwrap) /\ (forall a r, zc_from us len (ZR a i) <> Ok r).
Proof. exact strange. Qed.
Print Assumptions C106_strange.
Theorem C106_contains : forall us, t_signed us = false -> forall len dead i, 0 <= i <= t_max us ->
  exists b, z_contains us len dead i = Ok b /\ (b = true <-> i < len /\ ~ In i dead).
Proof. exact contains_exact. Qed.
Print Assumptions C106_contains.
(** C106.  [iter_slow] gives each id from the start to before the end, also negative ones, in both builds. *)
Theorem C106_iter : forall pr t fuel r, of_ty t (z_start r) -> of_ty t (z_end r) -> (0 < fuel)%nat -> z_end r - z_start r < Z.of_nat fuel ->
  zi_collect pr t fuel (zr_iter_slow r) = Ok (from_to (z_start r) (z_end r)).
Proof. intros pr t fuel r. exact (collect_all pr t fuel (z_start r) (z_end r)). Qed.
Print Assumptions C106_iter.
Example C106_access_case :
  let us := IT false 63 in
  z_check us 5 [2] 4 = Ok 4 /\ z_check us 5 [2] 2 = panic PDeletedRow /\ z_check us 5 [2] 5 = panic PIndexOOB /\ z_check us 5 [2] (-1) = panic PUnwrap /\
  z_index us 5 2 = Ok 2 /\ z_contains us 5 [2] 2 = Ok false /\ z_contains us 5 [2] 3 = Ok true /\
  zc_from us 5 (ZR 1 4) = Ok (ZI 1 4) /\ zi_collect Debug (IT true 7) 9 (ZI 1 4) = Ok [1; 2; 3] /\
  zi_collect Debug (IT true 7) 9 (zr_iter_slow (ZR (-2) 2)) = Ok [-2; -1; 0; 1].
Proof. repeat split. Qed.

(** C106.  [INVALID] is the greatest [usize] if the type holds it, and else -1 or, in unsigned types, the greatest id; it is the default
    id in unsigned types not wider than [usize]. *)
Theorem C106_invalid : forall t us, t_signed us = false ->
  z_invalid t us = (if t_max us <=? t_max t then t_max us else if t_signed t then -1 else t_max t) /\
  (z_invalid t us = z_default t <-> t_max t <= t_max us /\ t_signed t = false \/ t_max t = t_max us).
Proof. intros t us U. split; [exact (invalid_exact t us U)|exact (invalid_default t us U)]. Qed.
Print Assumptions C106_invalid.
(** C106 (refuted).  So in other types the two ids that stand for no row differ, and with signed ids one can not even ask
    whether the table contains [INVALID]. *)
Theorem C106_invalid_refuted :
  (exists t, z_invalid t (IT false 63) <> z_default t /\ z_contains (IT false 63) 3 [] (z_default t) = Ok false /\
     z_contains (IT false 63) 3 [] (z_invalid t (IT false 63)) = panic PUnwrap) /\
  (exists t, z_invalid t (IT false 63) <> z_default t /\ z_contains (IT false 63) 3 [] (z_invalid t (IT false 63)) = Ok false /\
     z_contains (IT false 63) 3 [] (z_default t) = panic PUnwrap).
Proof.
  split; [exists (IT true 31)|exists (IT false 127)]; (split; [vm_compute; discriminate|split; calc]).
Qed.
Print Assumptions C106_invalid_refuted.
(** C106 (refuted).  Nor is [inner_index] total: a range of signed ids may contain a row whose offset the type does not hold. *)
Theorem C106_inner_refuted : exists t r o, of_ty t (z_start r) /\ of_ty t (z_end r) /\ zr_contains r o = true /\
  zr_inner_index Debug t r o = panic POverflow /\ zr_inner_index Release t r o = Ok (Some (-56)).
Proof. exists (IT true 7), (ZR (-100) 127), 100. repeat split; vm_compute; discriminate. Qed.
Print Assumptions C106_inner_refuted.
