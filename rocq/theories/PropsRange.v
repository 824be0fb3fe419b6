(** Property theorems about row ranges and joins: C05-C09. *)
From Coq Require Import List Arith Bool Sorted.
From Verif Require Import Base Order RowRange RowRangeFacts RangeProps.
Import ListNotations.

(** C05.  In debug and release builds and for every row-id type: iterating a range with
    start <= end yields, ascending and once each, exactly the rows [contains] accepts;
    there are [len] of them; [inner_index o = Some k] iff [o] is the k-th. *)
Theorem C05_range_operations_agree :
  forall pr imax umax r, r_start r <= r_end r -> r_end r <= imax ->
  exists l, (forall fuel, r_end r - r_start r < fuel -> it_collect pr imax fuel (rr_iter_slow r) = Ok l) /\
    StronglySorted lt l /\
    (forall o, In o l <-> rr_contains r o = true) /\
    rr_len pr umax r = Ok (length l) /\
    (forall o k, rr_inner_index r o = Some k <-> nth_error l k = Some o).
Proof. exact rr_spec. Qed.
Print Assumptions C05_range_operations_agree.
(** Up to the last row id. *)
Example C05_case :
  it_collect Debug 7 9 (rr_iter_slow (RR 4 7)) = Ok [4; 5; 6] /\ rr_len Debug 100 (RR 4 7) = Ok 3 /\
  rr_inner_index (RR 4 7) 6 = Some 2 /\ rr_inner_index (RR 4 7) 7 = None.
Proof. repeat split. Qed.
(** C05.  [RowRange::on(i)] contains the row [i] and no other, unless [i] is the last id there can be: then it panics in a debug
    build and contains nothing in a release build.  [RowRange::empty()] contains nothing. *)
Theorem C05_on :
  forall pr imax i, i <= imax ->
  (i < imax -> exists r, rr_on pr imax i = Ok r /\ r_end r <= imax /\ forall o, rr_contains r o = true <-> o = i) /\
  (i = imax -> match pr with
               | Debug => exists c, rr_on pr imax i = panic c
               | Release => exists r, rr_on pr imax i = Ok r /\ forall o, o <= imax -> rr_contains r o = false
               end).
Proof. exact rr_on_spec. Qed.
Print Assumptions C05_on.
Theorem C05_empty : forall imax o, rr_contains (rr_empty imax) o = false.
Proof. exact rr_empty_spec. Qed.
Print Assumptions C05_empty.
(** C05.  [next] of an id is the least greater one, and [prev] undoes exactly what [next] does, in both builds. *)
Theorem C05_next : forall pr imax i, i < imax -> exists j, rid_next pr imax i = Ok j /\ i < j /\ forall o, i < o -> j <= o.
Proof. exact next_ids. Qed.
Print Assumptions C05_next.
Theorem C05_prev : forall pr imax i j, i <= imax -> j <= imax -> (rid_next pr imax i = Ok j <-> rid_prev pr imax j = Ok i).
Proof. exact next_prev. Qed.
Print Assumptions C05_prev.
Example C05_one_case : rr_on Debug 7 6 = Ok (RR 6 7) /\ rr_on Debug 7 7 = panic POverflow /\ rr_on Release 7 7 = Ok (RR 7 0) /\
  rid_prev Debug 7 6 = Ok 5 /\ rid_prev Debug 7 0 = panic POverflow /\ rid_prev Release 7 0 = Ok 7.
Proof. repeat split. Qed.

(** C06 (refuted).  [offset] answers a row outside the range. *)
Theorem C06_offset_outside_refuted :
  exists imax r n x, r_start r <= r_end r /\ r_end r <= imax /\
    rr_offset imax r n = Some x /\ rr_contains r x = false.
Proof. exists 255, (RR 2 5), 3, 5. repeat split; apply Nat.leb_le; reflexivity. Qed.
Print Assumptions C06_offset_outside_refuted.
(** C06.  Exactly: the n-th row, or the end of the range when n = len. *)
Theorem C06_offset_exact :
  forall pr imax umax r n x, r_start r <= r_end r -> r_end r <= imax ->
  (rr_offset imax r n = Some x <->
    (rr_contains r x = true /\ rr_inner_index r x = Some n) \/ (rr_len pr umax r = Ok n /\ x = r_end r)).
Proof. exact rr_offset_spec. Qed.
Print Assumptions C06_offset_exact.
Example C06_case : rr_offset 255 (RR 2 5) 2 = Some 4 /\ rr_offset 255 (RR 2 5) 4 = None /\
                   rr_offset 255 (RR 2 5) 254 = None.
Proof. repeat split. Qed.

(** C07 (refuted).  An empty range inside another one is said to intersect it. *)
Theorem C07_intersects_empty_refuted :
  exists a b, r_start a <= r_end a /\ r_start b <= r_end b /\
   (forall pr, rr_intersects pr a b = Ok true) /\
   ~ exists o, rr_contains a o = true /\ rr_contains b o = true.
Proof.
  exists (RR 3 3), (RR 0 8). split; [auto|]. split; [auto with arith|]. split; [intros []; reflexivity|].
  intros (o & H & _). apply rr_contains_iff in H. destruct H as [H1 H2]. simpl in *.
  exact (Nat.lt_irrefl _ (Nat.le_lt_trans _ _ _ H1 H2)).
Qed.
Print Assumptions C07_intersects_empty_refuted.
(** C07.  For non-empty ranges the answer is right. *)
Theorem C07_intersects_exact :
  forall pr a b, r_start a < r_end a -> r_start b < r_end b ->
  (rr_intersects pr a b = Ok true <-> exists o, rr_contains a o = true /\ rr_contains b o = true) /\
  (rr_intersects pr a b = Ok false <-> ~ exists o, rr_contains a o = true /\ rr_contains b o = true).
Proof. exact rr_intersects_iff. Qed.
Print Assumptions C07_intersects_exact.
Example C07_case : rr_intersects Debug (RR 0 8) (RR 7 9) = Ok true /\ rr_intersects Debug (RR 0 8) (RR 8 9) = Ok false.
Proof. repeat split. Qed.

(** C08.  [range(r)] on a table of [len] rows succeeds (for start <= end) iff the range is within
    the table; the iterator then yields exactly the rows of the range, all below [len];
    no mixture of [next] and [skip_fast], in any build profile, yields a row outside the table. *)
Theorem C08_checked_iter :
  forall pr imax umax len r,
  r_end r <= imax ->
  (r_start r <= r_end r -> ((exists it, ci_from len r = Ok it) <-> r_end r <= len)) /\
  forall it, ci_from len r = Ok it ->
    exists l, (forall fuel, r_end r - r_start r < fuel -> it_collect pr imax fuel it = Ok l) /\
      StronglySorted lt l /\ (forall i, In i l <-> rr_contains r i = true) /\
      (forall i, In i l -> i < len) /\
      (forall ops outs i, it_run pr imax umax ops it = Ok outs -> In (Some i) outs -> i < len).
Proof. exact checked_iter_exact. Qed.
Print Assumptions C08_checked_iter.
Example C08_case :
  ci_from 9 (RR 4 9) = Ok (RI 4 9) /\ ci_from 8 (RR 4 9) = panic PIterRange /\
  it_run Debug 255 65535 [ItNext; ItSkip 2; ItNext; ItNext; ItNext] (RI 4 9) = Ok [Some 4; Some 7; Some 8; None].
Proof. repeat split. Qed.
(** C08.  [uncheck] gives the range of the rows the iterator has still to yield. *)
Theorem C08_uncheck :
  forall pr imax it fuel l, it_end it <= imax -> it_end it - it_i it < fuel -> it_collect pr imax fuel it = Ok l ->
  forall i, rr_contains (ci_uncheck it) i = true <-> In i l.
Proof. exact uncheck_spec. Qed.
Print Assumptions C08_uncheck.
Example C08_uncheck_case : it_next Debug 255 (RI 4 9) = Ok (RI 5 9, Some 4) /\ it_collect Debug 255 9 (RI 5 9) = Ok [5; 6; 7; 8] /\
  ci_uncheck (RI 5 9) = RR 5 9.
Proof. repeat split. Qed.

(** C09.  Joining an ascending left sequence against an ascending right one, under any total
    preorder on any keys: the answer for a left item is Match of the first right item equal to it,
    Next if there is none, and Stop only if neither it nor any later left item has a match. *)
Theorem C09_join :
  forall K A B (c : K -> K -> comparison) (ka : A -> K) (kb : B -> K) left right,
  total_preorder c -> ascending c (map ka left) -> ascending c (map kb right) ->
  let outs := join_run (join (fun a b => c (ka a) (kb b))) left right in
  length outs = length left /\
  forall n l o, nth_error left n = Some l -> nth_error outs n = Some o ->
  match o with
  | JMatch r => exists pre post, right = pre ++ r :: post /\ c (ka l) (kb r) = Eq /\
                                 (forall q, In q pre -> c (ka l) (kb q) = Gt)
  | JNext => forall r, In r right -> c (ka l) (kb r) <> Eq
  | JStop => forall m l' r, n <= m -> nth_error left m = Some l' -> In r right -> c (ka l') (kb r) = Gt
  end.
Proof. exact (fun K A B => @join_correct K A B). Qed.
Print Assumptions C09_join.
(** C09.  [join_next] pairs the j-th of the left items equal to some key with the j-th right item
    equal to it: a one-to-one pairing. *)
Theorem C09_join_next :
  forall K A B (c : K -> K -> comparison) (ka : A -> K) (kb : B -> K) left right,
  total_preorder c -> ascending c (map ka left) -> ascending c (map kb right) ->
  let outs := join_run (join_next (fun a b => c (ka a) (kb b))) left right in
  let eqb x y := match c x y with Eq => true | _ => false end in
  length outs = length left /\
  forall n l o, nth_error left n = Some l -> nth_error outs n = Some o ->
  (* the right items equal to l, and how many earlier left items were equal to l *)
  let partners := filter (fun r => eqb (ka l) (kb r)) right in
  let used := length (filter (fun a => eqb (ka l) (ka a)) (firstn n left)) in
  match o with
  | JMatch r => nth_error partners used = Some r
  | JNext => length partners <= used /\ exists r, In r right /\ c (ka l) (kb r) = Lt
  | JStop => length partners <= used /\ forall r, In r right -> c (ka l) (kb r) <> Lt
  end.
Proof. exact (fun K A B => @join_next_correct K A B). Qed.
Print Assumptions C09_join_next.
Example C09_case :
  total_preorder Nat.compare /\ ascending Nat.compare (map id [2; 3; 5; 5; 11; 12]) /\
  ascending Nat.compare (map id [1; 3; 4; 5; 9]) /\
  join_run (join Nat.compare) [2; 3; 5; 5; 11; 12] [1; 3; 4; 5; 9] =
    [JNext; JMatch 3; JMatch 5; JMatch 5; JStop; JStop] /\
  join_run (join_next Nat.compare) [2; 3; 5; 5; 11; 12] [1; 3; 4; 5; 9] =
    [JNext; JMatch 3; JMatch 5; JNext; JStop; JStop].
Proof.
  split; [exact nat_tp|]. split; [|split; [|split; reflexivity]];
  repeat constructor; intro H; discriminate H.
Qed.
