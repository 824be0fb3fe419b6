(** Property theorems about columns: C01-C04, C40. *)
From Coq Require Import List Arith Bool ZArith Sorted.
From Verif Require Import Base Column ColumnHist ColumnHistFacts.
Import ListNotations.

(** C01.  For every sequence of calls (in or out of bounds), a packed boolean column returns
    exactly what a bounds-checked vector of booleans returns, up to and including the panic. *)
Theorem C01_bool_column_is_vec_bool :
  forall ops, seen (run_ops bool_step bc_new ops) = seen (run_ops vec_step [] ops).
Proof. exact (fun ops => bool_run_sim ops bc_new ColumnFacts.bc_new_inv). Qed.
Print Assumptions C01_bool_column_is_vec_bool.
Example C01_case :
  seen (run_ops bool_step bc_new
    [BPush true; BPush false; BWrite 1 true; BWrite 0 false; BRead 1; BSwap 0 1; BTruncate 1; BDump])
  = Ok [OUnit; OUnit; OUnit; OUnit; OBool true; OUnit; OUnit; OList [true]].
Proof. reflexivity. Qed.

(** C02.  After any history of pushes, replacements, swaps, deletions, truncations and clears
    of an indexed column, [find k] lists, in increasing order and once each, exactly the rows in
    use that hold [k] (rows below the last representable id). *)
Theorem C02_find_exact :
  forall imax t ops c k, Forall (iop_ty t) ops ->
  fold_res (c_step imax) ops (c_new (Indexed t)) = Ok c ->
  exists s rows, cells_run imax [] ops = Some s /\ c_find imax c k = Ok rows /\
    StronglySorted lt rows /\ forall i, In i rows <-> i < imax /\ holds s i k.
Proof. exact find_hist. Qed.
Print Assumptions C02_find_exact.

(** The histories that run to the end are exactly those the plain vector accepts. *)
Theorem C02_no_spurious_failure :
  forall imax t ops, Forall (iop_ty t) ops ->
  ((exists c, fold_res (c_step imax) ops (c_new (Indexed t)) = Ok c) <-> cells_run imax [] ops <> None).
Proof. exact cells_total. Qed.
Print Assumptions C02_no_spurious_failure.

(** Cell contents (including of unused rows) are those of the plain vector. *)
Theorem C02_contents :
  forall imax t ops c, Forall (iop_ty t) ops ->
  fold_res (c_step imax) ops (c_new (Indexed t)) = Ok c ->
  exists s, cells_run imax [] ops = Some s /\ c_len c = length s /\ c_into_iter c = map fst s /\
   (forall i, c_get c i = match nth_error s i with Some (v, _) => Ok v | None => panic PIndexOOB end).
Proof. exact data_hist. Qed.
Print Assumptions C02_contents.
(** No element of an indexed column can be written past the index. *)
Theorem C02_no_write :
  forall imax t ops c i v, Forall (iop_ty t) ops -> fold_res (c_step imax) ops (c_new (Indexed t)) = Ok c ->
  c_set c i v = panic (if i <? c_len c then PIndexedMut else PIndexOOB).
Proof. exact no_write. Qed.
Print Assumptions C02_no_write.

Definition C02_ops : list iop :=
  [IPush (VInt 5); IPush (VInt 7); IPush (VInt 5); IPush (VInt 5); IDeleted 0; ISwap 1 2;
   ISwapOut 0 (VInt 7); IDeleted 3].
Example C02_case :
  exists c, fold_res (c_step 255) C02_ops (c_new (Indexed TVec)) = Ok c /\
  c_find 255 c (VInt 5) = Ok [1] /\ c_find 255 c (VInt 7) = Ok [0; 2].
Proof. eexists. split; [reflexivity|]. split; reflexivity. Qed.

(** C03.  [range lo hi] panics when lo > hi; otherwise it lists, once each and ordered by
    value and then row, exactly the rows in use with lo <= value <= hi
    (except the last representable row when it holds [hi]). *)
Theorem C03_range_exact :
  forall imax t ops c lo hi, Forall (iop_ty t) ops ->
  fold_res (c_step imax) ops (c_new (Indexed t)) = Ok c ->
  exists s, cells_run imax [] ops = Some s /\
  (~ v_le lo hi -> c_range imax c lo hi = panic PRangeOrder) /\
  (v_le lo hi -> exists rows, c_range imax c lo hi = Ok rows /\ NoDup rows /\
      (forall i, In i rows <-> exists v, holds s i v /\ v_le lo v /\ v_le v hi /\ ~ (v = hi /\ i = imax)) /\
      (forall a b i j x y, nth_error rows a = Some i -> nth_error rows b = Some j -> a < b ->
         holds s i x -> holds s j y -> v_le x y /\ (x = y -> i < j))).
Proof. exact range_spec. Qed.
Print Assumptions C03_range_exact.
Example C03_case :
  exists c, fold_res (c_step 255) C02_ops (c_new (Indexed TVec)) = Ok c /\
  c_range 255 c (VInt 5) (VInt 7) = Ok [1; 0; 2] /\
  c_range 255 c (VInt 7) (VInt 5) = panic PRangeOrder.
Proof. eexists. split; [reflexivity|]. split; reflexivity. Qed.

(** C04 (refuted).  A row in use whose id is the largest value of the row-id type holds the
    value searched for, but [find] does not list it.  (Stated for every row-id type.) *)
Theorem C04_find_last_row_refuted :
  exists imax ops c s rows k i, Forall (iop_ty TVec) ops /\
    fold_res (c_step imax) ops (c_new (Indexed TVec)) = Ok c /\ cells_run imax [] ops = Some s /\
    holds s i k /\ c_find imax c k = Ok rows /\ ~ In i rows.
Proof.
  exists 1, [IPush (VInt 5); IPush (VInt 5)].
  eexists. eexists. eexists. exists (VInt 5), 1.
  split; [repeat constructor|]. split; [reflexivity|]. split; [reflexivity|].
  split; [reflexivity|]. split; [reflexivity|]. simpl. intros [H|[]]. discriminate.
Qed.
Print Assumptions C04_find_last_row_refuted.

(** C04.  That row is the only one ever missed, whatever the row-id type. *)
Theorem C04_only_last_row_missed :
  forall imax t ops c k, Forall (iop_ty t) ops ->
  fold_res (c_step imax) ops (c_new (Indexed t)) = Ok c ->
  exists s rows, cells_run imax [] ops = Some s /\ c_find imax c k = Ok rows /\
    forall i, (holds s i k /\ ~ In i rows) <-> (holds s i k /\ i = imax).
Proof. exact find_missing. Qed.
Print Assumptions C04_only_last_row_missed.

(** C40.  Serialising a column and deserialising it gives a column with the same cells whose
    index finds exactly the rows holding the searched value. *)
Theorem C40_serde_roundtrip :
  forall imax t ops c, Forall (iop_ty t) ops ->
  fold_res (c_step imax) ops (c_new (Indexed t)) = Ok c ->
  exists vs c', c_serialize c = Ok vs /\ vs = c_into_iter c /\
    c_deserialize imax (Indexed t) vs = Ok c' /\
    c_into_iter c' = vs /\
    (forall i, c_get c' i = c_get c i) /\
    (forall k, exists rows, c_find imax c' k = Ok rows /\ StronglySorted lt rows /\
        forall i, In i rows <-> i < imax /\ nth_error vs i = Some k).
Proof. exact serde_hist. Qed.
Print Assumptions C40_serde_roundtrip.
Example C40_case :
  exists c c', fold_res (c_step 255) C02_ops (c_new (Indexed TVec)) = Ok c /\
  c_serialize c = Ok [VInt 7; VInt 5; VInt 7; VInt 5] /\
  c_deserialize 255 (Indexed TVec) [VInt 7; VInt 5; VInt 7; VInt 5] = Ok c' /\
  c_find 255 c' (VInt 5) = Ok [1; 3].
Proof. eexists. eexists. repeat split; reflexivity. Qed.
