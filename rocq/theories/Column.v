(** Columns: src/storage.rs (VecCol, BoolCol), src/map_index.rs (BTreeIndex),
    src/columns.rs (the TCol trait). *)
From Coq Require Import List Arith Bool ZArith.
From Verif Require Import Base.
Import ListNotations.

(** Elements.  Simplification: one type for all Rust element types; [VRow i] is a
    [GenericRowId] (src/index.rs:23), compared by its index (src/index.rs:143-161).
    A Rust column holds one constructor only. *)
Inductive val := VInt (z : Z) | VBool (b : bool) | VRow (i : nat).

(** [Ord] on elements. *)
Definition val_cmp (a b : val) : comparison :=
  match a, b with
  | VInt x, VInt y => Z.compare x y
  | VInt _, _ => Lt
  | VBool _, VInt _ => Gt
  | VBool x, VBool y =>
      match x, y with false, true => Lt | true, false => Gt | _, _ => Eq end
  | VBool _, VRow _ => Lt
  | VRow x, VRow y => Nat.compare x y
  | VRow _, _ => Gt
  end.

Definition val_eqb (a b : val) : bool :=
  match val_cmp a b with Eq => true | _ => false end.

(** ** BoolCol, src/storage.rs:80-150 *)

(** src/storage.rs:82-95.  [bc_idx = None] is [ref_idx == usize::MAX]
    (no column has a row usize::MAX). *)
Record boolcol := BC { bc_val : bool; bc_idx : option nat; bc_data : list bool }.

(** src/storage.rs:87-95 *)
Definition bc_new : boolcol := BC false None [].

(** src/storage.rs:97-101 *)
Definition bc_flush (b : boolcol) : boolcol :=
  match bc_idx b with
  | None => b
  | Some i => if length (bc_data b) <=? i then b
              else BC (bc_val b) None (upd (bc_data b) i (bc_val b))
  end.

(** src/storage.rs:108 *)
Definition bc_len (b : boolcol) : nat := length (bc_data b).

(** src/storage.rs:109-112 *)
Definition bc_truncate (b : boolcol) (n : nat) : boolcol :=
  let b := bc_flush b in BC (bc_val b) (bc_idx b) (firstn n (bc_data b)).

(** src/storage.rs:113-122; BitVec indexing is bounds-checked. *)
Definition bc_index (b : boolcol) (i : nat) : res bool :=
  if match bc_idx b with Some j => i =? j | None => false end then Ok (bc_val b)
  else match nth_error (bc_data b) i with
       | Some x => Ok x
       | None => panic PIndexOOB
       end.

(** src/storage.rs:123-128: the state once the [&mut] has been handed out. *)
Definition bc_index_mut (b : boolcol) (i : nat) : res boolcol :=
  let b := bc_flush b in
  match nth_error (bc_data b) i with
  | Some x => Ok (BC x (Some i) (bc_data b))
  | None => panic PIndexOOB
  end.

(** Storing [v] through the reference returned by [bc_index_mut]. *)
Definition bc_store (b : boolcol) (v : bool) : boolcol := BC v (bc_idx b) (bc_data b).

Definition bc_write (b : boolcol) (i : nat) (v : bool) : res boolcol :=
  let* b := bc_index_mut b i in Ok (bc_store b v).

(** src/storage.rs:130 *)
Definition bc_push (b : boolcol) (v : bool) : boolcol :=
  BC (bc_val b) (bc_idx b) (bc_data b ++ [v]).

(** src/storage.rs:131-136 *)
Definition bc_swap_out (b : boolcol) (i : nat) (new : bool) : res (boolcol * bool) :=
  let b := bc_flush b in
  match nth_error (bc_data b) i with
  | Some old => Ok (BC (bc_val b) (bc_idx b) (upd (bc_data b) i new), old)
  | None => panic PIndexOOB
  end.

(** src/storage.rs:137-143 *)
Definition bc_swap (b : boolcol) (i j : nat) : res boolcol :=
  let b := bc_flush b in
  match nth_error (bc_data b) i, nth_error (bc_data b) j with
  | Some av, Some bv =>
      Ok (BC (bc_val b) (bc_idx b) (upd (upd (bc_data b) i bv) j av))
  | _, _ => panic PIndexOOB
  end.

(** src/storage.rs:146-149 *)
Definition bc_into_iter (b : boolcol) : list bool := bc_data (bc_flush b).

(** src/columns.rs:32: [clear] is [truncate(0)]. *)
Definition bc_clear (b : boolcol) : boolcol := bc_truncate b 0.

(** ** Storage columns: VecCol (src/storage.rs:9-38) or BoolCol *)
Inductive base := BVec (l : list val) | BBool (b : boolcol).

Definition as_bool (v : val) : res bool :=
  match v with VBool b => Ok b | _ => panic PRustType end.

(** src/storage.rs:17, 108 *)
Definition b_len (b : base) : nat :=
  match b with BVec l => length l | BBool b => bc_len b end.

(** src/storage.rs:18, 109 *)
Definition b_truncate (b : base) (n : nat) : base :=
  match b with BVec l => BVec (firstn n l) | BBool b => BBool (bc_truncate b n) end.

(** src/storage.rs:19, 113: [get_unchecked] out of range is undefined behaviour. *)
Definition b_index (b : base) (i : nat) : res val :=
  match b with
  | BVec l => match nth_error l i with Some v => Ok v | None => Err EUB end
  | BBool b => let* x := bc_index b i in Ok (VBool x)
  end.

(** src/storage.rs:20, 123: store through [unchecked_index_mut]. *)
Definition b_write (b : base) (i : nat) (v : val) : res base :=
  match b with
  | BVec l => if i <? length l then Ok (BVec (upd l i v)) else Err EUB
  | BBool b => let* x := as_bool v in let* b' := bc_write b i x in Ok (BBool b')
  end.

(** src/storage.rs:22, src/columns.rs:32 *)
Definition b_clear (b : base) : base :=
  match b with BVec _ => BVec [] | BBool b => BBool (bc_clear b) end.

(** src/storage.rs:23, 130 *)
Definition b_push (b : base) (v : val) : res base :=
  match b with
  | BVec l => Ok (BVec (l ++ [v]))
  | BBool b => let* x := as_bool v in Ok (BBool (bc_push b x))
  end.

(** src/columns.rs:35 (default [mem::swap]), src/storage.rs:131 *)
Definition b_swap_out (b : base) (i : nat) (new : val) : res (base * val) :=
  match b with
  | BVec l => match nth_error l i with
              | Some old => Ok (BVec (upd l i new), old)
              | None => Err EUB
              end
  | BBool b => let* x := as_bool new in
               let* p := bc_swap_out b i x in Ok (BBool (fst p), VBool (snd p))
  end.

(** src/storage.rs:24-32 ([cfg!(debug)] is never set), 137 *)
Definition b_swap (b : base) (i j : nat) : res base :=
  match b with
  | BVec l => match nth_error l i, nth_error l j with
              | Some x, Some y => Ok (BVec (upd (upd l i y) j x))
              | _, _ => Err EUB
              end
  | BBool b => let* b' := bc_swap b i j in Ok (BBool b')
  end.

(** src/storage.rs:34-37, 145-149 *)
Definition b_into_iter (b : base) : list val :=
  match b with BVec l => l | BBool b => map VBool (bc_into_iter b) end.

(** ** BTreeIndex, src/map_index.rs *)

(** src/map_index.rs:35: [BTreeMap<(C::Element, T::Idx), ()>] as a list of keys,
    strictly increasing in the lexicographic order. *)
Definition key : Type := val * nat.
Definition key_cmp (a b : key) : comparison :=
  match val_cmp (fst a) (fst b) with Eq => Nat.compare (snd a) (snd b) | c => c end.

(** [BTreeMap::insert] *)
Fixpoint bt_insert (k : key) (m : list key) : list key :=
  match m with
  | [] => [k]
  | x :: xs => match key_cmp k x with
               | Lt => k :: m
               | Eq => k :: xs
               | Gt => x :: bt_insert k xs
               end
  end.

(** [BTreeMap::remove] *)
Fixpoint bt_remove (k : key) (m : list key) : list key :=
  match m with
  | [] => []
  | x :: xs => match key_cmp k x with
               | Lt => m
               | Eq => xs
               | Gt => x :: bt_remove k xs
               end
  end.

(** [BTreeMap::range(lo..hi)]: half-open; panics if lo > hi. *)
Definition bt_range (lo hi : key) (m : list key) : res (list key) :=
  match key_cmp lo hi with
  | Gt => panic PRangeOrder
  | _ => Ok (filter (fun k => match key_cmp lo k with Gt => false | _ => true end
                              && match key_cmp k hi with Lt => true | _ => false end) m)
  end.

(** A column of a table: plain, or wrapped by [#[index]]
    (macros/output.rs:78-88).  Simplification: no nested BTreeIndex
    (the macro never generates one). *)
Inductive col := CPlain (b : base) | CIdx (b : base) (ix : list key).

Definition c_base (c : col) : base := match c with CPlain b => b | CIdx b _ => b end.

(** The column types of a schema and their [new()]: src/storage.rs:15,106, src/map_index.rs:78. *)
Inductive btype := TVec | TBool.
Inductive ctype := Plain (t : btype) | Indexed (t : btype).
Definition b_new (t : btype) : base :=
  match t with TVec => BVec [] | TBool => BBool bc_new end.
Definition c_new (t : ctype) : col :=
  match t with Plain t => CPlain (b_new t) | Indexed t => CIdx (b_new t) [] end.

Section Idx.
(** The largest value of the table's row-id type ([T::Idx::max_value()]). *)
Variable imax : nat.

(** [NumCast::from(i).unwrap()], src/map_index.rs:105,111,120,131 *)
Definition native (i : nat) : res nat := if i <=? imax then Ok i else panic PRowIdRange.

(** src/map_index.rs:85 *)
Definition c_len (c : col) : nat := b_len (c_base c).

(** src/map_index.rs:95; src/columns.rs:95-103 *)
Definition c_index (c : col) (i : nat) : res val := b_index (c_base c) i.

(** src/map_index.rs:96 *)
Definition c_write (c : col) (i : nat) (v : val) : res col :=
  match c with
  | CPlain b => let* b' := b_write b i v in Ok (CPlain b')
  | CIdx _ _ => panic PIndexedMut
  end.

(** src/map_index.rs:98-101 *)
Definition c_clear (c : col) : col :=
  match c with
  | CPlain b => CPlain (b_clear b)
  | CIdx b ix => CIdx (b_clear b) []
  end.

(** src/map_index.rs:102-107 *)
Definition c_push (c : col) (v : val) : res col :=
  match c with
  | CPlain b => let* b' := b_push b v in Ok (CPlain b')
  | CIdx b ix =>
      let i := b_len b in
      let* b' := b_push b v in
      let* n := native i in
      Ok (CIdx b' (bt_insert (v, n) ix))
  end.

(** src/map_index.rs:109-115 *)
Definition c_swap_out (c : col) (i : nat) (new : val) : res (col * val) :=
  match c with
  | CPlain b => let* p := b_swap_out b i new in Ok (CPlain (fst p), snd p)
  | CIdx b ix =>
      let* old := b_index b i in
      let* n := native i in
      let ix := bt_remove (old, n) ix in
      let ix := bt_insert (new, n) ix in
      let* p := b_swap_out b i new in
      Ok (CIdx (fst p) ix, snd p)
  end.

(** src/map_index.rs:117-127 *)
Definition c_swap (c : col) (i j : nat) : res col :=
  match c with
  | CPlain b => let* b' := b_swap b i j in Ok (CPlain b')
  | CIdx b ix =>
      let* old_a := b_index b i in
      let* old_b := b_index b j in
      let* na := native i in
      let* nb := native j in
      let ix := bt_remove (old_a, na) ix in
      let ix := bt_remove (old_b, nb) ix in
      let ix := bt_insert (old_a, nb) ix in
      let ix := bt_insert (old_b, na) ix in
      let* b' := b_swap b i j in
      Ok (CIdx b' ix)
  end.

(** src/map_index.rs:129-134; src/columns.rs:38 (a no-op for storage columns) *)
Definition c_deleted (c : col) (i : nat) : res col :=
  match c with
  | CPlain b => Ok (CPlain b)
  | CIdx b ix =>
      let* old := b_index b i in
      let* n := native i in
      Ok (CIdx b (bt_remove (old, n) ix))
  end.

(** src/map_index.rs:86-94 *)
Definition c_truncate (c : col) (n : nat) : res col :=
  match c with
  | CPlain b => Ok (CPlain (b_truncate b n))
  | CIdx b ix =>
      let* c' := fold_res c_deleted (seq n (b_len b - n)) (CIdx b ix) in
      match c' with
      | CPlain b => Ok (CPlain (b_truncate b n))
      | CIdx b ix => Ok (CIdx (b_truncate b n) ix)
      end
  end.

(** src/map_index.rs:136-139 *)
Definition c_into_iter (c : col) : list val := b_into_iter (c_base c).

(** src/map_index.rs:41-49 with the iterator of 15-26.  Only indexed columns have
    [find]; rustc rejects it elsewhere. *)
Definition c_find (c : col) (k : val) : res (list nat) :=
  match c with
  | CPlain _ => panic PRustType
  | CIdx _ ix => let* r := bt_range (k, 0) (k, imax) ix in Ok (map snd r)
  end.

(** src/map_index.rs:51-59 *)
Definition c_range (c : col) (lo hi : val) : res (list nat) :=
  match c with
  | CPlain _ => panic PRustType
  | CIdx _ ix => let* r := bt_range (lo, 0) (hi, imax) ix in Ok (map snd r)
  end.

(** src/columns.rs:65-84: indexing a column by an (unchecked) RowId is bounds-checked,
    but does not look at the free list. *)
Definition c_get (c : col) (i : nat) : res val :=
  if c_len c <=? i then panic PIndexOOB else c_index c i.
Definition c_set (c : col) (i : nat) (v : val) : res col :=
  if c_len c <=? i then panic PIndexOOB else c_write c i v.

End Idx.

(** Serialisation of a column, src/serial.rs:8-28: the sequence of its elements. *)
Definition c_serialize (c : col) : res (list val) :=
  map_res (c_index c) (seq 0 (c_len c)).

(** Deserialisation, src/serial.rs:29-68: push every element into a new column. *)
Definition c_deserialize (imax : nat) (t : ctype) (vs : list val) : res col :=
  fold_res (c_push imax) vs (c_new t).

(** Values a column of this type can hold (enforced by rustc). *)
Definition v_ty (t : btype) (v : val) : Prop :=
  match t with TVec => True | TBool => exists b, v = VBool b end.
Definition ct_base (t : ctype) : btype := match t with Plain t => t | Indexed t => t end.
