(** Histories of column operations, and the plain-vector specification they are compared with. *)
From Coq Require Import List Arith Bool ZArith.
From Verif Require Import Base Column.
Import ListNotations.

(** Run a list of operations, collecting what each of them returned. *)
Fixpoint run_ops {S O R} (step : S -> O -> res (S * R)) (s : S) (ops : list O) : res (S * list R) :=
  match ops with
  | [] => Ok (s, [])
  | o :: os =>
      let* p := step s o in
      let* q := run_ops step (fst p) os in
      Ok (fst q, snd p :: snd q)
  end.
(** What the caller saw. *)
Definition seen {S R} (r : res (S * list R)) : res (list R) :=
  match r with Ok p => Ok (snd p) | Err e => Err e end.

(** ** Calls a program can make on a column of booleans *)
Inductive bop :=
| BPush (v : bool) | BRead (i : nat) | BBorrowMut (i : nat) | BWrite (i : nat) (v : bool)
| BSwapOut (i : nat) (v : bool) | BSwap (i j : nat) | BTruncate (n : nat) | BClear | BLen | BDump.
Inductive bout := OUnit | OBool (b : bool) | ONat (n : nat) | OList (l : list bool).

(** The model: src/storage.rs:103-150.  [BDump] is [into_iter] of a copy. *)
Definition bool_step (b : boolcol) (o : bop) : res (boolcol * bout) :=
  match o with
  | BPush v => Ok (bc_push b v, OUnit)
  | BRead i => let* x := bc_index b i in Ok (b, OBool x)
  | BBorrowMut i => let* b' := bc_index_mut b i in Ok (b', OUnit)
  | BWrite i v => let* b' := bc_write b i v in Ok (b', OUnit)
  | BSwapOut i v => let* p := bc_swap_out b i v in Ok (fst p, OBool (snd p))
  | BSwap i j => let* b' := bc_swap b i j in Ok (b', OUnit)
  | BTruncate n => Ok (bc_truncate b n, OUnit)
  | BClear => Ok (bc_clear b, OUnit)
  | BLen => Ok (b, ONat (bc_len b))
  | BDump => Ok (b, OList (bc_into_iter b))
  end.

(** The specification: a bounds-checked vector of booleans. *)
Definition vec_step (l : list bool) (o : bop) : res (list bool * bout) :=
  match o with
  | BPush v => Ok (l ++ [v], OUnit)
  | BRead i => match nth_error l i with Some x => Ok (l, OBool x) | None => panic PIndexOOB end
  | BBorrowMut i => if i <? length l then Ok (l, OUnit) else panic PIndexOOB
  | BWrite i v => if i <? length l then Ok (upd l i v, OUnit) else panic PIndexOOB
  | BSwapOut i v =>
      match nth_error l i with Some x => Ok (upd l i v, OBool x) | None => panic PIndexOOB end
  | BSwap i j =>
      match nth_error l i, nth_error l j with
      | Some x, Some y => Ok (upd (upd l i y) j x, OUnit)
      | _, _ => panic PIndexOOB
      end
  | BTruncate n => Ok (firstn n l, OUnit)
  | BClear => Ok ([], OUnit)
  | BLen => Ok (l, ONat (length l))
  | BDump => Ok (l, OList l)
  end.

(** ** Calls the generated table code makes on an indexed column *)
Inductive iop :=
| IPush (v : val) | ISwapOut (i : nat) (v : val) | ISwap (i j : nat)
| IDeleted (i : nat) | ITruncate (n : nat) | IClear.

(** The model: src/map_index.rs:73-140 *)
Definition c_step (imax : nat) (c : col) (o : iop) : res col :=
  match o with
  | IPush v => c_push imax c v
  | ISwapOut i v => let* p := c_swap_out imax c i v in Ok (fst p)
  | ISwap i j => c_swap imax c i j
  | IDeleted i => c_deleted imax c i
  | ITruncate n => c_truncate imax c n
  | IClear => Ok (c_clear c)
  end.

(** The specification: a vector of cells, each with its value and whether its row is in use.
    [None] is failure: row out of range, or more rows than the row-id type can number. *)
Definition cells := list (val * bool).
Definition cells_step (imax : nat) (s : cells) (o : iop) : option cells :=
  match o with
  | IPush v => if length s <=? imax then Some (s ++ [(v, true)]) else None
  | ISwapOut i v => if i <? length s then Some (upd s i (v, true)) else None
  | ISwap i j =>
      match nth_error s i, nth_error s j with
      | Some (x, _), Some (y, _) => Some (upd (upd s i (y, true)) j (x, true))
      | _, _ => None
      end
  | IDeleted i =>
      match nth_error s i with Some (x, _) => Some (upd s i (x, false)) | None => None end
  | ITruncate n => Some (firstn n s)
  | IClear => Some []
  end.
Fixpoint cells_run (imax : nat) (s : cells) (ops : list iop) : option cells :=
  match ops with
  | [] => Some s
  | o :: os => match cells_step imax s o with Some s' => cells_run imax s' os | None => None end
  end.

(** The order of elements: of integers, booleans, and row ids.  A column has elements of one type; the order of different types is arbitrary. *)
Definition v_le (a b : val) : Prop :=
  match a, b with
  | VInt x, VInt y => (x <= y)%Z
  | VBool x, VBool y => x = false \/ y = true
  | VRow x, VRow y => x <= y
  | VInt _, _ | VBool _, VRow _ => True
  | _, _ => False
  end.
(** Row [i] is in use and holds [k]. *)
Definition holds (s : cells) (i : nat) (k : val) : Prop := nth_error s i = Some (k, true).

(** Values have the Rust type of the column (checked by rustc). *)
Definition iop_ty (t : btype) (o : iop) : Prop :=
  match o with
  | IPush v | ISwapOut _ v => match t with TVec => True | TBool => exists b, v = VBool b end
  | _ => True
  end.
