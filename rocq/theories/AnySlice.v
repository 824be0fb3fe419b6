(** src/any_slice.rs, and selections of rows of some table, not known which (src/tracking.rs:83-90,
    macros/output.rs:629-637). *)
From Coq Require Import List Arith Bool.
From Verif Require Import Base Column Table.
Import ListNotations.

Section AnySlice.
(** Types have ids (std::any::TypeId), equal only for equal types. *)
Variable ty : Type.
Variable ty_eqb : ty -> ty -> bool.

(** A slice [&[E]]: pointer and length.  The type is static in Rust; here it is a field. *)
Record slice := Slice { sl_ty : ty; sl_ptr : nat; sl_len : nat }.
(** src/any_slice.rs:12-17 *)
Record any_slice := AnySl { as_id : ty; as_ptr : nat; as_len : nat }.

(** src/any_slice.rs:22-31 *)
Definition as_from (s : slice) : any_slice := AnySl (sl_ty s) (sl_ptr s) (sl_len s).
(** src/any_slice.rs:33-45 at type [e]; the result is an [&[e]] whatever was stored at the pointer *)
Definition as_downcast (e : ty) (a : any_slice) : option slice :=
  if ty_eqb (as_id a) e then Some (Slice e (as_ptr a) (as_len a)) else None.
(** src/any_slice.rs:47 *)
Definition as_is_empty (a : any_slice) : bool := as_len a =? 0.

(** What is in memory: at each address a value of some type. *)
Definition memory := nat -> ty * val.
(** Reading a slice; reading a value of another type is undefined. *)
Definition sl_read (m : memory) (s : slice) : res (list val) :=
  map_res (fun i => let x := m (sl_ptr s + i) in
                    if ty_eqb (fst x) (sl_ty s) then Ok (snd x) else Err EUB) (seq 0 (sl_len s)).

(** [Select<&[RowId]>] and [SelectAny], src/tracking.rs:21-25, 83-90 *)
Inductive sel_of (I : Type) := SelAll | SelThese (i : I).
Arguments SelAll {I}.
Arguments SelThese {I} i.
Definition sel_as_any (s : sel_of slice) : sel_of any_slice :=
  match s with SelAll => SelAll | SelThese s => SelThese (as_from s) end.
(** output.rs:629-637 of the table whose ids have type [e]; also 356, 384 *)
Definition downcast_any_selection (e : ty) (a : sel_of any_slice) : res (sel_of slice) :=
  match a with
  | SelAll => Ok SelAll
  | SelThese a => match as_downcast e a with Some s => Ok (SelThese s) | None => panic PWrongRows end
  end.
End AnySlice.
Arguments SelAll {I}.
Arguments SelThese {I} i.
