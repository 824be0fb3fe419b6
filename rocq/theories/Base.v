(** Outcomes and small list functions used by every part of the model. *)
From Coq Require Import List Arith Bool.
Import ListNotations.

#[global] Arguments Nat.ltb : simpl never.
#[global] Arguments Nat.leb : simpl never.
#[global] Arguments Nat.eqb : simpl never.
#[global] Arguments Nat.sub : simpl never.

(** Why a Rust panic happened.  The causes are the panic sites of the modelled
    code; each use in the model cites the line it stands for. *)
Inductive cause :=
| PIndexOOB        (* src/index.rs:509, src/columns.rs:65: index out of bounds *)
| PDeletedRow      (* src/index.rs:513: indexing into a deleted row *)
| PRowIdRange      (* src/index.rs:57: T::Idx::from_usize(i).unwrap() on too large i *)
| POverflow        (* integer overflow in row-id arithmetic (debug builds) *)
| PIndexedMut      (* src/map_index.rs:96: tried to mutably reference indexed column *)
| PRangeOrder      (* BTreeMap::range called with start > end *)
| PIterRange       (* src/index.rs:418,419: CheckedIter::from assertions *)
| PNotFlushed      (* macros/output.rs:848: changes were not flushed *)
| PInterleave      (* src/tracking.rs:258: can't interleave pushes & deletes *)
| PNotSorted       (* macros/output.rs:410: indices to remove not sorted or has dupes *)
| PRemoveRange     (* macros/output.rs:361,415,964,1005: row not below len *)
| PNoRemove        (* macros/output.rs:447: rows can not be removed on this table *)
| PUnimplemented   (* macros/output.rs:875,880: delete / delete_raw on this kind *)
| PNoHandler       (* src/event.rs:150: no handler specified *)
| PEventId         (* src/event.rs:193: event id outside the handler table *)
| PInvalidEvent    (* src/event.rs:181: can't set the INVALID_EVENT handler *)
| PNoRemap         (* macros/output.rs:1824: row has no remapping *)
| PEarlyEnd        (* macros/output.rs:623: early termination in column extraction *)
| PColumnIndex     (* macros/output.rs:598: self.columns[col_count] out of range *)
| PBadName         (* src/intern.rs:6-20 *)
| PUndefDomain     (* src/tables.rs, src/property.rs: domain is not registered *)
| PLocked          (* src/tables.rs, src/property.rs: domain is locked *)
| PDuplicate       (* src/tables.rs: duplicate, non-equivalent table *)
| PUnsetDomain     (* src/property.rs: the domain is not in this universe *)
| PUnknownProp     (* src/property.rs: property unknown or added after the universe *)
| PSchema          (* macros/parse.rs, macros/table.rs: rejected attribute combination *)
| PNotConsistent   (* src/tracking.rs:317: tracker on inconsistent table *)
| PWrongRows       (* macros/output.rs:366, 387, 636: rows of another table *)
| PTypeId          (* src/context.rs:117, 122: two lock types with the same name *)
| PPoisoned        (* unwrap of a poisoned lock: src/domain.rs:47, 75, 82, src/property.rs:268, 321, src/tables.rs:195 and table locks *)
| PDowncast        (* src/property.rs:411, macros/output.rs:1635, 1676, src/tracking.rs:336: value or table of another Rust type *)
| PUnwrap          (* unwrap/expect of None elsewhere *)
| PGlobalsSet      (* src/domain.rs:416: globals that have already been set *)
| PUser            (* code given by the user: a closure, an iterator, a tracker, or [Ord] of an element *)
| PRustType.       (* not a panic site: a value of the wrong Rust type, excluded by rustc *)

Inductive err :=
| EPanic (c : cause)
| EUB              (* out-of-range get_unchecked: undefined behaviour *)
| EDeadlock        (* a thread waits for a lock it holds itself *)
| EFuel.           (* the model's recursion budget ran out; not an outcome of the code *)

Inductive res (A : Type) :=
| Ok (a : A)
| Err (e : err).
Arguments Ok {A} a.
Arguments Err {A} e.

Definition bind {A B} (x : res A) (f : A -> res B) : res B :=
  match x with Ok a => f a | Err e => Err e end.

Notation "'let*' x := e 'in' f" := (bind e (fun x => f))
  (at level 200, x pattern, e at level 100, f at level 200, right associativity).

Definition panic {A} (c : cause) : res A := Err (EPanic c).

(** Rust [assert!(b)]. *)
Definition assert_ (b : bool) (c : cause) : res unit := if b then Ok tt else panic c.

Fixpoint map_res {A B} (f : A -> res B) (l : list A) : res (list B) :=
  match l with
  | [] => Ok []
  | x :: xs => let* y := f x in let* ys := map_res f xs in Ok (y :: ys)
  end.

Fixpoint fold_res {A S} (f : S -> A -> res S) (l : list A) (s : S) : res S :=
  match l with
  | [] => Ok s
  | x :: xs => let* s' := f s x in fold_res f xs s'
  end.

(** Overwrite position [i] of a list (no effect out of range; every use in the
    model is guarded by a bounds test whose failure is an explicit error). *)
Fixpoint upd {A} (l : list A) (i : nat) (x : A) : list A :=
  match l, i with
  | [], _ => []
  | _ :: t, 0 => x :: t
  | h :: t, S i' => h :: upd t i' x
  end.

(** Exchange positions [a] and [b]. *)
Definition list_swap {A} (l : list A) (a b : nat) : list A :=
  match nth_error l a, nth_error l b with
  | Some x, Some y => upd (upd l a y) b x
  | _, _ => l
  end.

(** Sorted-list model of [BTreeMap<K,()>] used as a set of row ids. *)
Fixpoint set_insert (x : nat) (l : list nat) : list nat :=
  match l with
  | [] => [x]
  | y :: ys => if x <? y then x :: l else if x =? y then l else y :: set_insert x ys
  end.

Definition set_remove (x : nat) (l : list nat) : list nat :=
  filter (fun y => negb (x =? y)) l.

Definition mem (x : nat) (l : list nat) : bool := existsb (Nat.eqb x) l.

(** [Vec::sort] on row ids (a stable merge sort in Rust; for a total order on
    [nat] every sorting function gives the same list). *)
Fixpoint ins_sorted (x : nat) (l : list nat) : list nat :=
  match l with
  | [] => [x]
  | y :: ys => if x <=? y then x :: l else y :: ins_sorted x ys
  end.
Definition sort_ids (l : list nat) : list nat := fold_right ins_sorted [] l.
