(** How many rows iterators say are to come: [size_hint] in src/index.rs and src/tracking.rs. *)
From Coq Require Import List Arith Bool.
From Verif Require Import Base RowRange.
Import ListNotations.

(** The iterators over rows.  [HAll] and [HThese] are those of src/tracking.rs:137-144. *)
Inductive hiter :=
| HChecked (it : riter)        (* CheckedIter, src/index.rs:411-415 *)
| HUnchecked (it : riter)      (* UncheckedIter, src/index.rs:462-465 *)
| HConsistent (c : cons_iter)  (* ConsistentIter, src/index.rs:548-551 *)
| HEdit (c : cons_iter)        (* EditIter, src/index.rs:587-590 *)
| HAll (h : hiter)
| HThese (rows : list nat).    (* a slice's iterator, of the standard library *)

Section Hints.
Variable pr : profile.
Variables imax umax : nat.

(** src/index.rs:443-454, 475-486, 572-581, 606-615; src/tracking.rs:151-156 *)
Fixpoint h_next (h : hiter) : res (hiter * option nat) :=
  match h with
  | HChecked it => let* p := it_next pr imax it in Ok (HChecked (fst p), snd p)
  | HUnchecked it => let* p := it_next pr imax it in Ok (HUnchecked (fst p), snd p)
  | HConsistent c => let* p := cons_next pr imax c in Ok (HConsistent (fst p), snd p)
  | HEdit c => let* p := cons_next pr imax c in Ok (HEdit (fst p), snd p)
  | HAll h => let* p := h_next h in Ok (HAll (fst p), snd p)
  | HThese [] => Ok (HThese [], None)
  | HThese (x :: l) => Ok (HThese l, Some x)
  end.
(** src/index.rs:456-459, 488-491; ConsistentIter and EditIter have the default of the trait; src/tracking.rs:157-162 *)
Fixpoint h_hint (h : hiter) : res (nat * option nat) :=
  match h with
  | HChecked it | HUnchecked it => let* s := it_size_hint pr umax it in Ok (s, Some s)
  | HConsistent _ | HEdit _ => Ok (0, None)
  | HAll h => h_hint h
  | HThese l => Ok (length l, Some (length l))
  end.
(** src/index.rs:435-438, 467-470, 564-567, 599-602.  [SelectIter] has none; here it does nothing. *)
Definition h_skip (h : hiter) (n : nat) : res hiter :=
  match h with
  | HChecked it => let* it := it_skip_fast pr imax umax it n in Ok (HChecked it)
  | HUnchecked it => let* it := it_skip_fast pr imax umax it n in Ok (HUnchecked it)
  | HConsistent c => let* c := cons_skip_fast pr imax umax c n in Ok (HConsistent c)
  | HEdit c => let* c := cons_skip_fast pr imax umax c n in Ok (HEdit c)
  | h => Ok h
  end.
(** A program that uses an iterator: what is left of it. *)
Fixpoint h_run (ops : list it_op) (h : hiter) : res hiter :=
  match ops with
  | [] => Ok h
  | ItNext :: os => let* p := h_next h in h_run os (fst p)
  | ItSkip n :: os => let* h := h_skip h n in h_run os h
  end.
End Hints.
