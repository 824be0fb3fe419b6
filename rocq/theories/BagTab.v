(** Bags: iteration with removal (src/index.rs:618-674, macros/output.rs:681-688, 853-871). *)
From Coq Require Import List Arith Bool.
From Verif Require Import Base Column RowRange Table.
Import ListNotations.

(** src/index.rs:632-637. *)
Record bag_iter := BG { bg_w : wlock; bg_mark : bool; bg_i : nat; bg_last : option nat }.

(** output.rs:681-688 *)
Definition bag_iter_new (w : wlock) : bag_iter := BG w false 0 None.

Section Bag.
Variable pr : profile.
Variable umax : nat.

(** src/index.rs:640-651 and the [from_usize] of 653; gives the id of the handle *)
Definition bag_next (b : bag_iter) : res (bag_iter * option nat) :=
  let t := w_tab (bg_w b) in
  if t_len t <=? bg_i b then Ok (b, None)
  else
    let* b := if bg_mark b then
                match bg_last b with
                | None => panic PUnwrap
                | Some l => let* i := rid_from_usize (t_imax t) l in
                            let* w := delete pr umax (bg_w b) i in
                            Ok (BG w false (bg_i b) (bg_last b))
                end
              else Ok (BG (bg_w b) false (S (bg_i b)) (Some (bg_i b))) in
    match bg_last b with
    | None => panic PUnwrap
    | Some l => let* i := rid_from_usize (t_imax t) l in Ok (b, Some i)
    end.

(** src/index.rs:626-629: the mark is the iterator's, whichever handle is used *)
Definition bag_handle_delete (b : bag_iter) : bag_iter := BG (bg_w b) true (bg_i b) (bg_last b).

(** src/index.rs:667-673 *)
Definition bag_drop (b : bag_iter) : res wlock :=
  match bg_last b with
  | Some l => if bg_mark b then
                let* i := rid_from_usize (t_imax (w_tab (bg_w b))) l in delete pr umax (bg_w b) i
              else Ok (bg_w b)
  | None => Ok (bg_w b)
  end.

(** A program using the iterator: on each row yielded it looks at the table and either
    deletes the row through its handle, keeps it, or stops iterating (having deleted or kept). *)
Inductive choice := Keep | Remove | StopKeep | StopRemove.

Fixpoint bag_for {S} (f : S -> wlock -> nat -> S * choice) (fuel : nat) (s : S) (b : bag_iter) : res (S * bag_iter) :=
  match fuel with
  | 0 => Err EFuel
  | Datatypes.S n =>
      let* p := bag_next b in
      match snd p with
      | None => Ok (s, fst p)
      | Some i =>
          let q := f s (bg_w (fst p)) i in
          match snd q with
          | Keep => bag_for f n (fst q) (fst p)
          | Remove => bag_for f n (fst q) (bag_handle_delete (fst p))
          | StopKeep => Ok (fst q, fst p)
          | StopRemove => Ok (fst q, bag_handle_delete (fst p))
          end
      end
  end.

(** [for (table, handle) in w.iter_mut() { .. }]: every row is yielded at most once, so
    [t_len] turns are enough. *)
Definition bag_for_loop {S} (f : S -> wlock -> nat -> S * choice) (s : S) (w : wlock) : res (S * wlock) :=
  let* p := bag_for f (Datatypes.S (t_len (w_tab w))) s (bag_iter_new w) in
  let* w := bag_drop (snd p) in
  Ok (fst p, w).
End Bag.
