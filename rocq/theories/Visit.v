(** [merge0], [retain] and [visit] (macros/output.rs:1331-1430). *)
From Coq Require Import List Arith Bool.
From Verif Require Import Base Column RowRange Table.
Import ListNotations.

(** src/lib.rs:163-173.  Simplification: the iterator [add] is the list of its rows, so its
    side effects are those of the callback. *)
Inductive action := Continue (remove : bool) (add : list row) | Break.

(** An element of the rug (output.rs:1361): a row, or what is left of an [add] iterator. *)
Inductive rug_item := RRow (r : row) | RIter (l : list row).

(** output.rs:1364-1377 *)
Fixpoint pull_rug (rug : list rug_item) : option (row * list rug_item) :=
  match rug with
  | [] => None
  | RRow r :: rug => Some (r, rug)
  | RIter [] :: rug => pull_rug rug
  | RIter (x :: l) :: rug => Some (x, RIter l :: rug)
  end.

Section Visit.
Variable pr : profile.
(** The closure's captured state, and the closure ([FnMut(&Self, RowId) -> Action]). *)
Context {S : Type}.
Variable f : S -> wlock -> nat -> S * action.

(** output.rs:1402-1409.  [n] bounds the number of turns by [rug_back - rug_front]. *)
Fixpoint fill_rug (n : nat) (w : wlock) (rug : list rug_item) (front back : nat)
  : res (wlock * list rug_item * nat) :=
  match n with
  | 0 => Ok (w, rug, front)
  | Datatypes.S n =>
      if front <? back then
        match pull_rug rug with
        | Some (r, rug) =>
            let* p := swap_out_row w front r in
            let* front := rid_next pr (t_imax (w_tab w)) front in
            fill_rug n (fst p) rug front back
        | None => Ok (w, [], front)
        end
      else Ok (w, rug, front)
  end.

(** output.rs:1382-1410: the [while] loop.  [None] is the early [return] at 1397.
    Each turn advances [rug_back], so [t_len] turns are enough, except in a release build when
    [rug_back.next()] wraps around (a table using the maximal row id): the code then goes on from
    row 0, for ever unless the closure breaks (C87); the model reports [EFuel] either way. *)
Fixpoint rug_loop (fuel : nat) (s : S) (w : wlock) (rug : list rug_item) (front back : nat) (stopped : bool)
  : res (S * wlock * option (list rug_item * nat)) :=
  match fuel with
  | 0 => if back <? t_len (w_tab w) then Err EFuel else Ok (s, w, Some (rug, front))
  | Datatypes.S n =>
      if back <? t_len (w_tab w) then
        let sa := if stopped then (s, Break) else f s w back in
        match snd sa with
        | Continue remove add =>
            let* r := t_get_row (w_tab w) back in
            let rug := if remove then rug else rug ++ [RRow r] in
            let* back := rid_next pr (t_imax (w_tab w)) back in
            let rug := rug ++ [RIter add] in
            let* q := fill_rug (back - front) w rug front back in
            rug_loop n (fst sa) (fst (fst q)) (snd (fst q)) (snd q) back stopped
        | Break =>
            if (front =? back) && match rug with [] => true | _ => false end then Ok (fst sa, w, None)
            else
              let* r := t_get_row (w_tab w) back in
              let rug := rug ++ [RRow r] in
              let* back := rid_next pr (t_imax (w_tab w)) back in
              let* q := fill_rug (back - front) w rug front back in
              rug_loop n (fst sa) (fst (fst q)) (snd (fst q)) (snd q) back true
        end
      else Ok (s, w, Some (rug, front))
  end.

(** The rows [pull_rug] will still give, in order. *)
Fixpoint rug_rows (rug : list rug_item) : list row :=
  match rug with
  | [] => []
  | RRow r :: rug => r :: rug_rows rug
  | RIter l :: rug => l ++ rug_rows rug
  end.

(** output.rs:1354-1415.  Simplification: the last loop ([while let Some(row) = pull_rug])
    is a fold over [rug_rows]. *)
Definition merge0 (s : S) (w : wlock) : res (S * wlock) :=
  let* q := rug_loop (t_len (w_tab w)) s w [] 0 0 false in
  match snd q with
  | None => Ok (fst q)
  | Some (rug, front) =>
      let* w := truncate (snd (fst q)) front in
      let* w := fold_res (fun w r => let* p := push_end_unchecked w r in Ok (fst p)) (rug_rows rug) w in
      Ok (fst (fst q), w)
  end.

(** output.rs:1418-1428 *)
Definition visit (s : S) (w : wlock) : res (S * wlock) := merge0 s w.
End Visit.

(** output.rs:1337-1345 *)
Definition retain (pr : profile) {S} (f : S -> wlock -> nat -> S * bool) (s : S) (w : wlock) : res (S * wlock) :=
  merge0 pr (fun s w i => let p := f s w i in (fst p, Continue (negb (snd p)) [])) s w.
