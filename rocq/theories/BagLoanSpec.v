(** Vocabulary of the property of a bag's iterator. *)
From Coq Require Import List Arith Bool.
From Verif Require Import Base Context ContextUnwind BagLoan.
Import ListNotations.

(** Programs like a for loop: what [next] gave is used only until the iterator is used again in any way, [now] says whether there is such an item. *)
Definition of_item (o : bop) : option nat :=
  match o with BMark j | BGet j _ | BPush j _ | BDelete j _ => Some j | BNext | BMove | BDrop => None end.
Fixpoint like_a_loop (now : bool) (s : bworld) (os : list bop) : Prop :=
  match os with
  | [] => True
  | o :: os =>
      let s' := fst (b_step s o) in
      match of_item o with
      | Some j => now = true /\ S j = length (bw_items s) /\ like_a_loop now s' os
      | None => like_a_loop (length (bw_items s) <? length (bw_items s')) s' os
      end
  end.

(** What a loop over a bag is to do: [cu_cur] is the row that the loop is at, [cu_pos] the next one, [cu_mark] whether the row that the loop is at
    is to be deleted, which happens when the loop goes on (unless there is no further row) or ends. *)
Record cursor := CU { cu_rows : list nat; cu_pos : nat; cu_cur : option nat; cu_mark : bool }.
(** The last row takes the place of the one deleted. *)
Definition swapped_out (rows : list nat) (i : nat) : list nat := removelast (upd rows i (last rows 0)).
Definition cu_step (c : cursor) (o : bop) : cursor * option nat :=
  let (rows, pos, cur, mark) := c in
  match o with
  | BNext =>
      if length rows <=? pos then (c, None)
      else match mark, cur with
           | true, Some l => if l <? length rows then (CU (swapped_out rows l) pos cur false, Some l) else (CU rows pos cur false, None)
           | true, None => (c, None)
           | false, _ => (CU rows (S pos) (Some pos) false, Some pos)
           end
  | BMove => (c, None)
  | BDrop => match mark, cur with
             | true, Some l => if l <? length rows then (CU (swapped_out rows l) pos cur false, None) else (c, None)
             | _, _ => (c, None)
             end
  | BMark _ => (CU rows pos cur true, None)
  | BGet _ i => (c, nth_error rows i)
  | BPush _ x => (CU (rows ++ [x]) pos cur mark, None)
  | BDelete _ i => if i <? length rows then (CU (swapped_out rows i) pos cur mark, None) else (c, None)
  end.
Fixpoint cu_run (c : cursor) (os : list bop) : cursor * list (option nat) :=
  match os with
  | [] => (c, [])
  | o :: os => let (c, a) := cu_step c o in let (c, r) := cu_run c os in (c, a :: r)
  end.
