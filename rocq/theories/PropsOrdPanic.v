(** C112: what an indexed column shows after [Ord] of its elements panicked. *)
From Coq Require Import List Arith Bool ZArith.
From Verif Require Import Base Column ColumnHist Unwind OrdPanicSpec OrdPanicFacts.
Import ListNotations.

(** Any calls on an indexed column, each of which [Ord] may stop at any search of the map: what the column then shows is
    told by the calls, by the rule [outcome] for each.  A call either runs to its end, or gives the panic of [Ord] at
    one of its changes to the map; then the changes before that one are in the map, the others are not, and the
    elements are as before, but for the one pushed. *)
Theorem C112_account : forall imax t h c, ran imax t h c -> exists a, account h a /\ seen imax c a.
Proof. exact ran_seen. Qed.
Print Assumptions C112_account.

(** [Ord] never panics. *)
Local Definition calm : key -> list key -> bool := fun _ _ => false.
(** [Ord] panics when the map is searched for this value in this row. *)
Local Definition at_ (v : Z) (i : nat) : key -> list key -> bool := fun k _ => val_eqb (fst k) (VInt v) && (snd k =? i).
Local Definition after (t : btype) (h : list ((key -> list key -> bool) * iop)) : col :=
  fold_left (fun c x => fst (rough_step 10 (fst x) c (snd x))) h (c_new (Indexed t)).

(** Rows 0 and 1 hold 5 and 6; their swap panics at its last change, so [find] gives row 1 for 5, but row 1 still holds 6. *)
Local Definition swapped := after TVec [(calm, IPush (VInt 5)); (calm, IPush (VInt 6)); (at_ 6 0, ISwap 0 1)].
Example C112_case : exists h, ran 10 TVec h swapped /\ c_into_iter swapped = [VInt 5; VInt 6] /\
  c_find 10 swapped (VInt 5) = Ok [1] /\ c_find 10 swapped (VInt 6) = Ok [].
Proof.
  eexists. split; [|vm_compute; repeat split; reflexivity].
  eapply (ran_call 10 TVec _ (after TVec [(calm, IPush (VInt 5)); (calm, IPush (VInt 6))]) (at_ 6 0) (ISwap 0 1)); [|exact I|vm_compute; repeat constructor|vm_compute; reflexivity].
  eapply (ran_call 10 TVec _ (after TVec [(calm, IPush (VInt 5))]) calm (IPush (VInt 6))); [|exact I|vm_compute; repeat constructor|vm_compute; reflexivity].
  eapply (ran_call 10 TVec _ (after TVec []) calm (IPush (VInt 5))); [constructor|exact I|vm_compute; repeat constructor|vm_compute; reflexivity].
Qed.

(** So it is not so that [find] gives only rows that hold the value, once [Ord] panicked in a call that was caught. *)
Theorem C112_wrong_row : exists imax t h c k rows i, ran imax t h c /\ c_find imax c k = Ok rows /\
  In i rows /\ i < length (c_into_iter c) /\ nth_error (c_into_iter c) i <> Some k.
Proof.
  destruct C112_case as (h & R & D & F & _). exists 10, TVec, h, swapped, (VInt 5), [1], 1. split; [exact R|]. split; [exact F|].
  rewrite D. split; [left; reflexivity|]. split; [repeat constructor|]. discriminate.
Qed.
Print Assumptions C112_wrong_row.
