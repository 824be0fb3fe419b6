(** Small universes for the examples beside C90. *)
From Coq Require Import List Arith Bool ZArith.
From Verif Require Import Base Column Order RowRange Table SortedTab Events Cascade Hist Answers DbHist StableSpec Cases.
Import ListNotations.

Fixpoint db_after (pr : profile) (d : db) (cs : list db_call) : option db :=
  match cs with
  | [] => Some d
  | c :: cs => match db_step pr 255 3 d c with Ok q => db_after pr (fst q) cs | Err _ => None end
  end.
Lemma after_comes pr schs cs : forall d d', comes_to pr 255 3 schs d -> db_after pr d cs = Some d' -> comes_to pr 255 3 schs d'.
Proof.
  induction cs as [|c cs IH]; intros d d' C H; cbn in H; [congruence|].
  destruct (db_step pr 255 3 d c) as [[d1 a]|] eqn:E; [|discriminate]. apply (IH d1); [|exact H]. exact (comes_call _ _ _ _ _ _ _ _ C E).
Qed.
(** Calls during which row [i] of table [p] stays. *)
Definition stores_b (c : db_call) (p i : nat) : bool :=
  match c with On q (Do (OAssign _ j _)) => (q =? p) && (j =? i) | _ => false end.
Fixpoint alone_after (pr : profile) (p i : nat) (d : db) (cs : list db_call) : option db :=
  match row_in d p i, cs with
  | None, _ => None
  | _, [] => Some d
  | _, c :: cs => if stores_b c p i then None else match db_step pr 255 3 d c with Ok q => alone_after pr p i (fst q) cs | Err _ => None end
  end.
Lemma after_alone pr p i cs : forall d d', alone_after pr p i d cs = Some d' -> left_alone pr 255 3 p i d d'.
Proof.
  induction cs as [|c cs IH]; intros d d' H; cbn in H; destruct (row_in d p i) eqn:R; try discriminate.
  - injection H as <-. constructor. congruence.
  - destruct (stores_b c p i) eqn:S; [discriminate|]. destruct (db_step pr 255 3 d c) as [[d1 a]|] eqn:E; [|discriminate].
    apply (alone_call _ _ _ _ _ d c d1 a d'); auto; [congruence|].
    intros (k & v & ->). cbn in S. now rewrite !Nat.eqb_refl in S.
Qed.

(** Three rows; then [retain] removes the first. *)
Definition fill (k : kind) : list db_call :=
  [On 0 (Do OLock); On 0 (Do (match k with Sorted => OMerge (by_col 0) [r1; r2; r3] | _ => OPushAll [r1; r2; r3] end))].
Definition drop_first : list db_call := [On 0 (CRetain unit (fun u r => (u, negb (Z.eqb (key 0 r) 1))) tt)].
Definition or_new (d : option db) : db := match d with Some d => d | None => db_new [] end.
Definition filled pr k := or_new (db_after pr (db_new [sch k]) (fill k)).
Definition dropped pr k := or_new (alone_after pr 0 1 (filled pr k) drop_first).
Lemma shifted pr k : k <> Consistent ->
  comes_to pr 255 3 [sch k] (filled pr k) /\ left_alone pr 255 3 0 1 (filled pr k) (dropped pr k) /\
  row_in (filled pr k) 0 1 = Some r2 /\ row_in (dropped pr k) 0 1 = Some r3.
Proof.
  intros N. split; [|split].
  - apply (after_comes pr _ (fill k) (db_new [sch k])); [constructor|]. destruct pr, k; try congruence; vm_compute; reflexivity.
  - apply (after_alone pr 0 1 drop_first). destruct pr, k; try congruence; vm_compute; reflexivity.
  - destruct pr, k; try congruence; vm_compute; auto.
Qed.
