(** Proofs about ranges of one row and of none, the ids next to an id, and unchecked iterators. *)
From Coq Require Import List Arith Bool Lia.
From Verif Require Import Base BaseFacts RowRange RowRangeFacts.
Import ListNotations.

Lemma next_prev pr imax i j : i <= imax -> j <= imax -> (rid_next pr imax i = Ok j <-> rid_prev pr imax j = Ok i).
Proof.
  intros Hi Hj. unfold rid_next, rid_prev. destruct (Nat.ltb_spec i imax) as [L|L].
  - split.
    + intros [= <-]. reflexivity.
    + destruct j as [|j]; [destruct pr; [discriminate|]; intros [= <-]; lia|]. intros [= <-]. reflexivity.
  - assert (i = imax) by lia. subst i. destruct pr, j as [|j]; try (split; discriminate); split; intro H; try reflexivity; inv H; lia.
Qed.
Lemma next_ids pr imax i : i < imax -> exists j, rid_next pr imax i = Ok j /\ i < j /\ forall o, i < o -> j <= o.
Proof. intro H. unfold rid_next. rewrite (proj2 (Nat.ltb_lt _ _) H). exists (S i). split; [reflexivity|]. split; [lia|]. intros. lia. Qed.
Lemma rr_on_spec pr imax i : i <= imax ->
  (i < imax -> exists r, rr_on pr imax i = Ok r /\ r_end r <= imax /\ forall o, rr_contains r o = true <-> o = i) /\
  (i = imax -> match pr with
               | Debug => exists c, rr_on pr imax i = panic c
               | Release => exists r, rr_on pr imax i = Ok r /\ forall o, o <= imax -> rr_contains r o = false
               end).
Proof.
  intro Hi. unfold rr_on, rid_next. split.
  - intro L. rewrite (proj2 (Nat.ltb_lt _ _) L). cbn [bind]. eexists. split; [reflexivity|]. split; [exact L|].
    intro o. rewrite rr_contains_iff. cbn. lia.
  - intros ->. rewrite Nat.ltb_irrefl. destruct pr; cbn [bind]; [eexists; reflexivity|]. eexists. split; [reflexivity|].
    intros o _. unfold rr_contains. cbn. destruct (imax <=? o); reflexivity.
Qed.
Lemma rr_empty_spec imax o : rr_contains (rr_empty imax) o = false.
Proof. unfold rr_contains, rr_empty. cbn. destruct (Nat.leb_spec imax o), (Nat.ltb_spec o imax); cbn; auto; lia. Qed.
Lemma uncheck_spec pr imax it fuel l : it_end it <= imax -> it_end it - it_i it < fuel -> it_collect pr imax fuel it = Ok l ->
  forall i, rr_contains (ci_uncheck it) i = true <-> In i l.
Proof.
  intros E F H i. rewrite it_collect_ok in H by assumption. inv H. rewrite rr_contains_iff. cbn. rewrite in_seq. lia.
Qed.
