(** A program that flushes without unlocking, for the examples of PropsLive.v. *)
From Coq Require Import List Arith Bool ZArith Lia.
From Verif Require Import Base Column ColumnFacts Order RowRange Table SortedTab BagTab TableSpec Hist Cases Events Cascade CascadeSpec CascadeFacts
  CascadeCases Extract IntegritySpec IntegrityCases MirrorSpec MirrorCases LiveSpec.
Import ListNotations.

Definition alive (u : universe) (p : nat) (w : wlock) (es : list op) (ev : event) : universe * wlock :=
  match do_edits Debug 255 w es with
  | Ok w => match live_flush Debug 255 3 u [] p w ev with Ok q => q | Err _ => (u, w) end
  | Err _ => (u, w)
  end.
Definition new_lock (u : universe) (p : nat) : wlock := match u_get u p with Ok t => w_new t | Err _ => w_new self_tab end.
(** Table 0 is filled, its row 2 deleted and, the lock never given back, a row pushed again. *)
Definition lf1 := Eval vm_compute in alive desk 0 (new_lock desk 0) es0 ev_create.
Definition lf2 := Eval vm_compute in alive (fst lf1) 0 (snd lf1) [ODelete 2] ev_delete.
Definition lf3 := Eval vm_compute in session (fst lf2) 0 [OPush r1] ev_create.
(** Table 1 is filled and unlocked, and table 2 filled. *)
Definition es8 := [OPushAll [[VInt 10; VRow 0]; [VInt 11; VRow 1]; [VInt 12; VRow 2]]].
Definition lf4 := Eval vm_compute in alive lf3 1 (new_lock lf3 1) es8 ev_create.
Definition lf5 := Eval vm_compute in session (fst lf4) 2 es2 ev_create.
(** Row 0 of table 0 is deleted, with the rows that refer to it, then row 1. *)
Definition lf6 := Eval vm_compute in alive lf5 0 (new_lock lf5 0) [ODelete 0] ev_delete.
Definition lf7 := Eval vm_compute in alive (fst lf6) 0 (snd lf6) [ODelete 1] ev_delete.

Ltac flows u p w es ev := eapply (works_live _ _ _ _ _ _ _ u p _ w es _ ev);
  [| |vm_compute; reflexivity|reflexivity|vm_compute; reflexivity|vm_compute; lia|intros _; first [tidied|intros [=]]|vm_compute; reflexivity].
Ltac ends u p w es ev := eapply (works_flush _ _ _ _ _ _ _ u p _ w es _ ev);
  [| |vm_compute; reflexivity|vm_compute; reflexivity|vm_compute; lia|intros _; first [tidied|intros [=]]|vm_compute; reflexivity].
Ltac deletes := intros t [= <-]; split; [typed2|]; right; split; [repeat constructor|]; split; [reflexivity|]; split; [typed2|];
  left; repeat constructor; cbn; intuition discriminate.
Ltac creates8 := intros t [= <-]; split; [unfold es8; typed2|]; left; split; [reflexivity|left; reflexivity].
Lemma lf2_works : works true Debug 255 3 nothing orders desk (fst lf2) (Some (0, snd lf2)).
Proof.
  flows (fst lf1) 0 (snd lf1) [ODelete 2] ev_delete; [|deletes].
  flows desk 0 (new_lock desk 0) es0 ev_create; [|creates]. apply works_lock; [apply works_start|reflexivity].
Qed.
Lemma lf3_works : works true Debug 255 3 nothing orders desk lf3 None.
Proof. ends (fst lf2) 0 (snd lf2) [OPush r1] ev_create; [apply lf2_works|creates]. Qed.
Lemma lf4_works : works true Debug 255 3 nothing orders desk (fst lf4) None.
Proof.
  change (fst lf4) with (u_put (fst lf4) 1 (w_tab (snd lf4))). apply (works_close _ _ _ _ _ _ _ _ 1 (snd lf4)); [|reflexivity].
  flows lf3 1 (new_lock lf3 1) es8 ev_create; [|creates8]. apply works_lock; [apply lf3_works|reflexivity].
Qed.
Lemma lf5_works : works true Debug 255 3 nothing orders desk lf5 None.
Proof.
  ends (fst lf4) 2 (new_lock (fst lf4) 2) es2 ev_create; [apply works_lock; [apply lf4_works|reflexivity]|].
  intros t [= <-]. change (t_kind _) with Sorted. cbv iota. typed2.
Qed.
Lemma lf7_works : works true Debug 255 3 nothing orders desk (fst lf7) (Some (0, snd lf7)).
Proof.
  flows (fst lf6) 0 (snd lf6) [ODelete 1] ev_delete; [|deletes]. flows lf5 0 (new_lock lf5 0) [ODelete 0] ev_delete; [|deletes].
  apply works_lock; [apply lf5_works|reflexivity].
Qed.
