(** Programs that clear tables, for the examples of PropsClear.v. *)
From Coq Require Import List Arith Bool ZArith Lia.
From Verif Require Import Base Column ColumnFacts Order RowRange Table SortedTab BagTab TableSpec Hist Cases Events Cascade CascadeSpec CascadeFacts
  CascadeCases Extract IntegritySpec IntegrityCases MirrorSpec MirrorCases ClearSpec.
Import ListNotations.

Lemma desk_sweeps u : tended Debug 255 3 nothing orders desk u -> sweeps true Debug 255 3 nothing orders desk u.
Proof. induction 1; [constructor|]. eapply sweeps_on; eauto. Qed.
(** Table 0 is cleared (and a row of it deleted and selected), then filled again, and table 1. *)
Definition es9 := [OGet 1; ODelete 0; OClear; OSelect 2].
Definition wipe1 := Eval vm_compute in session desk4 0 es9 ev_delete.
Definition wipe2 := Eval vm_compute in session wipe1 0 es0 ev_create.
Definition wipe3 := Eval vm_compute in session wipe2 1 es1 ev_create.
Lemma es9_wipes : wipes es9.
Proof. split; [repeat constructor|]. right. right. left. left. reflexivity. Qed.
Lemma desk4_full p : none_deleted desk4 p.
Proof.
  intros q t _ H. destruct q as [|[|[|[|q]]]]; cbn in H; [| | | |destruct q; discriminate H]; injection H as <-; intros i Hi; cbn in Hi;
    repeat (destruct i as [|i]; [reflexivity|]); exfalso; lia.
Qed.
Lemma wipe1_sweeps : sweeps true Debug 255 3 nothing orders desk wipe1.
Proof.
  eapply (sweeps_clear _ _ _ _ _ _ _ desk4 0 _ es9 _ ev_delete); [apply desk_sweeps, desk4_tended|reflexivity|reflexivity|exact es9_wipes|apply desk4_full|
    repeat constructor|reflexivity|vm_compute; reflexivity|vm_compute; reflexivity].
Qed.
Ltac sweep u p es ev := eapply (sweeps_on _ _ _ _ _ _ _ u p _ es _ ev);
  [| |vm_compute; reflexivity|vm_compute; reflexivity|vm_compute; lia|intros _; first [tidied|intros [=]]|vm_compute; reflexivity].
Lemma wipe3_sweeps : sweeps true Debug 255 3 nothing orders desk wipe3.
Proof. sweep wipe2 1 es1 ev_create; [|creates]. sweep wipe1 0 es0 ev_create; [apply wipe1_sweeps|creates]. Qed.

(** Rows 0 and 2 of table 0 have been deleted when it is cleared. *)
Definition wipe4 := Eval vm_compute in session desk5 0 [OClear] ev_delete.
Definition es10 := [OPushArray [r1; r2; r3]].
Definition wipe5 := Eval vm_compute in session wipe4 0 es10 ev_create.
