(** The universe of IntegrityCases.v with trackers that keep book, for the examples of PropsMirror.v. *)
From Coq Require Import List Arith Bool ZArith Lia.
From Verif Require Import Base Column ColumnFacts Order RowRange Table SortedTab BagTab TableSpec Hist Cases Events Cascade CascadeSpec CascadeFacts
  CascadeCases Extract IntegritySpec IntegrityCases MirrorSpec.
Import ListNotations.

Definition clerk (srt : bool) := TUser srt (fun _ => true).
Definition desk_trk := [[TAuto 1 1 false; clerk false; TAuto 2 0 true]; [clerk true; TAuto 3 1 false]; []; [clerk false]].
Definition desk : universe := Uni (u_tabs site) desk_trk default_handlers [].
Lemma desk_trackers u q c k key : u_trk u = desk_trk -> In (TAuto c k key) (u_trackers u q) ->
  (q, c, k, key) = (0, 1, 1, false) \/ (q, c, k, key) = (0, 2, 0, true) \/ (q, c, k, key) = (1, 3, 1, false).
Proof.
  unfold u_trackers. intros ->. destruct q as [|[|[|[|q]]]]; cbn.
  - intros [H|[H|[H|[]]]]; inversion H; subst; auto.
  - intros [H|[H|[]]]; inversion H; subst; auto.
  - intros [].
  - intros [H|[]]; discriminate H.
  - destruct q; intros [].
Qed.
Lemma desk_wired_of h : length h = max_event_types -> wired town_rank orders (Uni (u_tabs site) desk_trk h []).
Proof.
  intro Lh. split; [|split; [|exact Lh]].
  - intros p c k key H. apply desk_trackers in H; [|reflexivity].
    destruct H as [H|[H|H]]; inversion H; subst; clear H; (split; [cbn; lia|]); eexists; eexists; (split; [reflexivity|]); (split; [reflexivity|]).
    + split; [left; reflexivity|eauto].
    + split; [reflexivity|]. intros r s a b Ha Hb. unfold orders, by_key. rewrite (nth_error_nth _ _ (VRow 0) Ha), (nth_error_nth _ _ (VRow 0) Hb). auto.
    + split; [left; reflexivity|eauto].
  - intros p t H K. destruct p as [|[|[|[|p]]]]; cbn in H; try (inversion H; subst; try (elim K; reflexivity); reflexivity).
    destruct p; discriminate.
Qed.
Lemma desk_wired : wired town_rank orders desk.
Proof. apply desk_wired_of. reflexivity. Qed.
Definition es0 := [OPushAll [r1; r2; r3]].
Definition desk1 := Eval vm_compute in session desk 0 es0 ev_create.
Definition desk2 := Eval vm_compute in session desk1 1 es1 ev_create.
Definition desk3 := Eval vm_compute in session desk2 2 es2 ev_create.
Definition es4 := [OPushAll [[VInt 20; VRow 2]; [VInt 21; VRow 1]]].
Definition desk4 := Eval vm_compute in session desk3 3 es4 ev_create.
Definition es5 := [ODelete 2; ODelete 0].
Definition desk5 := Eval vm_compute in session desk4 0 es5 ev_delete.
(** Row 0 of table 1 is free again and is used for the new row; row 1 is selected. *)
Definition es7 := [OPush [VInt 15; VRow 1]; OSelect 1].
Definition desk6 := Eval vm_compute in session desk5 1 es7 ev_create.
Ltac refer2 := intros q k key x i Htr Hq Hk; apply desk_trackers in Htr; [|reflexivity];
  destruct Htr as [H|[H|H]]; inversion H; subst; clear H; inversion Hq; subst; clear Hq; inversion Hk; subst; clear Hk;
  first [right; reflexivity|left; eexists; reflexivity].
Ltac typed2 := unfold es0, es1, es2, es4, es5, es7; repeat match goal with |- _ /\ _ => split | |- Forall _ (_ :: _) => constructor | |- Forall _ [] => constructor
  | |- Forall _ (new_rows _) => cbn [new_rows] end;
  try exact I; try reflexivity; try (intros ? [= <-]; exact I); try (intros ? [= <-]; cbn; eauto; fail); try refer2; repeat constructor; cbn; eauto.
Ltac tidied := intros _; split; [repeat constructor; cbn; intuition discriminate|
  intros i Hi; cbn in Hi; repeat (destruct Hi as [Hi|Hi]; [first [discriminate Hi|injection Hi as <-; eexists; vm_compute; reflexivity]|]); destruct Hi].
Ltac tend u p es ev := eapply (tended_on _ _ _ _ _ _ u p _ es _ ev);
  [| |vm_compute; reflexivity|vm_compute; reflexivity|vm_compute; lia|first [tidied|intros [=]]|vm_compute; reflexivity].
Ltac creates := intros t [= <-]; split; [typed2|]; left; split; [reflexivity|left; reflexivity].
Lemma desk1_tended : tended Debug 255 3 nothing orders desk desk1.
Proof. tend desk 0 es0 ev_create; [apply tended_start|creates]. Qed.
Lemma desk2_tended : tended Debug 255 3 nothing orders desk desk2.
Proof. tend desk1 1 es1 ev_create; [apply desk1_tended|creates]. Qed.
Lemma desk3_tended : tended Debug 255 3 nothing orders desk desk3.
Proof. tend desk2 2 es2 ev_create; [apply desk2_tended|]. intros t [= <-]. change (t_kind _) with Sorted. cbv iota. typed2. Qed.
Lemma desk4_tended : tended Debug 255 3 nothing orders desk desk4.
Proof. tend desk3 3 es4 ev_create; [apply desk3_tended|creates]. Qed.
Lemma desk5_tended : tended Debug 255 3 nothing orders desk desk5.
Proof.
  tend desk4 0 es5 ev_delete; [apply desk4_tended|]. intros t [= <-]. split; [typed2|]. right. split; [repeat constructor|]. split; [reflexivity|]. split; [typed2|].
  left. repeat constructor; cbn; intuition discriminate.
Qed.
Lemma desk6_tended : tended Debug 255 3 nothing orders desk desk6.
Proof. tend desk5 1 es7 ev_create; [apply desk5_tended|creates]. Qed.
(** The handler of [ev_delete] does nothing. *)
Definition dull : universe := Uni (u_tabs site) desk_trk (upd default_handlers 2 HNull) [].
Lemma dull_wired : wired town_rank orders dull.
Proof. apply desk_wired_of. reflexivity. Qed.
Definition dull1 := Eval vm_compute in session dull 0 es0 ev_create.
Definition dull2 := Eval vm_compute in session dull1 1 es1 ev_create.
Lemma dull2_tended : tended Debug 255 3 nothing orders dull dull2.
Proof. tend dull1 1 es1 ev_create; [|creates]. tend dull 0 es0 ev_create; [apply tended_start|creates]. Qed.
