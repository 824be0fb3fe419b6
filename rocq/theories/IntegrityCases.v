(** A small universe that starts empty, for the examples of PropsIntegrity.v. *)
From Coq Require Import List Arith Bool ZArith Lia.
From Verif Require Import Base Column ColumnFacts Order RowRange Table SortedTab BagTab TableSpec Hist Cases Events Cascade CascadeSpec CascadeFacts
  CascadeCases Extract IntegritySpec.
Import ListNotations.

Definition site : universe :=
  Uni [t_new (sch Consistent); t_new (sch Consistent); t_new (sch Sorted); t_new (sch Consistent)] (u_trk town) default_handlers [].
Definition orders (c : nat) := by_key.
(** Row id 7, the last of its type, is used to refer to nothing. *)
Definition nothing (p i : nat) : Prop := i = 7.
Definition session (u : universe) (p : nat) (es : list op) (ev : event) : universe :=
  match u_get u p with
  | Ok t => match do_edits Debug 255 (w_new t) es with
            | Ok w => match flush Debug 255 3 u [] p w ev with Ok u' => u' | Err _ => u end
            | Err _ => u
            end
  | Err _ => u
  end.
Definition site1 := Eval vm_compute in session site 0 [OPushAll [r1; r2; r3]] ev_create.
Definition es1 := [OPushAll [[VInt 10; VRow 0]; [VInt 11; VRow 1]; [VInt 12; VRow 2]; [VInt 13; VRow 7]]; OAssign 0 3 (VInt 14)].
Definition site2 := Eval vm_compute in session site1 1 es1 ev_create.
Definition es2 := [OMerge by_key [[VRow 0; VInt 1]; [VRow 0; VInt 2]; [VRow 1; VInt 3]; [VRow 2; VInt 4]]].
Definition site3 := Eval vm_compute in session site2 2 es2 ev_create.
Definition site4 := Eval vm_compute in session site3 3 [OPushAll [[VInt 20; VRow 2]; [VInt 21; VRow 1]]] ev_create.
Definition site5 := Eval vm_compute in session site4 0 [ODelete 2; ODelete 0] ev_delete.

Lemma orders_ok c : total_preorder (orders c).
Proof. split; unfold orders, by_key; intros; [apply val_cmp_anti|eapply val_le_trans; eauto]. Qed.
Lemma site_trackers u q c k key : u_trk u = u_trk town -> In (TAuto c k key) (u_trackers u q) ->
  (q, c, k, key) = (0, 1, 1, false) \/ (q, c, k, key) = (0, 2, 0, true) \/ (q, c, k, key) = (1, 3, 1, false).
Proof. unfold u_trackers. intros ->. apply town_trackers. Qed.
Lemma site_wired : wired town_rank orders site.
Proof.
  split; [|split; [|calc]].
  - intros p c k key H. split; [eapply town_acyclic; exact H|]. apply (site_trackers site) in H; [|reflexivity].
    destruct H as [H|[H|H]]; inversion H; subst; clear H; eexists; eexists; (split; [reflexivity|]); (split; [reflexivity|]).
    + split; [left; reflexivity|eauto].
    + split; [reflexivity|]. intros r s a b Ha Hb. unfold orders, by_key. rewrite (nth_error_nth _ _ (VRow 0) Ha), (nth_error_nth _ _ (VRow 0) Hb). auto.
    + split; [left; reflexivity|eauto].
  - intros p t H K. destruct p as [|[|[|[|p]]]]; cbn in H; try (inversion H; subst; try (elim K; reflexivity); reflexivity).
Qed.
Lemma site_new : all_new site.
Proof. intros p t H. destruct p as [|[|[|[|p]]]]; cbn in H; try (injection H as <-; split; [discriminate|reflexivity]). destruct p; discriminate. Qed.
Ltac refer := intros q k key x i Htr Hq Hk; apply site_trackers in Htr; [|reflexivity];
  destruct Htr as [H|[H|H]]; inversion H; subst; clear H; inversion Hq; subst; clear Hq; inversion Hk; subst; clear Hk;
  first [right; reflexivity|left; eexists; reflexivity].
Ltac typed := unfold es1, es2; repeat match goal with |- _ /\ _ => split | |- Forall _ (_ :: _) => constructor | |- Forall _ [] => constructor
  | |- Forall _ (new_rows _) => cbn [new_rows] end;
  try exact I; try reflexivity; try (intros ? [= <-]; exact I); try (intros ? [= <-]; cbn; eauto; fail); try refer; repeat constructor; cbn; eauto.
Lemma site1_lives : lives Debug 255 3 nothing orders site site1.
Proof.
  eapply (lives_on _ _ _ _ _ _ site 0 _ [OPushAll [r1; r2; r3]] _ ev_create); [apply lives_start| |reflexivity|vm_compute; reflexivity|vm_compute; lia|vm_compute; reflexivity].
  intros t [= <-]. cbn [t_kind]. split; [typed|]. left. split; [reflexivity|left; reflexivity].
Qed.
Lemma site2_lives : lives Debug 255 3 nothing orders site site2.
Proof.
  eapply (lives_on _ _ _ _ _ _ site1 1 _ es1 _ ev_create); [apply site1_lives| |reflexivity|vm_compute; reflexivity|vm_compute; lia|vm_compute; reflexivity].
  intros t [= <-]. split; [typed|]. left. split; [reflexivity|left; reflexivity].
Qed.
Lemma site3_lives : lives Debug 255 3 nothing orders site site3.
Proof.
  eapply (lives_on _ _ _ _ _ _ site2 2 _ es2 _ ev_create); [apply site2_lives| |reflexivity|vm_compute; reflexivity|vm_compute; lia|vm_compute; reflexivity].
  intros t [= <-]. change (t_kind _) with Sorted. cbv iota. typed.
Qed.
Lemma site4_lives : lives Debug 255 3 nothing orders site site4.
Proof.
  eapply (lives_on _ _ _ _ _ _ site3 3 _ [OPushAll [[VInt 20; VRow 2]; [VInt 21; VRow 1]]] _ ev_create); [apply site3_lives| |reflexivity|vm_compute; reflexivity|vm_compute; lia|vm_compute; reflexivity].
  intros t [= <-]. split; [typed|]. left. split; [reflexivity|left; reflexivity].
Qed.
Lemma site5_lives : lives Debug 255 3 nothing orders site site5.
Proof.
  eapply (lives_on _ _ _ _ _ _ site4 0 _ [ODelete 2; ODelete 0] _ ev_delete); [apply site4_lives| |reflexivity|vm_compute; reflexivity|vm_compute; lia|vm_compute; reflexivity].
  intros t [= <-]. split; [typed|]. right. split; [repeat constructor|]. split; [reflexivity|]. split; [typed|].
  left. repeat constructor; cbn; intuition discriminate.
Qed.
(** Row 2 of table 0 has been deleted. *)
Definition es6 := [OPush [VInt 5; VRow 2]].
Definition site6 := Eval vm_compute in session site5 1 es6 ev_create.
(** A universe whose handler of [ev_delete] does nothing. *)
Definition deaf := Eval vm_compute in Uni (u_tabs site) (u_trk site) (upd (u_hdl site) 2 HNull) [].
Definition deaf1 := Eval vm_compute in session deaf 0 [OPushAll [r1; r2; r3]] ev_create.
Definition deaf2 := Eval vm_compute in session deaf1 1 es1 ev_create.
Definition deaf3 := Eval vm_compute in session deaf2 0 [ODelete 1] ev_delete.
Lemma deaf_wired : wired town_rank orders deaf.
Proof. destruct site_wired as (A & B & C). split; [exact A|]. split; [exact B|]. calc. Qed.
Lemma deaf_lives : lives Debug 255 3 nothing orders deaf deaf2.
Proof.
  eapply (lives_on _ _ _ _ _ _ deaf1 1 _ es1 _ ev_create);
    [eapply (lives_on _ _ _ _ _ _ deaf 0 _ [OPushAll [r1; r2; r3]] _ ev_create); [apply lives_start| |reflexivity|vm_compute; reflexivity|vm_compute; lia|vm_compute; reflexivity]
    | |reflexivity|vm_compute; reflexivity|vm_compute; lia|vm_compute; reflexivity];
  intros t [= <-]; (split; [typed|]); left; (split; [reflexivity|left; reflexivity]).
Qed.
