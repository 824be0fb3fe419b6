(** Rows are deleted in several steps, for the examples of PropsBatch.v. *)
From Coq Require Import List Arith Bool ZArith Lia.
From Verif Require Import Base BaseFacts Names Column ColumnFacts Order RowRange Table Visit SortedTab BagTab TableSpec Hist Cases Events Cascade
  CascadeSpec CascadeFacts CascadeCases Extract ExtractSpec ExtractCases IntegritySpec IntegrityFacts IntegrityCases MirrorSpec MirrorCases BackupSpec ImportSpec
  LifeSpec LifeFacts LifeCases LiveCases RepushSpec RepushFacts RepushCases ClearSpec ClearCases MixSpec MixFacts MixCases UndoSpec UndoCases BatchSpec.
Import ListNotations.

Lemma desk4_runs : runs true Debug 255 3 heads refs nothing orders (XU desk four) (XU desk4 four) None.
Proof.
  apply (grows_runs Debug 255 3 heads refs nothing town_rank orders orders_ok low (XU desk four) (XU desk4 four) desk_wired site_new desk_unmapped desk_declared).
  apply tended_tidily. exact desk4_tended.
Qed.
(** Those of [ids] that are there are deleted. *)
Definition drops (u : universe) (p : nat) (ids : list nat) : universe :=
  session u p (map ODelete (filter (t_contains (nth p (u_tabs u) (t_new (sch Consistent)))) ids)) ev_delete.
Definition first0 := Eval vm_compute in drops desk4 0 [0; 2].
Definition then1 := Eval vm_compute in drops first0 1 [2; 1].
Definition first1 := Eval vm_compute in drops desk4 1 [2; 1].
Definition then0 := Eval vm_compute in drops first1 0 [0; 2].
Definition part1 := Eval vm_compute in drops desk4 0 [2].
Definition part2 := Eval vm_compute in drops part1 0 [0; 7].
Definition mixed1 := Eval vm_compute in drops desk4 1 [1].
Definition mixed2 := Eval vm_compute in drops mixed1 0 [2; 0].
Definition mixed3 := Eval vm_compute in drops mixed2 1 [2; 1].
Definition whole := Eval vm_compute in drops desk4 0 [2; 0; 7].

(** As [desk4], but for the row of table 1 that refers to nothing. *)
Definition es11 := [OPushAll [[VInt 10; VRow 0]; [VInt 11; VRow 1]; [VInt 12; VRow 2]]].
Definition tight2 := Eval vm_compute in session desk1 1 es11 ev_create.
Definition tight3 := Eval vm_compute in session tight2 2 es2 ev_create.
Definition tight4 := Eval vm_compute in session tight3 3 es4 ev_create.
Lemma tight2_tended : tended Debug 255 3 nothing orders desk tight2.
Proof. tend desk1 1 es11 ev_create; [apply desk1_tended|unfold es11; creates]. Qed.
Lemma tight3_tended : tended Debug 255 3 nothing orders desk tight3.
Proof. tend tight2 2 es2 ev_create; [apply tight2_tended|]. intros t [= <-]. change (t_kind _) with Sorted. cbv iota. typed2. Qed.
Lemma tight4_tended : tended Debug 255 3 nothing orders desk tight4.
Proof. tend tight3 3 es4 ev_create; [apply tight3_tended|creates]. Qed.
Lemma tight4_runs : runs true Debug 255 3 heads refs nothing orders (XU desk four) (XU tight4 four) None.
Proof.
  apply (grows_runs Debug 255 3 heads refs nothing town_rank orders orders_ok low (XU desk four) (XU tight4 four) desk_wired site_new desk_unmapped desk_declared).
  apply tended_tidily. exact tight4_tended.
Qed.
Lemma tight4_full p : none_deleted tight4 p.
Proof.
  intros q t _ H. destruct q as [|[|[|[|q]]]]; cbn in H; [| | | |destruct q; discriminate H]; injection H as <-; intros i Hi; cbn in Hi;
    repeat (destruct i as [|i]; [reflexivity|]); exfalso; lia.
Qed.
Lemma tight4_no_strays : no_strays nothing tight4 0.
Proof.
  intros c t j r Dn Hc Gr. assert (H : exists q k key, (q = 0 \/ downstream tight4 0 q) /\ In (TAuto c k key) (u_trackers tight4 q)) by (destruct Dn; do 3 eexists; split; eauto).
  destruct H as (q & k & key & Dq & Tr). assert (V : exists i, nth_error r k = Some (VRow i) /\ i <> 7).
  { apply desk_trackers in Tr; [|reflexivity]. destruct Tr as [H|[H|H]]; inversion H; subst; clear H; injection Hc as <-;
      destruct j as [|[|[|[|j]]]]; vm_compute in Gr; try discriminate Gr; injection Gr as <-; eexists; (split; [reflexivity|discriminate]). }
  destruct V as (i & V & Ni). exists q, k, key, i. auto.
Qed.
Definition gone1 := Eval vm_compute in drops tight4 0 [0; 1; 2].
Definition gone2 := Eval vm_compute in session tight4 0 es9 ev_delete.
Definition left1 := Eval vm_compute in drops desk4 0 [0; 1; 2].
