(** Rows are deleted and brought back, for the examples of PropsUndo.v. *)
From Coq Require Import List Arith Bool ZArith Lia.
From Verif Require Import Base BaseFacts Names Column ColumnFacts Order RowRange Table Visit SortedTab BagTab TableSpec Hist Cases Events Cascade
  CascadeSpec CascadeFacts CascadeCases Extract ExtractSpec ExtractCases IntegritySpec IntegrityFacts IntegrityCases MirrorSpec MirrorCases BackupSpec ImportSpec
  LifeSpec LifeFacts LifeCases LiveCases RepushSpec RepushFacts RepushCases ClearSpec ClearCases MixSpec MixFacts MixCases UndoSpec.
Import ListNotations.

(** The tables of MirrorCases.v, the sorted one being empty. *)
Definition bare := Eval vm_compute in session desk2 3 es4 ev_create.
Lemma bare_tended : tended Debug 255 3 nothing orders desk bare.
Proof. tend desk2 3 es4 ev_create; [apply desk2_tended|creates]. Qed.
Lemma bare_runs : runs true Debug 255 3 heads refs nothing orders (XU desk four) (XU bare four) None.
Proof.
  apply (grows_runs Debug 255 3 heads refs nothing town_rank orders orders_ok low (XU desk four) (XU bare four) desk_wired site_new desk_unmapped desk_declared).
  apply tended_tidily. exact bare_tended.
Qed.
(** Lost if rows 2 and 0 of table 0 are deleted. *)
Definition these (p : nat) : list nat := match p with 3 => [0] | _ => [2; 0] end.
Ltac dependents := let Dm := fresh "Dm" in intro Dm;
  induction Dm as [i Hi|q i c k key j Dm IH Tr (t & r & E & Gr & Ek)]; [cbn in Hi; intuition (subst; cbn; auto)|];
  apply desk_trackers in Tr; [|reflexivity]; destruct Tr as [H|[H|H]]; inversion H; subst; clear H; injection E as <-;
  destruct j as [|[|[|[|j]]]]; vm_compute in Gr; try discriminate Gr; injection Gr as <-; injection Ek as <-;
  cbn in IH; intuition (discriminate || (cbn; auto 8)).
Lemma bare_doomed c i : doomed bare 0 [2; 0] c i -> In (c, i) [(0, 2); (0, 0); (1, 2); (1, 0); (3, 0)].
Proof. dependents. Qed.
Lemma fixed0_doomed c i : doomed desk4 1 [2; 0] c i -> In (c, i) [(1, 2); (1, 0); (3, 0)].
Proof. dependents. Qed.
Lemma bare_1 j : j = 2 \/ j = 0 -> doomed bare 0 [2; 0] 1 j.
Proof.
  intros [->| ->].
  - apply (doomed_dependent bare 0 [2; 0] 0 2 1 1 false); [apply doomed_marked; cbn; auto|vm_compute; auto|]. do 2 eexists. split; [reflexivity|]. split; reflexivity.
  - apply (doomed_dependent bare 0 [2; 0] 0 0 1 1 false); [apply doomed_marked; cbn; auto|vm_compute; auto|]. do 2 eexists. split; [reflexivity|]. split; reflexivity.
Qed.
Lemma bare_3 : doomed bare 0 [2; 0] 3 0.
Proof.
  apply (doomed_dependent bare 0 [2; 0] 1 2 3 1 false); [apply bare_1; auto|vm_compute; auto|]. do 2 eexists. split; [reflexivity|]. split; reflexivity.
Qed.
Lemma fixed0_3 : doomed desk4 1 [2; 0] 3 0.
Proof.
  apply (doomed_dependent desk4 1 [2; 0] 1 2 3 1 false); [apply doomed_marked; cbn; auto|vm_compute; auto|]. do 2 eexists. split; [reflexivity|]. split; reflexivity.
Qed.
Ltac fst_of H := cbn in H; repeat (destruct H as [H|H]; [injection H as <- <-; cbn; auto|]); destruct H.
Lemma desk_cascading u : u_trk u = desk_trk -> length (u_tabs u) = 4 -> cascading refs u.
Proof.
  intros T L c k q I. assert (Lq : q < 4). { destruct c as [|[|[|[|c]]]]; cbn in I; intuition (try match goal with H : _ = _ |- _ => injection H as <- <- end; lia). }
  split; [apply nth_error_lt_Some; rewrite L; exact Lq|]. unfold u_trackers. rewrite T.
  destruct c as [|[|[|[|c]]]]; cbn in I; try contradiction; destruct I as [[= <- <-]|[]]; eexists; vm_compute; auto.
Qed.
Lemma bare_covers : covers (XU bare four) (doomed bare 0 [2; 0]) [0; 1; 3] these.
Proof.
  split; [repeat constructor; cbn; intuition discriminate|]. split.
  - intros c i Dm. apply bare_doomed in Dm. fst_of Dm.
  - intros c Ic. split; [|split].
    + destruct Ic as [<-|[<-|[<-|[]]]]; do 2 eexists; repeat split; reflexivity.
    + destruct Ic as [<-|[<-|[<-|[]]]]; repeat constructor; cbn; intuition discriminate.
    + intro i. split.
      * destruct Ic as [<-|[<-|[<-|[]]]]; cbn; intro H.
        -- apply doomed_marked. exact H.
        -- apply bare_1. intuition auto.
        -- destruct H as [<-|[]]. exact bare_3.
      * intro Dm. apply bare_doomed in Dm. fst_of Dm.
Qed.
Lemma fixed0_covers fl : fl = xu_fl fixed0 \/ fl = four -> covers (XU desk4 fl) (doomed desk4 1 [2; 0]) [1; 3] these.
Proof.
  intro Hf. split; [repeat constructor; cbn; intuition discriminate|]. split.
  - intros c i Dm. apply fixed0_doomed in Dm. fst_of Dm.
  - intros c Ic. split; [|split].
    + destruct Hf as [->| ->]; destruct Ic as [<-|[<-|[]]]; do 2 eexists; repeat split; reflexivity.
    + destruct Ic as [<-|[<-|[]]]; repeat constructor; cbn; intuition discriminate.
    + intro i. split.
      * destruct Ic as [<-|[<-|[]]]; cbn; intro H; [apply doomed_marked; exact H|]. destruct H as [<-|[]]. exact fixed0_3.
      * intro Dm. apply fixed0_doomed in Dm. fst_of Dm.
Qed.
Ltac sees H E Gr Ik := injection H as <- <-; injection E as <-; vm_compute in Gr; injection Gr as <-;
  cbn in Ik; try contradiction; destruct Ik as [Ik|[]]; injection Ik as <- <-; eexists; (split; [reflexivity|]).
Lemma bare_self : self_contained refs (XU bare four) (doomed bare 0 [2; 0]) [0; 1; 3].
Proof.
  intros c k q i t r Dm E Gr Ik. apply bare_doomed in Dm. destruct Dm as [H|[H|[H|[H|[H|[]]]]]]; sees H E Gr Ik; left.
  - apply doomed_marked. cbn. auto.
  - apply doomed_marked. cbn. auto.
  - apply bare_1. auto.
Qed.
Lemma fixed0_self (stays : nat -> Prop) : stays 0 -> forall c k q i t r, doomed desk4 1 [2; 0] c i -> nth_error (u_tabs desk4) c = Some t -> t_get_row t i = Ok r -> In (k, q) (refs c) ->
  exists a, nth_error r k = Some (VRow a) /\ (doomed desk4 1 [2; 0] q a \/ stays q).
Proof.
  intros S0 c k q i t r Dm E Gr Ik. apply fixed0_doomed in Dm. destruct Dm as [H|[H|[H|[]]]]; sees H E Gr Ik; [right; exact S0|right; exact S0|]. left. apply doomed_marked. cbn. auto.
Qed.
Lemma bare_order : in_order_but (stays_put (XU bare four) [0; 1; 3]) refs [0; 1; 3].
Proof. intros before c after E k q I. left. exact (lost_in_order before c after E k q I). Qed.
Lemma fixed0_order (stays : nat -> Prop) : stays 0 -> in_order_but stays refs [1; 3].
Proof.
  intros S0 before c after E k q I. destruct before as [|b0 before]; cbn in E; injection E as <- E.
  - destruct I as [[= <- <-]|[]]. right. exact S0.
  - destruct before as [|b1 before]; cbn in E; injection E as <- E; [destruct I as [[= <- <-]|[]]; cbn; auto|destruct before; discriminate].
Qed.
Definition saves (u : universe) (p : nat) : extraction := got (extract_selection Debug (heads p) (nth p (u_tabs u) (t_new (sch Consistent))) (SThese (these p))).
Definition puts (es : nat -> extraction) (x : xuni) (p : nat) : xuni := after (restore Debug 255 heads refs orders 3 x [] p (es p) ev_create).
(** Deleted and brought back. *)
Definition undo1 := Eval vm_compute in XU (session bare 0 [ODelete 2; ODelete 0] ev_delete) four.
Definition undo2 := Eval vm_compute in puts (saves bare) (puts (saves bare) (puts (saves bare) undo1 0) 1) 3.
Definition redo1 := Eval vm_compute in XU (session desk4 1 [ODelete 2; ODelete 0] ev_delete) (xu_fl fixed0).
Definition redo2 := Eval vm_compute in puts (saves desk4) (puts (saves desk4) redo1 1) 3.
Definition contents (x : xuni) := map (fun t => map (t_get_row t) (seq 0 (t_len t))) (u_tabs (xu_u x)).
Lemma undo_refused : exists x p t ids ev ev' ps sel w x1 c,
    runs true Debug 255 3 heads refs nothing orders (XU desk four) x None /\
    nth_error (u_tabs (xu_u x)) p = Some t /\ t_kind t = Consistent /\ Forall (fun i => exists r, t_get_row t i = Ok r) ids /\ NoDup ids /\
    plain_removal ev /\ nth_error (u_hdl (xu_u x)) (ev_id ev) = Some HDelete /\ handled_by_nothing (xu_u x) ev' /\
    cascading refs (xu_u x) /\ covers x (doomed (xu_u x) p ids) ps sel /\ in_order_but (fun q => ~ In q ps) refs ps /\
    (forall c k q i t r, doomed (xu_u x) p ids c i -> nth_error (u_tabs (xu_u x)) c = Some t -> t_get_row t i = Ok r -> In (k, q) (refs c) ->
       exists a, nth_error r k = Some (VRow a) /\ (doomed (xu_u x) p ids q a \/ ~ In q ps)) /\
    do_edits Debug 255 (w_new t) (map ODelete ids) = Ok w /\ x_flush Debug 255 3 x [] p w ev = Ok x1 /\ hd_error ps = Some c /\
    exists tc e, nth_error (u_tabs (xu_u x)) c = Some tc /\ extract_selection Debug (heads c) tc (SThese (sel c)) = Ok e /\
      restore Debug 255 heads refs orders 3 x1 [] c e ev' = Err (EPanic PNoRemap).
Proof.
  exists (XU desk4 four), 1, (nth 1 (u_tabs desk4) (t_new (sch Consistent))), [2; 0], ev_delete, ev_create, [1; 3], these. do 2 eexists. exists 1.
  split. { apply (grows_runs Debug 255 3 heads refs nothing town_rank orders orders_ok low (XU desk four) (XU desk4 four) desk_wired site_new desk_unmapped desk_declared).
    apply tended_tidily. exact desk4_tended. }
  split; [reflexivity|]. split; [reflexivity|]. split; [repeat constructor; eexists; calc|]. split; [repeat constructor; cbn; intuition discriminate|].
  split; [repeat constructor|]. split; [reflexivity|]. split; [split; calc|]. split; [apply desk_cascading; reflexivity|]. split; [apply fixed0_covers; right; reflexivity|].
  assert (S0 : ~ In 0 [1; 3]) by (cbn; intuition discriminate).
  split; [apply fixed0_order; exact S0|]. split; [exact (fixed0_self (fun q => ~ In q [1; 3]) S0)|].
  split; [calc|]. split; [calc|]. split; [reflexivity|]. do 2 eexists. split; [reflexivity|]. split; calc.
Qed.

(** Table 1 is cleared, with table 3; all rows come back, in another order. *)
Definition all_of (p : nat) : list nat := match p with 3 => [1; 0] | _ => [3; 1; 0; 2] end.
Definition saves_all (u : universe) (p : nat) : extraction := got (extract_selection Debug (heads p) (nth p (u_tabs u) (t_new (sch Consistent))) (SThese (all_of p))).
Definition refill1 := Eval vm_compute in XU (session desk4 1 es9 ev_delete) (xu_fl fixed0).
Definition refill2 := Eval vm_compute in puts (saves_all desk4) (puts (saves_all desk4) refill1 1) 3.
Lemma fixed0_below c : downstream desk4 1 c -> c = 3.
Proof.
  induction 1 as [c k key Tr|q c k key _ IH Tr].
  - apply desk_trackers in Tr; [|reflexivity]. destruct Tr as [H|[H|H]]; inversion H; reflexivity.
  - subst q. apply desk_trackers in Tr; [|reflexivity]. destruct Tr as [H|[H|H]]; inversion H.
Qed.
Lemma fixed0_wiped c i : wiped desk4 1 c i -> In (c, i) [(1, 0); (1, 1); (1, 2); (1, 3); (3, 0); (3, 1)].
Proof.
  intros [[->|H] (t & r & E & Gr)]; [|apply fixed0_below in H; subst c]; injection E as <-; destruct i as [|[|[|[|i]]]]; vm_compute in Gr; try discriminate Gr; cbn; auto 8.
Qed.
Lemma fixed0_covers_all : covers fixed0 (wiped desk4 1) [1; 3] all_of.
Proof.
  split; [repeat constructor; cbn; intuition discriminate|]. split.
  - intros c i H. apply fixed0_wiped in H. fst_of H.
  - intros c Ic. split; [|split].
    + destruct Ic as [<-|[<-|[]]]; do 2 eexists; repeat split; reflexivity.
    + destruct Ic as [<-|[<-|[]]]; repeat constructor; cbn; intuition discriminate.
    + intro i. split.
      * intro H. destruct Ic as [<-|[<-|[]]]; cbn in H; (split; [first [left; reflexivity|right; eapply (downstream_one desk4 1 3 1 false); vm_compute; auto]|]);
          repeat (destruct H as [<-|H]; [do 2 eexists; split; reflexivity|]); destruct H.
      * intro H. apply fixed0_wiped in H. fst_of H.
Qed.
Lemma fixed0_self_all : self_contained refs fixed0 (wiped desk4 1) [1; 3].
Proof.
  intros c k q i t r H E Gr Ik. apply fixed0_wiped in H.
  destruct H as [H|[H|[H|[H|[H|[H|[]]]]]]]; sees H E Gr Ik; try (right; exact fixed0_stays); left; (split; [left; reflexivity|do 2 eexists; split; reflexivity]).
Qed.
