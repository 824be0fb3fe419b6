(** A small universe for the examples of PropsCascade.v. *)
From Coq Require Import List Arith Bool ZArith Lia.
From Verif Require Import Base Column Order RowRange Table Visit SortedTab BagTab TableSpec Hist Cases Events Cascade CascadeSpec.
Import ListNotations.

Definition tab_of (o : option state) : table := match o with Some st => st_tab st | None => t_new (sch Consistent) end.
Definition lock_of (o : option state) : wlock := match o with Some (Locked w _) => w | _ => w_new (t_new (sch Consistent)) end.
Definition by_key (r s : row) : comparison := val_cmp (nth 0 r (VRow 0)) (nth 0 s (VRow 0)).

(** Table 0: three rows; rows 2 and 0 are deleted through the lock. *)
Definition marks := three ++ [OLock; ODelete 2; ODelete 0].
Definition marked : wlock := Eval vm_compute in lock_of (at_end Consistent marks).
(** Table 1 refers to it by its index. *)
Definition kids := [OLock; OPushAll [[VInt 10; VRow 0]; [VInt 11; VRow 1]; [VInt 12; VRow 2]]; OFlush true ev_create].
(** Table 2 by its sort key. *)
Definition ranked := [OLock; OMerge by_key [[VRow 0; VInt 1]; [VRow 0; VInt 2]; [VRow 1; VInt 3]; [VRow 2; VInt 4]]; OFlush true ev_create].
(** Table 3 refers to table 1. *)
Definition grandkids := [OLock; OPushAll [[VInt 20; VRow 2]; [VInt 21; VRow 1]]; OFlush true ev_create].
Definition t_kids := Eval vm_compute in tab_of (at_end Consistent kids).
Definition t_ranked := Eval vm_compute in tab_of (at_end Sorted ranked).
Definition t_grandkids := Eval vm_compute in tab_of (at_end Consistent grandkids).
Definition family (w : wlock) : universe :=
  Uni [w_tab w; t_kids; t_ranked; t_grandkids]
      [[TAuto 1 1 false; TUser false (fun e => ev_removal e); TAuto 2 0 true; TUser true (fun e => ev_creation e)]; [TAuto 3 1 false]]
      default_handlers [].
Definition town : universe := Eval vm_compute in family marked.
Definition town_rank (p : nat) : nat := match p with 0 => 2 | 1 => 1 | _ => 0 end.

Lemma town_trackers p c k key : In (TAuto c k key) (u_trackers town p) ->
  (p, c, k, key) = (0, 1, 1, false) \/ (p, c, k, key) = (0, 2, 0, true) \/ (p, c, k, key) = (1, 3, 1, false).
Proof.
  destruct p as [|[|p]]; cbn.
  - intros [H|[H|[H|[H|[]]]]]; inversion H; subst; auto.
  - intros [H|[]]; inversion H; subst; auto.
  - destruct p; intros [].
Qed.
Lemma town_acyclic : acyclic town_rank town.
Proof. intros p c k key H. apply town_trackers in H. destruct H as [H|[H|H]]; inversion H; subst; cbn; lia. Qed.
Lemma town_ascending : ascending_column t_ranked 0.
Proof.
  intros i j r s a b L Hr Hs Ha Hb.
  assert (G : forall i r, t_get_row t_ranked i = Ok r ->
    i < 4 /\ nth_error r 0 = nth_error [VRow 0; VRow 0; VRow 1; VRow 2] i).
  { clear. intros i r. do 4 (destruct i as [|i]; [intros [= <-]; split; [lia|reflexivity]|]). vm_compute. destruct i; discriminate. }
  destruct (G _ _ Hr) as [Li Ei], (G _ _ Hs) as [Lj Ej]. rewrite Ha in Ei. rewrite Hb in Ej.
  destruct j as [|[|[|[|j]]]]; try lia; destruct i as [|[|[|i]]]; try lia; inversion Ei; inversion Ej; subst; vm_compute; discriminate.
Qed.
Lemma town_linked : linked Debug 255 town_rank town.
Proof.
  split.
  - intros p c k key H. split; [eapply town_acyclic; eauto|]. apply town_trackers in H.
    destruct H as [H|[H|H]]; inversion H; subst; clear H.
    + exists t_kids, (Indexed TVec). split; [reflexivity|]. split; [change (sane Debug 255 (sch Consistent) (Free t_kids)); sane_by kids|].
      split; [vm_compute; lia|]. split; [reflexivity|]. split; [left; reflexivity|eauto].
    + exists t_ranked, (Plain TVec). split; [reflexivity|]. split; [change (sane Debug 255 (sch Sorted) (Free t_ranked)); sane_by ranked|].
      split; [vm_compute; lia|]. split; [reflexivity|]. split; [reflexivity|apply town_ascending].
    + exists t_grandkids, (Indexed TVec). split; [reflexivity|]. split; [change (sane Debug 255 (sch Consistent) (Free t_grandkids)); sane_by grandkids|].
      split; [vm_compute; lia|]. split; [reflexivity|]. split; [left; reflexivity|eauto].
  - intros p t H K. destruct p as [|[|[|[|p]]]]; inversion H; subst; try (elim K; reflexivity); reflexivity.
Qed.
Lemma town_integrity : integrity town.
Proof.
  intros p c k key t j i Htr Ht (t' & r & Ht' & Hr & Hk). apply town_trackers in Htr.
  destruct Htr as [H|[H|H]]; inversion H; subst; clear H; inversion Ht; inversion Ht'; subst; clear Ht Ht'.
  - do 3 (destruct j as [|j]; [vm_compute in Hr; inversion Hr; subst; inversion Hk; eexists; reflexivity|]).
    vm_compute in Hr. destruct j; discriminate.
  - do 4 (destruct j as [|j]; [vm_compute in Hr; inversion Hr; subst; inversion Hk; eexists; reflexivity|]).
    vm_compute in Hr. destruct j; discriminate.
  - do 2 (destruct j as [|j]; [vm_compute in Hr; inversion Hr; subst; inversion Hk; eexists; reflexivity|]).
    vm_compute in Hr. destruct j; discriminate.
Qed.
Lemma town_lock : sane Debug 255 (sch Consistent) (Locked marked []).
Proof. sane_by marks. Qed.
Definition rows_of (u : universe) (p : nat) (n : nat) : list (option row) :=
  match nth_error (u_tabs u) p with
  | Some t => map (fun i => match t_get_row t i with Ok r => Some r | Err _ => None end) (seq 0 n)
  | None => []
  end.

Definition self_ops := [OLock; OPushAll [[VInt 0; VInt 0]]; OFlush true ev_create].
Definition self_tab := Eval vm_compute in tab_of (at_end Consistent self_ops).
Definition self_uni := Uni [self_tab] [[TAuto 0 1 false]] default_handlers [].
Definition with_child (t : table) := Uni [w_tab marked; t] [[TAuto 1 1 false]] default_handlers [].
Definition twice := three ++ [OLock; ODelete 0; ODelete 0].
Definition child_ops := [OLock; OMerge (by_col 0) [[VInt 1; VRow 0]]; OFlush true ev_create].
Definition sorted_child := Eval vm_compute in tab_of (at_end Sorted child_ops).
Definition watched (w : wlock) :=
  Uni [w_tab w; t_kids] [[TAuto 1 1 false]; [TUser true (fun _ => true)]] default_handlers [].
Definition unreferenced := three ++ [OLock; OPush r1; OFlush true ev_create; OLock; ODelete 3].
Lemma watched_linked w : t_kind (w_tab w) = Consistent -> linked Debug 255 town_rank (watched w).
Proof.
  intros K. split.
  - intros p c k key H. assert (E : (p, c, k, key) = (0, 1, 1, false)).
    { destruct p as [|[|p]]; cbn in H; [|destruct H as [H|[]]; discriminate|destruct p; destruct H].
      destruct H as [H|[]]. inversion H. reflexivity. }
    inversion E; subst. split; [repeat constructor|].
    exists t_kids, (Indexed TVec). split; [calc|]. split; [change (t_sch _) with (sch Consistent); sane_by kids|].
    split; [vm_compute; repeat constructor|]. split; [calc|]. split; [left; calc|eexists; reflexivity].
  - intros p t H N. destruct p as [|[|p]]; cbn in H; [| |destruct p; discriminate]; inversion H; subst; elim N; auto.
Qed.
(** Table 3 refers to table 1, which refers to table 0; table 3 has a tracker of its own. *)
Definition cleared := three ++ [OLock; OClear].
Definition chain (w : wlock) : universe :=
  Uni [w_tab w; t_kids; t_ranked; t_grandkids] [[TAuto 1 1 false]; [TAuto 3 1 false]; []; [TUser true (fun _ => true)]] default_handlers [].
Lemma chain_trackers w p c k key : In (TAuto c k key) (u_trackers (chain w) p) ->
  (p, c, k, key) = (0, 1, 1, false) \/ (p, c, k, key) = (1, 3, 1, false).
Proof.
  destruct p as [|[|[|[|p]]]]; cbn.
  - intros [H|[]]; inversion H; subst; auto.
  - intros [H|[]]; inversion H; subst; auto.
  - intros [].
  - intros [H|[]]; inversion H.
  - destruct p; intros [].
Qed.
Lemma chain_acyclic w : acyclic town_rank (chain w).
Proof. intros p c k key H. apply chain_trackers in H. destruct H as [H|H]; inversion H; subst; cbn; lia. Qed.
Lemma chain_removable w : removable (chain w).
Proof.
  intros p c k key H. apply chain_trackers in H. destruct H as [H|H]; inversion H; subst; eexists; (split; [reflexivity|left; reflexivity]).
Qed.
Lemma chain_one_parent w : one_parent (chain w).
Proof.
  intros p m c k key p' m' k' key' H H'.
  assert (G : forall p m c k key, nth_error (u_trackers (chain w) p) m = Some (TAuto c k key) -> m = 0 /\ (p, c) = (0, 1) \/ m = 0 /\ (p, c) = (1, 3)).
  { clear. intros p m c k key H. pose proof (nth_error_In _ _ H) as Hin. apply chain_trackers in Hin.
    destruct Hin as [E|E]; inversion E; subst; clear E; destruct m as [|m]; try (destruct m; discriminate H); auto. }
  apply G in H, H'. destruct H as [[-> E]|[-> E]], H' as [[-> E']|[-> E']]; inversion E; inversion E'; subst; auto; discriminate.
Qed.
Lemma chain_linked : linked Debug 255 town_rank (chain marked).
Proof.
  split.
  - intros p c k key H. split; [eapply chain_acyclic; eauto|]. apply chain_trackers in H.
    destruct H as [H|H]; inversion H; subst; clear H.
    + exists t_kids, (Indexed TVec). split; [reflexivity|]. split; [change (sane Debug 255 (sch Consistent) (Free t_kids)); sane_by kids|].
      split; [vm_compute; lia|]. split; [reflexivity|]. split; [left; reflexivity|eauto].
    + exists t_grandkids, (Indexed TVec). split; [reflexivity|]. split; [change (sane Debug 255 (sch Consistent) (Free t_grandkids)); sane_by grandkids|].
      split; [vm_compute; lia|]. split; [reflexivity|]. split; [left; reflexivity|eauto].
  - intros p t H K. destruct p as [|[|[|[|p]]]]; inversion H as [E]; subst; try (elim K; reflexivity); try reflexivity. destruct p; discriminate E.
Qed.
