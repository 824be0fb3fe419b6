(** Rows that were deleted come back, for PropsLife.v. *)
From Coq Require Import List Arith Bool ZArith Lia.
From Verif Require Import Base Names Column ColumnFacts Order RowRange Table Visit SortedTab BagTab TableSpec Hist Cases Events Cascade
  CascadeSpec CascadeFacts CascadeCases Extract ExtractSpec ExtractCases IntegritySpec IntegrityFacts IntegrityCases BackupSpec ImportSpec LifeSpec LifeFacts.
Import ListNotations.

(** The universe of IntegrityCases.v: tables 1 and 2 refer to table 0, table 3 refers to table 1. *)
Definition four : list fstate := [fs_new; fs_new; fs_new; fs_new].
Definition refs (p : nat) : list (nat * nat) := match p with 1 => [(1, 0)] | 2 => [(0, 0)] | 3 => [(1, 1)] | _ => [] end.
(** Saved before rows 2 and 0 of table 0 are deleted, what is lost of tables 0, 1 and 3. *)
Definition site_at (p : nat) : table := nth p (u_tabs site4) (t_new (sch Consistent)).
Definition lost (p : nat) : select := match p with 3 => SThese [0] | _ => SThese [2; 0] end.
Definition kept_rows (p : nat) : extraction := got (extract_selection Debug (heads p) (site_at p) (lost p)).
Definition put_back (x : xuni) (p : nat) : xuni := after (restore Debug 255 heads refs orders 3 x [] p (kept_rows p) ev_create).
Definition back1 := Eval vm_compute in put_back (XU site5 four) 0.
Definition back2 := Eval vm_compute in put_back back1 1.
Definition back3 := Eval vm_compute in put_back back2 3.

Lemma site_declared : declared refs site.
Proof.
  split; [|split].
  - intros q c k key H. apply (site_trackers site) in H; [|reflexivity]. destruct H as [H|[H|H]]; inversion H; subst; left; reflexivity.
  - intro c. destruct c as [|[|[|[|c]]]]; repeat constructor; cbn; intuition discriminate.
  - intros c k q I. destruct c as [|[|[|[|c]]]]; cbn in I; try destruct I as [[= <- <-]|[]]; try destruct I; discriminate.
Qed.
Lemma site_reached p : In p [0; 1; 3] -> reachable Debug 255 (t_sch (site_at p)) (Free (site_at p)).
Proof.
  intros [<-|[<-|[<-|[]]]].
  - change (reachable Debug 255 (sch Consistent) (Free (site_at 0))). split; [discriminate|]. exists [OLock; OPushAll [r1; r2; r3]; OFlush true ev_create].
    split; [repeat constructor; cbn; eauto|calc].
  - change (reachable Debug 255 (sch Consistent) (Free (site_at 1))). split; [discriminate|]. exists (OLock :: es1 ++ [OFlush true ev_create]).
    split; [|calc]. unfold es1. cbn [app]. repeat constructor; cbn; eauto; intros ct [= <-]; cbn; eauto.
  - change (reachable Debug 255 (sch Consistent) (Free (site_at 3))). split; [discriminate|]. exists [OLock; OPushAll [[VInt 20; VRow 2]; [VInt 21; VRow 1]]; OFlush true ev_create].
    split; [repeat constructor; cbn; eauto|calc].
Qed.
Ltac read_key Rd k v := let E := fresh in pose proof (Rd k v eq_refl) as E; vm_compute in E; injection E as <-; eexists; (split; [reflexivity|]); vm_compute; auto.
Lemma lost_complete : complete refs [0; 1; 3] site_at kept_rows.
Proof.
  intros c k q i r Ic Ik Ii [L Rd]. destruct Ic as [<-|[<-|[<-|[]]]]; [destruct Ik|..]; destruct Ik as [[= <- <-]|[]];
    destruct r as [|v0 [|v1 [|v2 r]]]; try discriminate L.
  - destruct Ii as [<-|[<-|[]]]; read_key Rd 1 v1.
  - destruct Ii as [<-|[]]; read_key Rd 1 v1.
Qed.
Lemma lost_in_order : BackupSpec.in_order refs [0; 1; 3].
Proof.
  intros before c after E k q I. destruct before as [|b0 before]; cbn in E; injection E as <- E; [destruct I|].
  destruct before as [|b1 before]; cbn in E; injection E as <- E; [destruct I as [[= <- <-]|[]]; left; reflexivity|].
  destruct before as [|b2 before]; cbn in E; injection E as <- E; [destruct I as [[= <- <-]|[]]; cbn; auto|destruct before; discriminate].
Qed.
Lemma lost_importable : importable Debug 255 heads refs (XU site5 four) [0; 1; 3] site_at lost kept_rows ev_create.
Proof.
  split; [|split; [exact lost_complete|split; [repeat constructor; cbn; intuition discriminate|split; [exact lost_in_order|split; calc]]]].
  intros p I. pose proof (site_reached p I) as R. destruct I as [<-|[<-|[<-|[]]]]; eexists; (split; [reflexivity|]); (split; [reflexivity|]); (split; [reflexivity|]);
    (split; [exact R|]); (split; [calc|]); (split; [repeat constructor; cbn; intuition discriminate|]); vm_compute; lia.
Qed.
Lemma back_grows : grows Debug 255 3 heads refs nothing orders (XU site four) back3.
Proof.
  eapply grows_import; [apply lives_grows; exact site5_lives|exact lost_importable|].
  exists back1; split; [calc|]; exists back2; split; [calc|]; exists back3; split; [calc|reflexivity].
Qed.
