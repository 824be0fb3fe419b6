(** Examples of rows that refer to nothing, for PropsInvalid.v. *)
From Coq Require Import List Arith Bool ZArith Lia.
From Verif Require Import Base Column Order RowRange Table Visit SortedTab BagTab TableSpec Hist Cases Events Cascade CascadeSpec CascadeCases
  Extract ExtractSpec ExtractCases Invalid InvalidSpec.
Import ListNotations.

(** Table 1 refers to table 0 by its index; its row 1 refers to nothing.  The sorted table 2 refers to table 0 by its key; its last row
    refers to nothing. *)
Definition loners := [OLock; OPushAll [[VInt 10; VRow 0]; [VInt 11; VRow 7]; [VInt 12; VRow 2]]; OFlush true ev_create].
Definition loners2 := [OLock; OMerge by_key [[VRow 0; VInt 1]; [VRow 7; VInt 2]]; OFlush true ev_create].
Definition t_loners := Eval vm_compute in tab_of (at_end Consistent loners).
Definition t_loners2 := Eval vm_compute in tab_of (at_end Sorted loners2).
Definition hamlet (w : wlock) : universe :=
  Uni [w_tab w; t_loners; t_loners2] [[TAuto 1 1 false; TAuto 2 0 true]] default_handlers [].
(** Rows 2 and 0 of table 0 are deleted. *)
Definition hamlet1 : universe := Eval vm_compute in hamlet marked.
(** Table 0 has all the rows it can have, and the last is deleted. *)
Definition eight := [OLock; OPushAll [r1; r2; r3; r1; r2; r3; r1; r2]; OFlush true ev_create].
Definition marks8 := eight ++ [OLock; ODelete 7].
Definition marked8 : wlock := Eval vm_compute in lock_of (at_end Consistent marks8).
Definition hamlet8 : universe := Eval vm_compute in hamlet marked8.

Lemma hamlet_trackers w p c k key : In (TAuto c k key) (u_trackers (hamlet w) p) ->
  (p, c, k, key) = (0, 1, 1, false) \/ (p, c, k, key) = (0, 2, 0, true).
Proof.
  destruct p as [|p]; cbn.
  - intros [H|[H|[]]]; inversion H; subst; auto.
  - destruct p; intros [].
Qed.
Lemma loners2_ascending : ascending_column t_loners2 0.
Proof.
  intros i j r s a b L Hr Hs Ha Hb.
  assert (G : forall i r, t_get_row t_loners2 i = Ok r ->
    i < 2 /\ nth_error r 0 = nth_error [VRow 0; VRow 7] i).
  { clear. intros i r. do 2 (destruct i as [|i]; [intros [= <-]; split; [lia|reflexivity]|]). vm_compute. destruct i; discriminate. }
  destruct (G _ _ Hr) as [Li Ei], (G _ _ Hs) as [Lj Ej]. rewrite Ha in Ei. rewrite Hb in Ej.
  destruct j as [|[|j]]; try lia; destruct i as [|i]; try lia; inversion Ei; inversion Ej; subst; vm_compute; discriminate.
Qed.
Lemma hamlet_linked w : t_kind (w_tab w) = Consistent -> linked Debug 255 town_rank (hamlet w).
Proof.
  intro Kw. split.
  - intros p c k key H. apply hamlet_trackers in H. destruct H as [H|H]; inversion H; subst; clear H.
    + split; [cbn; lia|]. exists t_loners, (Indexed TVec). split; [reflexivity|].
      split; [change (sane Debug 255 (sch Consistent) (Free t_loners)); sane_by loners|]. split; [vm_compute; lia|]. split; [reflexivity|]. split; [left; reflexivity|eauto].
    + split; [cbn; lia|]. exists t_loners2, (Plain TVec). split; [reflexivity|].
      split; [change (sane Debug 255 (sch Sorted) (Free t_loners2)); sane_by loners2|]. split; [vm_compute; lia|]. split; [reflexivity|]. split; [reflexivity|exact loners2_ascending].
  - intros p t H K. destruct p as [|[|[|p]]]; inversion H; subst; try (elim K; exact Kw); try (elim K; reflexivity); try reflexivity.
Qed.
(** Row 1 of table 1, and of table 2. *)
Lemma hamlet_nothing w c : not_full (w_tab w) -> t_sch (w_tab w) = sch Consistent -> c = 1 \/ c = 2 -> refers_to_nothing (hamlet w) c 1.
Proof.
  intros N Es Hc q k key i H (t & r & Et & G & Er). apply hamlet_trackers in H.
  destruct H as [H|H]; injection H as -> -> -> ->; destruct Hc as [Hc|Hc]; try discriminate Hc; clear Hc;
    injection Et as <-; vm_compute in G; injection G as <-; injection Er as <-;
    exists (w_tab w); split; [reflexivity|split; [exact N|rewrite Es; reflexivity]|reflexivity|split; [exact N|rewrite Es; reflexivity]].
Qed.

(** What is saved of table 1. *)
Definition e_l := Eval vm_compute in got (extract_selection Debug (heads 1) t_loners (SThese [1])).
