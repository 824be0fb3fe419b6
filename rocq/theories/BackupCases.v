(** A small database and its copies, for PropsBackup.v. *)
From Coq Require Import List Arith Bool ZArith Lia.
From Verif Require Import Base Names Column Order RowRange Table Visit SortedTab BagTab TableSpec Hist Cases Events Cascade
  CascadeSpec CascadeCases Extract ExtractSpec ExtractCases BackupSpec.
Import ListNotations.

(** Table 0 has rows 0 and 2.  Table 1 has rows 0 and 2 too, and refers to table 0 by column 1.  Table 2 refers to table 0 by column 0 and
    to table 1 by column 1. *)
Definition cousins := [OLock; OPushAll [[VInt 10; VRow 2]; [VInt 12; VRow 0]; [VInt 11; VRow 0]]; OFlush true ev_create;
  OLock; ODelete 1; OFlush true ev_delete].
Definition ties := [OLock; OPushAll [[VRow 2; VRow 0]; [VRow 2; VRow 2]; [VRow 0; VRow 0]]; OFlush true ev_create].
Definition sch_ties := Sch Consistent 7 [Indexed TVec; Indexed TVec].
Definition t_cousins := Eval vm_compute in tab_of (at_end Consistent cousins).
Definition t_ties := Eval vm_compute in
  match run Debug 255 (Free (t_new sch_ties)) ties with Ok st => st_tab st | Err _ => t_new sch_ties end.
Definition clan : list table := [src_p; t_cousins; t_ties].
Definition kin (p : nat) : list (nat * nat) := match p with 1 => [(1, 0)] | 2 => [(0, 0); (1, 1)] | _ => [] end.
Definition clan_rank (p : nat) : nat := 2 - p.
Definition saved (p : nat) : extraction :=
  match nth_error clan p with Some t => got (extract_selection Debug (heads p) t SAll) | None => e_p end.
(** Without rows; [fs]: how ids are remapped. *)
Definition clan_new (fs : list fstate) : xuni :=
  XU (Uni [t_new (sch Consistent); t_new (sch Consistent); t_new sch_ties]
     [[TAuto 1 1 false; TAuto 2 0 false]; [TAuto 2 1 false]] default_handlers []) fs.
Definition clan0 := clan_new [fs_new; fs_new; fs_new].
Definition next (x : xuni) (p : nat) : xuni := after (restore Debug 255 heads kin order 3 x [] p (saved p) ev_create).
Definition clan3 := Eval vm_compute in next (next (next clan0 0) 1) 2.

Lemma clan_reached p t : nth_error clan p = Some t -> reachable Debug 255 (t_sch t) (Free t).
Proof.
  destruct p as [|[|[|p]]]; intros H; [injection H as <-..|destruct p; discriminate].
  - change (t_sch src_p) with (sch Consistent). reached hole.
  - change (t_sch t_cousins) with (sch Consistent). reached cousins.
  - split; [discriminate|]. exists ties. split; [repeat constructor|]. calc.
Qed.
Lemma clan_whole : whole kin clan.
Proof.
  intros c t k q i r Et I G. destruct c as [|[|[|c]]]; [injection Et as <-..|destruct c; discriminate].
  - destruct I.
  - destruct I as [[= <- <-]|[]].
    destruct i as [|[|[|i]]]; [injection G as <-|discriminate G|injection G as <-|vm_compute in G; destruct i; discriminate];
      eexists _, _; split; [reflexivity|split; reflexivity|reflexivity|split; reflexivity].
  - destruct I as [[= <- <-]|[[= <- <-]|[]]];
    (destruct i as [|[|[|i]]]; [injection G as <-..|vm_compute in G; destruct i; discriminate];
      (eexists _, _; split; [reflexivity|split; reflexivity])).
Qed.
Lemma clan_in_order : in_order kin [0; 1; 2].
Proof.
  intros before c after E k q I. destruct before as [|b0 before]; cbn in E; injection E as <- E; [destruct I|].
  destruct before as [|b1 before]; cbn in E; injection E as <- E; [destruct I as [[= <- <-]|[]]; left; reflexivity|].
  destruct before as [|b2 before]; cbn in E; injection E as <- E; [|destruct before; discriminate].
  destruct I as [[= <- <-]|[[= <- <-]|[]]]; cbn; auto.
Qed.
Lemma clan_linked fs : linked Debug 255 clan_rank (xu_u (clan_new fs)).
Proof.
  split.
  - intros p c k key H. destruct p as [|[|p]]; cbn in H; [| |destruct p; destruct H].
    + destruct H as [[= <- <- <-]|[[= <- <- <-]|[]]]; (split; [vm_compute; lia|]).
      * exists (t_new (sch Consistent)), (Indexed TVec). split; [reflexivity|].
        split; [apply sane_new; discriminate|]. split; [vm_compute; lia|]. split; [reflexivity|]. split; [left; reflexivity|eauto].
      * exists (t_new sch_ties), (Indexed TVec). split; [reflexivity|].
        split; [apply sane_new; discriminate|]. split; [vm_compute; lia|]. split; [reflexivity|]. split; [left; reflexivity|eauto].
    + destruct H as [[= <- <- <-]|[]]. split; [vm_compute; lia|]. exists (t_new sch_ties), (Indexed TVec). split; [reflexivity|].
      split; [apply sane_new; discriminate|]. split; [vm_compute; lia|]. split; [reflexivity|]. split; [left; reflexivity|eauto].
  - intros p t H K. destruct p as [|[|[|p]]]; inversion H; subst; try (elim K; reflexivity); try reflexivity.
Qed.

(** Ids remapped to themselves. *)
Definition fs_same := set_identity_remap fs_new.
Definition clan_same := clan_new [fs_same; fs_same; fs_same].
Definition clan_same3 := Eval vm_compute in next (next (next clan_same 0) 1) 2.

(** A table that refers to itself. *)
Definition circle (p : nat) : list (nat * nat) := match p with 0 => [(1, 0)] | _ => [] end.
Definition loop := [OLock; OPushAll [[VInt 1; VRow 0]; [VInt 2; VRow 0]]; OFlush true ev_create].
Definition t_loop := Eval vm_compute in tab_of (at_end Consistent loop).
Definition e_loop := Eval vm_compute in got (extract_selection Debug (heads 0) t_loop SAll).
Definition x_loop := XU (Uni [t_new (sch Consistent)] [[TUser true (fun _ => true)]] default_handlers []) [fs_new].
