(** A database in use, to which some of its own rows are added, for PropsImport.v. *)
From Coq Require Import List Arith Bool ZArith Lia.
From Verif Require Import Base Names Column Order RowRange Table Visit SortedTab BagTab TableSpec Hist Cases Events Cascade
  CascadeSpec CascadeCases Extract ExtractSpec ExtractCases BackupSpec BackupCases ImportSpec.
Import ListNotations.

Definition clan_used : xuni :=
  XU (Uni clan [[TAuto 1 1 false; TAuto 2 0 false]; [TAuto 2 1 false]] default_handlers []) [fs_new; fs_new; fs_new].
(** Rows 2 and 0 of table 0, row 0 of table 1 and row 0 of table 2. *)
Definition few (p : nat) : select := match p with 0 => SThese [2; 0] | _ => SThese [0] end.
Definition clan_at (p : nat) : table := nth p clan src_p.
Definition saved_few (p : nat) : extraction := got (extract_selection Debug (heads p) (clan_at p) (few p)).
Definition put_few (x : xuni) (p : nat) : xuni := after (restore Debug 255 heads kin order 3 x [] p (saved_few p) ev_create).
Definition used1 := Eval vm_compute in put_few clan_used 0.
Definition used2 := Eval vm_compute in put_few used1 1.
Definition used3 := Eval vm_compute in put_few used2 2.

Lemma used_sane p : p < 3 -> sane Debug 255 (t_sch (clan_at p)) (Free (clan_at p)).
Proof.
  intro L. destruct p as [|[|[|p]]]; [| | |lia].
  - change (sane Debug 255 (sch Consistent) (Free src_p)). sane_by hole.
  - change (sane Debug 255 (sch Consistent) (Free t_cousins)). sane_by cousins.
  - eapply sane_run with (ops := ties); [apply sane_new; discriminate|repeat constructor|vm_compute; reflexivity|vm_compute; reflexivity].
Qed.
Lemma used_linked : linked Debug 255 clan_rank (xu_u clan_used).
Proof.
  split.
  - intros p c k key H. destruct p as [|[|p]]; cbn in H; [| |destruct p; destruct H].
    + destruct H as [[= <- <- <-]|[[= <- <- <-]|[]]]; (split; [vm_compute; lia|]).
      * exists (clan_at 1), (Indexed TVec). split; [reflexivity|].
        split; [apply (used_sane 1); lia|]. split; [vm_compute; lia|]. split; [reflexivity|]. split; [left; reflexivity|eauto].
      * exists (clan_at 2), (Indexed TVec). split; [reflexivity|].
        split; [apply (used_sane 2); lia|]. split; [vm_compute; lia|]. split; [reflexivity|]. split; [left; reflexivity|eauto].
    + destruct H as [[= <- <- <-]|[]]. split; [vm_compute; lia|]. exists (clan_at 2), (Indexed TVec). split; [reflexivity|].
      split; [apply (used_sane 2); lia|]. split; [vm_compute; lia|]. split; [reflexivity|]. split; [left; reflexivity|eauto].
  - intros p t H K. destruct p as [|[|[|p]]]; inversion H; subst; try (elim K; reflexivity); try reflexivity.
Qed.
Lemma few_complete : complete kin [0; 1; 2] clan_at saved_few.
Proof.
  intros c k q i r Ic Ik Ii [L Rd]. cbn in Ic. destruct Ic as [<-|[<-|[<-|[]]]]; [destruct Ik|..].
  - destruct Ik as [[= <- <-]|[]]. destruct Ii as [<-|[]].
    destruct r as [|v0 [|v1 [|v2 r]]]; try discriminate L. pose proof (Rd 1 v1 eq_refl) as E. vm_compute in E. injection E as <-.
    eexists. split; [reflexivity|]. left. reflexivity.
  - destruct Ii as [<-|[]]. destruct r as [|v0 [|v1 [|v2 r]]]; try discriminate L. destruct Ik as [[= <- <-]|[[= <- <-]|[]]].
    + pose proof (Rd 0 v0 eq_refl) as E. vm_compute in E. injection E as <-. eexists. split; [reflexivity|]. left. reflexivity.
    + pose proof (Rd 1 v1 eq_refl) as E. vm_compute in E. injection E as <-. eexists. split; [reflexivity|]. left. reflexivity.
Qed.

(** The copy of the database that was made in BackupCases.v, saved again and added where ids are remapped to themselves. *)
Definition copy_at (p : nat) : table := nth p (u_tabs (xu_u clan3)) src_p.
Definition saved_copy (p : nat) : extraction := got (extract_selection Debug (heads p) (copy_at p) SAll).
Definition put_copy (x : xuni) (p : nat) : xuni := after (restore Debug 255 heads kin order 3 x [] p (saved_copy p) ev_create).
Definition same_used : xuni := XU (xu_u clan_used) [fs_same; fs_same; fs_same].
Definition same1 := Eval vm_compute in put_copy same_used 0.
Definition same2 := Eval vm_compute in put_copy same1 1.
Definition same3 := Eval vm_compute in put_copy same2 2.

(** Of table 0 no row is saved, of table 1 row 0, that refers to row 2 of table 0. *)
Definition none_of (p : nat) : select := match p with 0 => SThese [] | _ => SThese [0] end.
Definition saved_none (p : nat) : extraction := got (extract_selection Debug (heads p) (clan_at p) (none_of p)).
Definition put_none (x : xuni) (p : nat) : xuni := after (restore Debug 255 heads kin order 3 x [] p (saved_none p) ev_create).
Definition stale1 := Eval vm_compute in put_none used3 0.
Definition stale2 := Eval vm_compute in put_none stale1 1.
