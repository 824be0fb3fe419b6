(** Property theorems about rows added to a database in use, C115. *)
From Coq Require Import List Arith Bool ZArith.
From Verif Require Import Base Column Order RowRange Table SortedTab BagTab TableSpec Hist Events Cascade CascadeSpec CascadeCases
  Cases Extract ExtractSpec ExtractCases BackupSpec BackupCases ImportSpec ImportFacts ImportCases.
Import ListNotations.

(** C115.  Of the tables [ps] some rows are saved, with all the rows they refer to; they are restored one table after another, each after
    those it refers to, into a database that has rows of its own, deleted rows too.  Every restore succeeds.  Every table has then its own
    rows, unchanged, and the rows restored, each once, with ids that had no row; every foreign key of them refers to the copy of the row that
    it referred to.  Other tables are unchanged.  If all foreign keys referred to rows they do so again.  And all of it can be done once more
    while there are ids. *)
Theorem C115_import :
  forall pr umax heads foreign order rank fuel src sel es x ev ps,
  (forall p, In p ps ->
     reachable pr umax (t_sch (src p)) (Free (src p)) /\ t_kind (src p) <> Sorted /\ NoDup (map fst (foreign p)) /\
     extract_selection pr (heads p) (src p) (sel p) = Ok (es p) /\ NoDup (ex_sel (es p)) /\ rank p < fuel /\
     can_take pr umax x p (length (ex_sel (es p))) (t_sch (src p))) ->
  complete foreign ps src es -> NoDup ps -> in_order foreign ps ->
  (forall c k q, In c ps -> In (k, q) (foreign c) -> u_trackers (xu_u x) q <> []) ->
  handled_by_nothing (xu_u x) ev -> linked pr umax rank (xu_u x) ->
  exists x' f, restore_all pr umax heads foreign order fuel es ev ps x x' /\
    (forall p, In p ps -> exists d d', nth_error (u_tabs (xu_u x)) p = Some d /\ nth_error (u_tabs (xu_u x')) p = Some d' /\
       added (foreign p) f p (ex_sel (es p)) (src p) d d') /\
    (forall p, ~ In p ps -> nth_error (u_tabs (xu_u x')) p = nth_error (u_tabs (xu_u x)) p) /\
    (whole foreign (u_tabs (xu_u x)) -> whole foreign (u_tabs (xu_u x'))) /\
    linked pr umax rank (xu_u x') /\ u_hdl (xu_u x') = u_hdl (xu_u x) /\ u_trk (xu_u x') = u_trk (xu_u x) /\
    (forall p n, In p ps -> can_take pr umax x p (length (ex_sel (es p)) + n) (t_sch (src p)) -> can_take pr umax x' p n (t_sch (src p))) /\
    (forall p n s, ~ In p ps -> can_take pr umax x p n s -> can_take pr umax x' p n s).
Proof. exact import. Qed.
Print Assumptions C115_import.
Local Ltac calc := vm_compute; reflexivity.
Local Ltac calcs := repeat (split; [calc|]); try calc.
(** Into the database they are of: row 2 of table 0 is now row 1, that was deleted, too; and row 0 is row 3. *)
Example C115_import_case :
  (forall p, In p [0; 1; 2] ->
     reachable Debug 255 (t_sch (clan_at p)) (Free (clan_at p)) /\ t_kind (clan_at p) <> Sorted /\ NoDup (map fst (kin p)) /\
     extract_selection Debug (heads p) (clan_at p) (few p) = Ok (saved_few p) /\ NoDup (ex_sel (saved_few p)) /\ clan_rank p < 3 /\
     can_take Debug 255 clan_used p (length (ex_sel (saved_few p))) (t_sch (clan_at p))) /\
  complete kin [0; 1; 2] clan_at saved_few /\ NoDup [0; 1; 2] /\ in_order kin [0; 1; 2] /\
  (forall c k q, In c [0; 1; 2] -> In (k, q) (kin c) -> u_trackers (xu_u clan_used) q <> []) /\
  handled_by_nothing (xu_u clan_used) ev_create /\ linked Debug 255 clan_rank (xu_u clan_used) /\ whole kin (u_tabs (xu_u clan_used)) /\
  restore_all Debug 255 heads kin order 3 saved_few ev_create [0; 1; 2] clan_used used3 /\
  rows_of (xu_u clan_used) 0 4 = [Some r1; None; Some r3; None] /\
  rows_of (xu_u clan_used) 1 4 = [Some [VInt 10; VRow 2]; None; Some [VInt 11; VRow 0]; None] /\
  rows_of (xu_u clan_used) 2 4 = [Some [VRow 2; VRow 0]; Some [VRow 2; VRow 2]; Some [VRow 0; VRow 0]; None] /\
  rows_of (xu_u used3) 0 5 = [Some r1; Some r3; Some r3; Some r1; None] /\
  rows_of (xu_u used3) 1 4 = [Some [VInt 10; VRow 2]; Some [VInt 10; VRow 1]; Some [VInt 11; VRow 0]; None] /\
  rows_of (xu_u used3) 2 5 = [Some [VRow 2; VRow 0]; Some [VRow 2; VRow 2]; Some [VRow 0; VRow 0]; Some [VRow 1; VRow 1]; None].
Proof.
  split.
  { intros p I. assert (L : p < 3) by (cbn in I; intuition subst; repeat constructor).
    assert (Ec : nth_error clan p = Some (clan_at p)) by (cbn in I; intuition subst; reflexivity).
    split; [exact (clan_reached p _ Ec)|]. pose proof (used_sane p L) as Sa.
    destruct I as [<-|[<-|[<-|[]]]];
      (split; [discriminate|]); (split; [repeat constructor; cbn; intuition discriminate|]); (split; [calc|]);
      (split; [repeat constructor; cbn; intuition discriminate|]); (split; [repeat constructor|]);
      (eexists _, fs_new; split; [reflexivity|]; split; [reflexivity|]; split; [exact Sa|]; split; [apply Nat.leb_le; calc|];
       split; [apply Nat.leb_le; calc|]; split; [reflexivity|]; split; reflexivity). }
  split; [exact few_complete|]. split; [repeat constructor; cbn; intuition discriminate|]. split; [exact clan_in_order|].
  split; [intros c k q _ I; destruct c as [|[|[|c]]]; cbn in I; [destruct I|destruct I as [[= <- <-]|[]]|destruct I as [[= <- <-]|[[= <- <-]|[]]]|destruct I]; discriminate|].
  split; [split; calc|]. split; [exact used_linked|]. split; [exact clan_whole|].
  split; [exists used1; split; [calc|]; exists used2; split; [calc|]; exists used3; split; [calc|reflexivity]|]. calcs.
Qed.

(** C115 (refuted with [set_identity_remap], in contrast to C98 even if no row was ever deleted where they were saved).  All restores
    succeed, but the copy of row 0 of table 1, which referred to [r3], refers to [r1]. *)
Theorem C115_identity_refuted :
  exists x x' t0 t1 d0 d1,
  (forall p, p < 3 -> no_gaps (copy_at p) /\ extract_selection Debug (heads p) (copy_at p) SAll = Ok (saved_copy p)) /\
  linked Debug 255 clan_rank (xu_u x) /\ whole kin (u_tabs (xu_u x)) /\
  (forall p, p < 3 -> exists f, nth_error (xu_fl x) p = Some (set_identity_remap f)) /\
  restore_all Debug 255 heads kin order 3 saved_copy ev_create [0; 1; 2] x x' /\
  t0 = copy_at 0 /\ t1 = copy_at 1 /\ nth_error (u_tabs (xu_u x')) 0 = Some d0 /\ nth_error (u_tabs (xu_u x')) 1 = Some d1 /\
  t_get_row t1 0 = Ok [VInt 10; VRow 1] /\ t_get_row t0 1 = Ok r3 /\
  t_get_row d1 1 = Ok [VInt 10; VRow 1] /\ t_get_row d0 1 = Ok r1.
Proof.
  exists same_used, same3. eexists _, _, _, _.
  split; [intros p L; destruct p as [|[|[|p]]]; [| | |do 3 apply Nat.succ_lt_mono in L; destruct (Nat.nlt_0_r _ L)];
    (split; [|calc]); intros i Li; apply Nat.ltb_lt in Li; (destruct i as [|[|[|i]]]; [first [reflexivity|discriminate Li]..|discriminate Li])|].
  split; [exact used_linked|]. split; [exact clan_whole|].
  split; [intros p L; exists fs_new; destruct p as [|[|[|p]]]; [reflexivity..|do 3 apply Nat.succ_lt_mono in L; destruct (Nat.nlt_0_r _ L)]|].
  split; [exists same1; split; [calc|]; exists same2; split; [calc|]; exists same3; split; [calc|reflexivity]|].
  split; [reflexivity|]. split; [reflexivity|]. split; [reflexivity|]. split; [reflexivity|]. calcs.
Qed.
Print Assumptions C115_identity_refuted.

(** C115 (refuted if the rows referred to are not saved).  The restore panics, as it should, if it is the first of its table (this is
    C98_order_refuted); but if no row of table 0 is saved, then what was noted when rows of it were last restored is still there.  All
    restores succeed, and the new row refers to the row restored that time. *)
Theorem C115_complete_refuted :
  exists x x' d, (forall p, p < 2 -> extract_selection Debug (heads p) (clan_at p) (none_of p) = Ok (saved_none p)) /\
  ex_sel (saved_none 0) = [] /\ t_get_row (clan_at 1) 0 = Ok [VInt 10; VRow 2] /\ ~ complete kin [0; 1] clan_at saved_none /\
  restore_all Debug 255 heads kin order 3 saved_few ev_create [0; 1; 2] clan_used x /\
  restore_all Debug 255 heads kin order 3 saved_none ev_create [0; 1] x x' /\
  rows_of (xu_u x) 1 4 = [Some [VInt 10; VRow 2]; Some [VInt 10; VRow 1]; Some [VInt 11; VRow 0]; None] /\
  nth_error (u_tabs (xu_u x')) 1 = Some d /\ t_get_row d 3 = Ok [VInt 10; VRow 1] /\
  restore Debug 255 heads kin order 3 clan_used [] 1 (saved_none 1) ev_create = panic PNoRemap.
Proof.
  exists used3, stale2. eexists.
  split; [intros p L; destruct p as [|[|p]]; [calc|calc|do 2 apply Nat.succ_lt_mono in L; destruct (Nat.nlt_0_r _ L)]|].
  split; [calc|]. split; [calc|].
  split.
  { intro C. destruct (C 1 1 0 0 [VInt 10; VRow 2]) as (a & _ & I); [right; left; reflexivity|left; reflexivity|left; reflexivity| |exact I].
    split; [reflexivity|]. intros k v E. destruct k as [|[|k]]; [injection E as <-; calc|injection E as <-; calc|destruct k; discriminate]. }
  split; [exists used1; split; [calc|]; exists used2; split; [calc|]; exists used3; split; [calc|reflexivity]|].
  split; [exists stale1; split; [calc|]; exists stale2; split; [calc|reflexivity]|].
  split; [calc|]. split; [reflexivity|]. calcs.
Qed.
Print Assumptions C115_complete_refuted.
