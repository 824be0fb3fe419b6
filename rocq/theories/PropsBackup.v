(** Property theorems about copies of a whole database, C98. *)
From Coq Require Import List Arith Bool ZArith.
From Verif Require Import Base Column Order RowRange Table SortedTab BagTab TableSpec Hist Events Cascade CascadeSpec CascadeCases
  Cases Extract ExtractSpec ExtractCases BackupSpec BackupFacts BackupCases.
Import ListNotations.

(** C98.  All tables are saved, and restored one after another into a database without rows, each after those it refers to.  Every restore
    succeeds, and the result is a copy: all rows, by their new ids, and no others; and every foreign key refers to the copy of the row
    that it referred to. *)
Theorem C98_backup :
  forall pr umax heads foreign order rank fuel tabs es x ev ps,
  (forall p t, nth_error tabs p = Some t ->
     reachable pr umax (t_sch t) (Free t) /\ t_kind t <> Sorted /\ NoDup (map fst (foreign p)) /\
     extract_selection pr (heads p) t SAll = Ok (es p) /\ rank p < fuel) ->
  whole foreign tabs -> NoDup ps -> (forall p, In p ps <-> p < length tabs) -> in_order foreign ps ->
  u_tabs (xu_u x) = map (fun t => t_new (t_sch t)) tabs ->
  (forall p t, nth_error tabs p = Some t -> remaps x p t) ->
  (forall c k q, In (k, q) (foreign c) -> u_trackers (xu_u x) q <> []) ->
  handled_by_nothing (xu_u x) ev -> linked pr umax rank (xu_u x) ->
  exists x', restore_all pr umax heads foreign order fuel es ev ps x x' /\ length (u_tabs (xu_u x')) = length tabs /\
    forall p t, nth_error tabs p = Some t ->
      exists t', nth_error (u_tabs (xu_u x')) p = Some t' /\ t_sch t' = t_sch t /\ copy_of (foreign p) tabs t t'.
Proof. exact backup. Qed.
Print Assumptions C98_backup.
(** C98.  The new ids are in the order of the old ones, so no two rows get the same; if no row is deleted they are the old ones. *)
Theorem C98_new_id :
  forall t i j, t_contains t i = true -> t_contains t j = true ->
  (i < j -> new_id t i < new_id t j) /\ (new_id t i = new_id t j -> i = j) /\ (no_gaps t -> i < t_len t -> new_id t i = i).
Proof. intros t i j A B. split; [apply new_id_mono; exact A|]. split; [apply new_id_inj; assumption|]. intros N L. apply new_id_same; assumption. Qed.
Print Assumptions C98_new_id.
(** Rows 0 and 2 of table 0, rows 0 and 2 of table 1, and three rows of table 2 that refer to both. *)
Example C98_backup_case :
  (forall p t, nth_error clan p = Some t ->
     reachable Debug 255 (t_sch t) (Free t) /\ t_kind t <> Sorted /\ NoDup (map fst (kin p)) /\
     extract_selection Debug (heads p) t SAll = Ok (saved p) /\ clan_rank p < 3) /\
  whole kin clan /\ NoDup [0; 1; 2] /\ (forall p, In p [0; 1; 2] <-> p < length clan) /\ in_order kin [0; 1; 2] /\
  u_tabs (xu_u clan0) = map (fun t => t_new (t_sch t)) clan /\
  (forall p t, nth_error clan p = Some t -> remaps clan0 p t) /\
  (forall c k q, In (k, q) (kin c) -> u_trackers (xu_u clan0) q <> []) /\
  handled_by_nothing (xu_u clan0) ev_create /\ linked Debug 255 clan_rank (xu_u clan0) /\
  restore_all Debug 255 heads kin order 3 saved ev_create [0; 1; 2] clan0 clan3 /\
  rows_of (xu_u clan3) 0 3 = [Some r1; Some r3; None] /\
  rows_of (xu_u clan3) 1 3 = [Some [VInt 10; VRow 1]; Some [VInt 11; VRow 0]; None] /\
  rows_of (xu_u clan3) 2 3 = [Some [VRow 1; VRow 0]; Some [VRow 1; VRow 1]; Some [VRow 0; VRow 0]] /\
  new_id src_p 2 = 1 /\ new_id t_cousins 2 = 1.
Proof.
  split.
  { intros p t H. split; [exact (clan_reached p t H)|].
    destruct p as [|[|[|p]]]; [injection H as <-..|destruct p; discriminate]; 
      (split; [discriminate|]); (split; [repeat constructor; cbn; intuition discriminate|]); (split; [calc|repeat constructor]). }
  split; [exact clan_whole|]. split; [repeat constructor; cbn; intuition discriminate|].
  split; [intro p; cbn; split; [intuition subst; repeat constructor|destruct p as [|[|[|p]]]; auto; intro L; do 3 apply Nat.succ_lt_mono in L; destruct (Nat.nlt_0_r _ L)]|].
  split; [exact clan_in_order|]. split; [reflexivity|].
  split; [intros p t H; exists fs_new; destruct p as [|[|[|p]]]; [split; [reflexivity|split; [discriminate|reflexivity]]..|destruct p; discriminate]|].
  split; [intros c k q I; destruct c as [|[|[|c]]]; cbn in I; [destruct I|destruct I as [[= <- <-]|[]]|destruct I as [[= <- <-]|[[= <- <-]|[]]]|destruct I]; discriminate|].
  split; [split; calc|]. split; [apply clan_linked|].
  split; [exists (next clan0 0); split; [calc|]; exists (next (next clan0 0) 1); split; [calc|]; exists clan3; split; [calc|reflexivity]|]. calcs.
Qed.

(** C98.  No other order will do: if all is restored, then each table that has a row comes after those it refers to. *)
Theorem C98_order :
  forall pr umax heads foreign order fuel tabs es x x' ev ps c q k t i r,
  (forall p t, nth_error tabs p = Some t -> reachable pr umax (t_sch t) (Free t) /\ t_kind t <> Sorted /\
     NoDup (map fst (foreign p)) /\ extract_selection pr (heads p) t SAll = Ok (es p)) ->
  u_tabs (xu_u x) = map (fun t => t_new (t_sch t)) tabs ->
  (exists f, nth_error (xu_fl x) q = Some f /\ fs_ident f = false /\ fs_remap f = []) -> handled_by_nothing (xu_u x) ev -> NoDup ps ->
  restore_all pr umax heads foreign order fuel es ev ps x x' ->
  nth_error tabs c = Some t -> In (k, q) (foreign c) -> t_get_row t i = Ok r ->
  forall before after, ps = before ++ c :: after -> In q before.
Proof. exact needs_order. Qed.
Print Assumptions C98_order.
(** C98 (refuted for other orders).  Table 1, restored before table 0, panics. *)
Theorem C98_order_refuted :
  exists x, u_tabs (xu_u x) = map (fun t => t_new (t_sch t)) clan /\ linked Debug 255 clan_rank (xu_u x) /\
  restore Debug 255 heads kin order 3 x [] 1 (saved 1) ev_create = panic PNoRemap.
Proof. exists clan0. split; [reflexivity|]. split; [apply clan_linked|calc]. Qed.
Print Assumptions C98_order_refuted.

(** C98 (refuted for tables that refer to themselves).  No extraction of such a table, however empty, is ever restored: the thread waits
    for itself. *)
Theorem C98_self :
  forall pr umax heads foreign order fuel x p e ev k t,
  In (k, p) (foreign p) -> nth_error (u_tabs (xu_u x)) p = Some t -> ex_head e = heads p ->
  restore pr umax heads foreign order fuel x [] p e ev = Err EDeadlock.
Proof. exact self_deadlock. Qed.
Print Assumptions C98_self.
Theorem C98_self_refuted :
  exists t e x, reachable Debug 255 (sch Consistent) (Free t) /\ whole circle [t] /\
  extract_selection Debug (heads 0) t SAll = Ok e /\ u_tabs (xu_u x) = [t_new (sch Consistent)] /\
  restore Debug 255 heads circle order 3 x [] 0 e ev_create = Err EDeadlock.
Proof.
  exists t_loop, e_loop, x_loop. split; [reached loop|].
  split; [|split; [calc|split; calc]].
  intros c t k q i r Et I G. destruct c as [|c]; [injection Et as <-|destruct c; discriminate]. destruct I as [[= <- <-]|[]].
  destruct i as [|[|i]]; [injection G as <-..|vm_compute in G; destruct i; discriminate];
    (exists t_loop; eexists; split; [reflexivity|split; reflexivity]).
Qed.
Print Assumptions C98_self_refuted.

(** C98 (refuted with [set_identity_remap], if rows were deleted).  All restores succeed, but row 0 of table 1 refers to row 2 of table 0,
    that is not there: the row it referred to is now row 1. *)
Theorem C98_identity_refuted :
  exists x x' t0 t1 r, u_tabs (xu_u x) = map (fun t => t_new (t_sch t)) clan /\ linked Debug 255 clan_rank (xu_u x) /\
  (forall p, p < 3 -> exists f, nth_error (xu_fl x) p = Some (set_identity_remap f)) /\
  restore_all Debug 255 heads kin order 3 saved ev_create [0; 1; 2] x x' /\
  nth_error (u_tabs (xu_u x')) 0 = Some t0 /\ nth_error (u_tabs (xu_u x')) 1 = Some t1 /\
  t_get_row t1 0 = Ok r /\ nth_error r 1 = Some (VRow 2) /\ t_contains t0 2 = false /\
  t_get_row t0 1 = t_get_row src_p 2 /\ ~ whole kin (u_tabs (xu_u x')).
Proof.
  exists clan_same, clan_same3. eexists _, _, [VInt 10; VRow 2]. split; [reflexivity|]. split; [apply clan_linked|].
  split; [intros p L; exists fs_new; destruct p as [|[|[|p]]]; [reflexivity..|do 3 apply Nat.succ_lt_mono in L; destruct (Nat.nlt_0_r _ L)]|].
  split; [exists (next clan_same 0); split; [calc|]; exists (next (next clan_same 0) 1); split; [calc|]; exists clan_same3; split; [calc|reflexivity]|].
  split; [reflexivity|]. split; [reflexivity|]. split; [calc|]. split; [reflexivity|]. split; [calc|]. split; [calc|].
  intro W. destruct (W 1 _ 1 0 0 [VInt 10; VRow 2] eq_refl (or_introl eq_refl) eq_refl) as (tq & a & Eq & Ea & C).
  injection Eq as <-. injection Ea as <-. vm_compute in C. discriminate.
Qed.
Print Assumptions C98_identity_refuted.
