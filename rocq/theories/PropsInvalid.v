(** Property theorems about the row id that stands for no row, C97. *)
From Coq Require Import List Arith Bool ZArith.
From Verif Require Import Base Column Order RowRange Table SortedTab BagTab TableSpec Hist Events Cascade CascadeSpec CascadeProps CascadeClear
  Cases CascadeCases Extract ExtractSpec ExtractProps ExtractCases Invalid InvalidSpec InvalidFacts InvalidCases.
Import ListNotations.

(** C97.  As long as a table is not full the invalid id is not the id of a row: the table does not contain it, and no call accepts it. *)
Theorem C97_absent :
  forall pr umax s st, reachable pr umax s st -> not_full (st_tab st) ->
  t_contains (st_tab st) (invalid (t_sch (st_tab st))) = false /\
  t_get_row (st_tab st) (invalid (t_sch (st_tab st))) = panic PIndexOOB /\
  (forall k, k < length (s_cols s) -> t_read (st_tab st) k (invalid (t_sch (st_tab st))) = panic PIndexOOB) /\
  (forall w its w', st = Locked w its -> delete pr umax w (invalid (t_sch (st_tab st))) <> Ok w').
Proof.
  intros pr umax s st R N. split; [apply absent_get; exact N|]. split; [apply absent_get; exact N|].
  split; [intros k Hk; exact (absent_read pr umax s st k R N Hk)|]. intros w its w' ->. apply absent_delete. exact N.
Qed.
Print Assumptions C97_absent.
(** C97.  [push] gives it to a row only when the table gets full. *)
Theorem C97_push :
  forall pr umax s w its r w', reachable pr umax s (Locked w its) -> row_ty (s_cols s) r ->
  push w r = Ok (w', invalid s) -> ~ not_full (w_tab w').
Proof. exact absent_push. Qed.
Print Assumptions C97_push.
Example C97_absent_case : exists w, reachable Debug 255 (sch Consistent) (Locked w []) /\ not_full (w_tab w) /\ t_len (w_tab w) = 3 /\
  invalid (sch Consistent) = 7.
Proof. exists marked. split; [reached marks|]. split; [vm_compute; repeat constructor|]. calcs. Qed.
(** C97 (refuted for full tables, as documented).  The eighth row gets the id that stood for nothing. *)
Theorem C97_full_refuted :
  exists w w', reachable Debug 255 (sch Consistent) (Locked w []) /\ not_full (w_tab w) /\ push w r2 = Ok (w', invalid (sch Consistent)) /\
  t_get_row (w_tab w') (invalid (sch Consistent)) = Ok r2.
Proof.
  exists (lock_of (at_end Consistent [OLock; OPushAll [r1; r2; r3; r1; r2; r3; r1]])). eexists.
  split; [reached [OLock; OPushAll [r1; r2; r3; r1; r2; r3; r1]]|]. split; [vm_compute; repeat constructor|]. split; vm_compute; reflexivity.
Qed.
Print Assumptions C97_full_refuted.

(** C97.  When rows are deleted and the table flushed, rows that refer to nothing stay, in all tables (unless they are themselves deleted);
    in consistent tables they keep their ids. *)
Theorem C97_kept :
  forall pr umax rank u p w ids ev,
  linked pr umax rank u -> plain_removal ev -> nth_error (u_hdl u) (ev_id ev) = Some HDelete ->
  nth_error (u_tabs u) p = Some (w_tab w) -> sane pr umax (t_sch (w_tab w)) (Locked w []) ->
  t_kind (w_tab w) = Consistent -> w_changes w = SThese ids -> w_pushed w && w_delete w = false ->
  Forall (fun i => i < t_len (w_tab w)) ids -> no_repeats u ids ->
  forall fuel u' q c k key t j r, rank p < fuel -> flush pr umax fuel u [] p w ev = Ok u' ->
  In (TAuto c k key) (u_trackers u q) -> nth_error (u_tabs u) c = Some t -> t_get_row t j = Ok r ->
  refers_to_nothing u c j -> ~ (c = p /\ In j ids) ->
  exists t' j', nth_error (u_tabs u') c = Some t' /\ t_get_row t' j' = Ok r /\ (t_kind t = Consistent -> j' = j).
Proof. exact flush_keeps. Qed.
Print Assumptions C97_kept.
(** Rows 0 and 2 of table 0 are deleted.  Rows 0 and 2 of table 1, and row 0 of table 2, go; the others, that refer to nothing, stay. *)
Example C97_kept_case :
  linked Debug 255 town_rank hamlet1 /\ plain_removal ev_delete /\ nth_error (u_hdl hamlet1) (ev_id ev_delete) = Some HDelete /\
  nth_error (u_tabs hamlet1) 0 = Some (w_tab marked) /\ sane Debug 255 (sch Consistent) (Locked marked []) /\
  w_changes marked = SThese [2; 0] /\ refers_to_nothing hamlet1 1 1 /\ refers_to_nothing hamlet1 2 1 /\
  exists u', flush Debug 255 3 hamlet1 [] 0 marked ev_delete = Ok u' /\
    rows_of u' 1 3 = [None; Some [VInt 11; VRow 7]; None] /\ rows_of u' 2 2 = [Some [VRow 7; VInt 2]; None].
Proof.
  split; [apply (hamlet_linked marked); calc|]. split; [calcs || (repeat constructor)|]. split; [calc|]. split; [calc|]. split; [exact town_lock|].
  split; [calc|]. split; [apply (hamlet_nothing marked); [vm_compute; repeat constructor|calc|left; calc]|].
  split; [apply (hamlet_nothing marked); [vm_compute; repeat constructor|calc|right; calc]|]. eexists. split; [calc|]. split; calc.
Qed.
(** C97 (refuted for full tables).  When the table referred to has become full, rows that referred to nothing refer to its last row, and go with it. *)
Theorem C97_captured_refuted :
  exists u u' t t', linked Debug 255 town_rank u /\ nth_error (u_tabs u) 0 = Some (w_tab marked8) /\
  sane Debug 255 (sch Consistent) (Locked marked8 []) /\ w_changes marked8 = SThese [7] /\
  flush Debug 255 3 u [] 0 marked8 ev_delete = Ok u' /\
  nth_error (u_tabs u) 1 = Some t /\ nth_error (u_tabs u') 1 = Some t' /\
  t_get_row t 1 = Ok [VInt 11; VRow (invalid (sch Consistent))] /\ t_contains t' 1 = false.
Proof.
  exists hamlet8. do 3 eexists. split; [apply (hamlet_linked marked8); calc|]. split; [calc|]. split; [sane_by marks8|]. split; [calc|].
  split; [vm_compute; reflexivity|]. split; [vm_compute; reflexivity|]. split; [vm_compute; reflexivity|]. split; calc.
Qed.
Print Assumptions C97_captured_refuted.

(** C97 (refuted).  When a table is cleared, rows that refer to nothing are deleted, too. *)
Theorem C97_clear_refuted :
  exists u w u' t t' r, linked Debug 255 town_rank u /\ nth_error (u_tabs u) 0 = Some (w_tab w) /\
  sane Debug 255 (sch Consistent) (Free (w_tab w)) /\ w = clear (w_new (w_tab w)) /\
  flush Debug 255 3 u [] 0 w ev_delete = Ok u' /\ nth_error (u_tabs u) 1 = Some t /\ nth_error (u_tabs u') 1 = Some t' /\
  t_get_row t 1 = Ok r /\ refers_to_nothing u 1 1 /\ t_contains t' 1 = false.
Proof.
  exists (hamlet (w_new (tab_of (at_end Consistent three)))), (clear (w_new (tab_of (at_end Consistent three)))). do 4 eexists.
  split; [apply hamlet_linked; calc|]. split; [calc|]. split; [sane_by three|]. split; [calc|]. split; [vm_compute; reflexivity|].
  split; [vm_compute; reflexivity|]. split; [vm_compute; reflexivity|]. split; [vm_compute; reflexivity|].
  split; [apply hamlet_nothing; [vm_compute; repeat constructor|calc|left; calc]|calc].
Qed.
Print Assumptions C97_clear_refuted.
(** C97.  That is so whenever a table is cleared: no table that depends on it keeps a row. *)
Theorem C97_clear :
  forall pr umax rank u ev,
  acyclic rank u -> removable u -> plain_removal ev -> nth_error (u_hdl u) (ev_id ev) = Some HDelete ->
  forall fuel p w u' c t j r, rank p < fuel -> nth_error (u_tabs u) p = Some (w_tab w) -> w_changes w = SAll ->
  w_pushed w && w_delete w = false -> flush pr umax fuel u [] p w ev = Ok u' -> downstream u p c ->
  nth_error (u_tabs u') c = Some t -> (forall t, nth_error (u_tabs u) c = Some t -> t_cols t <> []) -> t_get_row t j <> Ok r.
Proof.
  intros pr umax rank u ev A R PE HD fuel p w u' c t j r Rk Et Ec PD Fl D Et' Ne.
  destruct (flush_all_observed pr umax rank u ev A R PE HD fuel p w Rk Et Ec PD) as (u1 & Fl' & L & H).
  rewrite Fl in Fl'. injection Fl' as <-.
  destruct (nth_error (u_tabs u) c) as [t0|] eqn:E0.
  - destruct (H c t0 E0 (Ne _ eq_refl)) as (t1 & E1 & H1 & _). rewrite Et' in E1. injection E1 as <-. apply H1. right. exact D.
  - exfalso. apply nth_error_None in E0. rewrite <- L in E0. apply nth_error_None in E0. congruence.
Qed.
Print Assumptions C97_clear.
Example C97_clear_case :
  let w := clear (w_new (w_tab marked)) in
  acyclic town_rank (hamlet w) /\ removable (hamlet w) /\ nth_error (u_tabs (hamlet w)) 0 = Some (w_tab w) /\ w_changes w = SAll /\
  exists u', flush Debug 255 3 (hamlet w) [] 0 w ev_delete = Ok u' /\ downstream (hamlet w) 0 1 /\ downstream (hamlet w) 0 2 /\
    refers_to_nothing (hamlet w) 1 1 /\ refers_to_nothing (hamlet w) 2 1 /\ map t_len (u_tabs u') = [0; 0; 0].
Proof.
  intro w. split; [intros p c k key H; apply hamlet_trackers in H; destruct H as [H|H]; inversion H; subst; repeat constructor|]. split.
  { intros p c k key H. apply hamlet_trackers in H. destruct H as [H|H]; inversion H; subst; eexists; split; [calc|left; calc|calc|right; split; calc]. }
  split; [calc|]. split; [calc|]. eexists. split; [calc|]. split; [eapply downstream_one; left; calc|]. split; [eapply downstream_one; right; left; calc|].
  split; [apply (hamlet_nothing w); [vm_compute; repeat constructor|calc|left; calc]|].
  split; [apply (hamlet_nothing w); [vm_compute; repeat constructor|calc|right; calc]|calc].
Qed.

(** C97 (refuted).  A row that refers to nothing cannot be restored. *)
Theorem C97_restore_refuted :
  extract_selection Debug (heads 1) t_loners (SThese [1]) = Ok e_l /\ t_get_row t_loners 1 = Ok [VInt 11; VRow (invalid (sch Consistent))] /\
  extract_selection Debug (heads 0) src_p SAll = Ok e_p /\ not_full src_p /\
  restore Debug 255 heads foreign order 3 x0 [] 0 e_p ev_create = Ok (x1, None) /\
  restore Debug 255 heads foreign order 3 x1 [] 1 e_l ev_create = panic PNoRemap.
Proof. split; [calc|]. split; [calc|]. split; [calc|]. split; [vm_compute; repeat constructor|]. split; calc. Qed.
Print Assumptions C97_restore_refuted.
(** C97.  That is so whatever is saved of the table referred to, if that is not full. *)
Theorem C97_restore :
  forall pr umax heads foreign order fuel x p c tp tc dp dc sp sc ep ec evp evc f x1 x2 erp others,
  p <> c ->
  reachable pr umax (t_sch tp) (Free tp) -> reachable pr umax (t_sch tc) (Free tc) ->
  reachable pr umax (t_sch tp) (Free dp) -> reachable pr umax (t_sch tc) (Free dc) ->
  t_kind tp = Consistent -> t_kind tc <> Sorted ->
  extract_selection pr (heads p) tp sp = Ok ep -> extract_selection pr (heads c) tc sc = Ok ec -> ex_sel ep <> [] ->
  nth_error (u_tabs (xu_u x)) p = Some dp -> nth_error (u_tabs (xu_u x)) c = Some dc ->
  u_trackers (xu_u x) p <> [] -> nth_error (xu_fl x) p = Some f -> fs_ident f = false ->
  handled_by_nothing (xu_u x) evp -> handled_by_nothing (xu_u x) evc ->
  Forall (fun y => handled_by_nothing (xu_u x) (snd y) /\ fst (fst y) <> p /\ fst (fst y) <> c) others ->
  NoDup (map fst (foreign p)) -> NoDup (map fst (foreign c)) ->
  restore pr umax heads foreign order fuel x [] p ep evp = Ok (x1, erp) ->
  restores pr umax heads foreign order fuel x1 others = Ok x2 -> not_full tp ->
  forall j r k, In j (ex_sel ec) -> row_of tc j r -> In (k, p) (foreign c) -> nth_error r k = Some (VRow (invalid (t_sch tp))) ->
  forall y, restore pr umax heads foreign order fuel x2 [] c ec evc <> Ok y.
Proof.
  intros pr umax heads foreign order fuel x p c tp tc dp dc sp sc ep ec evp evc f x1 x2 erp others Hpc R1 R2 R3 R4 K1 K2 E1 E2 Ne
    T1 T2 Tr Fl Id H1 H2 Ho N1 N2 Rs1 Rs2 Nf j r k Ij Rj Ik Er.
  refine (missing_parent pr umax heads foreign order fuel x p c tp tc dp dc sp sc ep ec evp evc f x1 x2 erp others Hpc R1 R2 R3 R4 K1 K2 E1 E2
    Ne T1 T2 Tr Fl Id H1 H2 Ho N1 N2 Rs1 Rs2 j r k _ Ij Rj Ik Er _).
  apply (nothing_not_saved pr umax (heads p) tp sp); auto.
Qed.
Print Assumptions C97_restore.
Example C97_restore_case :
  reachable Debug 255 (sch Consistent) (Free src_p) /\ reachable Debug 255 (sch Consistent) (Free t_loners) /\
  reachable Debug 255 (sch Consistent) (Free dst_p) /\ reachable Debug 255 (sch Consistent) (Free dst_c) /\
  extract_selection Debug (heads 0) src_p SAll = Ok e_p /\ extract_selection Debug (heads 1) t_loners (SThese [1]) = Ok e_l /\
  nth_error (u_tabs (xu_u x0)) 0 = Some dst_p /\ nth_error (u_tabs (xu_u x0)) 1 = Some dst_c /\ u_trackers (xu_u x0) 0 <> [] /\
  nth_error (xu_fl x0) 0 = Some fs_new /\ handled_by_nothing (xu_u x0) ev_create /\
  restore Debug 255 heads foreign order 3 x0 [] 0 e_p ev_create = Ok (x1, None) /\ not_full src_p /\
  In 1 (ex_sel e_l) /\ row_of t_loners 1 [VInt 11; VRow 7] /\ In (1, 0) (foreign 1).
Proof.
  split; [reached hole|]. split; [reached loners|]. split; [reached home_p|]. split; [reached home_c|]. split; [calc|]. split; [calc|].
  split; [calc|]. split; [calc|]. split; [discriminate|]. split; [calc|]. split; [split; calc|]. split; [calc|].
  split; [vm_compute; repeat constructor|]. split; [left; calc|].
  split; [split; [calc|intros [|[|k]] v H; [injection H as <-; calc|injection H as <-; calc|destruct k; discriminate]]|left; calc].
Qed.
