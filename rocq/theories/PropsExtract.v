(** Properties of saving and restoring tables, and of names (C38, C41-C44, C50). *)
From Coq Require Import String Ascii List Arith Bool ZArith Lia Sorting.Sorted Sorting.Permutation.
From Verif Require Import Base Names NamesFacts Column Order RowRange Table Visit SortedTab BagTab TableSpec Hist Cases Events Cascade CascadeSpec
  CascadeCases Extract ExtractSpec ExtractProps LeakFacts ExtractCases.
Import ListNotations.
Local Notation length := List.length.

(** C41.  Restoring an extraction into an empty table of the same schema gives the selected rows, in the order of the selection,
    with ids 0, 1, 2...; other tables do not change.  (The columns do not refer to other tables, see C42.  As many ids as the type has
    are not restored, see C18.) *)
Theorem C41_restore :
  forall pr umax heads foreign order rank fuel t sel e x p ev f,
  reachable pr umax (t_sch t) (Free t) -> t_kind t <> Sorted ->
  extract_selection pr (heads p) t sel = Ok e -> length (ex_sel e) <= t_imax t ->
  foreign p = [] -> nth_error (u_tabs (xu_u x)) p = Some (t_new (t_sch t)) ->
  nth_error (xu_fl x) p = Some f -> fs_leaked f = 0 ->
  handled_by_nothing (xu_u x) ev -> linked pr umax rank (xu_u x) -> rank p < fuel ->
  exists x' t' rows, restore pr umax heads foreign order fuel x [] p e ev = Ok (x', None) /\
    nth_error (u_tabs (xu_u x')) p = Some t' /\ only_changes x x' p /\ holds t' rows /\ Forall2 (row_of t) (ex_sel e) rows.
Proof. exact extract_restore. Qed.
Print Assumptions C41_restore.
(** C41.  The rows selected are those asked for, or all that are present. *)
Theorem C41_selection :
  forall pr umax head t sel e, reachable pr umax (t_sch t) (Free t) ->
  extract_selection pr head t sel = Ok e ->
  ex_sel e = match sel with SAll => filter (t_contains t) (seq 0 (t_len t)) | SThese l => l end.
Proof. exact extract_selects. Qed.
Print Assumptions C41_selection.
(** C41.  Extraction succeeds if the rows asked for exist (if deleted, what was there is saved), and not more rows than ids are asked for. *)
Theorem C41_extract :
  forall pr umax head t sel, reachable pr umax (t_sch t) (Free t) ->
  match sel with SAll => t_len t <= t_imax t | SThese l => Forall (fun i => i < t_len t) l /\ length l <= S (t_imax t) end ->
  exists e, extract_selection pr head t sel = Ok e.
Proof. exact extract_succeeds. Qed.
Print Assumptions C41_extract.
(** C41.  What is saved of a row that is present is the row. *)
Theorem C41_row :
  forall pr umax t i r, reachable pr umax (t_sch t) (Free t) -> t_get_row t i = Ok r ->
  forall r', row_of t i r' <-> r' = r.
Proof. exact row_of_saved. Qed.
Print Assumptions C41_row.
(** C41.  A table that is locked for reading can be saved; one that the thread has locked for writing can not, it would wait for itself. *)
Theorem C41_locked :
  forall pr umax heads x h p t sel, nth_error (u_tabs (xu_u x)) p = Some t -> reachable pr umax (t_sch t) (Free t) ->
  match sel with SAll => t_len t <= t_imax t | SThese l => Forall (fun i => i < t_len t) l /\ length l <= S (t_imax t) end ->
  (~ In (p, true) h -> exists e, extract pr heads x h p sel = Ok e /\ extract_selection pr (heads p) t sel = Ok e) /\
  (In (p, true) h -> extract pr heads x h p sel = Err EDeadlock).
Proof. exact extract_locked. Qed.
Print Assumptions C41_locked.
Example C41_case :
  reachable Debug 255 (t_sch src_p) (Free src_p) /\ extract_selection Debug (heads 0) src_p SAll = Ok e_p /\ ex_sel e_p = [0; 2] /\
  linked Debug 255 town_rank (xu_u x_empty) /\ handled_by_nothing (xu_u x_empty) ev_create /\ foreign 0 = [] /\
  exists x' t', restore Debug 255 heads foreign order 3 x_empty [] 0 e_p ev_create = Ok (x', None) /\
    nth_error (u_tabs (xu_u x')) 0 = Some t' /\ t_len t' = 2 /\ t_get_row t' 0 = Ok r1 /\ t_get_row t' 1 = Ok r3.
Proof.
  split; [change (t_sch src_p) with (sch Consistent); reached hole|]. split; [calc|]. split; [calc|]. split; [exact x_empty_linked|].
  split; [split; calc|]. split; [calc|]. eexists. eexists. split; [vm_compute; reflexivity|]. split; [cbn; reflexivity|]. calcs.
Qed.

(** The table is locked for reading, and so is another for writing. *)
Example C41_locked_case :
  extract Debug heads (XU (u_put (xu_u x_empty) 0 src_p) (xu_fl x_empty)) [(0, false); (1, true)] 0 SAll = Ok e_p /\
  extract Debug heads (XU (u_put (xu_u x_empty) 0 src_p) (xu_fl x_empty)) [(0, true)] 0 SAll = Err EDeadlock.
Proof. calcs. Qed.

(** C42.  Restore a table, then perhaps others, then one that refers to it: the rows that were there stay, and each row restored refers to
    a row with the same contents as the one it referred to when saved.  (But for columns that refer to yet other tables, of which the
    same can be said.  The table referred to has a tracker, as all that are referred to do, and ids are not remapped to themselves.) *)
Theorem C42_foreign_keys :
  forall pr umax heads foreign order fuel x p c tp tc dp dc sp sc ep ec evp evc f x1 x2 erp others,
  p <> c ->
  reachable pr umax (t_sch tp) (Free tp) -> reachable pr umax (t_sch tc) (Free tc) ->
  reachable pr umax (t_sch tp) (Free dp) -> reachable pr umax (t_sch tc) (Free dc) ->
  t_kind tp = Consistent -> t_kind tc <> Sorted ->
  extract_selection pr (heads p) tp sp = Ok ep -> extract_selection pr (heads c) tc sc = Ok ec -> ex_sel ep <> [] ->
  nth_error (u_tabs (xu_u x)) p = Some dp -> nth_error (u_tabs (xu_u x)) c = Some dc ->
  u_trackers (xu_u x) p <> [] -> nth_error (xu_fl x) p = Some f -> fs_ident f = false ->
  handled_by_nothing (xu_u x) evp -> handled_by_nothing (xu_u x) evc ->
  Forall (fun y => handled_by_nothing (xu_u x) (snd y) /\ fst (fst y) <> p /\ fst (fst y) <> c) others ->
  NoDup (map fst (foreign p)) -> NoDup (map fst (foreign c)) ->
  restore pr umax heads foreign order fuel x [] p ep evp = Ok (x1, erp) ->
  restores pr umax heads foreign order fuel x1 others = Ok x2 ->
  forall x3 erc, restore pr umax heads foreign order fuel x2 [] c ec evc = Ok (x3, erc) ->
  exists tp' tc' news, nth_error (u_tabs (xu_u x3)) p = Some tp' /\ nth_error (u_tabs (xu_u x3)) c = Some tc' /\
    keeps dp tp' /\ keeps dc tc' /\ NoDup news /\ Forall (fun i => t_contains dc i = false) news /\
    Forall2 (fun j i => exists r r', row_of tc j r /\ t_get_row tc' i = Ok r' /\ same_but_foreign (foreign c) r r' /\
       forall k, In (k, p) (foreign c) -> exists a b, nth_error r k = Some (VRow a) /\ nth_error r' k = Some (VRow b) /\
         same_contents (foreign p) tp tp' a b) (ex_sel ec) news.
Proof. exact child_restored. Qed.
Print Assumptions C42_foreign_keys.
(** C42.  If one of the rows refers to a row that was not saved, the restore does not return. *)
Theorem C42_missing_parent :
  forall pr umax heads foreign order fuel x p c tp tc dp dc sp sc ep ec evp evc f x1 x2 erp others,
  p <> c ->
  reachable pr umax (t_sch tp) (Free tp) -> reachable pr umax (t_sch tc) (Free tc) ->
  reachable pr umax (t_sch tp) (Free dp) -> reachable pr umax (t_sch tc) (Free dc) ->
  t_kind tp = Consistent -> t_kind tc <> Sorted ->
  extract_selection pr (heads p) tp sp = Ok ep -> extract_selection pr (heads c) tc sc = Ok ec -> ex_sel ep <> [] ->
  nth_error (u_tabs (xu_u x)) p = Some dp -> nth_error (u_tabs (xu_u x)) c = Some dc ->
  u_trackers (xu_u x) p <> [] -> nth_error (xu_fl x) p = Some f -> fs_ident f = false ->
  handled_by_nothing (xu_u x) evp -> handled_by_nothing (xu_u x) evc ->
  Forall (fun y => handled_by_nothing (xu_u x) (snd y) /\ fst (fst y) <> p /\ fst (fst y) <> c) others ->
  NoDup (map fst (foreign p)) -> NoDup (map fst (foreign c)) ->
  restore pr umax heads foreign order fuel x [] p ep evp = Ok (x1, erp) ->
  restores pr umax heads foreign order fuel x1 others = Ok x2 ->
  forall j r k a, In j (ex_sel ec) -> row_of tc j r -> In (k, p) (foreign c) -> nth_error r k = Some (VRow a) -> ~ In a (ex_sel ep) ->
  forall y, restore pr umax heads foreign order fuel x2 [] c ec evc <> Ok y.
Proof. exact missing_parent. Qed.
Print Assumptions C42_missing_parent.
Example C42_case :
  reachable Debug 255 (t_sch src_p) (Free src_p) /\ reachable Debug 255 (t_sch src_c) (Free src_c) /\
  reachable Debug 255 (t_sch src_p) (Free dst_p) /\ reachable Debug 255 (t_sch src_c) (Free dst_c) /\
  t_kind src_p = Consistent /\ t_kind src_c <> Sorted /\
  extract_selection Debug (heads 0) src_p SAll = Ok e_p /\ extract_selection Debug (heads 1) src_c SAll = Ok e_c /\ ex_sel e_p = [0; 2] /\
  nth_error (u_tabs (xu_u x0)) 0 = Some dst_p /\ nth_error (u_tabs (xu_u x0)) 1 = Some dst_c /\ u_trackers (xu_u x0) 0 <> [] /\
  nth_error (xu_fl x0) 0 = Some fs_new /\ handled_by_nothing (xu_u x0) ev_create /\
  restore Debug 255 heads foreign order 3 x0 [] 0 e_p ev_create = Ok (x1, None) /\
  restore Debug 255 heads foreign order 3 x1 [] 1 e_c ev_create = Ok (x2, None) /\
  map (t_get_row src_c) [0; 1] = [Ok [VInt 10; VRow 2]; Ok [VInt 11; VRow 0]] /\ map (t_get_row src_p) [0; 2] = [Ok r1; Ok r3] /\
  exists tp' tc', nth_error (u_tabs (xu_u x2)) 0 = Some tp' /\ nth_error (u_tabs (xu_u x2)) 1 = Some tc' /\
    map (t_get_row tp') [0; 1; 2; 3] = [Ok [VInt 7; VInt 7]; Ok r1; Ok [VInt 9; VInt 9]; Ok r3] /\
    map (t_get_row tc') [0; 1; 2] = [Ok [VInt 8; VRow 2]; Ok [VInt 10; VRow 3]; Ok [VInt 11; VRow 1]].
Proof.
  split; [change (t_sch src_p) with (sch Consistent); reached hole|].
  split; [change (t_sch src_c) with (sch Consistent); reached kids2|].
  split; [change (t_sch src_p) with (sch Consistent); reached home_p|].
  split; [change (t_sch src_c) with (sch Consistent); reached home_c|].
  split; [calc|]. split; [discriminate|]. split; [calc|]. split; [calc|]. split; [calc|]. split; [calc|]. split; [calc|]. split; [discriminate|].
  split; [calc|]. split; [split; calc|]. split; [calc|]. split; [calc|]. split; [calc|]. split; [calc|]. eexists. eexists. split; [cbn; reflexivity|]. split; [cbn; reflexivity|].
  split; calc.
Qed.
(** Row 0 of table 1 refers to row 2 of table 0, that is not saved here. *)
Example C42_missing_case :
  extract_selection Debug (heads 0) src_p (SThese [0]) = Ok e_p0 /\ restore Debug 255 heads foreign order 3 x0 [] 0 e_p0 ev_create = Ok (x1', None) /\
  t_get_row src_c 0 = Ok [VInt 10; VRow 2] /\ restore Debug 255 heads foreign order 3 x1' [] 1 e_c ev_create = panic PNoRemap.
Proof. calcs. Qed.

(** C43 (refuted).  The keys of a sorted table are restored as they were saved: here row 0 of table 2 referred to [r1], then to something else. *)
Theorem C43_sorted_refuted :
  exists x x1 x2 ep es ts ds tp dp,
  reachable Debug 255 (sch Consistent) (Free tp) /\ reachable Debug 255 (sch Sorted) (Free ts) /\
  reachable Debug 255 (sch Consistent) (Free dp) /\ reachable Debug 255 (sch Sorted) (Free ds) /\
  nth_error (u_tabs (xu_u x)) 0 = Some dp /\ nth_error (u_tabs (xu_u x)) 2 = Some ds /\ foreign 2 = [(0, 0)] /\
  extract_selection Debug (heads 0) tp SAll = Ok ep /\ extract_selection Debug (heads 2) ts SAll = Ok es /\
  restore Debug 255 heads foreign order 3 x [] 0 ep ev_create = Ok (x1, None) /\
  restore Debug 255 heads foreign order 3 x1 [] 2 es ev_create = Ok (x2, None) /\
  exists tp' ts' r r', nth_error (u_tabs (xu_u x2)) 0 = Some tp' /\ nth_error (u_tabs (xu_u x2)) 2 = Some ts' /\
  t_get_row ts 0 = Ok [VRow 0; VInt 1] /\ t_get_row tp 0 = Ok r /\
  t_get_row ts' 0 = Ok [VRow 0; VInt 1] /\ t_get_row tp' 0 = Ok r' /\ r' <> r.
Proof.
  exists x0, x1. eexists. exists e_p, e_s, src_s, (t_new (sch Sorted)), src_p, dst_p.
  split; [reached hole|]. split; [reached ranked2|]. split; [reached home_p|]. split; [split; [discriminate|exists []; split; [constructor|reflexivity]]|].
  split; [calc|]. split; [calc|]. split; [calc|]. split; [calc|]. split; [calc|]. split; [calc|]. split; [vm_compute; reflexivity|].
  eexists. eexists. eexists. eexists. split; [cbn; reflexivity|]. split; [cbn; reflexivity|]. split; [calc|]. split; [vm_compute; reflexivity|].
  split; [calc|]. split; [vm_compute; reflexivity|]. discriminate.
Qed.
Print Assumptions C43_sorted_refuted.
(** C43.  What is restored into a sorted table, whatever was restored before: the rows as they were saved, in their places.
    (Sorted tables have no trackers, src/tracking.rs:315-321.) *)
Theorem C43_verbatim :
  forall pr umax heads foreign order fuel x c ts ds sel e ev old,
  reachable pr umax (t_sch ts) (Free ts) -> reachable pr umax (t_sch ts) (Free ds) -> t_kind ts = Sorted ->
  extract_selection pr (heads c) ts sel = Ok e ->
  nth_error (u_tabs (xu_u x)) c = Some ds -> u_trackers (xu_u x) c = [] -> (forall k, ~ In (k, c) (foreign c)) ->
  holds ds old -> length old + length (ex_sel e) <= t_imax ts -> total_preorder (order c) -> ascending (order c) old ->
  exists x' t' rows out, restore pr umax heads foreign order fuel x [] c e ev = Ok (x', None) /\
    nth_error (u_tabs (xu_u x')) c = Some t' /\ only_changes x x' c /\ Forall2 (row_of ts) (ex_sel e) rows /\
    holds t' out /\ ascending (order c) out /\ Permutation (old ++ rows) out.
Proof. exact restore_sorted. Qed.
Print Assumptions C43_verbatim.
Example C43_case :
  reachable Debug 255 (t_sch src_s) (Free src_s) /\ t_kind src_s = Sorted /\ extract_selection Debug (heads 2) src_s SAll = Ok e_s /\
  nth_error (u_tabs (xu_u x1)) 2 = Some (t_new (sch Sorted)) /\ u_trackers (xu_u x1) 2 = [] /\
  exists x' t', restore Debug 255 heads foreign order 3 x1 [] 2 e_s ev_create = Ok (x', None) /\ nth_error (u_tabs (xu_u x')) 2 = Some t' /\
  map (t_get_row t') [0; 1] = [Ok [VRow 0; VInt 1]; Ok [VRow 2; VInt 4]].
Proof.
  split; [change (t_sch src_s) with (sch Sorted); reached ranked2|]. split; [calc|]. split; [calc|]. split; [calc|]. split; [calc|].
  eexists. eexists. split; [vm_compute; reflexivity|]. split; [cbn; reflexivity|]. calc.
Qed.

(** C44.  An extraction whose header differs is rejected and nothing changes, if it has not fewer columns than the table,
    or differs elsewhere. *)
Theorem C44_rejects_partial :
  forall pr umax heads foreign order fuel x p e ev t, nth_error (u_tabs (xu_u x)) p = Some t ->
  ex_head e <> heads p ->
  (hd_fmt (ex_head e), hd_domain (ex_head e), hd_name (ex_head e), hd_schema (ex_head e)) <>
  (hd_fmt (heads p), hd_domain (heads p), hd_name (heads p), hd_schema (heads p)) \/
  length (hd_cols (heads p)) <= length (hd_cols (ex_head e)) ->
  exists er, restore pr umax heads foreign order fuel x [] p e ev = Ok (x, Some er).
Proof. exact restore_rejects. Qed.
Print Assumptions C44_rejects_partial.
(** C44.  If it does not differ it is not rejected. *)
Theorem C44_accepts :
  forall pr umax heads foreign order fuel x h p e ev x' er, ex_head e = heads p ->
  restore pr umax heads foreign order fuel x h p e ev = Ok (x', er) -> er = None.
Proof. exact restore_accepts. Qed.
Print Assumptions C44_accepts.
(** C44 (refuted for all others).  With fewer columns it panics. *)
Theorem C44_short_panics :
  forall pr umax heads foreign order fuel x p e ev t, nth_error (u_tabs (xu_u x)) p = Some t ->
  (hd_fmt (ex_head e), hd_domain (ex_head e), hd_name (ex_head e), hd_schema (ex_head e)) =
  (hd_fmt (heads p), hd_domain (heads p), hd_name (heads p), hd_schema (heads p)) ->
  length (hd_cols (ex_head e)) < length (hd_cols (heads p)) ->
  restore pr umax heads foreign order fuel x [] p e ev = panic PColumnIndex.
Proof. exact restore_short. Qed.
Print Assumptions C44_short_panics.
Theorem C44_refuted :
  exists x p e, ex_head e <> heads p /\ (exists t, nth_error (u_tabs (xu_u x)) p = Some t) /\
    forall y er, restore Debug 255 heads foreign order 3 x [] p e ev_create <> Ok (y, Some er).
Proof.
  exists x0, 0, e_short. split; [discriminate|]. split; [eexists; cbn; reflexivity|]. intros y er. vm_compute. discriminate.
Qed.
Print Assumptions C44_refuted.
Example C44_case : ex_head e_other <> heads 0 /\ hd_schema (ex_head e_other) <> hd_schema (heads 0) /\
  restore Debug 255 heads foreign order 3 x0 [] 0 e_other ev_create = Ok (x0, Some VSchema) /\
  restore Debug 255 heads foreign order 3 x0 [] 0 e_short ev_create = panic PColumnIndex.
Proof. split; [discriminate|]. split; [discriminate|]. split; calc. Qed.

(** C38 (refuted).  Restore, [live_flush], restore again: that waits for ever for a lock nobody gives back. *)
Theorem C38_refuted :
  exists x ops x', x_run Debug 255 heads foreign order 3 x ops = Ok x' /\ leaked x 0 = 0 /\
  (exists y, restore Debug 255 heads foreign order 3 x [] 0 e_p ev_create = Ok y) /\
  restore Debug 255 heads foreign order 3 x' [] 0 e_p ev_create = Err EDeadlock /\
  x_register_tracker x' [] 0 (TUser true (fun _ => true)) = Err EDeadlock.
Proof. exists x0, leak_ops, x_leak. split; [calc|]. split; [calc|]. split; [eexists; vm_compute; reflexivity|]. split; calc. Qed.
Print Assumptions C38_refuted.
(** C38.  Which calls do not give back the lock of the trackers: exactly the live flushes of changes to a table whose ids are remapped. *)
Theorem C38_leak :
  forall pr umax heads foreign order fuel x o x' p, x_step pr umax heads foreign order fuel x o = Ok x' ->
  (leaks pr umax x o p -> leaked x' p = S (leaked x p)) /\ (~ leaks pr umax x o p -> leaked x' p = leaked x p).
Proof. exact step_leak. Qed.
Print Assumptions C38_leak.
(** C38.  Afterwards, whatever happens, no tracker can be registered and nothing restored. *)
Theorem C38_stuck :
  forall pr umax heads foreign order fuel x ops x' p, 0 < leaked x p -> x_run pr umax heads foreign order fuel x ops = Ok x' ->
  (forall tr h y, x_register_tracker x' h p tr <> Ok y) /\ (forall y, x_identity x' p <> Ok y) /\
  (forall t e ev h y, nth_error (u_tabs (xu_u x')) p = Some t -> t_kind t = Consistent -> ex_sel e <> [] ->
     restore pr umax heads foreign order fuel x' h p e ev <> Ok (y, None)).
Proof. exact stuck. Qed.
Print Assumptions C38_stuck.
(** C38.  Without [live_flush] all locks are given back. *)
Theorem C38_flush_partial :
  forall pr umax heads foreign order fuel ops x x' p, Forall (fun o => match o with XLive q _ _ => q <> p | _ => True end) ops ->
  x_run pr umax heads foreign order fuel x ops = Ok x' -> leaked x' p = leaked x p.
Proof. exact run_no_live. Qed.
Print Assumptions C38_flush_partial.
Example C38_case : leaked x_leak 0 = 1 /\ exists x', x_run Debug 255 heads foreign order 3 x_leak [XFlush 0 [ODelete 0] ev_delete; XLive 0 [OPush r1] ev_create] = Ok x' /\
  leaked x' 0 = 2 /\ leaks Debug 255 x_leak (XLive 0 [OPush r1] ev_create) 0.
Proof.
  split; [calc|]. eexists. split; [vm_compute; reflexivity|]. split; [calc|].
  exists [OPush r1], ev_create. eexists. eexists. eexists. split; [reflexivity|]. split; [cbn; reflexivity|]. split; [vm_compute; reflexivity|].
  split; [calc|]. split; [cbn; reflexivity|]. discriminate.
Qed.
Example C38_flush_case : exists x', x_run Debug 255 heads foreign order 3 x0 [XRestore 0 e_p ev_create; XFlush 0 [ODelete 0] ev_delete; XRestore 0 e_p ev_create] = Ok x' /\
  leaked x' 0 = 0.
Proof. eexists. split; [vm_compute; reflexivity|]. calc. Qed.

(** C50.  Names accepted are those that match [[A-Za-z][A-Za-z0-9_]*]; others panic. *)
Theorem C50_names :
  forall n, check_name n = Ok tt /\ identifier n \/ check_name n = panic PBadName /\ ~ identifier n.
Proof. exact check_name_spec. Qed.
Print Assumptions C50_names.
Example C50_case : check_name (nm "a_1Z") = Ok tt /\ check_name (nm "_a") = panic PBadName /\ check_name (nm "1a") = panic PBadName /\
  check_name (nm "a-b") = panic PBadName /\ check_name [] = panic PBadName /\ check_name [97; 233] = panic PBadName.
Proof. calcs. Qed.
