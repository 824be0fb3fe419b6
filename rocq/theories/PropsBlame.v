(** C81: which rows disappear while threads run. *)
From Coq Require Import List Arith Bool ZArith Lia.
From Verif Require Import Base Names Column Order RowRange Table TableSpec Hist Cases Events Cascade CascadeSpec CascadeCases Extract ExtractSpec
  ExtractCases Threads ThreadSpec ThreadSeq ThreadFacts ThreadSafe ThreadCases PoisonCases BlameSpec BlameFacts BlameCases.
Import ListNotations.

(** C81.  Whatever threads do, a row of a consistent table disappears only if a thread asks for it: by [clear_raw] of its table; by
    deleting or selecting it (or all rows, or by adding it) under a lock that is flushed with a removing event; or because its
    reference was, at some time, to a row of which an event told whose handler deletes. *)
Theorem C81_blame : forall pr umax heads foreign order fuel x tss h c c' p t t' i,
  made pr umax (xu_u x) -> (forall p t, nth_error (u_tabs (xu_u x)) p = Some t -> pr = Debug \/ t_kind t <> Bag) ->
  Forall (Forall (top_ty (xu_u x))) tss ->
  history (started x (map (p_run pr umax heads foreign order fuel) tss)) h c -> thread_step c c' ->
  nth_error (u_tabs (xu_u (th_x c))) p = Some t -> nth_error (u_tabs (xu_u (th_x c'))) p = Some t' -> t_kind t = Consistent ->
  t_contains t i = true -> t_contains t' i = false -> blame tss h (u_hdl (xu_u x)) p i.
Proof. exact losses. Qed.
Print Assumptions C81_blame.

(** The same for the rows that were there at the beginning and are not there now. *)
Theorem C81_ever : forall pr umax heads foreign order fuel x tss h c p t t' i,
  made pr umax (xu_u x) -> (forall p t, nth_error (u_tabs (xu_u x)) p = Some t -> pr = Debug \/ t_kind t <> Bag) ->
  Forall (Forall (top_ty (xu_u x))) tss ->
  history (started x (map (p_run pr umax heads foreign order fuel) tss)) h c ->
  nth_error (u_tabs (xu_u x)) p = Some t -> nth_error (u_tabs (xu_u (th_x c))) p = Some t' -> t_kind t = Consistent ->
  t_contains t i = true -> t_contains t' i = false -> blame tss h (u_hdl (xu_u x)) p i.
Proof. exact losses_ever. Qed.
Print Assumptions C81_ever.

(** A table that never tracked another one loses only rows that were listed under a lock of its own (or by [clear_raw]). *)
Theorem C81_bystander : forall pr umax heads foreign order fuel x tss h c p t t' i,
  made pr umax (xu_u x) -> (forall p t, nth_error (u_tabs (xu_u x)) p = Some t -> pr = Debug \/ t_kind t <> Bag) ->
  Forall (Forall (top_ty (xu_u x))) tss ->
  history (started x (map (p_run pr umax heads foreign order fuel) tss)) h c ->
  nth_error (u_tabs (xu_u x)) p = Some t -> nth_error (u_tabs (xu_u (th_x c))) p = Some t' -> t_kind t = Consistent ->
  (forall q k key, ~ tracked_in h q (TAuto p k key)) ->
  t_contains t i = true -> t_contains t' i = false ->
  (exists es ev, session tss p es ev /\ In OClearRaw es) \/
  exists ev oi, (oi = Some i \/ oi = None) /\ ev_removal ev = true /\ listed tss h ev p oi.
Proof. intros. eapply bystander; [eassumption|]. eapply losses_ever; eassumption. Qed.
Print Assumptions C81_bystander.

(** Threads that use no removing event, no event whose handler deletes and no [clear_raw] lose no row. *)
Theorem C81_harmless : forall pr umax heads foreign order fuel x tss h c p t t' i,
  made pr umax (xu_u x) -> (forall p t, nth_error (u_tabs (xu_u x)) p = Some t -> pr = Debug \/ t_kind t <> Bag) ->
  Forall (Forall (top_ty (xu_u x))) tss ->
  history (started x (map (p_run pr umax heads foreign order fuel) tss)) h c ->
  nth_error (u_tabs (xu_u x)) p = Some t -> nth_error (u_tabs (xu_u (th_x c))) p = Some t' -> t_kind t = Consistent ->
  (forall ev, raises tss ev -> ev_removal ev = false /\ handlers_get (u_hdl (xu_u x)) ev <> Ok HDelete) ->
  (forall p es ev, session tss p es ev -> ~ In OClearRaw es) ->
  t_contains t i = true -> t_contains t' i = true.
Proof.
  intros pr umax heads foreign order fuel x tss h c p t t' i M B T H Et Et' K R C Hi.
  destruct (t_contains t' i) eqn:E; [reflexivity|]. exfalso. eapply harmless_blame; [exact R|exact C|]. eapply losses_ever; eassumption.
Qed.
Print Assumptions C81_harmless.

(** Row 1 of table 1 refers to row 1 of table 0, which a thread deletes: it disappears, and its blame is this. *)
Example C81_case : exists h t t', made Debug 255 (xu_u town_x) /\ Forall (Forall (top_ty (xu_u town_x))) reuse /\
  history reuse_begins h plain_before /\ thread_step plain_before plain_after /\
  nth_error (u_tabs (xu_u (th_x plain_before))) 1 = Some t /\ nth_error (u_tabs (xu_u (th_x plain_after))) 1 = Some t' /\ t_kind t = Consistent /\
  t_contains t 1 = true /\ t_contains t' 1 = false /\
  ev_removal ev_delete = true /\ handlers_get (u_hdl town) ev_delete = Ok HDelete /\
  listed reuse h ev_delete 0 (Some 1) /\ leads h 0 (Some 1) 1 (Some 1) /\ ~ leads h 0 (Some 1) 1 None.
Proof.
  destruct (schedule_history reuse_begins [(0, 20)] _ _ (history_start _)) as [h H]. exists (h ++ [reuse_begins]). do 2 eexists.
  split; [exact town_made|]. split; [exact reuse_ty|]. split; [exact H|].
  split; [eapply (move_step _ 0); vm_compute; reflexivity|]. do 7 (split; [vm_compute; reflexivity|]). split; [|split].
  - apply (listed_row _ _ _ _ [ODelete 1]); [|left; left; reflexivity]. left. exists [TDo (XFlush 0 [ODelete 1] ev_delete)]. split; left; reflexivity.
  - exists 1, false. split; [exists reuse_begins; split; [eapply history_starts; exact H|left; reflexivity]|].
    eexists. split; [exists reuse_begins; split; [eapply history_starts; exact H|vm_compute; reflexivity]|].
    eexists. split; vm_compute; reflexivity.
  - intros (k & key & _ & []).
Qed.
Print Assumptions C81_case.

(** "At some time" is needed.  A row is pushed where the row to be deleted was, while an event is on its way to the latter: it disappears,
    although it refers to a row that stays, all references are in order, and no thread asked to delete it after it was there. *)
Theorem C81_now_refuted : exists x tss c c' d i t t' tp,
  made Debug 255 (xu_u x) /\ Forall (Forall (top_ty (xu_u x))) tss /\ linked Debug 255 town_rank (xu_u x) /\ integrity (xu_u x) /\
  thread_steps (started x (map (p_run Debug 255 heads foreign order 3) tss)) c /\ thread_step c c' /\ thread_steps c' d /\
  (exists g, nth_error (th_ts c) 1 = Some (g, Ret (Ok tt))) /\ nth_error tss 0 = Some [TDo (XFlush 0 [ODelete 1] ev_delete)] /\ length tss = 2 /\
  (forall s, In s (th_ts d) -> snd s = Ret (Ok tt)) /\
  nth_error (u_tabs (xu_u (th_x c))) 1 = Some t /\ nth_error (u_tabs (xu_u (th_x c'))) 1 = Some t' /\ nth_error (u_tabs (xu_u (th_x d))) 0 = Some tp /\
  t_get_row t i = Ok [VInt 5; VRow 2] /\ t_contains t i = true /\ t_contains t' i = false /\ t_contains tp 2 = true.
Proof.
  exists town_x, reuse, reuse_before, reuse_after, reuse_end, 1. do 3 eexists. split; [exact town_made|]. split; [exact reuse_ty|].
  split; [exact town_linked|]. split; [exact town_integrity|]. split; [apply schedule_steps|].
  split; [eapply (move_step _ 0); vm_compute; reflexivity|]. split; [apply schedule_steps|].
  split; [eexists; vm_compute; reflexivity|]. split; [reflexivity|]. split; [reflexivity|].
  split; [vm_compute; intros s [<-|[<-|[]]]; reflexivity|]. do 3 (split; [vm_compute; reflexivity|]). calcs.
Qed.
Print Assumptions C81_now_refuted.
