(** Several threads using one table (C39). *)
From Coq Require Import List Arith Bool.
From Verif Require Import Base Column RowRange Table TableSpec Hist Race RaceSpec RaceFacts Cases.
Import ListNotations.

(** Thread 0 fills the table with three rows. *)
Local Notation filled := [XLock 0; XOp 0 (OPushAll [r1; r2; r3]); XFlush 0 true ev_create].
(** Thread 0 deletes row 0 and begins to flush; thread 1 deletes the same row and flushes, pushes a row, which
    gets the free id 0, and flushes. *)
Local Notation reused := (filled ++
  [XLock 0; XOp 0 (ODelete 0); XFlush 0 true ev_delete;
   XLock 1; XOp 1 (ODelete 0); XFlush 1 true ev_delete; XApply 1;
   XLock 1; XOp 1 (OPush r2); XFlush 1 true ev_create]).
(** Thread 0 clears the table and begins to flush; thread 1 pushes a row and flushes. *)
Local Notation cleared := (filled ++
  [XLock 0; XOp 0 OClear; XFlush 0 true ev_delete; XLock 1; XOp 1 (OPush r2); XFlush 1 true ev_create]).
(** Thread 0 deletes row 2 and begins to flush; thread 1 clears the table and flushes. *)
Local Notation emptied := (filled ++
  [XLock 0; XOp 0 (ODelete 2); XFlush 0 true ev_delete; XLock 1; XOp 1 OClear; XFlush 1 true ev_delete; XApply 1]).
(** Thread 0 deletes row 0 and begins to flush; thread 1 deletes row 1 and flushes, then pushes a row, which
    gets id 1, and flushes. *)
Local Notation apart := (filled ++
  [XLock 0; XOp 0 (ODelete 0); XFlush 0 true ev_delete; XLock 1; XOp 1 (ODelete 1); XFlush 1 true ev_delete; XApply 1;
   XLock 1; XOp 1 (OPush r2); XFlush 1 true ev_create]).
Local Notation new := (x_new (sch Consistent)).
Local Ltac calc := vm_compute; reflexivity.
Local Ltac typed := repeat constructor.

(** C39.  False of the code: a row can be removed though no thread asked for its removal while it was there.
    Here thread 0 asked for row 0, and the row removed is the one thread 1 pushed after that row was gone. *)
Theorem C39_refuted : exists l y y' i,
  Forall (xact_ty (s_cols (sch Consistent))) l /\ xrun Debug 255 (x_new (sch Consistent)) l = Ok y /\
  waits y 0 = Some (ev_delete, SThese [0]) /\
  xstep Debug 255 y (XApply 0) = Ok y' /\ removes y y' i /\
  forall p, ~ ever_since Debug 255 (fun _ a => deletes a p i) (x_new (sch Consistent)) l i.
Proof. exact (refuted_by (sch Consistent) reused 0 ev_delete (SThese [0]) ltac:(typed) eq_refl eq_refl). Qed.
Print Assumptions C39_refuted.
(** C39.  Also false after a [clear]: the rows others pushed since are removed too. *)
Theorem C39_clear_refuted : exists l y y' i,
  Forall (xact_ty (s_cols (sch Consistent))) l /\ xrun Debug 255 (x_new (sch Consistent)) l = Ok y /\
  waits y 0 = Some (ev_delete, SAll) /\
  xstep Debug 255 y (XApply 0) = Ok y' /\ removes y y' i /\
  forall p, ~ ever_since Debug 255 (fun _ a => deletes a p i) (x_new (sch Consistent)) l i.
Proof. exact (refuted_by (sch Consistent) cleared 3 ev_delete SAll ltac:(typed) eq_refl eq_refl). Qed.
Print Assumptions C39_clear_refuted.

(** C39.  Which steps remove rows at all, whatever the interleaving: the second half of a flush, of rows on its
    list; a [live_flush], of rows on the lock's list; [clear_raw]; [remove_rows], of the rows given. *)
Theorem C39_steps : forall pr umax s l a y y' i,
  s_kind s = Consistent -> s_cols s <> [] -> Forall (xact_ty (s_cols s)) (l ++ [a]) ->
  xrun pr umax (x_new s) l = Ok y -> xstep pr umax y a = Ok y' -> removes y y' i ->
  (exists p ev ch, a = XApply p /\ waits y p = Some (ev, ch) /\ ev_removal ev = true /\ chosen ch i) \/
  (exists p w srt ev, a = XOp p (OLiveFlush srt ev) /\ x_cell y = CHeld p w /\ ev_removal ev = true /\ chosen (w_changes w) i) \/
  (exists p, a = XOp p OClearRaw) \/
  (exists p srt ev rows, a = XRemove p srt ev rows /\ chosen rows i).
Proof. exact steps_removing. Qed.
Print Assumptions C39_steps.
(** C39.  Whatever the interleaving, a row id on such a list was put there by that thread. *)
Theorem C39_listed_partial : forall pr umax s l a y y' i,
  s_kind s = Consistent -> s_cols s <> [] -> Forall (xact_ty (s_cols s)) (l ++ [a]) ->
  xrun pr umax (x_new s) l = Ok y -> xstep pr umax y a = Ok y' -> removes y y' i ->
  (exists srt ev rows, a = XRemove (actor a) srt ev rows /\ chosen rows i) \/ a = XOp (actor a) OClearRaw \/
  listed pr umax (x_new s) l (actor a) i.
Proof. exact listed_removal. Qed.
Print Assumptions C39_listed_partial.
(** C39.  If, while a thread is between the two halves of a flush, the others neither push nor remove the rows on
    its list, then a removed row was put on the list by that thread and has been there ever since.  For rows removed
    by [live_flush], which keeps the lock, this holds whatever the others do. *)
Theorem C39_undisturbed_partial : forall pr umax s l a y y' i,
  s_kind s = Consistent -> s_cols s <> [] -> Forall (xact_ty (s_cols s)) (l ++ [a]) ->
  xrun pr umax (x_new s) l = Ok y -> xstep pr umax y a = Ok y' -> removes y y' i ->
  undisturbed pr umax (x_new s) l \/ a <> XApply (actor a) ->
  (exists srt ev rows, a = XRemove (actor a) srt ev rows /\ chosen rows i) \/ a = XOp (actor a) OClearRaw \/
  ever_since pr umax (fun y b => lists y b (actor a) i) (x_new s) l i.
Proof. exact undisturbed_removal. Qed.
Print Assumptions C39_undisturbed_partial.
(** C39.  What the second half of a flush does, whatever came in between: it removes the listed rows that are there,
    and nothing else; or it panics, exactly if the table has become too short for the list. *)
Theorem C39_apply : forall pr umax s l y t p ev ch,
  s_kind s = Consistent -> s_cols s <> [] -> Forall (xact_ty (s_cols s)) l ->
  xrun pr umax (x_new s) l = Ok y -> x_cell y = CFree t -> waits y p = Some (ev, ch) ->
  exists y', xstep pr umax y (XApply p) = Ok y' /\
    (x_cell y' = CPoisoned <-> ch <> SAll /\ exists i, chosen ch i /\ t_len t <= i) /\
    (x_cell y' <> CPoisoned -> forall i, alive y' i = true <-> alive y i = true /\ ~ chosen ch i).
Proof. exact outcome_of_apply. Qed.
Print Assumptions C39_apply.
(** C39.  With nobody in between, the two halves make up the flush of the other properties. *)
Theorem C39_alone : forall pr umax y p w srt ev t,
  x_cell y = CHeld p w -> waits y p = None -> w_flush pr umax srt w ev = Ok t ->
  exists l, (l = [XFlush p srt ev] \/ l = [XFlush p srt ev; XApply p]) /\
    xrun pr umax y l = Ok (Sys (CFree t) (x_wait y)).
Proof. exact flush_alone. Qed.
Print Assumptions C39_alone.

(** Thread 0 removes its row 0 while thread 1 deletes and pushes other rows; in the other runs above it removes a
    row of thread 1's, or everything, or panics and leaves the table unusable. *)
Example C39_case :
  Forall (xact_ty (s_cols (sch Consistent))) (apart ++ [XApply 0]) /\
  undisturbed Debug 255 new apart /\
  (exists y y', xrun Debug 255 new apart = Ok y /\ xstep Debug 255 y (XApply 0) = Ok y' /\ removes y y' 0 /\
     waits y 0 = Some (ev_delete, SThese [0]) /\ map (alive y) [0; 1; 2; 3] = [true; true; true; false] /\
     map (alive y') [0; 1; 2; 3] = [false; true; true; false]) /\
  (exists y y', xrun Debug 255 new reused = Ok y /\ xstep Debug 255 y (XApply 0) = Ok y' /\ removes y y' 0) /\
  (exists y y', xrun Debug 255 new cleared = Ok y /\ xstep Debug 255 y (XApply 0) = Ok y' /\
     map (alive y) [0; 1; 2; 3] = [true; true; true; true] /\ map (alive y') [0; 1; 2; 3] = [false; false; false; false]) /\
  (exists y y', xrun Debug 255 new emptied = Ok y /\ xstep Debug 255 y (XApply 0) = Ok y' /\ x_cell y' = CPoisoned) /\
  (exists y w, xrun Debug 255 new [XLock 0; XOp 0 (OPush r1); XOp 0 (OLiveFlush true ev_create); XOp 0 (ODelete 0)] = Ok y /\
     x_cell y = CHeld 0 w /\ waits y 0 = None /\ exists t, w_flush Debug 255 false w ev_delete = Ok t).
Proof.
  split; [typed|]. split; [apply calm_check; calc|]. split; [|split; [|split; [|split]]].
  - eexists. eexists. split; [calc|]. split; [calc|]. split; [split; [calc|split; [calc|discriminate]]|]. split; [calc|].
    split; calc.
  - eexists. eexists. split; [calc|]. split; [calc|]. split; [calc|split; [calc|discriminate]].
  - eexists. eexists. split; [calc|]. split; [calc|]. split; calc.
  - eexists. eexists. split; [calc|]. split; calc.
  - eexists. eexists. split; [calc|]. split; [calc|]. split; [calc|]. eexists. calc.
Qed.
