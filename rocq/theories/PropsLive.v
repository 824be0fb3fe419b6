(** C118: flushing without unlocking. *)
From Coq Require Import List Arith Bool ZArith.
From Verif Require Import Base Column Order RowRange Table SortedTab BagTab TableSpec Hist Events Cascade CascadeSpec CascadeCases Cases Extract IntegritySpec IntegrityFacts
  IntegrityCases MirrorSpec MirrorFacts MirrorCases LiveSpec LiveFacts LiveCases.
Import ListNotations.
Local Ltac calc := vm_compute; reflexivity.

(** C118.  [flush] does what [live_flush] followed by unlocking does: they end alike (succeed, or panic in the same way), with the same tables and the same
    calls to trackers.  With any lock, whatever has been done with it, of any table that does not depend on itself. *)
Theorem C118_same :
  forall pr umax fuel u h p t w ev, ~ downstream u p p -> nth_error (u_tabs u) p = Some t -> can_write h p = true ->
  flush pr umax fuel u h p w ev = (let* q := live_flush pr umax fuel u h p w ev in let* t := w_drop (snd q) in Ok (u_put (fst q) p t)).
Proof. exact flush_live. Qed.
Print Assumptions C118_same.
(** Deleting rows 0 and 2 of table 0: they go, and rows of tables 1 to 3; and a lock that lists a row which is not there panics both ways. *)
Example C118_same_ex :
  ~ downstream town 0 0 /\ (exists q u', live_flush Debug 255 3 town [] 0 marked ev_delete = Ok q /\ flush Debug 255 3 town [] 0 marked ev_delete = Ok u' /\ u_put (fst q) 0 (w_tab (snd q)) = u' /\ u_tabs u' <> u_tabs town) /\
  live_flush Debug 255 3 town [] 0 (W (w_tab marked) (SThese [9]) false true) ev_delete = panic PRemoveRange /\
  flush Debug 255 3 town [] 0 (W (w_tab marked) (SThese [9]) false true) ev_delete = panic PRemoveRange.
Proof.
  split; [intro D; exact (Nat.lt_irrefl _ (downstream_rank _ _ _ _ town_acyclic D))|]. split; [eexists; eexists; split; [calc|]; split; [calc|]; split; [calc|]; vm_compute; discriminate|]. split; calc.
Qed.
(** C118.  A table that depends on itself, directly or not, can be flushed neither way, unless nothing has changed: trackers are called without an end
    (or wait for a lock, or panic), also if no row refers to another. *)
Theorem C118_self :
  forall pr umax fuel u h p w ev, downstream u p p -> sel_empty (w_changes w) = false ->
  (forall u', flush pr umax fuel u h p w ev <> Ok u') /\ (forall q, live_flush pr umax fuel u h p w ev <> Ok q).
Proof. exact self_flush. Qed.
Print Assumptions C118_self.
(** Its own lock is what the tracker waits for. *)
Example C118_self_ex :
  downstream self_uni 0 0 /\ sel_empty (w_changes (w_select (w_new self_tab) 0)) = false /\
  live_flush Debug 255 3 self_uni [] 0 (w_select (w_new self_tab) 0) ev_create = Err EDeadlock /\
  map (fun n => flush Debug 255 n self_uni [] 0 (w_select (w_new self_tab) 0) ev_create) [3; 30; 300] = [Err EFuel; Err EFuel; Err EFuel].
Proof. split; [apply (downstream_one _ _ _ 1 false); left; reflexivity|]. split; [calc|]. split; calc. Qed.

(** C118.  After a [live_flush] of a consistent table the lock is as one newly taken: nothing is pending, and rows may be deleted after rows have been pushed
    and the other way round (see C20). *)
Theorem C118_fresh :
  forall pr umax fuel rank null order, (forall c, total_preorder (order c)) ->
  forall fussy u0 u p w, (forall p, rank p < fuel) -> wired rank order u0 -> all_new u0 -> works fussy pr umax fuel null order u0 u (Some (p, w)) ->
  exists t, nth_error (u_tabs u) p = Some t /\ w = w_new t.
Proof. intros pr umax fuel rank null order Or fussy u0 u p w Hf W N H. apply (works_lives pr umax fuel rank null order Or fussy u0 u _ Hf W N H). Qed.
Print Assumptions C118_fresh.
(** C118.  Programs that flush without unlocking keep references sound (see C80)... *)
Theorem C118_sound :
  forall pr umax fuel rank null order, (forall c, total_preorder (order c)) ->
  forall fussy u0 u l, (forall p, rank p < fuel) -> wired rank order u0 -> all_new u0 -> works fussy pr umax fuel null order u0 u l ->
  sound null u /\ linked pr umax rank u.
Proof.
  intros pr umax fuel rank null order Or fussy u0 u l Hf W N H. destruct (works_lives pr umax fuel rank null order Or fussy u0 u l Hf W N H) as [L _].
  pose proof (lives_inv pr umax fuel rank null order Or u0 u Hf W N L) as V. split; [exact (i_int _ _ _ _ _ _ V)|exact (inv_linked _ _ _ _ _ _ V)].
Qed.
Print Assumptions C118_sound.
(** ...and trackers' books right (see C83), also while the table is locked. *)
Theorem C118_mirror :
  forall pr umax fuel rank null order, (forall c, total_preorder (order c)) ->
  forall u0 u l, (forall p, rank p < fuel) -> wired rank order u0 -> all_new u0 -> u_log u0 = [] -> works true pr umax fuel null order u0 u l ->
  forall q m srt f t, nth_error (u_trackers u q) m = Some (TUser srt f) -> (forall ev, f ev = true) -> nth_error (u_tabs u) q = Some t ->
  forall i, In i (book q m (u_log u)) <-> exists r, t_get_row t i = Ok r.
Proof.
  intros pr umax fuel rank null order Or u0 u l Hf W N Lg H. destruct (works_lives pr umax fuel rank null order Or true u0 u l Hf W N H) as (_ & T & _).
  exact (tended_mirror pr umax fuel rank null order Or u0 u Hf W N Lg (T eq_refl)).
Qed.
Print Assumptions C118_mirror.
Local Definition ok {A} (x : res A) : bool := match x with Ok _ => true | Err _ => false end.
(** Table 0 is filled and a row deleted with one lock; later two rows are deleted, one after the other, with one lock. *)
Example C118_works_ex :
  wired town_rank orders desk /\ all_new desk /\ u_log desk = [] /\ works true Debug 255 3 nothing orders desk (fst lf2) (Some (0, snd lf2)) /\
  map (fun i => ok (t_get_row (w_tab (snd lf2)) i)) [0; 1; 2] = [true; true; false] /\
  works true Debug 255 3 nothing orders desk (fst lf7) (Some (0, snd lf7)) /\
  map (fun i => ok (t_get_row (w_tab (snd lf7)) i)) [0; 1; 2] = [false; false; true] /\
  book 0 1 (u_log (fst lf7)) = [2] /\ book 1 0 (u_log (fst lf7)) = [2].
Proof.
  split; [exact desk_wired|]. split; [exact site_new|]. split; [calc|]. split; [exact lf2_works|]. split; [calc|]. split; [exact lf7_works|]. split; [calc|]. split; calc.
Qed.
