(** C119: programs that clear tables. *)
From Coq Require Import List Arith Bool ZArith.
From Verif Require Import Base Column Order RowRange Table SortedTab BagTab TableSpec Hist Events Cascade CascadeSpec CascadeCases Cases Extract IntegritySpec IntegrityFacts
  IntegrityCases MirrorSpec MirrorFacts MirrorCases ClearSpec ClearFacts ClearCases.
Import ListNotations.
Local Ltac calc := vm_compute; reflexivity.

(** C119.  In programs that also clear tables no reference dangles, after each session... *)
Theorem C119_sound :
  forall pr umax fuel rank null order, (forall c, total_preorder (order c)) ->
  forall fussy u0 u, (forall p, rank p < fuel) -> wired rank order u0 -> all_new u0 -> sweeps fussy pr umax fuel null order u0 u ->
  sound null u /\ linked pr umax rank u.
Proof.
  intros pr umax fuel rank null order Or fussy u0 u Hf W N H. pose proof (sweeps_inv pr umax fuel rank null order Or fussy u0 u Hf W N H) as V.
  split; [exact (i_int _ _ _ _ _ _ V)|exact (inv_linked _ _ _ _ _ _ V)].
Qed.
Print Assumptions C119_sound.
(** ...and trackers' books are right. *)
Theorem C119_mirror :
  forall pr umax fuel rank null order, (forall c, total_preorder (order c)) ->
  forall u0 u, (forall p, rank p < fuel) -> wired rank order u0 -> all_new u0 -> u_log u0 = [] -> sweeps true pr umax fuel null order u0 u ->
  forall q m srt f t, nth_error (u_trackers u q) m = Some (TUser srt f) -> (forall ev, f ev = true) -> nth_error (u_tabs u) q = Some t ->
  forall i, In i (book q m (u_log u)) <-> exists r, t_get_row t i = Ok r.
Proof. intros pr umax fuel rank null order Or u0 u Hf W N L H. exact (sweeps_mirror pr umax fuel rank null order Or u0 u Hf W N L H). Qed.
Print Assumptions C119_mirror.
(** C119.  Such a program can clear a table whenever no row of it and the tables that depend on it is deleted: the flush succeeds,
    these tables are empty then, all others unchanged, and the program may go on. *)
Theorem C119_clears :
  forall pr umax fuel rank null order, (forall c, total_preorder (order c)) ->
  forall fussy u0 u p t es w ev, (forall p, rank p < fuel) -> wired rank order u0 -> all_new u0 -> sweeps fussy pr umax fuel null order u0 u ->
  nth_error (u_tabs u) p = Some t -> t_kind t = Consistent -> none_deleted u p -> plain_removal ev -> nth_error (u_hdl u) (ev_id ev) = Some HDelete ->
  wipes es -> do_edits pr umax (w_new t) es = Ok w ->
  exists u', flush pr umax fuel u [] p w ev = Ok u' /\ sweeps fussy pr umax fuel null order u0 u' /\
    forall c tc, nth_error (u_tabs u) c = Some tc -> exists tc', nth_error (u_tabs u') c = Some tc' /\
      (c = p \/ downstream u p c -> t_len tc' = 0 /\ forall i r, t_get_row tc' i <> Ok r) /\ (~ (c = p \/ downstream u p c) -> tc' = tc).
Proof. exact clears_done. Qed.
Print Assumptions C119_clears.
(** Four tables are filled; table 0 is cleared, and with it all others; it and table 1 are filled again. *)
Example C119_ex :
  wired town_rank orders desk /\ all_new desk /\ u_log desk = [] /\ sweeps true Debug 255 3 nothing orders desk desk4 /\ none_deleted desk4 0 /\ wipes es9 /\
  sweeps true Debug 255 3 nothing orders desk wipe1 /\ map t_len (u_tabs desk4) = [3; 4; 4; 2] /\ map t_len (u_tabs wipe1) = [0; 0; 0; 0] /\
  sweeps true Debug 255 3 nothing orders desk wipe3 /\ map t_len (u_tabs wipe3) = [3; 4; 0; 0] /\
  book 0 1 (u_log wipe1) = [] /\ book 0 1 (u_log wipe3) = [0; 1; 2] /\ book 1 0 (u_log wipe3) = [0; 1; 2; 3] /\ book 3 0 (u_log wipe3) = [].
Proof.
  split; [exact desk_wired|]. split; [exact site_new|]. split; [calc|]. split; [apply desk_sweeps, desk4_tended|]. split; [apply desk4_full|]. split; [exact es9_wipes|].
  split; [exact wipe1_sweeps|]. split; [calc|]. split; [calc|]. split; [exact wipe3_sweeps|]. repeat split; calc.
Qed.
(** C119 (refuted).  If rows are deleted when the table is cleared, rows pushed later may not be there though trackers are told of them. *)
Theorem C119_deleted_refuted :
  exists u0 u p t w u1 t1 es w1 u2 t2 m srt f i, wired town_rank orders u0 /\ all_new u0 /\ u_log u0 = [] /\ sweeps true Debug 255 3 nothing orders u0 u /\
    nth_error (u_tabs u) p = Some t /\ t_kind t = Consistent /\ do_edits Debug 255 (w_new t) [OClear] = Ok w /\ flush Debug 255 3 u [] p w ev_delete = Ok u1 /\
    nth_error (u_tabs u1) p = Some t1 /\ careful nothing orders u1 p es ev_create /\ tidy t1 w1 es /\ do_edits Debug 255 (w_new t1) es = Ok w1 /\
    flush Debug 255 3 u1 [] p w1 ev_create = Ok u2 /\ nth_error (u_tabs u2) p = Some t2 /\ nth_error (u_trackers u2 p) m = Some (TUser srt f) /\ (forall ev, f ev = true) /\
    In i (book p m (u_log u2)) /\ forall r, t_get_row t2 i <> Ok r.
Proof.
  exists desk, desk5, 0. eexists. eexists. exists wipe4. eexists. exists es10. eexists. exists wipe5. eexists. exists 1. eexists. eexists. exists 2.
  split; [exact desk_wired|]. split; [exact site_new|]. split; [calc|]. split; [apply desk_sweeps, desk5_tended|]. split; [calc|]. split; [calc|]. split; [calc|]. split; [calc|].
  split; [calc|]. split; [unfold es10; creates|]. split; [tidied|]. split; [calc|]. split; [calc|]. split; [calc|]. split; [calc|]. split; [reflexivity|].
  split; [vm_compute; auto|]. intros r H. vm_compute in H. discriminate H.
Qed.
Print Assumptions C119_deleted_refuted.
