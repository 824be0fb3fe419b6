(** C72, C73: what threads see and store. *)
From Coq Require Import List Arith Bool ZArith Lia.
From Verif Require Import Base Names Column Order RowRange Table SortedTab TableSpec Hist Events Cascade CascadeSpec CascadeCases Extract ExtractSpec
  ExtractCases Threads ThreadSpec ThreadSeq ThreadFacts ThreadSafe ThreadReads ThreadVal ThreadCases.
Import ListNotations.

(** C72.  What a thread does next, and what it stores, depends only on the tables and trackers it has locked (and on what
    never changes: the kinds and columns of the tables, their number, the handlers). *)
Theorem C72_reads_locked : forall pr umax heads foreign order fuel x tss c g B (f : xuni -> xuni * B) k y,
  thread_steps (started x (map (p_run pr umax heads foreign order fuel) tss)) c -> In (g, Act f k) (th_ts c) -> same_for g (th_x c) y ->
  k (snd (f y)) = k (snd (f (th_x c))) /\ same_for g (fst (f (th_x c))) (fst (f y)).
Proof. exact reads_locked. Qed.
Print Assumptions C72_reads_locked.

(** So it does not matter in which order two threads look at or change something, one directly after the other. *)
Theorem C72_order : forall pr umax heads foreign order fuel x tss c i j c1 c2,
  made pr umax (xu_u x) -> (forall p t, nth_error (u_tabs (xu_u x)) p = Some t -> pr = Debug \/ t_kind t <> Bag) ->
  Forall (Forall (top_ty (xu_u x))) tss ->
  thread_steps (started x (map (p_run pr umax heads foreign order fuel) tss)) c -> i <> j -> acts c i c1 -> acts c1 j c2 ->
  exists d1 d2, acts c j d1 /\ acts d1 i d2 /\ th_ts d2 = th_ts c2 /\ same_state (th_x c2) (th_x d2).
Proof. exact order_of_accesses. Qed.
Print Assumptions C72_order.

(** The flush of table 0 has table 0, and the restore of table 1 has table 1; the third thread waits. *)
Definition c72 := schedule [(0, 1); (2, 1)] (started x_id (map (p_run Debug 255 heads foreign order 3) two_restores)).
Example C72_case : map fst (th_ts c72) = [[(LT 0, true)]; []; [(LT 1, true)]] /\
  (exists g B (f : xuni -> xuni * B) k, nth_error (th_ts c72) 0 = Some (g, Act f k)) /\
  exists c1 c2, acts c72 0 c1 /\ acts c1 2 c2.
Proof.
  split; [reflexivity|]. split; [do 4 eexists; reflexivity|].
  do 2 eexists. split; do 4 eexists; (split; [reflexivity|reflexivity]).
Qed.

(** C73.  No change is lost: when a table changes, what is stored was made of its rows of that moment, by the thread that
    stores it: all its changes under one lock, or rows removed, or rows added by restoring. *)
Theorem C73_no_lost_update : forall pr umax heads foreign order fuel x tss c c' p t t',
  made pr umax (xu_u x) -> (forall p t, nth_error (u_tabs (xu_u x)) p = Some t -> pr = Debug \/ t_kind t <> Bag) ->
  Forall (Forall (top_ty (xu_u x))) tss ->
  thread_steps (started x (map (p_run pr umax heads foreign order fuel) tss)) c -> thread_step c c' ->
  nth_error (u_tabs (xu_u (th_x c))) p = Some t -> nth_error (u_tabs (xu_u (th_x c'))) p = Some t' -> t' <> t ->
  exists i ops, nth_error tss i = Some ops /\ (forall j, j <> i -> nth_error (th_ts c') j = nth_error (th_ts c) j) /\
    becomes pr umax order ops p t t'.
Proof. exact changes_of_tables. Qed.
Print Assumptions C73_no_lost_update.

(** Table 0 is restored: three rows become four.  Then the flush, that waited, deletes one of those four. *)
Definition c73 := schedule [(1, 3); (0, 1); (1, 99); (0, 99); (2, 99)] (started x_id (map (p_run Debug 255 heads foreign order 3) two_restores)).
Example C73_case : move (busy x_id 6) 1 = Some (busy x_id 7) /\
  map t_len (u_tabs (xu_u (th_x (busy x_id 6)))) = [3; 1; 0] /\ map t_len (u_tabs (xu_u (th_x (busy x_id 7)))) = [4; 1; 0] /\
  map (fun t => (t_len t, t_free t)) (u_tabs (xu_u (th_x c73))) = [(4, [0]); (3, []); (0, [])].
Proof. repeat split; vm_compute; reflexivity. Qed.
