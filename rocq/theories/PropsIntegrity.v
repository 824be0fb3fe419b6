(** Property theorems about whole programs: references never dangle, C80. *)
From Coq Require Import List Arith Bool ZArith.
From Verif Require Import Base Column Order RowRange Table SortedTab BagTab TableSpec Hist Events Cascade CascadeSpec CascadeCases Cases Extract
  IntegritySpec IntegrityFacts IntegrityCases.
Import ListNotations.

(** C80.  Tables refer to each other by [#[foreign_auto]] columns, not in a circle, and start empty.  Whatever number of
    careful sessions the program makes (see [careful]), afterwards every reference is to a row that is there, or is one
    the program uses for nothing.  Also, the hypotheses about the tables of C32-C37 hold then. *)
Theorem C80_sound :
  forall pr umax fuel rank null order, (forall c, total_preorder (order c)) ->
  forall u0 u, (forall p, rank p < fuel) -> wired rank order u0 -> all_new u0 -> lives pr umax fuel null order u0 u ->
  sound null u /\ linked pr umax rank u.
Proof. intros pr umax fuel rank null order Or u0 u Hf W N L. pose proof (lives_inv pr umax fuel rank null order Or u0 u Hf W N L) as V. split; [exact (i_int _ _ _ _ _ _ V)|exact (inv_linked _ _ _ _ _ _ V)]. Qed.
Print Assumptions C80_sound.

(** If the program refers to nothing nowhere, nothing dangles, in the sense of C32. *)
Theorem C80_integrity :
  forall pr umax fuel rank order, (forall c, total_preorder (order c)) ->
  forall u0 u, (forall p, rank p < fuel) -> wired rank order u0 -> all_new u0 -> lives pr umax fuel (fun _ _ => False) order u0 u ->
  integrity u.
Proof. intros pr umax fuel rank order Or u0 u Hf W N L p c k key t j i Htr Hp R. destruct (proj1 (C80_sound pr umax fuel rank _ order Or u0 u Hf W N L) p c k key t j i Htr Hp R) as [H|[]]. exact H. Qed.
Print Assumptions C80_integrity.

(** At any time in the life of such a program rows can be deleted: the calls and the flush succeed, every table loses
    exactly the deleted rows and those which refer, directly or not, to a deleted row, and the program may go on. *)
Theorem C80_removal :
  forall pr umax fuel rank null order, (forall c, total_preorder (order c)) ->
  forall u0 u p t ids ev, (forall p, rank p < fuel) -> wired rank order u0 -> all_new u0 -> lives pr umax fuel null order u0 u ->
  nth_error (u_tabs u) p = Some t -> t_kind t = Consistent -> Forall (fun i => exists r, t_get_row t i = Ok r) ids -> NoDup ids ->
  plain_removal ev -> nth_error (u_hdl u) (ev_id ev) = Some HDelete ->
  exists w u', do_edits pr umax (w_new t) (map ODelete ids) = Ok w /\ flush pr umax fuel u [] p w ev = Ok u' /\
    lives pr umax fuel null order u0 u' /\
    forall c tc, nth_error (u_tabs u) c = Some tc -> exists tc', nth_error (u_tabs u') c = Some tc' /\ loses (doomed u p ids c) tc tc'.
Proof. exact removal_done. Qed.
Print Assumptions C80_removal.
(** Four tables (as in C32_C33_C37_case) are filled, with a row that refers to nothing, then rows are deleted. *)
Example C80_case :
  (forall c, total_preorder (orders c)) /\ (forall p, town_rank p < 3) /\ wired town_rank orders site /\ all_new site /\
  lives Debug 255 3 nothing orders site site4 /\
  rows_of site4 0 3 = [Some r1; Some r2; Some r3] /\
  rows_of site4 1 4 = [Some [VInt 10; VRow 0]; Some [VInt 11; VRow 1]; Some [VInt 12; VRow 2]; Some [VInt 14; VRow 7]] /\
  plain_removal ev_delete /\ nth_error (u_hdl site4) (ev_id ev_delete) = Some HDelete /\
  lives Debug 255 3 nothing orders site site5 /\
  rows_of site5 0 3 = [None; Some r2; None] /\
  rows_of site5 1 4 = [None; Some [VInt 11; VRow 1]; None; Some [VInt 14; VRow 7]] /\
  rows_of site5 2 2 = [Some [VRow 1; VInt 3]; None] /\
  rows_of site5 3 2 = [None; Some [VInt 21; VRow 1]].
Proof.
  split; [exact orders_ok|]. split; [intros [|[|p]]; repeat constructor|]. split; [exact site_wired|]. split; [exact site_new|].
  split; [exact site4_lives|]. split; [calc|]. split; [calc|]. split; [repeat constructor|]. split; [calc|].
  split; [exact site5_lives|]. calcs.
Qed.

(** The care is the program's, the library does not check it.  A row that refers to a row that is not there is accepted,
    from a program that has been careful so far. *)
Theorem C80_missing_refuted :
  exists u0 u p t es w ev u', wired town_rank orders u0 /\ all_new u0 /\ lives Debug 255 3 nothing orders u0 u /\
    nth_error (u_tabs u) p = Some t /\ Forall (op_ty (s_cols (t_sch t))) es /\ do_edits Debug 255 (w_new t) es = Ok w /\
    flush Debug 255 3 u [] p w ev = Ok u' /\ ~ sound nothing u'.
Proof.
  exists site, site5, 1. eexists. exists es6. eexists. exists ev_create, site6.
  split; [exact site_wired|]. split; [exact site_new|]. split; [exact site5_lives|]. split; [reflexivity|].
  split; [|split; [vm_compute; reflexivity|split; [vm_compute; reflexivity|]]].
  - repeat constructor; cbn; eauto.
  - intro S. destruct (S 0 1 1 false _ 0 2 (or_introl eq_refl) eq_refl) as [[r H]|H]; [|discriminate H|discriminate H].
    eexists. eexists. repeat split; reflexivity.
Qed.
Print Assumptions C80_missing_refuted.
(** If the program replaced the handler of the removal event by one that does nothing, what refers to the deleted rows stays. *)
Theorem C80_handler_refuted :
  exists u0 u p t i w ev u', wired town_rank orders u0 /\ all_new u0 /\ lives Debug 255 3 nothing orders u0 u /\
    nth_error (u_tabs u) p = Some t /\ do_edits Debug 255 (w_new t) [ODelete i] = Ok w /\ plain_removal ev /\
    nth_error (u_hdl u) (ev_id ev) = Some HNull /\ flush Debug 255 3 u [] p w ev = Ok u' /\ ~ sound nothing u'.
Proof.
  exists deaf, deaf2, 0. eexists. exists 1. eexists. exists ev_delete, deaf3.
  split; [exact deaf_wired|]. split; [exact site_new|]. split; [exact deaf_lives|]. split; [reflexivity|].
  split; [vm_compute; reflexivity|]. split; [repeat constructor|]. split; [calc|]. split; [vm_compute; reflexivity|].
  intro S. destruct (S 0 1 1 false _ 1 1 (or_introl eq_refl) eq_refl) as [[r H]|H]; [|discriminate H|discriminate H].
  eexists. eexists. repeat split; reflexivity.
Qed.
Print Assumptions C80_handler_refuted.
