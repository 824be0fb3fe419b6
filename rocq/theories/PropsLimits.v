(** Property theorems about which calls succeed, C84. *)
From Coq Require Import List Arith Bool ZArith Lia.
From Verif Require Import Base Column Order RowRange Table SortedTab BagTab TableSpec Hist Cases Events Cascade CascadeSpec CascadeCases Extract
  IntegritySpec IntegrityCases LimitsSpec LimitsFacts.
Import ListNotations.

(** C84.  Whatever calls a program has made on a consistent table, each further call succeeds exactly if [succeeds] says so,
    and panics otherwise: there is no other way to fail, and no other reason. *)
Theorem C84_calls :
  forall pr umax sch, s_kind sch = Consistent -> s_cols sch <> [] ->
  forall ops st o, comes_to pr umax sch ops st -> op_ty (s_cols sch) o -> by_next (s_imax sch) o ->
  ((exists st', step pr umax st o = Ok st') <-> succeeds pr ops st o) /\
  (~ succeeds pr ops st o -> exists c, step pr umax st o = panic c).
Proof. exact calls_exact. Qed.
Print Assumptions C84_calls.

(** So a program that makes only such calls runs to its end. *)
Theorem C84_program :
  forall pr umax sch, s_kind sch = Consistent -> s_cols sch <> [] ->
  forall ops, Forall (fun o => op_ty (s_cols sch) o /\ by_next (s_imax sch) o) ops ->
  (forall before o after st, ops = before ++ o :: after -> comes_to pr umax sch before st -> sane_op st o /\ succeeds pr before st o) ->
  exists st, comes_to pr umax sch ops st.
Proof. exact program_done. Qed.
Print Assumptions C84_program.

(** The same for tables that refer to each other: in a program of careful sessions (see C80), when the calls of a session
    on a consistent table have succeeded, the flush succeeds, whatever has to be deleted in other tables, unless the
    session both added and deleted rows, or the event is out of range, or both a removal and a creation.  Then it panics
    (it does not jam). *)
Theorem C84_flush :
  forall pr umax fuel rank null order, (forall c, total_preorder (order c)) ->
  forall u0 u p t es w ev, (forall p, rank p < fuel) -> wired rank order u0 -> all_new u0 -> lives pr umax fuel null order u0 u ->
  careful null order u p es ev -> nth_error (u_tabs u) p = Some t -> t_kind t = Consistent ->
  do_edits pr umax (w_new t) es = Ok w -> t_len (w_tab w) <= t_imax (w_tab w) ->
  let fine := existsb is_change es = false \/
    existsb is_push es && existsb is_del es = false /\ ev_removal ev && ev_creation ev = false /\ ev_id ev < max_event_types in
  ((exists u', flush pr umax fuel u [] p w ev = Ok u') <-> fine) /\
  (~ fine -> exists c, flush pr umax fuel u [] p w ev = panic c).
Proof. exact session_exact. Qed.
Print Assumptions C84_flush.

(** Row 1 of three is deleted, and the deletion of row 0 is pending.  There is room for six rows. *)
Definition pending := hole ++ [OLock; ODelete 0].
Definition is_ok {A} (x : res A) : bool := match x with Ok _ => true | Err _ => false end.
Example C84_case :
  exists st, comes_to Debug 255 (sch Consistent) pending st /\ room (st_tab st) = 6 /\
  Forall (op_ty (s_cols (sch Consistent))) [OPushAll (repeat r1 6); OPushAll (repeat r1 7); OPushArray (repeat r1 4); OPushArray (repeat r1 5)] /\
  map (fun o => is_ok (step Debug 255 st o))
    [OPushAll (repeat r1 6); OPushAll (repeat r1 7); OPushArray (repeat r1 4); OPushArray (repeat r1 5);
     OGet 0; OGet 1; OCell 0 1; OCell 0 3; OFind 1 (VInt 5); OFind 0 (VInt 1); ODelete 2; ODelete 1; OAssign 0 1 (VInt 3); OAssign 1 0 (VInt 3);
     OClose; OFlush true ev_delete; OFlush true ev_create; OFlush true (Ev 32 true false); OFlush true (Ev 3 true true); OIter [ItNext]; ORange (RR 0 4) []] =
    [true; false; true; false;
     true; false; true; false; true; false; true; false; true; false;
     false; true; true; false; false; true; false].
Proof.
  eexists. split; [|split; [|split]].
  - split; [|split; [vm_compute; reflexivity|]].
    + unfold pending, hole, three. repeat constructor.
    + intros b o a st1 E. unfold pending, hole, three in E. cbn [app] in E.
      do 8 (destruct b as [|x b]; cbn [app] in E;
        [injection E as <- <-; cbv; intros [= <-] Q; discriminate Q|injection E as <- E]).
      destruct b; discriminate E.
  - vm_compute. reflexivity.
  - repeat constructor.
  - vm_compute. reflexivity.
Qed.
(** Beside C84_flush: in the universe of C80_case, a careful session that only adds can be flushed, and one that also deletes can not. *)
Example C84_flush_case :
  (forall c, total_preorder (orders c)) /\ (forall p, town_rank p < 3) /\ wired town_rank orders site /\ all_new site /\
  lives Debug 255 3 nothing orders site site4 /\
  careful nothing orders site4 0 [ODelete 1; OPush r1] ev_create /\ careful nothing orders site4 0 [ODelete 2; ODelete 0] ev_delete /\
  (exists t w, nth_error (u_tabs site4) 0 = Some t /\ t_kind t = Consistent /\ do_edits Debug 255 (w_new t) [ODelete 1; OPush r1] = Ok w /\
     t_len (w_tab w) <= t_imax (w_tab w) /\ flush Debug 255 3 site4 [] 0 w ev_create = panic PInterleave) /\
  (exists t w, nth_error (u_tabs site4) 0 = Some t /\ t_kind t = Consistent /\ do_edits Debug 255 (w_new t) [ODelete 2; ODelete 0] = Ok w /\
     t_len (w_tab w) <= t_imax (w_tab w) /\ flush Debug 255 3 site4 [] 0 w ev_delete = Ok site5).
Proof.
  split; [exact orders_ok|]. split; [intros [|[|p]]; repeat constructor|]. split; [exact site_wired|]. split; [exact site_new|].
  split; [exact site4_lives|]. split; [|split; [|split]].
  - intros t [= <-]. split; [typed|]. left. split; [reflexivity|left; reflexivity].
  - intros t [= <-]. split; [typed|]. right. split; [repeat constructor|]. split; [reflexivity|]. split; [typed|].
    left. repeat constructor; cbn; intuition discriminate.
  - eexists. eexists. split; [reflexivity|]. split; [reflexivity|]. split; [vm_compute; reflexivity|]. split; [vm_compute; lia|]. vm_compute. reflexivity.
  - eexists. eexists. split; [reflexivity|]. split; [reflexivity|]. split; [vm_compute; reflexivity|]. split; [vm_compute; lia|]. vm_compute. reflexivity.
Qed.
