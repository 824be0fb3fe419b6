(** C75: order under threads. *)
From Coq Require Import List Arith Bool ZArith Lia Sorting.Sorted.
From Verif Require Import Base Names Column ColumnFacts Order RowRange Table SortedTab TableSpec Hist Cases Events Cascade CascadeSpec CascadeFacts CascadeCases Extract ExtractSpec
  ExtractCases Threads ThreadSpec ThreadSeq ThreadFacts ThreadSafe ThreadReads ThreadSorted ThreadCases Poison PoisonSpec PoisonFacts PoisonCases.
Import ListNotations.

(** C75.  A sorted table stays sorted whatever threads do, in whatever order, if every lock session keeps its order (C27). *)
Theorem C75_sorted : forall pr umax heads foreign order fuel x tss p c,
  made pr umax (xu_u x) -> (forall p t, nth_error (u_tabs (xu_u x)) p = Some t -> pr = Debug \/ t_kind t <> Bag) ->
  Forall (Forall (top_ty (xu_u x))) tss -> total_preorder (order p) -> Forall (Forall (top_keeps (order p) p)) tss ->
  (forall t rows, nth_error (u_tabs (xu_u x)) p = Some t -> holds t rows -> ascending (order p) rows) ->
  thread_steps (started x (map (p_run pr umax heads foreign order fuel) tss)) c ->
  forall t rows, nth_error (u_tabs (xu_u (th_x c))) p = Some t -> t_kind t = Sorted -> holds t rows -> ascending (order p) rows.
Proof. exact threads_sorted. Qed.
Print Assumptions C75_sorted.

(** Also if some of them panic, as long as the table's lock is not poisoned. *)
Theorem C75_sorted_after_panics : forall pr umax heads foreign order fuel x tss p d,
  made pr umax (xu_u x) -> (forall p t, nth_error (u_tabs (xu_u x)) p = Some t -> pr = Debug \/ t_kind t <> Bag) ->
  Forall (Forall (top_ty (xu_u x))) tss -> total_preorder (order p) -> Forall (Forall (top_keeps (order p) p)) tss ->
  (forall t rows, nth_error (u_tabs (xu_u x)) p = Some t -> holds t rows -> ascending (order p) rows) ->
  crowd_steps (begun x (map (p_run pr umax heads foreign order fuel) tss)) d -> ~ In (LT p) (cr_bad d) ->
  forall t rows, nth_error (u_tabs (xu_u (th_x (cr_c d)))) p = Some t -> t_kind t = Sorted -> holds t rows -> ascending (order p) rows.
Proof. exact crowd_sorted. Qed.
Print Assumptions C75_sorted_after_panics.

(** One thread deletes row 1 of table 0, and with it the row of table 2 that refers to it; another merges rows into table 2;
    a third restores an extraction of it. *)
Definition c75_threads := [[TDo (XFlush 0 [ODelete 1] ev_delete)]; [TDo (XFlush 2 [OMerge by_key [[VRow 2; VInt 7]; [VRow 0; VInt 9]]] ev_create)];
  [TDo (XIdentity 0); TDo (XRestore 2 e_s ev_create)]].
Definition c75 := schedule [(0, 3); (1, 1); (2, 99); (0, 99); (1, 99); (2, 7); (1, 99); (0, 99); (2, 99); (0, 99)] (started town_x (map (p_run Debug 255 heads foreign order 3) c75_threads)).
Definition rows_of (x : xuni) (p : nat) : list (res row) :=
  match nth_error (u_tabs (xu_u x)) p with Some t => map (t_get_row t) (seq 0 (t_len t)) | None => [] end.
Lemma c75_ty : Forall (Forall (top_ty (xu_u town_x))) c75_threads.
Proof.
  unfold c75_threads. repeat match goal with |- Forall _ (_ :: _) => constructor | |- Forall _ [] => constructor end; try exact I;
    intros t [= <-]; cbn [t_sch s_cols ex_data e_s]; repeat constructor; cbn; eauto.
Qed.
Lemma by_key_order : total_preorder by_key.
Proof. split; unfold by_key; intros; [apply val_cmp_anti|eapply val_le_trans; eauto]. Qed.
Example C75_case :
  made Debug 255 (xu_u town_x) /\ Forall (Forall (top_ty (xu_u town_x))) c75_threads /\ total_preorder (order 2) /\
  Forall (Forall (top_keeps (order 2) 2)) c75_threads /\
  (forall t rows, nth_error (u_tabs (xu_u town_x)) 2 = Some t -> holds t rows -> t_kind t = Sorted /\ ascending (order 2) rows) /\
  rows_of town_x 2 = map Ok [[VRow 0; VInt 1]; [VRow 0; VInt 2]; [VRow 1; VInt 3]; [VRow 2; VInt 4]] /\
  thread_steps (started town_x (map (p_run Debug 255 heads foreign order 3) c75_threads)) c75 /\
  map snd (th_ts c75) = [Ret (Ok tt); Ret (Ok tt); Ret (Ok tt)] /\
  rows_of (th_x c75) 2 = map Ok [[VRow 0; VInt 1]; [VRow 0; VInt 9]; [VRow 0; VInt 1]; [VRow 0; VInt 2]; [VRow 2; VInt 4]; [VRow 2; VInt 7]; [VRow 2; VInt 4]] /\
  Forall (Forall (top_keeps (order 2) 2)) clumsy /\ crowd_steps (begun town_x (map (p_run Debug 255 heads foreign order 3) clumsy)) fallen /\
  cr_bad fallen = [LT 1].
Proof.
  split; [exact town_made|]. split; [exact c75_ty|]. split; [exact by_key_order|]. split.
  { repeat constructor; cbn; repeat constructor; try discriminate. }
  split.
  { intros t rows [= <-] [L H]. split; [reflexivity|]. cbn in L. do 5 (destruct rows as [|? rows]; try discriminate).
    pose proof (H 0 _ eq_refl) as H0. pose proof (H 1 _ eq_refl) as H1. pose proof (H 2 _ eq_refl) as H2. pose proof (H 3 _ eq_refl) as H3.
    vm_compute in H0, H1, H2, H3. injection H0 as <-. injection H1 as <-. injection H2 as <-. injection H3 as <-. repeat constructor; discriminate. }
  split; [calc|]. split; [apply schedule_steps|]. split; [calc|]. split; [calc|]. split; [repeat constructor; discriminate|]. split; [apply cschedule_steps|calc].
Qed.
