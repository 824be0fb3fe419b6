(** C124, C125: rows may be deleted in any order and in several steps, and all of them at once. *)
From Coq Require Import List Arith Bool ZArith.
From Verif Require Import Base Names Column Order RowRange Table Visit SortedTab BagTab TableSpec Hist Cases Events Cascade
  CascadeSpec CascadeFacts CascadeCases Extract ExtractSpec ExtractCases IntegritySpec IntegrityFacts IntegrityCases MirrorSpec MirrorCases BackupSpec ImportSpec
  LifeSpec LifeFacts LifeCases LiveCases RepushSpec RepushCases ClearSpec ClearCases MixSpec MixFacts MixCases UndoSpec UndoFacts UndoCases BatchSpec BatchFacts BatchCases.
Import ListNotations.
Local Ltac calc := vm_compute; reflexivity.

(** C124.  A program of C120, no table being locked, deletes rows of a table and flushes it, and then those rows of another table (or the same one) that are
    still there.  Or it does the second thing first.  Neither fails, the program can go on as in C120 after both, and there are the same rows at the same ids
    in all tables: also those that went along, and those of sorted tables, which move. *)
Theorem C124_commute :
  forall pr umax fuel heads foreign null rank order, (forall c, total_preorder (order c)) -> (forall p, rank p < fuel) ->
  forall fussy x0, wired rank order (xu_u x0) -> all_new (xu_u x0) -> unmapped x0 -> declared foreign (xu_u x0) ->
  forall x, runs fussy pr umax fuel heads foreign null order x0 x None ->
  forall p1 p2 t1 t2 ids1 ids2 ev1 ev2, nth_error (u_tabs (xu_u x)) p1 = Some t1 -> t_kind t1 = Consistent -> NoDup ids1 ->
  nth_error (u_tabs (xu_u x)) p2 = Some t2 -> t_kind t2 = Consistent -> NoDup ids2 ->
  plain_removal ev1 -> nth_error (u_hdl (xu_u x)) (ev_id ev1) = Some HDelete -> plain_removal ev2 -> nth_error (u_hdl (xu_u x)) (ev_id ev2) = Some HDelete ->
  exists xa1 xa xb1 xb,
    deletes pr umax fuel x p1 ids1 ev1 xa1 /\ deletes pr umax fuel xa1 p2 ids2 ev2 xa /\
    deletes pr umax fuel x p2 ids2 ev2 xb1 /\ deletes pr umax fuel xb1 p1 ids1 ev1 xb /\
    runs fussy pr umax fuel heads foreign null order x0 xa None /\ runs fussy pr umax fuel heads foreign null order x0 xb None /\
    same_rows (xu_u xa) (xu_u xb).
Proof. exact commute. Qed.
Print Assumptions C124_commute.

Example C124_commute_case :
  runs true Debug 255 3 heads refs nothing orders (XU desk four) (XU desk4 four) None /\
  plain_removal ev_delete /\ nth_error (u_hdl desk4) (ev_id ev_delete) = Some HDelete /\
  deletes Debug 255 3 (XU desk4 four) 0 [0; 2] ev_delete (XU first0 four) /\ deletes Debug 255 3 (XU first0 four) 1 [2; 1] ev_delete (XU then1 four) /\
  deletes Debug 255 3 (XU desk4 four) 1 [2; 1] ev_delete (XU first1 four) /\ deletes Debug 255 3 (XU first1 four) 0 [0; 2] ev_delete (XU then0 four) /\
  map rows_in (u_tabs desk4) = [3; 4; 4; 2] /\ map rows_in (u_tabs first0) = [1; 2; 1; 1] /\ map rows_in (u_tabs first1) = [3; 2; 4; 0] /\
  contents (XU then0 four) =
    [[panic PDeletedRow; Ok [VInt 2; VInt 5]; panic PDeletedRow];
     [panic PDeletedRow; panic PDeletedRow; panic PDeletedRow; Ok [VInt 14; VRow 7]];
     [Ok [VRow 1; VInt 3]]; [panic PDeletedRow; panic PDeletedRow]] /\
  contents (XU then1 four) = contents (XU then0 four).
Proof.
  split; [exact desk4_runs|]. split; [repeat constructor|]. split; [reflexivity|].
  split; [do 2 eexists; split; [calc|split; calc]|]. split; [do 2 eexists; split; [calc|split; calc]|].
  split; [do 2 eexists; split; [calc|split; calc]|]. split; [do 2 eexists; split; [calc|split; calc]|].
  split; [calc|]. split; [calc|]. split; [calc|]. split; calc.
Qed.

(** Deleting rows in two steps is the same as deleting them at once. *)
Theorem C124_batches :
  forall pr umax fuel heads foreign null rank order, (forall c, total_preorder (order c)) -> (forall p, rank p < fuel) ->
  forall fussy x0, wired rank order (xu_u x0) -> all_new (xu_u x0) -> unmapped x0 -> declared foreign (xu_u x0) ->
  forall x, runs fussy pr umax fuel heads foreign null order x0 x None ->
  forall p t ids1 ids2 ev, nth_error (u_tabs (xu_u x)) p = Some t -> t_kind t = Consistent -> NoDup (ids1 ++ ids2) ->
  plain_removal ev -> nth_error (u_hdl (xu_u x)) (ev_id ev) = Some HDelete ->
  exists xa1 xa xb, deletes pr umax fuel x p ids1 ev xa1 /\ deletes pr umax fuel xa1 p ids2 ev xa /\ deletes pr umax fuel x p (ids1 ++ ids2) ev xb /\
    runs fussy pr umax fuel heads foreign null order x0 xa None /\ runs fussy pr umax fuel heads foreign null order x0 xb None /\
    same_rows (xu_u xa) (xu_u xb).
Proof. exact batches. Qed.
Print Assumptions C124_batches.

Example C124_batches_case :
  deletes Debug 255 3 (XU desk4 four) 0 [2] ev_delete (XU part1 four) /\ deletes Debug 255 3 (XU part1 four) 0 [0; 7] ev_delete (XU part2 four) /\
  deletes Debug 255 3 (XU desk4 four) 0 ([2] ++ [0; 7]) ev_delete (XU whole four) /\
  map rows_in (u_tabs part1) = [2; 3; 3; 1] /\ map rows_in (u_tabs part2) = [1; 2; 1; 1] /\
  contents (XU part2 four) =
    [[panic PDeletedRow; Ok [VInt 2; VInt 5]; panic PDeletedRow];
     [panic PDeletedRow; Ok [VInt 11; VRow 1]; panic PDeletedRow; Ok [VInt 14; VRow 7]];
     [Ok [VRow 1; VInt 3]]; [panic PDeletedRow; Ok [VInt 21; VRow 1]]] /\
  contents (XU whole four) = contents (XU part2 four).
Proof.
  split; [do 2 eexists; split; [calc|split; calc]|]. split; [do 2 eexists; split; [calc|split; calc]|]. split; [do 2 eexists; split; [calc|split; calc]|].
  split; [calc|]. split; [calc|]. split; calc.
Qed.

(** In general: rows of some tables are deleted in any number of steps, some of them perhaps more than once.  What is left depends on which rows were named
    only: not on the order of the steps, on how the rows were divided among them, and on the events. *)
Theorem C124_any_steps :
  forall pr umax fuel heads foreign null rank order, (forall c, total_preorder (order c)) -> (forall p, rank p < fuel) ->
  forall fussy x0, wired rank order (xu_u x0) -> all_new (xu_u x0) -> unmapped x0 -> declared foreign (xu_u x0) ->
  forall x, runs fussy pr umax fuel heads foreign null order x0 x None ->
  forall bs bs', Forall (batch (xu_u x)) bs -> Forall (batch (xu_u x)) bs' -> (forall p i, asked bs p i <-> asked bs' p i) ->
  exists xa xb, deletes_all pr umax fuel x bs xa /\ deletes_all pr umax fuel x bs' xb /\
    runs fussy pr umax fuel heads foreign null order x0 xa None /\ runs fussy pr umax fuel heads foreign null order x0 xb None /\
    same_rows (xu_u xa) (xu_u xb).
Proof. exact any_steps. Qed.
Print Assumptions C124_any_steps.

Example C124_any_steps_case :
  let bs := [(0, [0; 2], ev_delete); (1, [2; 1], ev_delete)] in
  let bs' := [(1, [1], ev_delete); (0, [2; 0], ev_delete); (1, [2; 1], ev_delete)] in
  Forall (batch desk4) bs /\ Forall (batch desk4) bs' /\ (forall p i, asked bs p i <-> asked bs' p i) /\
  deletes_all Debug 255 3 (XU desk4 four) bs (XU then1 four) /\ deletes_all Debug 255 3 (XU desk4 four) bs' (XU mixed3 four) /\
  map (fun u => map rows_in (u_tabs u)) [desk4; mixed1; mixed2; mixed3] = [[3; 4; 4; 2]; [3; 3; 4; 1]; [1; 1; 1; 0]; [1; 1; 1; 0]] /\
  contents (XU mixed3 four) = contents (XU then1 four).
Proof.
  assert (B : forall p ids, p < 2 -> NoDup ids -> batch desk4 (p, ids, ev_delete)).
  { intros p ids Hp Nd. split; [exact Nd|]. split; [repeat constructor|]. split; [reflexivity|]. destruct p as [|[|p]]; [| |exfalso; inversion Hp as [|? H1]; inversion H1 as [|? H2]; inversion H2]; eexists; (split; [reflexivity|reflexivity]). }
  assert (N1 : forall a : nat, NoDup [a]) by (intro; repeat constructor; intros []).
  assert (N2 : forall a b : nat, a <> b -> NoDup [a; b]) by (intros a b H; constructor; [intros [E|[]]; congruence|apply N1]).
  cbv zeta. split; [repeat apply Forall_cons; try apply Forall_nil; apply B; auto|]. split; [repeat apply Forall_cons; try apply Forall_nil; apply B; auto|]. split.
  - intros p i. split.
    + intros (ids & ev & [E|[E|[]]] & Hi); injection E as <- <- <-; [exists [2; 0], ev_delete|exists [2; 1], ev_delete]; cbn in *; tauto.
    + intros (ids & ev & [E|[E|[E|[]]]] & Hi); injection E as <- <- <-; [exists [2; 1], ev_delete|exists [0; 2], ev_delete|exists [2; 1], ev_delete]; cbn in *; tauto.
  - split; [|split; [|split; calc]].
    + apply (deletes_more Debug 255 3 _ 0 [0; 2] ev_delete _ (XU first0 four)); [do 2 eexists; split; [calc|split; calc]|].
      apply (deletes_more Debug 255 3 _ 1 [2; 1] ev_delete _ (XU then1 four)); [do 2 eexists; split; [calc|split; calc]|constructor].
    + apply (deletes_more Debug 255 3 _ 1 [1] ev_delete _ (XU mixed1 four)); [do 2 eexists; split; [calc|split; calc]|].
      apply (deletes_more Debug 255 3 _ 0 [2; 0] ev_delete _ (XU mixed2 four)); [do 2 eexists; split; [calc|split; calc]|].
      apply (deletes_more Debug 255 3 _ 1 [2; 1] ev_delete _ (XU mixed3 four)); [do 2 eexists; split; [calc|split; calc]|constructor].
Qed.

(** C125.  Such a program clears a consistent table, no row of it and of those that depend on it being deleted, and flushes it; or it deletes all rows of it
    and flushes it.  Neither fails, the program can go on as in C120 after both, clearing leaves no row that deleting does not leave at the same id, and if all
    rows of the tables that depend on it refer to something, both leave the same rows. *)
Theorem C125_clearing :
  forall pr umax fuel heads foreign null rank order, (forall c, total_preorder (order c)) -> (forall p, rank p < fuel) ->
  forall fussy x0, wired rank order (xu_u x0) -> all_new (xu_u x0) -> unmapped x0 -> declared foreign (xu_u x0) ->
  forall x, runs fussy pr umax fuel heads foreign null order x0 x None ->
  forall p t ids es w ev, nth_error (u_tabs (xu_u x)) p = Some t -> t_kind t = Consistent -> none_deleted (xu_u x) p ->
  NoDup ids -> (forall i r, t_get_row t i = Ok r -> In i ids) ->
  plain_removal ev -> nth_error (u_hdl (xu_u x)) (ev_id ev) = Some HDelete -> wipes es -> do_edits pr umax (w_new t) es = Ok w ->
  exists x1 x2, deletes pr umax fuel x p ids ev x1 /\ x_flush pr umax fuel x [] p w ev = Ok x2 /\
    runs fussy pr umax fuel heads foreign null order x0 x1 None /\ runs fussy pr umax fuel heads foreign null order x0 x2 None /\
    (forall c t2 i r, nth_error (u_tabs (xu_u x2)) c = Some t2 -> t_get_row t2 i = Ok r ->
       exists t1, nth_error (u_tabs (xu_u x1)) c = Some t1 /\ t_get_row t1 i = Ok r) /\
    (no_strays null (xu_u x) p -> alike_rows (xu_u x1) (xu_u x2)).
Proof. exact clearing. Qed.
Print Assumptions C125_clearing.

Example C125_clearing_case :
  runs true Debug 255 3 heads refs nothing orders (XU desk four) (XU tight4 four) None /\ none_deleted tight4 0 /\ no_strays nothing tight4 0 /\ wipes es9 /\
  deletes Debug 255 3 (XU tight4 four) 0 [0; 1; 2] ev_delete (XU gone1 four) /\
  (exists t w, nth_error (u_tabs tight4) 0 = Some t /\ do_edits Debug 255 (w_new t) es9 = Ok w /\ x_flush Debug 255 3 (XU tight4 four) [] 0 w ev_delete = Ok (XU gone2 four)) /\
  map rows_in (u_tabs tight4) = [3; 3; 4; 2] /\ map rows_in (u_tabs gone1) = [0; 0; 0; 0] /\ map rows_in (u_tabs gone2) = [0; 0; 0; 0] /\
  map t_len (u_tabs gone1) = [3; 3; 0; 2] /\ map t_len (u_tabs gone2) = [0; 0; 0; 0].
Proof.
  split; [exact tight4_runs|]. split; [apply tight4_full|]. split; [exact tight4_no_strays|]. split; [exact es9_wipes|].
  split; [do 2 eexists; split; [calc|split; calc]|]. split; [do 2 eexists; split; [calc|split; calc]|]. repeat split; calc.
Qed.

(** C125 (refuted without that condition).  A row that refers to nothing is left if all rows of the table it could refer to are deleted, and is lost if that
    table is cleared. *)
Theorem C125_strays_refuted :
  exists x0 x p t ids es w x1 x2,
    wired town_rank orders (xu_u x0) /\ all_new (xu_u x0) /\ unmapped x0 /\ declared refs (xu_u x0) /\ runs true Debug 255 3 heads refs nothing orders x0 x None /\
    nth_error (u_tabs (xu_u x)) p = Some t /\ t_kind t = Consistent /\ none_deleted (xu_u x) p /\ NoDup ids /\ (forall i r, t_get_row t i = Ok r -> In i ids) /\
    plain_removal ev_delete /\ nth_error (u_hdl (xu_u x)) (ev_id ev_delete) = Some HDelete /\ wipes es /\ do_edits Debug 255 (w_new t) es = Ok w /\
    deletes Debug 255 3 x p ids ev_delete x1 /\ x_flush Debug 255 3 x [] p w ev_delete = Ok x2 /\ ~ alike_rows (xu_u x1) (xu_u x2).
Proof.
  exists (XU desk four), (XU desk4 four), 0. eexists. exists [0; 1; 2], es9. eexists. exists (XU left1 four), (XU wipe1 four).
  split; [exact desk_wired|]. split; [exact site_new|]. split; [exact desk_unmapped|]. split; [exact desk_declared|]. split; [exact desk4_runs|].
  split; [calc|]. split; [calc|]. split; [apply desk4_full|]. split; [repeat constructor; cbn; intuition discriminate|].
  split. { intros i r H. destruct i as [|[|[|i]]]; cbn; auto. vm_compute in H. discriminate H. }
  split; [repeat constructor|]. split; [reflexivity|]. split; [exact es9_wipes|]. split; [calc|].
  split; [do 2 eexists; split; [calc|split; calc]|]. split; [calc|].
  intro H. specialize (H 1 _ _ eq_refl eq_refl 3 [VInt 14; VRow 7]).
  vm_compute in H. destruct H as [H _]. specialize (H eq_refl). discriminate H.
Qed.
Print Assumptions C125_strays_refuted.
