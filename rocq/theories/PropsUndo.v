(** C122, C123: what was deleted can be brought back. *)
From Coq Require Import List Arith Bool ZArith.
From Verif Require Import Base Names Column Order RowRange Table Visit SortedTab BagTab TableSpec Hist Cases Events Cascade
  CascadeSpec CascadeFacts CascadeCases Extract ExtractSpec ExtractCases IntegritySpec IntegrityFacts IntegrityCases MirrorSpec MirrorCases BackupSpec ImportSpec
  LifeSpec LifeFacts LifeCases LiveCases RepushSpec RepushCases ClearSpec ClearCases MixSpec MixFacts MixCases UndoSpec UndoFacts UndoCases.
Import ListNotations.
Local Ltac calc := vm_compute; reflexivity.

(** C122.  A program of C120, no table being locked, saves the rows that deleting rows [ids] of table [p] takes with it, deletes them, and restores what it
    saved, one table after another, the tables that are referred to first.  Nothing fails, the program can go on as in C120, and it has the rows it had, at
    other ids perhaps: every column that refers to them follows.  Rows that were not deleted stay where they are. *)
Theorem C122_undo :
  forall pr umax fuel heads foreign null rank order, (forall c, total_preorder (order c)) -> (forall p, rank p < fuel) ->
  forall fussy x0 x, wired rank order (xu_u x0) -> all_new (xu_u x0) -> unmapped x0 -> declared foreign (xu_u x0) ->
  runs fussy pr umax fuel heads foreign null order x0 x None ->
  forall p t ids ev ev' ps sel, nth_error (u_tabs (xu_u x)) p = Some t -> t_kind t = Consistent -> Forall (fun i => exists r, t_get_row t i = Ok r) ids -> NoDup ids ->
  plain_removal ev -> nth_error (u_hdl (xu_u x)) (ev_id ev) = Some HDelete -> handled_by_nothing (xu_u x) ev' ->
  cascading foreign (xu_u x) -> covers x (doomed (xu_u x) p ids) ps sel -> in_order_but (stays_put x ps) foreign ps -> self_contained foreign x (doomed (xu_u x) p ids) ps ->
  exists es w x1 x2 f,
    (forall c, In c ps -> exists tc, nth_error (u_tabs (xu_u x)) c = Some tc /\ extract_selection pr (heads c) tc (SThese (sel c)) = Ok (es c)) /\
    do_edits pr umax (w_new t) (map ODelete ids) = Ok w /\ x_flush pr umax fuel x [] p w ev = Ok x1 /\
    restore_all pr umax heads foreign order fuel es ev' ps x1 x2 /\
    runs fussy pr umax fuel heads foreign null order x0 x2 None /\
    renumbered foreign f (xu_u x) (xu_u x2) /\ forall c i, ~ doomed (xu_u x) p ids c i -> f c i = i.
Proof. exact undo. Qed.
Print Assumptions C122_undo.

Example C122_undo_case :
  runs true Debug 255 3 heads refs nothing orders (XU desk four) (XU bare four) None /\
  Forall (fun i => exists r, t_get_row (nth 0 (u_tabs bare) (t_new (sch Consistent))) i = Ok r) [2; 0] /\
  plain_removal ev_delete /\ nth_error (u_hdl bare) (ev_id ev_delete) = Some HDelete /\ handled_by_nothing bare ev_create /\
  cascading refs bare /\ covers (XU bare four) (doomed bare 0 [2; 0]) [0; 1; 3] these /\
  in_order_but (stays_put (XU bare four) [0; 1; 3]) refs [0; 1; 3] /\ self_contained refs (XU bare four) (doomed bare 0 [2; 0]) [0; 1; 3] /\
  contents (XU bare four) =
    [[Ok [VInt 1; VInt 5]; Ok [VInt 2; VInt 5]; Ok [VInt 3; VInt 6]];
     [Ok [VInt 10; VRow 0]; Ok [VInt 11; VRow 1]; Ok [VInt 12; VRow 2]; Ok [VInt 14; VRow 7]]; [];
     [Ok [VInt 20; VRow 2]; Ok [VInt 21; VRow 1]]] /\
  contents undo1 =
    [[panic PDeletedRow; Ok [VInt 2; VInt 5]; panic PDeletedRow];
     [panic PDeletedRow; Ok [VInt 11; VRow 1]; panic PDeletedRow; Ok [VInt 14; VRow 7]]; [];
     [panic PDeletedRow; Ok [VInt 21; VRow 1]]] /\
  contents undo2 =
    [[Ok [VInt 3; VInt 6]; Ok [VInt 2; VInt 5]; Ok [VInt 1; VInt 5]];
     [Ok [VInt 12; VRow 0]; Ok [VInt 11; VRow 1]; Ok [VInt 10; VRow 2]; Ok [VInt 14; VRow 7]]; [];
     [Ok [VInt 20; VRow 0]; Ok [VInt 21; VRow 1]]].
Proof.
  split; [exact bare_runs|]. split; [repeat constructor; eexists; calc|]. split; [repeat constructor|]. split; [reflexivity|]. split; [split; calc|].
  split; [apply desk_cascading; reflexivity|]. split; [exact bare_covers|]. split; [exact bare_order|]. split; [exact bare_self|]. split; [calc|]. split; calc.
Qed.
(** Table 0 stays, and is not all that refers to it lost either. *)
Example C122_stays_case :
  runs true Debug 255 3 heads refs nothing orders (XU desk four) fixed0 None /\
  cascading refs desk4 /\ covers fixed0 (doomed desk4 1 [2; 0]) [1; 3] these /\
  in_order_but (stays_put fixed0 [1; 3]) refs [1; 3] /\ self_contained refs fixed0 (doomed desk4 1 [2; 0]) [1; 3] /\
  lens fixed0 = [3; 4; 4; 2] /\ map rows_in (u_tabs (xu_u fixed0)) = [3; 4; 4; 2] /\ map rows_in (u_tabs (xu_u redo1)) = [3; 2; 4; 1] /\
  map rows_in (u_tabs (xu_u redo2)) = [3; 4; 4; 2] /\
  nth 1 (contents redo2) [] = [Ok [VInt 12; VRow 2]; Ok [VInt 11; VRow 1]; Ok [VInt 10; VRow 0]; Ok [VInt 14; VRow 7]] /\
  nth 3 (contents redo2) [] = [Ok [VInt 20; VRow 0]; Ok [VInt 21; VRow 1]].
Proof.
  split; [exact fixed0_runs|]. split; [apply desk_cascading; reflexivity|]. split; [apply (fixed0_covers (xu_fl fixed0)); left; reflexivity|].
  split; [apply fixed0_order; exact fixed0_stays|]. split; [exact (fixed0_self (stays_put fixed0 [1; 3]) fixed0_stays)|].
  split; [calc|]. split; [calc|]. split; [calc|]. split; [calc|]. split; calc.
Qed.

(** C122 (refuted).  That the tables that stay be told to remap ids to themselves is needed: rows that refer to rows that are still there cannot be brought back
    otherwise, the program panics. *)
Theorem C122_stays_refuted :
  exists x p t ids ev ev' ps sel w x1 c,
    runs true Debug 255 3 heads refs nothing orders (XU desk four) x None /\
    nth_error (u_tabs (xu_u x)) p = Some t /\ t_kind t = Consistent /\ Forall (fun i => exists r, t_get_row t i = Ok r) ids /\ NoDup ids /\
    plain_removal ev /\ nth_error (u_hdl (xu_u x)) (ev_id ev) = Some HDelete /\ handled_by_nothing (xu_u x) ev' /\
    cascading refs (xu_u x) /\ covers x (doomed (xu_u x) p ids) ps sel /\ in_order_but (fun q => ~ In q ps) refs ps /\
    (forall c k q i t r, doomed (xu_u x) p ids c i -> nth_error (u_tabs (xu_u x)) c = Some t -> t_get_row t i = Ok r -> In (k, q) (refs c) ->
       exists a, nth_error r k = Some (VRow a) /\ (doomed (xu_u x) p ids q a \/ ~ In q ps)) /\
    do_edits Debug 255 (w_new t) (map ODelete ids) = Ok w /\ x_flush Debug 255 3 x [] p w ev = Ok x1 /\ hd_error ps = Some c /\
    exists tc e, nth_error (u_tabs (xu_u x)) c = Some tc /\ extract_selection Debug (heads c) tc (SThese (sel c)) = Ok e /\
      restore Debug 255 heads refs orders 3 x1 [] c e ev' = Err (EPanic PNoRemap).
Proof. exact undo_refused. Qed.
Print Assumptions C122_stays_refuted.

(** C123.  The same for a table that is cleared, with all tables that refer to it: the program saves their rows, clears the table as in C119, and restores
    what it saved. *)
Theorem C123_refill :
  forall pr umax fuel heads foreign null rank order, (forall c, total_preorder (order c)) -> (forall p, rank p < fuel) ->
  forall fussy x0 x, wired rank order (xu_u x0) -> all_new (xu_u x0) -> unmapped x0 -> declared foreign (xu_u x0) ->
  runs fussy pr umax fuel heads foreign null order x0 x None ->
  forall p t es0 w ev ev' ps sel, nth_error (u_tabs (xu_u x)) p = Some t -> t_kind t = Consistent -> none_deleted (xu_u x) p ->
  plain_removal ev -> nth_error (u_hdl (xu_u x)) (ev_id ev) = Some HDelete -> wipes es0 -> do_edits pr umax (w_new t) es0 = Ok w -> handled_by_nothing (xu_u x) ev' ->
  cascading foreign (xu_u x) -> covers x (wiped (xu_u x) p) ps sel -> in_order_but (stays_put x ps) foreign ps -> self_contained foreign x (wiped (xu_u x) p) ps ->
  exists es x1 x2 f,
    (forall c, In c ps -> exists tc, nth_error (u_tabs (xu_u x)) c = Some tc /\ extract_selection pr (heads c) tc (SThese (sel c)) = Ok (es c)) /\
    x_flush pr umax fuel x [] p w ev = Ok x1 /\
    restore_all pr umax heads foreign order fuel es ev' ps x1 x2 /\
    runs fussy pr umax fuel heads foreign null order x0 x2 None /\
    renumbered foreign f (xu_u x) (xu_u x2) /\ forall c i, ~ wiped (xu_u x) p c i -> f c i = i.
Proof. exact refill. Qed.
Print Assumptions C123_refill.

Example C123_refill_case :
  runs true Debug 255 3 heads refs nothing orders (XU desk four) fixed0 None /\ none_deleted desk4 1 /\
  plain_removal ev_delete /\ nth_error (u_hdl desk4) (ev_id ev_delete) = Some HDelete /\ wipes es9 /\
  (exists w, do_edits Debug 255 (w_new (nth 1 (u_tabs desk4) (t_new (sch Consistent)))) es9 = Ok w) /\ handled_by_nothing desk4 ev_create /\
  cascading refs desk4 /\ covers fixed0 (wiped desk4 1) [1; 3] all_of /\ in_order_but (stays_put fixed0 [1; 3]) refs [1; 3] /\
  self_contained refs fixed0 (wiped desk4 1) [1; 3] /\
  map rows_in (u_tabs (xu_u fixed0)) = [3; 4; 4; 2] /\ map rows_in (u_tabs (xu_u refill1)) = [3; 0; 4; 0] /\
  nth 1 (contents fixed0) [] = [Ok [VInt 10; VRow 0]; Ok [VInt 11; VRow 1]; Ok [VInt 12; VRow 2]; Ok [VInt 14; VRow 7]] /\
  nth 3 (contents fixed0) [] = [Ok [VInt 20; VRow 2]; Ok [VInt 21; VRow 1]] /\
  nth 1 (contents refill2) [] = [Ok [VInt 14; VRow 7]; Ok [VInt 11; VRow 1]; Ok [VInt 10; VRow 0]; Ok [VInt 12; VRow 2]] /\
  nth 3 (contents refill2) [] = [Ok [VInt 21; VRow 1]; Ok [VInt 20; VRow 3]].
Proof.
  split; [exact fixed0_runs|]. split; [apply desk4_full|]. split; [repeat constructor|]. split; [reflexivity|]. split; [exact es9_wipes|].
  split; [eexists; calc|]. split; [split; calc|]. split; [apply desk_cascading; reflexivity|]. split; [exact fixed0_covers_all|].
  split; [apply fixed0_order; exact fixed0_stays|]. split; [exact fixed0_self_all|]. split; [calc|]. split; [calc|]. split; [calc|]. split; [calc|]. split; calc.
Qed.
