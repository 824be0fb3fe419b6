(** Property theorems about programs that change tables and add saved rows, C116. *)
From Coq Require Import List Arith Bool ZArith.
From Verif Require Import Base Column Order RowRange Table SortedTab BagTab TableSpec Hist Events Cascade CascadeSpec CascadeCases
  Cases Extract ExtractSpec ExtractCases IntegritySpec IntegrityCases BackupSpec ImportSpec LifeSpec LifeFacts LifeCases.
Import ListNotations.

(** C116.  As C80, of programs that now and then add rows that were saved, by themselves or by another program (see [importable]):
    every [#[foreign_auto]] reference is always to a row that is there, or is one the program uses for nothing, and the hypotheses about
    the tables of C32-C37 and of C115 hold. *)
Theorem C116_sound :
  forall pr umax fuel heads foreign null rank order, (forall c, total_preorder (order c)) -> (forall p, rank p < fuel) ->
  forall x0 x, wired rank order (xu_u x0) -> all_new (xu_u x0) -> unmapped x0 -> declared foreign (xu_u x0) ->
  grows pr umax fuel heads foreign null order x0 x -> sound null (xu_u x) /\ linked pr umax rank (xu_u x).
Proof. exact grows_sound. Qed.
Print Assumptions C116_sound.
(** C116.  At any time in the life of such a program saved rows can be added: all restores succeed, each of the rows is there, once, with an
    id that had no row, and refers to the copies of the rows it referred to; nothing else changes, and the program may go on. *)
Theorem C116_import :
  forall pr umax fuel heads foreign null rank order, (forall c, total_preorder (order c)) -> (forall p, rank p < fuel) ->
  forall x0 x ps src sel es ev, wired rank order (xu_u x0) -> all_new (xu_u x0) -> unmapped x0 -> declared foreign (xu_u x0) ->
  grows pr umax fuel heads foreign null order x0 x -> importable pr umax heads foreign x ps src sel es ev ->
  exists x' f, restore_all pr umax heads foreign order fuel es ev ps x x' /\ grows pr umax fuel heads foreign null order x0 x' /\
    (forall p, In p ps -> exists d d', nth_error (u_tabs (xu_u x)) p = Some d /\ nth_error (u_tabs (xu_u x')) p = Some d' /\
       added (foreign p) f p (ex_sel (es p)) (src p) d d') /\
    (forall p, ~ In p ps -> nth_error (u_tabs (xu_u x')) p = nth_error (u_tabs (xu_u x)) p).
Proof. exact grows_imports. Qed.
Print Assumptions C116_import.
(** C116.  And at any time rows, restored ones too, can be deleted: every table loses exactly these and those which refer, directly or not,
    to one of them. *)
Theorem C116_removal :
  forall pr umax fuel heads foreign null rank order, (forall c, total_preorder (order c)) -> (forall p, rank p < fuel) ->
  forall x0 x p t ids ev, wired rank order (xu_u x0) -> all_new (xu_u x0) -> unmapped x0 -> declared foreign (xu_u x0) ->
  grows pr umax fuel heads foreign null order x0 x ->
  nth_error (u_tabs (xu_u x)) p = Some t -> t_kind t = Consistent -> Forall (fun i => exists r, t_get_row t i = Ok r) ids -> NoDup ids ->
  plain_removal ev -> nth_error (u_hdl (xu_u x)) (ev_id ev) = Some HDelete ->
  exists w x', do_edits pr umax (w_new t) (map ODelete ids) = Ok w /\ x_flush pr umax fuel x [] p w ev = Ok x' /\
    grows pr umax fuel heads foreign null order x0 x' /\
    forall c tc, nth_error (u_tabs (xu_u x)) c = Some tc ->
      exists tc', nth_error (u_tabs (xu_u x')) c = Some tc' /\ loses (doomed (xu_u x) p ids c) tc tc'.
Proof. exact grows_removal. Qed.
Print Assumptions C116_removal.
Local Ltac calc := vm_compute; reflexivity.
Local Ltac calcs := repeat (split; [calc|]); try calc.
(** Rows 0 and 2 of table 0 are deleted, and with them what refers to them; then they are put back, in the other order. *)
Example C116_case :
  (forall c, total_preorder (orders c)) /\ (forall p, town_rank p < 3) /\ wired town_rank orders site /\ all_new site /\
  unmapped (XU site four) /\ declared refs site /\
  grows Debug 255 3 heads refs nothing orders (XU site four) (XU site5 four) /\
  importable Debug 255 heads refs (XU site5 four) [0; 1; 3] site_at lost kept_rows ev_create /\
  restore_all Debug 255 heads refs orders 3 kept_rows ev_create [0; 1; 3] (XU site5 four) back3 /\
  grows Debug 255 3 heads refs nothing orders (XU site four) back3 /\
  rows_of site4 0 3 = [Some r1; Some r2; Some r3] /\
  rows_of site5 0 3 = [None; Some r2; None] /\
  rows_of (xu_u back3) 0 3 = [Some r3; Some r2; Some r1] /\
  rows_of site4 1 4 = [Some [VInt 10; VRow 0]; Some [VInt 11; VRow 1]; Some [VInt 12; VRow 2]; Some [VInt 14; VRow 7]] /\
  rows_of site5 1 4 = [None; Some [VInt 11; VRow 1]; None; Some [VInt 14; VRow 7]] /\
  rows_of (xu_u back3) 1 4 = [Some [VInt 12; VRow 0]; Some [VInt 11; VRow 1]; Some [VInt 10; VRow 2]; Some [VInt 14; VRow 7]] /\
  rows_of site4 3 2 = [Some [VInt 20; VRow 2]; Some [VInt 21; VRow 1]] /\
  rows_of site5 3 2 = [None; Some [VInt 21; VRow 1]] /\
  rows_of (xu_u back3) 3 2 = [Some [VInt 20; VRow 0]; Some [VInt 21; VRow 1]].
Proof.
  split; [exact orders_ok|]. split; [intro p; unfold town_rank; destruct p as [|[|[|p]]]; repeat constructor|].
  split; [exact site_wired|]. split; [exact site_new|].
  split; [intros p t H; destruct p as [|[|[|[|p]]]]; [reflexivity..|destruct p; discriminate]|]. split; [exact site_declared|].
  split; [apply lives_grows; exact site5_lives|]. split; [exact lost_importable|].
  split; [exists back1; split; [calc|]; exists back2; split; [calc|]; exists back3; split; [calc|reflexivity]|].
  split; [exact back_grows|]. calcs.
Qed.
