(** C120: programs that do everything the previous properties are about. *)
From Coq Require Import List Arith Bool ZArith Lia.
From Verif Require Import Base Names Column Order RowRange Table SortedTab BagTab TableSpec Hist Events Cascade CascadeSpec CascadeCases Cases Extract ExtractSpec ExtractCases
  BackupSpec IntegritySpec IntegrityFacts IntegrityCases MirrorSpec MirrorFacts MirrorCases ImportSpec LifeSpec LifeFacts LifeCases LiveSpec LiveCases RepushSpec RepushFacts RepushCases
  ClearSpec ClearFacts ClearCases MixSpec MixFacts MixCases.
Import ListNotations.
Local Ltac calc := vm_compute; reflexivity.

(** C120.  Whatever is mixed, no reference dangles... *)
Theorem C120_sound :
  forall pr umax fuel heads foreign null rank order, (forall c, total_preorder (order c)) -> (forall p, rank p < fuel) ->
  forall fussy x0 x l, wired rank order (xu_u x0) -> all_new (xu_u x0) -> unmapped x0 -> declared foreign (xu_u x0) ->
  runs fussy pr umax fuel heads foreign null order x0 x l -> sound null (xu_u x) /\ linked pr umax rank (xu_u x).
Proof. exact runs_sound. Qed.
Print Assumptions C120_sound.

(** ...and the books of trackers that are there from the start (for others see C121) are right. *)
Theorem C120_mirror :
  forall pr umax fuel heads foreign null rank order, (forall c, total_preorder (order c)) -> (forall p, rank p < fuel) ->
  forall x0 x l, wired rank order (xu_u x0) -> all_new (xu_u x0) -> unmapped x0 -> declared foreign (xu_u x0) -> u_log (xu_u x0) = [] ->
  runs true pr umax fuel heads foreign null order x0 x l ->
  forall q m srt f t, nth_error (u_trackers (xu_u x0) q) m = Some (TUser srt f) -> (forall ev, f ev = true) -> nth_error (u_tabs (xu_u x)) q = Some t ->
  forall i, In i (book q m (u_log (xu_u x))) <-> exists r, t_get_row t i = Ok r.
Proof. exact runs_mirror. Qed.
Print Assumptions C120_mirror.

(** Rows come back, are selected, flushed with and without unlocking, cleared. *)
Example C120_ex :
  (forall c, total_preorder (orders c)) /\ (forall p, town_rank p < 3) /\ wired town_rank orders desk /\ all_new desk /\
  unmapped (XU desk four) /\ declared refs desk /\ u_log desk = [] /\
  runs true Debug 255 3 heads refs nothing orders (XU desk four) mix5 None /\ runs true Debug 255 3 heads refs nothing orders (XU desk four) mix7 None /\
  map lens [again3; fst mix3; fst mix4; mix5; mix6; mix7] = [[3; 4; 1; 2]; [4; 4; 1; 2]; [4; 4; 1; 2]; [4; 4; 1; 2]; [0; 0; 0; 0]; [3; 0; 0; 0]] /\
  map books [again3; mix2; fst mix4; mix5; mix6; mix7] =
    [[[1; 0; 2]; [1; 3; 0; 2]; [1; 0]]; [[1; 0; 2; 1]; [1; 3; 0; 2; 1]; [1; 0; 1]]; [[1; 0; 2; 1]; [1; 3; 0; 2; 1]; [1; 0; 1]];
     [[1; 0; 2; 1; 3]; [1; 3; 0; 2; 1]; [1; 0; 1]]; [[]; []; []]; [[0; 1; 2]; []; []]].
Proof.
  split; [exact orders_ok|]. split; [exact low|]. split; [exact desk_wired|]. split; [exact site_new|]. split; [exact desk_unmapped|]. split; [exact desk_declared|].
  split; [reflexivity|]. split; [exact mix5_runs|]. split; [exact mix7_runs|]. split; calc.
Qed.

(** C120.  Whenever no table is locked such a program can delete rows of a consistent table: these go, with all that refer to them, nothing else,
    and the program may go on. *)
Theorem C120_removal :
  forall pr umax fuel heads foreign null rank order, (forall c, total_preorder (order c)) -> (forall p, rank p < fuel) ->
  forall fussy x0 x, wired rank order (xu_u x0) -> all_new (xu_u x0) -> unmapped x0 -> declared foreign (xu_u x0) ->
  runs fussy pr umax fuel heads foreign null order x0 x None ->
  forall p t ids ev, nth_error (u_tabs (xu_u x)) p = Some t -> t_kind t = Consistent -> Forall (fun i => exists r, t_get_row t i = Ok r) ids -> NoDup ids ->
  plain_removal ev -> nth_error (u_hdl (xu_u x)) (ev_id ev) = Some HDelete ->
  exists w x', do_edits pr umax (w_new t) (map ODelete ids) = Ok w /\ x_flush pr umax fuel x [] p w ev = Ok x' /\
    runs fussy pr umax fuel heads foreign null order x0 x' None /\
    forall c tc, nth_error (u_tabs (xu_u x)) c = Some tc ->
      exists tc', nth_error (u_tabs (xu_u x')) c = Some tc' /\ loses (doomed (xu_u x) p ids c) tc tc'.
Proof. exact runs_removal. Qed.
Print Assumptions C120_removal.

(** It can add saved rows, unless [live_flush] was called on one of the tables after rows had come back; they may refer to each other, and to rows of
    tables that stay ([stays_put]), whose ids are then kept as they are... *)
Theorem C120_import :
  forall pr umax fuel heads foreign null rank order, (forall c, total_preorder (order c)) -> (forall p, rank p < fuel) ->
  forall fussy x0 x, wired rank order (xu_u x0) -> all_new (xu_u x0) -> unmapped x0 -> declared foreign (xu_u x0) ->
  runs fussy pr umax fuel heads foreign null order x0 x None ->
  forall ps src sel es ev, addable pr umax heads foreign null x ps src sel es ev -> unleaked x ps ->
  exists x' f, restore_all pr umax heads foreign order fuel es ev ps x x' /\ runs fussy pr umax fuel heads foreign null order x0 x' None /\
    (forall p, In p ps -> exists d d', nth_error (u_tabs (xu_u x)) p = Some d /\ nth_error (u_tabs (xu_u x')) p = Some d' /\
       added (foreign p) f p (ex_sel (es p)) (src p) d d') /\
    (forall p, ~ In p ps -> nth_error (u_tabs (xu_u x')) p = nth_error (u_tabs (xu_u x)) p) /\
    forall q a, stays_put x ps q -> f q a = a.
Proof. exact runs_imports. Qed.
Print Assumptions C120_import.

(** ...and clear consistent tables as in C119. *)
Theorem C120_clears :
  forall pr umax fuel heads foreign null rank order, (forall c, total_preorder (order c)) -> (forall p, rank p < fuel) ->
  forall fussy x0 x, wired rank order (xu_u x0) -> all_new (xu_u x0) -> unmapped x0 -> declared foreign (xu_u x0) ->
  runs fussy pr umax fuel heads foreign null order x0 x None ->
  forall p t es w ev, nth_error (u_tabs (xu_u x)) p = Some t -> t_kind t = Consistent -> none_deleted (xu_u x) p -> plain_removal ev ->
  nth_error (u_hdl (xu_u x)) (ev_id ev) = Some HDelete -> wipes es -> do_edits pr umax (w_new t) es = Ok w ->
  exists x', x_flush pr umax fuel x [] p w ev = Ok x' /\ runs fussy pr umax fuel heads foreign null order x0 x' None /\
    forall c tc, nth_error (u_tabs (xu_u x)) c = Some tc -> exists tc', nth_error (u_tabs (xu_u x')) c = Some tc' /\
      (c = p \/ downstream (xu_u x) p c -> t_len tc' = 0 /\ forall i r, t_get_row tc' i <> Ok r) /\ (~ (c = p \/ downstream (xu_u x) p c) -> tc' = tc).
Proof. exact runs_clears. Qed.
Print Assumptions C120_clears.

Example C120_cases :
  runs true Debug 255 3 heads refs nothing orders (XU desk four) (XU desk5 four) None /\
  addable Debug 255 heads refs nothing (XU desk5 four) [0; 1; 3] site_at lost kept_rows ev_create /\ unleaked (XU desk5 four) [0; 1; 3] /\
  none_deleted (xu_u mix5) 0 /\ wipes es9 /\ plain_removal ev_delete /\
  exists t, nth_error (u_tabs (xu_u mix5)) 0 = Some t /\ t_kind t = Consistent /\ Forall (fun i => exists r, t_get_row t i = Ok r) [3; 0] /\
    nth_error (u_hdl (xu_u mix5)) (ev_id ev_delete) = Some HDelete /\ exists w, do_edits Debug 255 (w_new t) es9 = Ok w.
Proof.
  split.
  { apply (grows_runs Debug 255 3 heads refs nothing town_rank orders orders_ok low (XU desk four) (XU desk5 four) desk_wired site_new desk_unmapped desk_declared).
    apply tended_tidily. exact desk5_tended. }
  split.
  { apply importable_addable; [|exact again_importable]. intros p t H. destruct p as [|[|[|[|p]]]]; [eexists; split; reflexivity..|destruct p; discriminate]. }
  split.
  { intros p f [<-|[<-|[<-|[]]]] E; injection E as <-; reflexivity. }
  split; [apply mix5_full|]. split; [exact es9_wipes|]. split; [repeat constructor|]. eexists. split; [calc|]. split; [calc|]. split.
  { repeat constructor; eexists; calc. }
  split; [calc|]. eexists. calc.
Qed.

Example C120_import_case :
  runs true Debug 255 3 heads refs nothing orders (XU desk four) fixed0 None /\
  addable Debug 255 heads refs nothing fixed0 [1; 3] site_at lost kept_rows ev_create /\ unleaked fixed0 [1; 3] /\ stays_put fixed0 [1; 3] 0 /\
  restore_all Debug 255 heads refs orders 3 kept_rows ev_create [1; 3] fixed0 twice2 /\ lens fixed0 = [3; 4; 4; 2] /\ lens twice2 = [3; 6; 4; 3].
Proof.
  split; [exact fixed0_runs|]. split; [exact fixed0_addable|]. split; [intros p f [<-|[<-|[]]] E; injection E as <-; reflexivity|]. split; [exact fixed0_stays|].
  split; [exists twice1; split; [calc|]; exists twice2; split; [calc|reflexivity]|]. split; calc.
Qed.

(** C120.  Programs of C118 and C119 are among these, and so are those of C117. *)
Theorem C120_includes :
  forall pr umax fuel heads foreign null rank order, (forall c, total_preorder (order c)) -> (forall p, rank p < fuel) ->
  (forall fussy u0 fl u, sweeps fussy pr umax fuel null order u0 u -> runs fussy pr umax fuel heads foreign null order (XU u0 fl) (XU u fl) None) /\
  (forall fussy u0 fl u l, wired rank order u0 -> all_new u0 -> unmapped (XU u0 fl) -> works fussy pr umax fuel null order u0 u l ->
     runs fussy pr umax fuel heads foreign null order (XU u0 fl) (XU u fl) l) /\
  (forall x0 x, wired rank order (xu_u x0) -> all_new (xu_u x0) -> unmapped x0 -> declared foreign (xu_u x0) ->
     grows_tidily pr umax fuel heads foreign null order x0 x -> runs true pr umax fuel heads foreign null order x0 x None).
Proof. exact runs_include. Qed.
Print Assumptions C120_includes.
Example C120_includes_case :
  sweeps true Debug 255 3 nothing orders desk wipe3 /\ works true Debug 255 3 nothing orders desk (fst lf7) (Some (0, snd lf7)) /\
  grows_tidily Debug 255 3 heads refs nothing orders (XU desk four) again3.
Proof. split; [exact wipe3_sweeps|]. split; [exact lf7_works|exact again_tidily]. Qed.

(** C120 (refuted).  After [live_flush] of a table that rows had come back to, no more can be added: the program waits for itself forever. *)
Theorem C120_leaked_refuted :
  exists x ps src sel es ev, runs true Debug 255 3 heads refs nothing orders (XU desk four) x None /\
    addable Debug 255 heads refs nothing x ps src sel es ev /\ (exists p, hd_error ps = Some p /\ restore Debug 255 heads refs orders 3 x [] p (es p) ev = Err EDeadlock) /\
    forall x', ~ restore_all Debug 255 heads refs orders 3 es ev ps x x'.
Proof. exact mix_leaked. Qed.
Print Assumptions C120_leaked_refuted.
