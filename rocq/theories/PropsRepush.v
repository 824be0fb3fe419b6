(** C117: restoring is pushing. *)
From Coq Require Import List Arith Bool ZArith.
From Verif Require Import Base Names Column Order RowRange Table SortedTab BagTab TableSpec Hist Events Cascade CascadeSpec CascadeCases Cases Extract ExtractSpec
  ExtractCases BackupSpec IntegritySpec IntegrityCases MirrorSpec MirrorCases ImportSpec LifeSpec LifeCases RepushSpec RepushFacts RepushCases.
Import ListNotations.

(** C117.  A restoration that succeeds, whatever is restored and whatever the state of the universe, does to all tables, and tells all trackers,
    what a session does that pushes the saved rows, their foreign keys remapped, one after the other and flushes.  (Tables that are not sorted.) *)
Theorem C117_pushes :
  forall pr umax heads foreign order fuel x h p t e ev x', NoDup (map fst (foreign p)) -> nth_error (u_tabs (xu_u x)) p = Some t -> t_kind t <> Sorted ->
  restore pr umax heads foreign order fuel x h p e ev = Ok (x', None) ->
  exists rows rows' w, rows_saved e rows /\ Forall2 (remapped (foreign p) (xu_fl x)) rows rows' /\
    do_edits pr umax (w_new t) (map OPush rows') = Ok w /\ flush pr umax fuel (xu_u x) h p w ev = Ok (xu_u x').
Proof. exact pushes. Qed.
Print Assumptions C117_pushes.
(** C117.  And if such a session succeeds, so does the restoration, provided the extraction is of such a table and the locks are to be had:
    that of the table, those of the tables referred to, for reading, and that of the trackers. *)
Theorem C117_restores :
  forall pr umax heads foreign order fuel x h p t e ev f rows rows' w u', NoDup (map fst (foreign p)) ->
  nth_error (u_tabs (xu_u x)) p = Some t -> t_kind t <> Sorted ->
  ex_head e = heads p -> can_write h p = true -> (forall k q, In (k, q) (foreign p) -> can_read ((p, true) :: h) q = true) ->
  nth_error (xu_fl x) p = Some f -> fs_leaked f = 0 ->
  rows_saved e rows -> Forall2 (remapped (foreign p) (xu_fl x)) rows rows' ->
  do_edits pr umax (w_new t) (map OPush rows') = Ok w -> flush pr umax fuel (xu_u x) h p w ev = Ok u' ->
  exists fl', restore pr umax heads foreign order fuel x h p e ev = Ok (XU u' fl', None) /\ forall q, q <> p -> nth_error fl' q = nth_error (xu_fl x) q.
Proof. exact restores. Qed.
Print Assumptions C117_restores.
(** C117.  To a sorted table the rows are merged, as they were saved (see C43). *)
Theorem C117_merges :
  forall pr umax heads foreign order fuel x h p t e ev x', nth_error (u_tabs (xu_u x)) p = Some t -> t_kind t = Sorted -> u_trackers (xu_u x) p = [] ->
  restore pr umax heads foreign order fuel x h p e ev = Ok (x', None) ->
  exists rows w, rows_saved e rows /\ do_edits pr umax (w_new t) [OMerge (order p) rows] = Ok w /\ flush pr umax fuel (xu_u x) h p w ev = Ok (xu_u x').
Proof. exact restore_merges. Qed.
Print Assumptions C117_merges.
(** C117.  So C83 holds of programs that now and then add saved rows, as in C116: a tracker that considers every event and keeps book of what it
    is told has, after every session and every addition, exactly the rows of its table in its book. *)
Theorem C117_mirror :
  forall pr umax fuel heads foreign null rank order, (forall c, total_preorder (order c)) -> (forall p, rank p < fuel) ->
  forall x0 x, wired rank order (xu_u x0) -> all_new (xu_u x0) -> unmapped x0 -> declared foreign (xu_u x0) -> u_log (xu_u x0) = [] ->
  grows_tidily pr umax fuel heads foreign null order x0 x ->
  forall q m srt f t, nth_error (u_trackers (xu_u x) q) m = Some (TUser srt f) -> (forall ev, f ev = true) -> nth_error (u_tabs (xu_u x)) q = Some t ->
  forall i, In i (book q m (u_log (xu_u x))) <-> exists r, t_get_row t i = Ok r.
Proof. exact grows_mirror. Qed.
Print Assumptions C117_mirror.

Local Ltac calc := vm_compute; reflexivity.
Local Ltac calcs := repeat (split; [calc|]); try calc.
(** Rows 2 and 0 of table 1 are restored after those of table 0 they refer to, which now have ids 0 and 2: they are pushed with these. *)
Definition remade : list row := [[VInt 12; VRow 0]; [VInt 10; VRow 2]].
Example C117_case :
  NoDup (map fst (refs 1)) /\ restore Debug 255 heads refs orders 3 again1 [] 1 (kept_rows 1) ev_create = Ok (again2, None) /\
  rows_saved (kept_rows 1) [[VInt 12; VRow 2]; [VInt 10; VRow 0]] /\
  Forall2 (remapped (refs 1) (xu_fl again1)) [[VInt 12; VRow 2]; [VInt 10; VRow 0]] remade /\
  ex_head (kept_rows 1) = heads 1 /\ can_write [] 1 = true /\ (forall k q, In (k, q) (refs 1) -> can_read [(1, true)] q = true) /\
  exists t f w, nth_error (u_tabs (xu_u again1)) 1 = Some t /\ t_kind t <> Sorted /\ nth_error (xu_fl again1) 1 = Some f /\ fs_leaked f = 0 /\
    do_edits Debug 255 (w_new t) (map OPush remade) = Ok w /\ flush Debug 255 3 (xu_u again1) [] 1 w ev_create = Ok (xu_u again2).
Proof.
  split; [repeat constructor; intros []|]. split; [calc|]. split.
  { split; [calc|]. intros n r E. destruct n as [|[|[|n]]]; try discriminate E; injection E as <-; (split; [calc|]); intros k c Ek; destruct k as [|[|[|k]]]; try discriminate Ek; vm_compute in Ek; injection Ek as <-; calc. }
  split.
  { repeat constructor; try (intros [|[|k]] Nf; [reflexivity|elim Nf; exists 0; left; reflexivity|destruct k; reflexivity]);
      intros k q [[= <- <-]|[]]; do 3 eexists; (split; [calc|]); (split; [calc|]); (split; [calc|]); calc. }
  split; [calc|]. split; [calc|]. split; [intros k q [[= <- <-]|[]]; calc|].
  do 3 eexists. split; [calc|]. split; [discriminate|]. split; [calc|]. split; [calc|]. split; calc.
Qed.
(** The rows of the sorted table 2, as it was before, are restored beside the one still there; two of them refer to row 0 and one to row 2
    of table 0, as if these were still the same rows. *)
Definition all_2 : extraction := got (extract_selection Debug (heads 2) (site_at 2) SAll).
Definition were_2 : list row := [[VRow 0; VInt 1]; [VRow 0; VInt 2]; [VRow 1; VInt 3]; [VRow 2; VInt 4]].
Example C117_merges_case :
  exists t x' w, nth_error (u_tabs (xu_u again1)) 2 = Some t /\ t_kind t = Sorted /\ u_trackers (xu_u again1) 2 = [] /\
    restore Debug 255 heads refs orders 3 again1 [] 2 all_2 ev_create = Ok (x', None) /\ rows_saved all_2 were_2 /\
    do_edits Debug 255 (w_new t) [OMerge (orders 2) were_2] = Ok w /\ flush Debug 255 3 (xu_u again1) [] 2 w ev_create = Ok (xu_u x') /\
    rows_of (xu_u again1) 2 2 = [Some [VRow 1; VInt 3]; None] /\
    rows_of (xu_u x') 2 6 = [Some [VRow 0; VInt 1]; Some [VRow 0; VInt 2]; Some [VRow 1; VInt 3]; Some [VRow 1; VInt 3]; Some [VRow 2; VInt 4]; None].
Proof.
  do 3 eexists. split; [calc|]. split; [calc|]. split; [calc|]. split; [calc|]. split; [|calcs].
  split; [calc|]. intros n r E. destruct n as [|[|[|[|[|n]]]]]; try discriminate E; injection E as <-; (split; [calc|]); intros k c Ek; destruct k as [|[|[|k]]]; try discriminate Ek;
    vm_compute in Ek; injection Ek as <-; calc.
Qed.
(** After the deletion and after each restoration the books name the rows there are. *)
Example C117_mirror_case :
  (forall c, total_preorder (orders c)) /\ (forall p, town_rank p < 3) /\ wired town_rank orders desk /\ all_new desk /\
  unmapped (XU desk four) /\ declared refs desk /\ u_log desk = [] /\
  grows_tidily Debug 255 3 heads refs nothing orders (XU desk four) (XU desk5 four) /\
  grows_tidily Debug 255 3 heads refs nothing orders (XU desk four) again3 /\
  nth_error (u_trackers (xu_u again3) 1) 0 = Some (TUser true (fun _ => true)) /\
  map (fun q => book (fst q) (snd q) (u_log desk5)) [(0, 1); (1, 0); (3, 0)] = [[1]; [1; 3]; [1]] /\
  map (fun q => book (fst q) (snd q) (u_log (xu_u again2))) [(0, 1); (1, 0); (3, 0)] = [[1; 0; 2]; [1; 3; 0; 2]; [1]] /\
  map (fun q => book (fst q) (snd q) (u_log (xu_u again3))) [(0, 1); (1, 0); (3, 0)] = [[1; 0; 2]; [1; 3; 0; 2]; [1; 0]] /\
  rows_of (xu_u again3) 1 5 = [Some [VInt 12; VRow 0]; Some [VInt 11; VRow 1]; Some [VInt 10; VRow 2]; Some [VInt 14; VRow 7]; None].
Proof.
  split; [exact orders_ok|]. split; [intros [|[|p]]; repeat constructor|]. split; [exact desk_wired|]. split; [exact site_new|].
  split; [intros p t H; destruct p as [|[|[|[|p]]]]; [reflexivity..|destruct p; discriminate]|]. split; [exact desk_declared|]. split; [reflexivity|].
  split; [apply tended_tidily; exact desk5_tended|]. split; [exact again_tidily|]. split; [reflexivity|].
  calcs.
Qed.
