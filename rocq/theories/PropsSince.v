(** C121: trackers that are registered later. *)
From Coq Require Import List Arith Bool ZArith Lia.
From Verif Require Import Base Names Column Order RowRange Table SortedTab BagTab TableSpec Hist Events Cascade CascadeSpec CascadeCases Cases Extract ExtractSpec ExtractCases
  BackupSpec IntegritySpec IntegrityCases MirrorSpec MirrorCases ImportSpec LifeSpec LifeCases LiveCases RepushSpec RepushCases ClearSpec ClearCases MixSpec MixFacts MixCases.
Import ListNotations.
Local Ltac calc := vm_compute; reflexivity.

(** C121.  A program as in C120 can register a tracker of a consistent table whenever it holds no lock (unless [live_flush] has forgotten a guard)... *)
Theorem C121_registers :
  forall pr umax fuel heads foreign null rank order, (forall c, total_preorder (order c)) -> (forall p, rank p < fuel) ->
  forall fussy x0 x p t srt f, wired rank order (xu_u x0) -> all_new (xu_u x0) -> unmapped x0 -> declared foreign (xu_u x0) ->
  runs fussy pr umax fuel heads foreign null order x0 x None ->
  nth_error (u_tabs (xu_u x)) p = Some t -> t_kind t = Consistent -> unleaked x [p] ->
  exists x1, x_register_tracker x [] p (TUser srt f) = Ok x1 /\ runs fussy pr umax fuel heads foreign null order x0 x1 None /\ u_tabs (xu_u x1) = u_tabs (xu_u x).
Proof. exact runs_registers. Qed.
Print Assumptions C121_registers.

(** ...and the tracker, writing down [b], the rows that are there then, and keeping book of what it is told from then on ([notes]), has the rows of the table in its
    book, always.  Neither what happened before nor trackers that are registered after it matter. *)
Theorem C121_since :
  forall pr umax fuel heads foreign null rank order, (forall c, total_preorder (order c)) -> (forall p, rank p < fuel) ->
  forall fussy x0 x p srt f x1 t1 b x2 l t2, wired rank order (xu_u x0) -> all_new (xu_u x0) -> unmapped x0 -> declared foreign (xu_u x0) ->
  length (u_trk (xu_u x0)) = length (u_tabs (xu_u x0)) -> runs fussy pr umax fuel heads foreign null order x0 x None ->
  x_register_tracker x [] p (TUser srt f) = Ok x1 -> (forall ev, f ev = true) ->
  nth_error (u_tabs (xu_u x1)) p = Some t1 -> (forall i, In i b <-> exists r, t_get_row t1 i = Ok r) ->
  runs true pr umax fuel heads foreign null order x1 x2 l -> nth_error (u_tabs (xu_u x2)) p = Some t2 ->
  let m := length (u_trackers (xu_u x) p) in
  nth_error (u_trackers (xu_u x2) p) m = Some (TUser srt f) /\
  exists notes, u_log (xu_u x2) = u_log (xu_u x1) ++ notes /\ forall i, In i (fold_left (jot p m) notes b) <-> exists r, t_get_row t2 i = Ok r.
Proof. exact runs_since. Qed.
Print Assumptions C121_since.

(** The tracker comes when rows 0 to 3 of table 1 are there; row 1 goes as it refers to row 1 of table 0, which is deleted; a row comes that gets its id. *)
Example C121_ex :
  (forall c, total_preorder (orders c)) /\ (forall p, town_rank p < 3) /\ wired town_rank orders desk /\ all_new desk /\ unmapped (XU desk four) /\ declared refs desk /\
  length (u_trk desk) = length (u_tabs desk) /\ runs true Debug 255 3 heads refs nothing orders (XU desk four) again3 None /\ unleaked again3 [1] /\
  x_register_tracker again3 [] 1 late_tracker = Ok late1 /\ runs true Debug 255 3 heads refs nothing orders late1 late3 None /\
  length (u_trackers (xu_u again3) 1) = 2 /\ (exists t1, nth_error (u_tabs (xu_u late1)) 1 = Some t1 /\ t_kind t1 = Consistent /\
    forall i, In i [0; 1; 2; 3] <-> exists r, t_get_row t1 i = Ok r) /\
  exists n2 n3, u_log (xu_u late2) = u_log (xu_u late1) ++ n2 /\ fold_left (jot 1 2) n2 [0; 1; 2; 3] = [0; 2; 3] /\
    u_log (xu_u late3) = u_log (xu_u late1) ++ n3 /\ fold_left (jot 1 2) n3 [0; 1; 2; 3] = [0; 2; 3; 1] /\
    rows_of (xu_u late3) 1 5 = [Some [VInt 12; VRow 0]; Some [VInt 15; VRow 0]; Some [VInt 10; VRow 2]; Some [VInt 14; VRow 7]; None].
Proof.
  split; [exact orders_ok|]. split; [exact low|]. split; [exact desk_wired|]. split; [exact site_new|]. split; [exact desk_unmapped|]. split; [exact desk_declared|].
  split; [reflexivity|]. split; [exact again_runs|]. split; [intros p f [<-|[]] E; injection E as <-; reflexivity|]. split; [calc|]. split; [exact late_runs|].
  split; [calc|]. split.
  { eexists. split; [calc|]. split; [calc|]. intro i. split; [intros [<-|[<-|[<-|[<-|[]]]]]; eexists; calc|].
    do 4 (destruct i as [|i]; [cbn; tauto|]). intros [r H]. vm_compute in H. destruct i; discriminate. }
  exists (skipn 26 (u_log (xu_u late2))), (skipn 26 (u_log (xu_u late3))). split; [calc|]. split; [calc|]. split; [calc|]. split; calc.
Qed.
