(** C82: what deletion removes while other threads run. *)
From Coq Require Import List Arith Bool ZArith Lia.
From Verif Require Import Base Names Column Order RowRange Table SortedTab TableSpec Hist Cases Events Cascade CascadeSpec CascadeCases Extract ExtractSpec
  ExtractCases Threads ThreadSpec ThreadSeq ThreadFacts ThreadSafe ThreadReads ThreadCases Poison PoisonSpec PoisonFacts PoisonCases ThreadApart SpoilFacts.
Import ListNotations.

(** C82, if other threads keep off the tables.  A thread deletes rows and flushes; no other thread uses the table, or tables that depend on
    it.  If it comes to an end, then well, and the tables have lost exactly the rows deleted and the rows that refer to them, directly or not. *)
Theorem C82_apart_partial : forall pr umax heads foreign order fuel x tss (ss : nat -> nat -> Prop) d rank,
  made pr umax (xu_u x) -> (forall p t, nth_error (u_tabs (xu_u x)) p = Some t -> pr = Debug \/ t_kind t <> Bag) -> Forall (Forall (top_ty (xu_u x))) tss ->
  (forall i j p, ss i p -> ss j p -> i = j) -> (forall i, self_contained (ss i) (xu_u x)) ->
  (forall i ops, nth_error tss i = Some ops -> Forall (uses_only foreign (ss i)) ops) ->
  crowd_steps (begun x (map (p_run pr umax heads foreign order fuel) tss)) d ->
  linked pr umax rank (xu_u x) ->
  forall i p t ids ev g r, nth_error tss i = Some [TDo (XFlush p (map ODelete ids) ev)] -> rank p < fuel ->
  nth_error (u_tabs (xu_u x)) p = Some t -> t_kind t = Consistent -> sane pr umax (t_sch t) (Free t) ->
  Forall (fun i => t_contains t i = true) ids -> NoDup ids -> plain_removal ev -> nth_error (u_hdl (xu_u x)) (ev_id ev) = Some HDelete ->
  nth_error (th_ts (cr_c d)) i = Some (g, Ret r) ->
  r = Ok tt /\ forall c tc tc', ss i c -> nth_error (u_tabs (xu_u x)) c = Some tc -> nth_error (u_tabs (xu_u (th_x (cr_c d)))) c = Some tc' ->
    loses (doomed (xu_u x) p ids c) tc tc'.
Proof. exact apart_deletes. Qed.
Print Assumptions C82_apart_partial.

(** Tables 1 and 2 depend on table 0, table 3 is on its own and a thread pushes to it. *)
Definition calm_town := XU (Uni (u_tabs town) [[TAuto 1 1 false; TAuto 2 0 true]; []; []; []] default_handlers []) [fs_new; fs_new; fs_new; fs_new].
Definition calm_threads := [[TDo (XFlush 0 (map ODelete [1; 0]) ev_delete)]; [TDo (XFlush 3 [OPush [VInt 22; VRow 0]] ev_create)]].
Definition calm_part (i p : nat) : Prop := (i = 0 /\ p < 3) \/ (i = 1 /\ p = 3).
Definition calm_end := cschedule [(0, 9); (1, 3); (0, 9); (1, 99); (0, 99)] (begun calm_town (map (p_run Debug 255 heads foreign order 3) calm_threads)).
Definition shows (x : xuni) (p : nat) : list (res row) :=
  match nth_error (u_tabs (xu_u x)) p with Some t => map (t_get_row t) (seq 0 (t_len t)) | None => [] end.
Lemma calm_trackers q c k key : In (TAuto c k key) (u_trackers (xu_u calm_town) q) ->
  (q, c, k, key) = (0, 1, 1, false) \/ (q, c, k, key) = (0, 2, 0, true).
Proof. destruct q as [|[|[|[|q]]]]; cbn; try contradiction; [intros [[= <- <- <-]|[[= <- <- <-]|[]]]; auto|destruct q; contradiction]. Qed.
Example C82_apart_case : made Debug 255 (xu_u calm_town) /\ Forall (Forall (top_ty (xu_u calm_town))) calm_threads /\
  (forall i j p, calm_part i p -> calm_part j p -> i = j) /\ (forall i, self_contained (calm_part i) (xu_u calm_town)) /\
  (forall i ops, nth_error calm_threads i = Some ops -> Forall (uses_only foreign (calm_part i)) ops) /\
  crowd_steps (begun calm_town (map (p_run Debug 255 heads foreign order 3) calm_threads)) calm_end /\
  linked Debug 255 town_rank (xu_u calm_town) /\ nth_error calm_threads 0 = Some [TDo (XFlush 0 (map ODelete [1; 0]) ev_delete)] /\ town_rank 0 < 3 /\
  (exists t, nth_error (u_tabs (xu_u calm_town)) 0 = Some t /\ t_kind t = Consistent /\ sane Debug 255 (t_sch t) (Free t) /\
    Forall (fun i => t_contains t i = true) [1; 0]) /\ NoDup [1; 0] /\ plain_removal ev_delete /\
  nth_error (u_hdl (xu_u calm_town)) (ev_id ev_delete) = Some HDelete /\
  (exists g, nth_error (th_ts (cr_c calm_end)) 0 = Some (g, Ret (Ok tt))) /\
  shows calm_town 2 = map Ok [[VRow 0; VInt 1]; [VRow 0; VInt 2]; [VRow 1; VInt 3]; [VRow 2; VInt 4]] /\
  shows (th_x (cr_c calm_end)) 2 = map Ok [[VRow 2; VInt 4]].
Proof.
  split; [exact town_made|]. split.
  { unfold calm_threads. repeat match goal with |- Forall _ (_ :: _) => constructor | |- Forall _ [] => constructor end; intros t [= <-]; repeat constructor; cbn; eauto. }
  split; [unfold calm_part; intros; lia|]. split.
  { intros i q c k key Hq H. apply calm_trackers in H. destruct H as [[= -> -> -> ->]|[= -> -> -> ->]]; unfold calm_part in *; lia. }
  split.
  { intros [|[|i]] ops; cbn; [intros [= <-]|intros [= <-]|destruct i; discriminate]; repeat constructor; unfold calm_part; cbn; lia. }
  split; [apply cschedule_steps|]. split.
  { split; [|intros q t Hq K; destruct q as [|[|[|[|q]]]]; inversion Hq; subst; try (elim K; reflexivity); try reflexivity; destruct q; discriminate].
    intros q c k key H. apply calm_trackers in H. destruct H as [[= -> -> -> ->]|[= -> -> -> ->]]; (split; [repeat constructor|]).
    - apply (proj2 (proj1 town_linked 0 1 1 false ltac:(left; reflexivity))).
    - apply (proj2 (proj1 town_linked 0 2 0 true ltac:(right; right; left; reflexivity))). }
  split; [reflexivity|]. split; [repeat constructor|]. split.
  { eexists. split; [reflexivity|]. split; [reflexivity|]. split; [change (t_sch _) with (sch Consistent); sane_by three|repeat constructor]. }
  split; [repeat constructor; cbn; intuition discriminate|]. split; [repeat constructor|]. split; [reflexivity|].
  split; [eexists; vm_compute; reflexivity|]. calcs.
Qed.
Print Assumptions C82_apart_case.

(** C82.  Not so if another thread merges a row into a sorted table meanwhile, even one that refers to a row that stays.  The
    removal goes by the positions that the rows had before: a row that refers to a row that stays is removed, and one that refers to the
    row deleted stays. *)
Definition shifted := [[TDo (XFlush 0 [ODelete 1] ev_delete)]; [TDo (XFlush 2 [OMerge by_key [[VRow 0; VInt 9]]] ev_create)]].
Definition shifted_end := schedule [(0, 56); (1, 99); (0, 99)] (started town_x (map (p_run Debug 255 heads foreign order 3) shifted)).
Theorem C82_sorted_refuted : exists x tss c tp tp' rows rows' tc tc',
  made Debug 255 (xu_u x) /\ Forall (Forall (top_ty (xu_u x))) tss /\ linked Debug 255 town_rank (xu_u x) /\ integrity (xu_u x) /\
  nth_error tss 0 = Some [TDo (XFlush 0 [ODelete 1] ev_delete)] /\ length tss = 2 /\
  (exists cmp r, nth_error tss 1 = Some [TDo (XFlush 2 [OMerge cmp [r]] ev_create)] /\ nth_error r 0 = Some (VRow 0)) /\
  thread_steps (started x (map (p_run Debug 255 heads foreign order 3) tss)) c /\ (forall t, In t (th_ts c) -> snd t = Ret (Ok tt)) /\
  nth_error (u_tabs (xu_u x)) 0 = Some tp /\ nth_error (u_tabs (xu_u x)) 2 = Some tc /\
  nth_error (u_tabs (xu_u (th_x c))) 0 = Some tp' /\ nth_error (u_tabs (xu_u (th_x c))) 2 = Some tc' /\
  In (TAuto 2 0 true) (u_trackers (xu_u x) 0) /\ t_kind tc = Sorted /\ holds tc rows /\ holds tc' rows' /\
  t_contains tp' 0 = true /\ In [VRow 0; VInt 2] rows /\ ~ In [VRow 0; VInt 2] rows' /\
  t_contains tp' 1 = false /\ In [VRow 1; VInt 3] rows'.
Proof.
  exists town_x, shifted, shifted_end. do 2 eexists. exists [[VRow 0; VInt 1]; [VRow 0; VInt 2]; [VRow 1; VInt 3]; [VRow 2; VInt 4]],
    [[VRow 0; VInt 9]; [VRow 0; VInt 1]; [VRow 1; VInt 3]; [VRow 2; VInt 4]]. do 2 eexists. split; [exact town_made|]. split.
  { unfold shifted. repeat match goal with |- Forall _ (_ :: _) => constructor | |- Forall _ [] => constructor end; intros t [= <-]; repeat constructor; cbn; eauto. }
  split; [exact town_linked|]. split; [exact town_integrity|]. split; [reflexivity|]. split; [reflexivity|].
  split; [do 2 eexists; split; reflexivity|]. split; [apply schedule_steps|].
  split; [vm_compute; intros t [<-|[<-|[]]]; reflexivity|]. do 4 (split; [vm_compute; reflexivity|]).
  split; [right; right; left; reflexivity|]. split; [reflexivity|]. do 2 (split; [split; [reflexivity|]; intros [|[|[|[|i]]]] r; [intros [= <-]; reflexivity..|destruct i; discriminate]|]).
  split; [reflexivity|]. split; [right; left; reflexivity|]. split; [intros [H|[H|[H|[H|[]]]]]; discriminate|]. split; [reflexivity|].
  right; right; left; reflexivity.
Qed.
Print Assumptions C82_sorted_refuted.
