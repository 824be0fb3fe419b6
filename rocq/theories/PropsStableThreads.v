(** C105: what a row id stands for while threads run. *)
From Coq Require Import List Arith Bool ZArith.
From Verif Require Import Base Column Order RowRange Table Hist Cases Events Cascade CascadeCases Extract ExtractCases Threads ThreadSpec ThreadCases PoisonCases
  BlameSpec BlameCases StableThreadSpec StableThreads StableThreadCases.
Import ListNotations.

(** Whatever threads do at once, an id of a consistent table stands for the same row, with the same values, as long as there is a row
    under it: if no thread stores into this row, and none discards the rows of the table with [clear_raw]. *)
Theorem C105_stable : forall pr umax heads foreign order fuel x tss p t i c0 h c c1 c2,
  made pr umax (xu_u x) -> (forall p t, nth_error (u_tabs (xu_u x)) p = Some t -> pr = Debug \/ t_kind t <> Bag) ->
  Forall (Forall (top_ty (xu_u x))) tss ->
  nth_error (u_tabs (xu_u x)) p = Some t -> t_kind t = Consistent ->
  (forall es ev, session tss p es ev -> Forall (spares i) es) ->
  thread_steps (started x (map (p_run pr umax heads foreign order fuel) tss)) c0 -> history c0 h c ->
  (forall c', In c' h -> found c' p i <> None) ->
  In c1 h -> In c2 h -> found c1 p i = found c2 p i.
Proof.
  intros pr umax heads foreign order fuel x tss p t i c0 h c c1 c2 M B T Et K Sp S H A I1 I2.
  rewrite (history_same pr umax fuel heads foreign order x tss M B T p i t Et K Sp c0 h c S H A c1 I1). symmetry.
  exact (history_same pr umax fuel heads foreign order x tss M B T p i t Et K Sp c0 h c S H A c2 I2).
Qed.
Print Assumptions C105_stable.

(** Row 2 of table 1, while rows of tables 0 and 1 are deleted, pushed and stored into, by three threads. *)
Example C105_stable_case :
  made Debug 255 (xu_u town_x) /\ Forall (Forall (top_ty (xu_u town_x))) bustle /\
  (exists t, nth_error (u_tabs (xu_u town_x)) 1 = Some t /\ t_kind t = Consistent) /\
  (forall es ev, session bustle 1 es ev -> Forall (spares 2) es) /\
  history bustle_begins (states mingled bustle_begins) (state mingled bustle_begins) /\
  (forall c, In c (states mingled bustle_begins) -> found c 1 2 <> None) /\
  (forall i, In i (th_ts (state mingled bustle_begins)) -> snd i = Ret (Ok tt)) /\
  map (found bustle_begins 1) [0; 1; 2] = [Some [VInt 10; VRow 0]; Some [VInt 11; VRow 1]; Some [VInt 12; VRow 2]] /\
  map (found (state mingled bustle_begins) 1) [0; 1; 2] = [Some [VInt 99; VRow 0]; None; Some [VInt 12; VRow 2]].
Proof.
  split; [exact town_made|]. split; [exact bustle_ty|]. split; [eexists; split; reflexivity|]. split; [exact bustle_spares|].
  split; [apply states_history|]. split; [apply always_found; vm_compute; reflexivity|].
  split; [vm_compute; intros s [<-|[<-|[<-|[]]]]; reflexivity|]. split; vm_compute; reflexivity.
Qed.

(** With [clear_raw] it is not so: a thread that discards the rows and pushes others, under one lock, puts other rows under the ids, and
    nobody sees them vacant. *)
Theorem C105_clear_raw_refuted : exists x tss h c i r r',
  made Debug 255 (xu_u x) /\ Forall (Forall (top_ty (xu_u x))) tss /\
  (exists t, nth_error (u_tabs (xu_u x)) 0 = Some t /\ t_kind t = Consistent) /\
  (forall es ev o k v, session tss 0 es ev -> In o es -> o <> OAssign k i v) /\
  history (started x (map (p_run Debug 255 heads foreign order 3) tss)) h c /\
  (forall c', In c' h -> found c' 0 i <> None) /\
  found (started x (map (p_run Debug 255 heads foreign order 3) tss)) 0 i = Some r /\ found c 0 i = Some r' /\ r' <> r.
Proof.
  exists town_x, replaced, (states [(0, 99)] replaced_begins), (state [(0, 99)] replaced_begins), 1, [VInt 2; VInt 5], [VInt 8; VInt 5].
  split; [exact town_made|]. split; [exact replaced_ty|]. split; [eexists; split; reflexivity|]. split.
  { intros es ev o k v [(ops & I1 & I2)|(ops & I1 & I2)]; cbn in I1; destruct I1 as [<-|[]]; destruct I2 as [I2|[]]; [|discriminate].
    injection I2 as <- <-. intros [<-|[<-|[]]]; discriminate. }
  split; [apply states_history|]. split; [apply always_found; vm_compute; reflexivity|].
  split; [vm_compute; reflexivity|]. split; [vm_compute; reflexivity|discriminate].
Qed.
Print Assumptions C105_clear_raw_refuted.
