(** Properties about caught panics.  See UnwindSpec.v for the vocabulary. *)
From Coq Require Import List Arith Bool ZArith.
From Verif Require Import Base Column Order RowRange Table Visit SortedTab BagTab TableSpec Hist Unwind UnwindSpec Cases
  UnwindSafe UnwindUb UnwindAgree UnwindCases.
Import ListNotations.
Local Open Scope nat_scope.

(** C63.  Whatever sequence of calls is made on a new table, also if closures, iterators, [Ord] of rows and trackers
    given to these calls panic at any point and each panic is caught and the lock used further: if [Ord] of the
    elements of indexed columns does not panic there is no undefined behaviour (but that of C11), and in a debug
    build every call returns. *)
Theorem C63_caught_panics_safe :
  forall pr umax sch l,
  s_cols sch <> [] -> Forall (fun c => uop_ok sch (snd c)) l -> harmless_calls pr sch l -> Forall no_ord_panic l ->
  urun pr umax (Free (t_new sch)) l <> Undefined /\ (urun pr umax (Free (t_new sch)) l = Stuck -> pr = Release).
Proof. intros pr umax sch l A B C D. exact (unwind_safe pr umax sch l A B C (or_introl D)). Qed.
Print Assumptions C63_caught_panics_safe.
(** A call without panicking user code does what the model of the other properties says. *)
Theorem C63_same_without_panic :
  forall pr umax boom st o st',
  (forall k m, boom k m = false) -> calm_call o -> own_name (st_tab st) o ->
  step pr umax st (calm o) = Ok st' -> ustep pr umax st (boom, o) = Live st'.
Proof. exact unwind_agrees. Qed.
Print Assumptions C63_same_without_panic.
Example C63_case :
  Forall (fun c => uop_ok (sch Bag) (snd c)) rough /\ harmless_calls Debug (sch Bag) rough /\ Forall no_ord_panic rough /\
  exists w, urun Debug 255 (Free (t_new (sch Bag))) rough = Live (Locked w []) /\ t_dump Debug (w_tab w) = Ok [r2; r2; r3; r1].
Proof.
  split; [|split; [left; reflexivity|split]].
  - unfold rough, calmly. repeat (apply Forall_cons; [split; cbn; repeat constructor|]). constructor.
  - unfold rough, calmly. repeat (apply Forall_cons; [intros ? ?; reflexivity|]). constructor.
  - eexists. split; calc.
Qed.

(** C64 does not hold: if [Ord] of the elements of an indexed column panics during [push] and the panic is caught,
    the columns have different lengths, and reading a cell by a checked id is undefined behaviour. *)
Theorem C64_ord_panic_refuted :
  exists sch l, s_cols sch <> [] /\ s_kind sch = Append /\ Forall (fun c => uop_ok sch (snd c)) l /\ harmless_calls Debug sch l /\
    urun Debug 255 (Free (t_new sch)) l = Undefined.
Proof.
  exists (Sch Append 7 [Indexed TVec; Plain TVec]), (ub_calls (Sch Append 7 [Indexed TVec; Plain TVec]) 1).
  split; [discriminate|]. split; [calc|]. split; [|split; [left; reflexivity|calc]].
  unfold ub_calls. repeat (apply Forall_cons; [split; cbn; repeat constructor; eexists; reflexivity|]). constructor.
Qed.
Print Assumptions C64_ord_panic_refuted.
(** It happens exactly to tables in which a [VecCol] comes after an indexed [VecCol]. *)
Theorem C64_ord_panic_iff :
  forall pr umax sch, s_cols sch <> [] -> 1 <= s_imax sch ->
  (exists l, Forall (fun c => uop_ok sch (snd c)) l /\ Forall ord_ok l /\ harmless_calls pr sch l /\
     urun pr umax (Free (t_new sch)) l = Undefined) <-> ~ index_last sch.
Proof. exact ord_panic_ub. Qed.
Print Assumptions C64_ord_panic_iff.
(** In the others every call returns, too (in a debug build). *)
Theorem C64_index_last_safe :
  forall pr umax sch l,
  s_cols sch <> [] -> index_last sch -> Forall (fun c => uop_ok sch (snd c)) l -> harmless_calls pr sch l -> Forall ord_ok l ->
  urun pr umax (Free (t_new sch)) l <> Undefined /\ (urun pr umax (Free (t_new sch)) l = Stuck -> pr = Release).
Proof. intros pr umax sch l A B C D E. exact (unwind_safe pr umax sch l A C D (or_intror (conj E B))). Qed.
Print Assumptions C64_index_last_safe.
Example C64_case :
  index_last (sch Consistent) /\ Forall (fun c => uop_ok (sch Consistent) (snd c)) unindexed /\ Forall ord_ok unindexed /\
  exists w, urun Debug 255 (Free (t_new (sch Consistent))) unindexed = Live (Locked w []) /\
    t_get_row (w_tab w) 1 = Ok r2 /\ t_find (w_tab w) 1 (VInt 5) = Ok [0].
Proof.
  split; [|split; [|split]].
  - intros [|[|i]] [|[|j]] tj H H2 L; cbn in *; try discriminate; try (destruct j; discriminate); try (destruct i; discriminate);
      exfalso; revert L; auto with arith; apply Nat.nlt_0_r || apply Nat.lt_irrefl.
  - unfold unindexed, calmly. repeat (apply Forall_cons; [split; cbn; repeat constructor; eexists; reflexivity|]). constructor.
  - unfold unindexed, calmly. repeat (apply Forall_cons; [intros [] ? ?; cbn; auto|]). constructor.
  - eexists. split; calcs.
Qed.
