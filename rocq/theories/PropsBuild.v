(** C129: debug builds and release builds differ only where a debug build reports an overflow. *)
From Coq Require Import List Arith Bool ZArith.
From Verif Require Import Base Column Order RowRange Table SortedTab TableSpec Events Cascade Hist Cases Answers DbHist PropsDb Extract ExtractCases BuildFacts.
Import ListNotations.

(** C129.  Any program, run in a debug build on any machine: either it stops there with the panic of an arithmetic overflow, or in every build, on every machine with a
    [usize] at least as large, all its calls return the same, its trackers are told the same, and it fails in the same way if it fails. *)
Theorem C129_builds :
  forall umax umax' pr fuel d cs, umax <= umax' ->
  db_talks Debug umax fuel d cs = panic POverflow \/ db_talks Debug umax fuel d cs = db_talks pr umax' fuel d cs.
Proof. intros umax umax' pr fuel d cs H. exact (talks_ov umax umax' pr H fuel cs d). Qed.
Print Assumptions C129_builds.

(** The same for programs that save and restore tables: the same universe, with the same remappings, is left. *)
Theorem C129_restoring :
  forall umax umax' pr heads foreign order fuel x ops, umax <= umax' ->
  x_run Debug umax heads foreign order fuel x ops = panic POverflow \/
  x_run Debug umax heads foreign order fuel x ops = x_run pr umax' heads foreign order fuel x ops.
Proof. intros umax umax' pr heads foreign order fuel x ops H. exact (x_run_ov umax umax' pr H heads foreign order fuel ops x). Qed.
Print Assumptions C129_restoring.

(** The program of C89 succeeds in both builds; with a read of a deleted row at the end it fails in both, and not with an overflow. *)
Example C129_case :
  (exists l, length l = 21 /\ db_talks Debug 255 3 (db_new three_tables) talk_three = Ok l /\ db_talks Release 511 3 (db_new three_tables) talk_three = Ok l) /\
  (let bad := talk_three ++ [On 1 (Do (OGet 2))] in
   exists e, e <> EPanic POverflow /\ db_talks Debug 255 3 (db_new three_tables) bad = Err e /\ db_talks Release 255 3 (db_new three_tables) bad = Err e).
Proof.
  split.
  - eexists. split; [|split; [vm_compute; reflexivity|vm_compute; reflexivity]]. reflexivity.
  - eexists. split; [|split; [vm_compute; reflexivity|vm_compute; reflexivity]]. discriminate.
Qed.
Example C129_restoring_case :
  let ops := [XRestore 0 e_p ev_create; XFlush 0 [ODelete 0] ev_delete; XRestore 0 e_p ev_create] in
  exists x', x_run Debug 255 heads foreign order 3 x0 ops = Ok x' /\ x_run Release 511 heads foreign order 3 x0 ops = Ok x'.
Proof. eexists. split; vm_compute; reflexivity. Qed.

(** C129 (refuted without the overflow).  A program may stop in a debug build and go on in a release build, where an iterator told to skip very many rows starts over;
    on a machine with a larger [usize] it stops in both builds, as there is no such row id. *)
Theorem C129_alike_refuted :
  exists umax umax' schs cs l, umax < umax' /\ db_talks Debug umax 1 (db_new schs) cs = panic POverflow /\
    db_talks Release umax 1 (db_new schs) cs = Ok l /\ last l (ANothing, []) = (AItems [Some 0; Some 0] [r1; r1], []) /\
    db_talks Debug umax' 1 (db_new schs) cs = panic PRowIdRange /\ db_talks Release umax' 1 (db_new schs) cs = panic PRowIdRange.
Proof.
  exists 255, 511, [sch Consistent], [On 0 (Do OLock); On 0 (Do (OPushAll [r1; r2; r3])); Flush 0 ev_create; On 0 (Do (OIter [ItNext; ItSkip 255; ItNext]))].
  eexists. split; [apply Nat.ltb_lt; vm_compute; reflexivity|]. split; [vm_compute; reflexivity|]. split; [vm_compute; reflexivity|]. split; [vm_compute; reflexivity|].
  split; vm_compute; reflexivity.
Qed.
Print Assumptions C129_alike_refuted.
