(** C129 for programs whose trackers act. *)
From Coq Require Import List Arith Bool ZArith.
From Verif Require Import Base Column Order RowRange Table SortedTab TableSpec Events Cascade Hist Cases Answers DbHist Acting ActingCases BuildFacts ActBuildFacts.
Import ListNotations.

(** C129, with trackers that do anything a tracker may do ([react], from all they were told), and programs that choose what to do by what they are told ([m]): run in a debug build,
    they stop with the panic of an arithmetic overflow, or leave the same universe, with the same told to trackers, in every build, or fail alike. *)
Theorem C129_acting :
  forall umax umax' pr react fuel schs m, umax <= umax' ->
  act_run Debug umax react fuel schs m = panic POverflow \/ act_run Debug umax react fuel schs m = act_run pr umax' react fuel schs m.
Proof. intros umax umax' pr react fuel schs m H. exact (act_run_ov umax umax' pr H react fuel schs m). Qed.
Print Assumptions C129_acting.
(** Trackers that push rows elsewhere, in both builds; and one that edits the rows it is told of, for which both wait for ever. *)
Example C129_acting_case :
  (exists u, rows_of (Ok u) = Some [[None; Some r2]; [None; Some [VInt 11; VRow 1]]; [Some r1]] /\
     act_run Debug 255 clerk 3 village (chain (settle ++ dies)) = Ok u /\ act_run Release 511 clerk 3 village (chain (settle ++ dies)) = Ok u) /\
  act_run Debug 255 vet 3 village (chain (settle ++ dies)) = Err EDeadlock /\ act_run Release 511 vet 3 village (chain (settle ++ dies)) = Err EDeadlock.
Proof.
  split; [|split; vm_compute; reflexivity]. eexists. split; [|split; [vm_compute; reflexivity|vm_compute; reflexivity]]. vm_compute. reflexivity.
Qed.
