(** C96. *)
From Coq Require Import List Arith Bool.
From Verif Require Import Base Column RowRange Table SortedTab Events Cascade Hist Answers DbHist Acting ActingSpec Abort AbortSpec AbortFacts Cases ActingCases AbortCases.
Import ListNotations.

(** C96: A panic ends the thread, not the process.  [act_run] is what comes of a program if panics unwind as usual; [end_run] is the same, except that
    [ab] is written down if the process is aborted.  The property would be: [end_run pr umax react ab fuel schs m = act_run pr umax react fuel schs m] for every [ab]. *)

(** It does not hold.  The program panics while a row it pushed waits for its flush. *)
Theorem C96_refuted : exists schs m, Forall (fun s => s_cols s <> []) schs /\ always (deed_ty schs) m /\
  forall pr react ab, act_run pr 100 react 5 schs m = Err (EPanic PUser) /\ end_run pr 100 react ab 5 schs m = Err (EPanic ab).
Proof.
  exists village, careless. split; [exact village_cols|]. split; [exact careless_ty|]. intros pr react ab. destruct pr; split; vm_compute; reflexivity.
Qed.
Print Assumptions C96_refuted.
(** The same if it reads a row that is not there. *)
Theorem C96_get_refuted : exists schs m, Forall (fun s => s_cols s <> []) schs /\ always (deed_ty schs) m /\
  forall pr react ab, act_run pr 100 react 5 schs m = Err (EPanic PIndexOOB) /\ end_run pr 100 react ab 5 schs m = Err (EPanic ab).
Proof.
  exists village, mistaken. split; [exact village_cols|]. split; [exact mistaken_ty|]. intros pr react ab. destruct pr; split; vm_compute; reflexivity.
Qed.
Print Assumptions C96_get_refuted.
(** The same if a tracker of another table panics. *)
Theorem C96_tracker_refuted : exists schs react m, Forall (fun s => s_cols s <> []) schs /\ (forall log, always (deed_ty schs) (react log)) /\ always (deed_ty schs) m /\
  forall pr ab, act_run pr 100 react 5 schs m = Err (EPanic PUser) /\ end_run pr 100 react ab 5 schs m = Err (EPanic ab).
Proof.
  exists village, nervous, crowded. split; [exact village_cols|]. split; [intros log; exact I|]. split; [exact crowded_ty|]. intros pr ab. destruct pr; split; vm_compute; reflexivity.
Qed.
Print Assumptions C96_tracker_refuted.
(** The same if the tracker itself has the change waiting. *)
Theorem C96_clumsy_refuted : exists schs react m, Forall (fun s => s_cols s <> []) schs /\ (forall log, always (deed_ty schs) (react log)) /\ always (deed_ty schs) m /\
  forall pr ab, act_run pr 100 react 5 schs m = Err (EPanic PUser) /\ end_run pr 100 react ab 5 schs m = Err (EPanic ab).
Proof.
  exists village, clumsy, provoked. split; [exact village_cols|]. split; [exact clumsy_ty|]. split; [exact provoked_ty|]. intros pr ab. destruct pr; split; vm_compute; reflexivity.
Qed.
Print Assumptions C96_clumsy_refuted.
(** The same if the panic is that of [remove_rows] of the lock that waits for its flush. *)
Theorem C96_remove_refuted : exists schs m, Forall (fun s => s_cols s <> []) schs /\ always (deed_ty schs) m /\
  forall pr react ab, act_run pr 100 react 5 schs m = Err (EPanic PRemoveRange) /\ end_run pr 100 react ab 5 schs m = Err (EPanic ab).
Proof.
  exists village, misremoved. split; [exact village_cols|]. split; [exact misremoved_ty|]. intros pr react ab. destruct pr; split; vm_compute; reflexivity.
Qed.
Print Assumptions C96_remove_refuted.
(** The same without any other panic: two locks wait for their flush when the program ends, and the second one is dropped because the first one panics. *)
Theorem C96_two_refuted : exists schs m, Forall (fun s => s_cols s <> []) schs /\ always (deed_ty schs) m /\
  forall pr react ab, act_run pr 100 react 5 schs m = Err (EPanic PNotFlushed) /\ end_run pr 100 react ab 5 schs m = Err (EPanic ab).
Proof.
  exists village, twice. split; [exact village_cols|]. split; [exact twice_ty|]. intros pr react ab. destruct pr; split; vm_compute; reflexivity.
Qed.
Print Assumptions C96_two_refuted.
(** Even if each change is flushed at once: a push to a table that was cleared after a row of it was deleted. *)
Theorem C96_push_refuted : exists schs m, Forall (fun s => s_cols s <> []) schs /\ always (deed_ty schs) m /\ prompt schs None m /\
  forall pr react ab, act_run pr 100 react 5 schs m = Err (EPanic PIndexOOB) /\ end_run pr 100 react ab 5 schs m = Err (EPanic ab).
Proof.
  exists village, renewed. split; [exact village_cols|]. split; [exact renewed_ty|]. split; [exact renewed_prompt|]. intros pr react ab. destruct pr; split; vm_compute; reflexivity.
Qed.
Print Assumptions C96_push_refuted.

(** In a program and with trackers that flush each change of a consistent table at once, and do not clear such tables, no panic aborts the process. *)
Theorem C96_prompt pr umax react fuel schs m ab : Forall (fun s => s_cols s <> []) schs -> pr = Debug \/ Forall (fun s => s_kind s <> Bag) schs ->
  (forall log, always (deed_ty schs) (react log) /\ always (spares schs) (react log) /\ prompt schs None (react log)) ->
  always (deed_ty schs) m -> always (spares schs) m -> prompt schs None m ->
  end_run pr umax react ab fuel schs m = act_run pr umax react fuel schs m.
Proof. exact (prompt_agree pr umax react fuel schs m ab). Qed.
Print Assumptions C96_prompt.
Example C96_prompt_ex : (forall log, always (deed_ty village) (nervous log) /\ always (spares village) (nervous log) /\ prompt village None (nervous log)) /\
  always (deed_ty village) careful /\ always (spares village) careful /\ prompt village None careful /\
  (forall ab, end_run Release 100 nervous ab 5 village careful = Err (EPanic PUser)) /\
  forall ab, end_run Release 100 idle ab 5 village careful = Err (EPanic PUser).
Proof.
  split; [intros log; repeat split|]. split; [exact careful_ty|]. split; [exact careful_spares|]. split; [exact careful_prompt|]. split; intros ab; vm_compute; reflexivity.
Qed.

(** Otherwise: once a change of a consistent table waits, every panic before the change is flushed or the lock given back aborts the process. *)
Theorem C96_aborts pr umax react fuel schs ab l d p a e : Forall (fun s => s_cols s <> []) schs -> pr = Debug \/ Forall (fun s => s_kind s <> Bag) schs ->
  (forall log, always (deed_ty schs) (react log)) -> Forall (deed_ty schs) l ->
  so_far pr umax react ab fuel schs l = Ok d -> unflushed schs d p -> holds_on p a ->
  deed_step pr umax (end_flush pr umax react ab fuel) None [] d a = Err (EPanic e) -> forall k,
  end_run pr umax react ab fuel schs (first l (PThen a k)) = Err (EPanic ab).
Proof. exact (aborts_now pr umax react fuel schs ab l d p a e). Qed.
Print Assumptions C96_aborts.
(** And a program that goes on without doing either never returns: it is aborted, panics when it drops the lock at its end, or waits for ever. *)
Theorem C96_never_returns pr umax react fuel schs ab l d p m : Forall (fun s => s_cols s <> []) schs -> pr = Debug \/ Forall (fun s => s_kind s <> Bag) schs ->
  (forall log, always (deed_ty schs) (react log)) -> Forall (deed_ty schs) l -> always (deed_ty schs) m ->
  so_far pr umax react ab fuel schs l = Ok d -> unflushed schs d p -> always (holds_on p) m ->
  match end_run pr umax react ab fuel schs (first l m) with Ok _ => False | Err (EPanic c) => c = ab \/ c = PNotFlushed | Err _ => True end.
Proof. exact (aborts pr umax react fuel schs ab l d p m). Qed.
Print Assumptions C96_never_returns.
Example C96_aborts_ex : Forall (deed_ty village) [Call (On 0 (Do OLock)); Call (On 0 (Do (OPush r1)))] /\
  (forall ab, exists d, so_far Release 100 idle ab 5 village [Call (On 0 (Do OLock)); Call (On 0 (Do (OPush r1)))] = Ok d /\ unflushed village d 0 /\
    deed_step Release 100 (end_flush Release 100 idle ab 5) None [] d (Call (On 1 (Do (OGet 3)))) = Err (EPanic PIndexOOB)) /\
  forall ab, end_run Release 100 idle ab 5 village (first [Call (On 0 (Do OLock)); Call (On 0 (Do (OPush r1)))] PEnd) = Err (EPanic PNotFlushed).
Proof.
  split; [typed|]. split; [|intros ab; vm_compute; reflexivity]. intros ab. eexists. split; [vm_compute; reflexivity|]. split; [|vm_compute; reflexivity].
  split; [reflexivity|]. eexists _, _, _. split; vm_compute; reflexivity.
Qed.

(** Nothing else is different: either the outcome is as if panics unwind, or that is a panic and the process is aborted instead. *)
Theorem C96_same pr umax react fuel schs m ab :
  end_run pr umax react ab fuel schs m = act_run pr umax react fuel schs m \/
  end_run pr umax react ab fuel schs m = Err (EPanic ab) /\ exists c, act_run pr umax react fuel schs m = Err (EPanic c).
Proof. exact (run_all_same pr umax react ab fuel schs m). Qed.
Print Assumptions C96_same.
Example C96_same_ex : (forall ab, end_run Debug 100 idle ab 5 village (chain (settle ++ dies)) = act_run Debug 100 idle 5 village (chain (settle ++ dies))) /\
  exists u, act_run Debug 100 idle 5 village (chain (settle ++ dies)) = Ok u.
Proof. split; [intros ab; vm_compute; reflexivity|]. eexists. vm_compute. reflexivity. Qed.
