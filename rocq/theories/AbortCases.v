(** Small programs for the examples beside C96. *)
From Coq Require Import List Arith Bool ZArith Lia.
From Verif Require Import Base Column Order RowRange Table SortedTab Events Cascade Hist Answers DbHist Acting ActingSpec Abort AbortSpec Cases ActingCases.
Import ListNotations.

(** A row is pushed; before it is flushed, the program panics (for example in an [unwrap] of its own). *)
Definition careless : plan := first [Call (On 0 (Do OLock)); Call (On 0 (Do (OPush r1)))] PPanic.
(** ... or asks for a row that is not there. *)
Definition mistaken : plan := first [Call (On 0 (Do OLock)); Call (On 0 (Do (OPush r1))); Call (On 0 (Do (OGet 7)))] PEnd.
(** Every change is flushed at once.  A row is deleted, the table is cleared, a row is pushed. *)
Definition wiped : list deed :=
  [Call (On 0 (Do OLock)); Call (On 0 (Do (OPush r1))); Call (Flush 0 ev_create);
   Call (On 0 (Do OLock)); Call (On 0 (Do (ODelete 0))); Call (Flush 0 ev_delete);
   Call (RemoveRows 0 ev_delete SAll); Call (On 0 (Do OLock))].
Definition renewed : plan := first (wiped ++ [Call (On 0 (Do (OPush r2))); Call (Flush 0 ev_create)]) PEnd.
(** A change of table 0 waits while table 1, of which a tracker panics when it is told, is flushed. *)
Definition crowded : plan :=
  first [Call (Track 1 (TUser false (fun _ => true))); Call (On 0 (Do OLock)); Call (On 0 (Do (OPush r1)));
         Call (On 1 (Do OLock)); Call (On 1 (Do (OPush r2))); Call (Flush 1 ev_create)] PEnd.
Definition nervous (log : list note) : plan := PPanic.
Definition idle (log : list note) : plan := PEnd.
(** As [careless], but in the order the library wants; and the tracker panics. *)
Definition careful : plan :=
  first [Call (Track 0 (TUser false (fun _ => true))); Call (On 0 (Do OLock)); Call (On 0 (Do (OPush r1))); Call (Flush 0 ev_create)] PPanic.

(** A tracker that leaves a change waiting, and panics. *)
Definition clumsy (log : list note) : plan :=
  match news log with
  | Some (Note 1 _ _ _) => first [Call (On 0 (Do OLock)); Call (On 0 (Do (OPush r1)))] PPanic
  | _ => PEnd
  end.
Definition provoked : plan :=
  first [Call (Track 1 (TUser false (fun _ => true))); Call (On 1 (Do OLock)); Call (On 1 (Do (OPush r2))); Call (Flush 1 ev_create)] PEnd.
(** A row is pushed, and a row that is not there is removed. *)
Definition misremoved : plan := first [Call (On 0 (Do OLock)); Call (On 0 (Do (OPush r1))); Call (WRemove 0 ev_delete (SThese [7]))] PEnd.
(** Two changes wait when the program ends. *)
Definition twice : plan := first [Call (On 0 (Do OLock)); Call (On 0 (Do (OPush r1))); Call (On 1 (Do OLock)); Call (On 1 (Do (OPush r2)))] PEnd.

Lemma first_always P l m : Forall P l -> always P m -> always P (first l m).
Proof. intros F H. induction F; cbn; auto. Qed.
Ltac typed := repeat (apply Forall_cons || apply Forall_nil); try exact I; intros s E; injection E as <-; try exact I; vm_compute; repeat constructor.
Lemma careless_ty : always (deed_ty village) careless. Proof. apply first_always; [typed|exact I]. Qed.
Lemma mistaken_ty : always (deed_ty village) mistaken. Proof. apply first_always; [typed|exact I]. Qed.
Lemma renewed_ty : always (deed_ty village) renewed. Proof. apply first_always; [typed|exact I]. Qed.
Lemma crowded_ty : always (deed_ty village) crowded. Proof. apply first_always; [typed|exact I]. Qed.
Lemma careful_ty : always (deed_ty village) careful. Proof. apply first_always; [typed|exact I]. Qed.
Lemma careful_spares : always (spares village) careful. Proof. cbn. tauto. Qed.
Lemma careful_prompt : prompt village None careful. Proof. cbn. tauto. Qed.
Lemma renewed_prompt : prompt village None renewed. Proof. cbn. tauto. Qed.
Lemma provoked_ty : always (deed_ty village) provoked. Proof. apply first_always; [typed|exact I]. Qed.
Lemma misremoved_ty : always (deed_ty village) misremoved. Proof. apply first_always; [typed|exact I]. Qed.
Lemma twice_ty : always (deed_ty village) twice. Proof. apply first_always; [typed|exact I]. Qed.
Lemma clumsy_ty log : always (deed_ty village) (clumsy log).
Proof.
  unfold clumsy. destruct (news log) as [[p k ev rows]|]; [|exact I]. destruct p as [|[|]]; try exact I. apply first_always; [typed|exact I].
Qed.
