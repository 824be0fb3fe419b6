(** Small universes for the examples beside C92-C94. *)
From Coq Require Import List Arith Bool ZArith Lia.
From Verif Require Import Base Column Order RowRange Table SortedTab Events Cascade Hist Answers DbHist Acting ActingSpec Cases.
Import ListNotations.

Fixpoint chain (l : list db_call) : plan := match l with [] => PEnd | c :: l => PThen (Call c) (fun _ => chain l) end.
Lemma chain_always P l : Forall (fun c => P (Call c)) l -> always P (chain l).
Proof. intros F. induction F; cbn; auto. Qed.

(** People, their pets (column 1 refers to the owner), and a book of the dead. *)
Definition village : list schema := [sch Consistent; sch Consistent; sch Append].
Definition village_rank (p : nat) : nat := match p with 0 => 2 | 1 => 1 | _ => 0 end.
Lemma village_cols : Forall (fun s => s_cols s <> []) village. Proof. repeat constructor; discriminate. Qed.
Lemma village_kinds : Forall (fun s => s_kind s <> Bag) village. Proof. repeat constructor; discriminate. Qed.
Definition settle : list db_call :=
  [Track 0 (TAuto 1 1 false); Track 0 (TUser false (fun _ => true)); Track 1 (TUser false (fun _ => true));
   On 0 (Do OLock); On 0 (Do (OPushAll [r1; r2])); Flush 0 ev_create;
   On 1 (Do OLock); On 1 (Do (OPushAll [[VInt 10; VRow 0]; [VInt 11; VRow 1]])); Flush 1 ev_create].
(** Person 0 is deleted, so that pet 0 is too. *)
Definition dies : list db_call := [On 0 (Do OLock); On 0 (Do (ODelete 0)); Flush 0 ev_delete].
(** Pet 0 is deleted. *)
Definition runs_away : list db_call := [On 1 (Do OLock); On 1 (Do (ODelete 0)); Flush 1 ev_delete].
Lemma settle_ty l : Forall (fun c => deed_ty village (Call c)) l -> always (deed_ty village) (chain (settle ++ l)).
Proof.
  intros F. apply chain_always. apply Forall_app. split; [|exact F]. unfold settle.
  repeat (apply Forall_cons || apply Forall_nil); try exact I; intros s E; injection E as <-; try exact I; vm_compute; repeat constructor.
Qed.
Lemma dies_ty : Forall (fun c => deed_ty village (Call c)) dies.
Proof. repeat (apply Forall_cons || apply Forall_nil); try exact I; intros s E; injection E as <-; exact I. Qed.
Lemma runs_away_ty : Forall (fun c => deed_ty village (Call c)) runs_away.
Proof. repeat (apply Forall_cons || apply Forall_nil); try exact I; intros s E; injection E as <-; exact I. Qed.

(** What the tracker called last was told. *)
Definition news (log : list note) : option note := last (map Some log) None.
(** The person who died is entered into the book. *)
Definition clerk (log : list note) : plan :=
  match news log with
  | Some (Note 0 _ ev (SThese (i :: _))) =>
      if ev_removal ev then
        PThen (Call (On 0 (Do (OGet i)))) (fun a =>
          match a with
          | ARow [VInt x; VInt y] => chain [On 2 (Do OLock); On 2 (Do (OPush [VInt x; VInt y])); On 2 (Do OClose)]
          | _ => PEnd
          end)
      else PEnd
  | _ => PEnd
  end.
Lemma clerk_ty log : always (deed_ty village) (clerk log).
Proof.
  unfold clerk. destruct (news log) as [[p k ev s]|]; [|exact I]. destruct p; [|exact I]. destruct s as [|[|i l]]; try exact I.
  destruct (ev_removal ev); [|exact I]. cbn [always]. split; [intros sch E; exact I|]. intros a. destruct a as [|r|v|o|l0|l0|l0 rs|x y]; try exact I.
  destruct r as [|[x|b|i0] [|[y|b0|i1] [|v r]]]; try exact I. apply chain_always.
  repeat (apply Forall_cons || apply Forall_nil); intros s E; injection E as <-; try exact I; vm_compute; repeat constructor.
Qed.
Lemma clerk_tidy : tidy_trackers village village_rank clerk.
Proof.
  intros log p. unfold told_of, clerk. fold (news log). destruct (news log) as [[q k ev s]|]; [|discriminate]. intros E. injection E as <-.
  destruct q; [|exact I]. destruct s as [|[|i l]]; try exact I. destruct (ev_removal ev); [|exact I]. cbn.
  intros a. destruct a as [|r|v|o|l0|l0|l0 rs|x y]; try exact I.
  destruct r as [|[x|b|i0] [|[y|b0|i1] [|v r]]]; try exact I. cbn. split; [reflexivity|]. split; [lia|]. intros _ _. split; [reflexivity|]. intros _. exact I.
Qed.
Lemma main_tidy l : l = dies \/ l = runs_away -> tidy village village_rank 3 None (chain (settle ++ l)).
Proof.
  intros [-> | ->]; cbn [chain app settle dies runs_away tidy]; cbn [leads_down village_rank length village];
    repeat match goal with |- _ /\ _ => split | |- forall _ : answer, _ => intros _ end; cbn; try reflexivity; try exact I; lia.
Qed.

(** When pets are deleted, their table is locked for editing, one is edited, and the lock is dropped. *)
Definition vet (log : list note) : plan :=
  match news log with
  | Some (Note 1 _ ev _) => if ev_removal ev then chain [On 1 (Do OLock); On 1 (Do (OAssign 0 1 (VInt 12))); On 1 (Do OClose)] else PEnd
  | _ => PEnd
  end.
Lemma vet_ty log : always (deed_ty village) (vet log).
Proof.
  unfold vet. destruct (news log) as [[[|[|p]] k ev s]|]; try exact I. destruct (ev_removal ev); [|exact I]. apply chain_always.
  repeat (apply Forall_cons || apply Forall_nil); intros s' E; injection E as <-; try exact I; intros t E; injection E as <-; exact I.
Qed.
(** The first pet told about is looked at. *)
Definition neighbour (log : list note) : plan :=
  match news log with
  | Some (Note 1 _ _ (SThese (i :: _))) => chain [On 1 (Do (OGet i))]
  | _ => PEnd
  end.
(** The same for people. *)
Definition nurse (log : list note) : plan :=
  match news log with
  | Some (Note 0 _ _ (SThese (i :: _))) => chain [On 0 (Do (OGet i))]
  | _ => PEnd
  end.
Lemma neighbour_ty log : always (deed_ty village) (neighbour log).
Proof.
  unfold neighbour. destruct (news log) as [[[|[|p]] k ev s]|]; try exact I. destruct s as [|[|i l]]; try exact I. apply chain_always.
  repeat (apply Forall_cons || apply Forall_nil); intros s' E; exact I.
Qed.
Lemma nurse_ty log : always (deed_ty village) (nurse log).
Proof.
  unfold nurse. destruct (news log) as [[[|p] k ev s]|]; try exact I. destruct s as [|[|i l]]; try exact I. apply chain_always.
  repeat (apply Forall_cons || apply Forall_nil); intros s' E; exact I.
Qed.
Lemma neighbour_tidy : tidy_trackers village village_rank neighbour.
Proof.
  intros log p. unfold neighbour. destruct (news log) as [[[|[|q]] k ev s]|]; intros _; try exact I.
  destruct s as [|[|i l]]; try exact I; cbn; exact (fun _ => I).
Qed.

Definition rows_of (r : res universe) : option (list (list (option row))) :=
  match r with
  | Ok u => Some (map (fun t => map (fun i => match t_get_row t i with Ok r => Some r | Err _ => None end) (seq 0 (t_len t))) (u_tabs u))
  | Err _ => None
  end.
(** The village, and the write lock with which person 0 is being deleted. *)
Definition or_empty (r : res universe) : universe := match r with Ok u => u | Err _ => Uni [] [] [] [] end.
Definition settled : universe := Eval vm_compute in or_empty (act_run Debug 255 clerk 3 village (chain settle)).
Definition dying : wlock := Eval vm_compute in W (nth 0 (u_tabs settled) (t_new (sch Consistent))) (SThese [0]) false true.
Lemma settled_down q tr : In tr (u_trackers settled q) -> leads_down (map t_sch (u_tabs settled)) village_rank q tr.
Proof.
  destruct q as [|[|[|q]]]; cbn; [intros [<-|[<-|[]]]|intros [<-|[]]|intros []|destruct q; intros []]; cbn; auto; lia.
Qed.
Lemma live_ty : Forall (fun c => deed_ty village (Call c)) [On 0 (Do OLock); On 0 (Do (ODelete 0)); LiveFlush 0 ev_delete].
Proof. repeat (apply Forall_cons || apply Forall_nil); try exact I; intros s E; injection E as <-; exact I. Qed.
Lemma vet_edits log : vet log = PEnd \/
  exists p k i v, told_of log = Some p /\ vet log = chain [On p (Do OLock); On p (Do (OAssign k i v)); On p (Do OClose)].
Proof.
  unfold vet, told_of. fold (news log). destruct (news log) as [[[|[|p]] k ev s]|]; auto. destruct (ev_removal ev); [|auto]. right. exists 1, 0, 1, (VInt 12). auto.
Qed.
Lemma nurse_looks log : nurse log = PEnd \/ exists p i, told_of log = Some p /\ nurse log = chain [On p (Do (OGet i))].
Proof.
  unfold nurse, told_of. fold (news log). destruct (news log) as [[[|p] k ev s]|]; auto. destruct s as [|[|i l]]; auto. right. exists 0, i. auto.
Qed.
Lemma neighbour_looks log : neighbour log = PEnd \/
  exists p k ev i l, news log = Some (Note p k ev (SThese (i :: l))) /\ neighbour log = chain [On p (Do (OGet i))].
Proof.
  unfold neighbour. destruct (news log) as [[[|[|p]] k ev s]|]; auto. destruct s as [|[|i l]]; auto. right. exists 1, k, ev, i, l. auto.
Qed.

(** Propagation by hand, from people to pets. *)
Definition steward (log : list note) : plan :=
  match news log with
  | Some (Note 0 _ ev s) => by_hand 1 1 ev s
  | _ => PEnd
  end.
Definition settle_by_hand : list db_call := filter (fun c => match c with Track 0 (TAuto _ _ _) => false | _ => true end) settle.
(** When told of people, a tracker registers another for people. *)
Definition recruiter (log : list note) : plan :=
  match news log with
  | Some (Note 0 _ _ _) => chain [Track 0 (TUser false (fun _ => false))]
  | _ => PEnd
  end.
Lemma recruits log : recruiter log = PEnd \/ exists p tr, told_of log = Some p /\ recruiter log = chain [Track p tr].
Proof.
  unfold recruiter, told_of. fold (news log). destruct (news log) as [[[|p] k ev s]|]; auto. right. exists 0, (TUser false (fun _ => false)). auto.
Qed.

(** The first time that a person is told to die, they are removed at once and an heir is pushed, who gets the row. *)
Definition heir (log : list note) : plan :=
  match news log with
  | Some (Note 0 1 ev (SThese (i :: _))) =>
      if ev_removal ev && (length (filter (fun n => (n_table n =? 0) && (n_pos n =? 1) && ev_removal (n_event n)) log) =? 1)
      then chain [RemoveRows 0 ev_delete (SThese [i]); On 0 (Do OLock); On 0 (Do (OPush r3)); Flush 0 ev_create] else PEnd
  | _ => PEnd
  end.
Lemma heir_ty log : always (deed_ty village) (heir log).
Proof.
  unfold heir. destruct (news log) as [[[|p] [|[|k]] ev s]|]; try exact I. destruct s as [|[|i l]]; try exact I. destruct (_ && _); [|exact I]. apply chain_always.
  repeat (apply Forall_cons || apply Forall_nil); try exact I; intros s' E; injection E as <-; try exact I; vm_compute; repeat constructor.
Qed.
Definition inherited : universe := Eval vm_compute in or_empty (act_run Debug 255 heir 3 village (chain (settle ++ dies))).
