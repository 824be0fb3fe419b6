(** Conditions on programs and trackers (C96). *)
From Coq Require Import List Arith Bool.
From Verif Require Import Base Column RowRange Table SortedTab Events Cascade Hist Answers DbHist Acting Abort.
Import ListNotations.

Section Prompt.
Variable schs : list schema.
Definition tracked (p : nat) : bool := match nth_error schs p with Some s => match s_kind s with Consistent => true | _ => false end | None => false end.
(** Calls that log changes; one at a time. *)
Definition logs (o : op) : bool :=
  match o with OPush _ | OPushAll _ | OPushArray _ | ODelete _ | OSelect _ | OSelectAll | OClear => true | _ => false end.
Definition logs_one (o : op) : bool := match o with OPush _ | ODelete _ | OSelect _ => true | _ => false end.
(** Each change of a consistent table is flushed by the next call.  [dirty]: the table with a change that is not. *)
Fixpoint prompt (dirty : option nat) (m : plan) : Prop :=
  match m with
  | PEnd => True
  | PPanic => dirty = None
  | PThen a k =>
      match dirty, a with
      | Some p, (Call (Flush q _) | Call (LiveFlush q _)) => q = p /\ forall x, prompt None (k x)
      | Some _, _ => False
      | None, Call (On p c) =>
          if tracked p && logs (op_of c) then logs_one (op_of c) = true /\ forall x, prompt (Some p) (k x)
          else forall x, prompt None (k x)
      | None, _ => forall x, prompt None (k x)
      end
  end.
(** No consistent table is cleared. *)
Definition spares (a : deed) : Prop :=
  match a with
  | Call (On p (Do (OClear | OClearRaw | OSelectAll))) | Call (RemoveRows p _ SAll | WRemove p _ SAll | Select p _ SAll) | Hand p _ SAll | Run p _ SAll => tracked p = false
  | _ => True
  end.
End Prompt.

(** The lock of table [p] is not given back, and its changes are not flushed. *)
Definition holds_on (p : nat) (a : deed) : Prop :=
  match a with
  | Call (On q (Do OClose)) | Call (Flush q _) | Call (LiveFlush q _) | Call (WRemove q _ _) => q <> p
  | _ => True
  end.

(** A list of deeds, and then the rest. *)
Fixpoint first (l : list deed) (m : plan) : plan := match l with [] => m | a :: l => PThen a (fun _ => first l m) end.
(** The universe and the locks of the program after a list of deeds, on new tables. *)
Definition so_far pr umax react ab fuel (schs : list schema) (l : list deed) : res db :=
  fold_res (fun d a => let* q := deed_step pr umax (end_flush pr umax react ab fuel) None [] d a in Ok (fst q)) l
    (unlocked (Uni (map t_new schs) (map (fun _ => []) schs) default_handlers [])).
(** A change of consistent table [p] waits to be flushed. *)
Definition unflushed (schs : list schema) (d : db) (p : nat) : Prop :=
  tracked schs p = true /\ exists s a b, d_lock d p = Some (s, a, b) /\ sel_empty s = false.
