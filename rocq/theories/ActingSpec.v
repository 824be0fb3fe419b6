(** Conditions on programs and on trackers that act (C92-C94). *)
From Coq Require Import List Arith Bool.
From Verif Require Import Base Column RowRange Table SortedTab Events Cascade Hist Answers DbHist Acting.
Import ListNotations.

(** Everything code may do satisfies [P]. *)
Fixpoint always (P : deed -> Prop) (m : plan) : Prop :=
  match m with PEnd | PPanic => True | PThen a k => P a /\ forall x, always P (k x) end.

(** Rows and values of the right types. *)
Definition deed_ty (schs : list schema) (a : deed) : Prop :=
  match a with
  | Call (On p c) => forall sch, nth_error schs p = Some sch -> op_ty (s_cols sch) (op_of c)
  | _ => True
  end.

(** One lock at a time, and only downwards: with tables ranked (those at the top first), code called for a table of rank [top] locks, flushes, removes from, selects
    from and registers trackers with tables of lower rank only; it holds one write lock at a time; it flushes (not live), removes, selects
    and registers holding no other lock.  It may look at any table at any time.  [held]: the table locked for writing. *)
Section Tidy.
Variable schs : list schema.
Variable rank : nat -> nat.
(** A derived tracker leads to a table of lower rank. *)
Definition leads_down (p : nat) (tr : tracker) : Prop :=
  match tr with TAuto c _ _ => c < length schs /\ rank c < rank p | TUser _ _ => True end.
Fixpoint tidy (top : nat) (held : option nat) (m : plan) : Prop :=
  match m with
  | PEnd | PPanic => True
  | PThen a k =>
      match a with
      | Call (On p (Do OLock)) => held = None /\ rank p < top /\ forall x, tidy top (Some p) (k x)
      | Call (On p (Do OClose)) => held = Some p /\ forall x, tidy top None (k x)
      | Call (On _ _) => forall x, tidy top held (k x)
      | Call (Flush p _) | Call (WRemove p _ _) => held = Some p /\ forall x, tidy top None (k x)
      | Call (LiveFlush _ _) => False
      | Call (RemoveRows p _ _) | Call (Select p _ _) | Hand p _ _ | Run p _ _ => held = None /\ rank p < top /\ forall x, tidy top None (k x)
      | Call (Track p tr) => held = None /\ rank p < top /\ leads_down p tr /\ forall x, tidy top None (k x)
      | Call (Handle _ _) => forall x, tidy top held (k x)
      end
  end.
(** What a tracker does when it is told something. *)
Definition told_of (log : list note) : option nat := option_map n_table (last (map Some log) None).
Definition tidy_trackers (react : list note -> plan) : Prop :=
  forall log p, told_of log = Some p -> tidy (rank p) None (react log).
End Tidy.

(** A look at rows of table [p]: code that reads each of [l] and panics if it does not find the contents given there. *)
Definition answer_is (a : answer) (r : row) : bool :=
  match a with ARow r' => (length r' =? length r) && forallb (fun x => val_eqb (fst x) (snd x)) (combine r' r) | _ => false end.
Fixpoint look (p : nat) (l : list (nat * row)) (m : plan) : plan :=
  match l with
  | [] => m
  | (i, r) :: l => PThen (Call (On p (Do (OGet i)))) (fun a => if answer_is a r then look p l m else PPanic)
  end.
(** Trackers that first look at rows of table [p], whenever they are told of rows of that table. *)
Definition looking (p : nat) (rows : list note -> list (nat * row)) (react : list note -> plan) (log : list note) : plan :=
  match told_of log with
  | Some q => if q =? p then look p (rows log) (react log) else react log
  | None => react log
  end.
(** Among the rows told. *)
Definition named (s : select) (i : nat) : Prop := match s with SAll => True | SThese l => In i l end.

(** Propagation written by hand (src/tracking.rs:191-198): the rows of table [c] which refer to the rows told by column [k] are found, and the handler is run for them. *)
Fixpoint find_all (c k : nat) (l found : list nat) (next : list nat -> plan) : plan :=
  match l with
  | [] => next found
  | i :: l => PThen (Call (On c (Do (OFind k (VRow i))))) (fun a => find_all c k l (found ++ match a with AIds ids => ids | _ => [] end) next)
  end.
Definition by_hand (c k : nat) (ev : event) (rows : select) : plan :=
  match rows with
  | SAll => PThen (Run c ev SAll) (fun _ => PEnd)
  | SThese l => find_all c k l [] (fun found => PThen (Run c ev (SThese found)) (fun _ => PEnd))
  end.
