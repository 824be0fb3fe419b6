(** The place of tables in a database (C138). *)
From Coq Require Import List Arith Bool.
From Verif Require Import Base Column Table Events Cascade Answers DbHist.
Import ListNotations.

Section Place.
(** Table [p] becomes table [sg p]. *)
Variable sg : nat -> nat.
(** The same tables, among others. *)
Definition placed (schs schs' : list schema) : Prop :=
  (forall p sch, nth_error schs p = Some sch -> nth_error schs' (sg p) = Some sch) /\
  (forall p q, p < length schs -> q < length schs -> sg p = sg q -> p = q).
Definition place_tracker (tr : tracker) : tracker := match tr with TAuto c k key => TAuto (sg c) k key | TUser _ _ => tr end.
Definition place_call (c : db_call) : db_call :=
  match c with
  | On p c => On (sg p) c
  | Flush p ev => Flush (sg p) ev
  | LiveFlush p ev => LiveFlush (sg p) ev
  | RemoveRows p ev s => RemoveRows (sg p) ev s
  | WRemove p ev s => WRemove (sg p) ev s
  | Select p ev s => Select (sg p) ev s
  | Track p tr => Track (sg p) (place_tracker tr)
  | Handle ev hd => Handle ev hd
  end.
(** What a tracker is told: the same, by the table with the new number. *)
Definition place_note (x : note) : note := Note (sg (n_table x)) (n_pos x) (n_event x) (n_rows x).
Definition place_said (q : answer * list note) : answer * list note := (fst q, map place_note (snd q)).
End Place.
(** The call is about tables that there are, [n] in all. *)
Definition about (n : nat) (c : db_call) : Prop :=
  match c with
  | On p _ | Flush p _ | LiveFlush p _ | RemoveRows p _ _ | WRemove p _ _ | Select p _ _ | Track p (TUser _ _) => p < n
  | Track p (TAuto q _ _) => p < n /\ q < n
  | Handle _ _ => True
  end.
