(** Vocabulary of the property about several threads (C39). *)
From Coq Require Import List Arith Bool.
From Verif Require Import Base Column RowRange Table Hist Race.
Import ListNotations.

(** Row [i] exists, as far as a lock taken now (or the holder) can see. *)
Definition alive (y : sys) (i : nat) : bool :=
  match x_cell y with
  | CFree t => t_contains t i
  | CHeld _ w => t_contains (w_tab w) i
  | CPoisoned => false
  end.
(** The row is there before the step and not after it (and the table is still usable). *)
Definition removes (y y' : sys) (i : nat) : Prop :=
  alive y i = true /\ alive y' i = false /\ x_cell y' <> CPoisoned.

Definition chosen (s : select) (i : nat) : Prop := match s with SAll => True | SThese l => In i l end.

(** Step [a] is thread [p] asking for row [i] to go: by [delete], by selecting it (it goes if the flush has a
    removal event), or by clearing the table. *)
Definition deletes (a : xact) (p i : nat) : Prop :=
  a = XOp p (ODelete i) \/ a = XOp p (OSelect i) \/ a = XOp p OClear \/ a = XOp p OSelectAll \/
  exists srt ev, a = XRemove p srt ev SAll.
(** In state [y], step [a] is thread [p] putting row [i] on its lock's list: as above, or by pushing it (a
    lock flushed with a removal event removes the rows it pushed). *)
Definition lists (y : sys) (a : xact) (p i : nat) : Prop :=
  deletes a p i \/ exists o, a = XOp p o /\ is_push o = true /\ alive y i = false.

Section Spec.
Variable pr : profile.
Variable umax : nat.

(** Row [i] is there in [y] and after each of the steps [l]. *)
Definition alive_through (y : sys) (l : list xact) (i : nat) : Prop :=
  forall l1 l2 z, l = l1 ++ l2 -> xrun pr umax y l1 = Ok z -> alive z i = true.

(** Thread [p] put the row on its list during [l]. *)
Definition listed (y0 : sys) (l : list xact) (p i : nat) : Prop :=
  exists l1 a l2 y1, l = l1 ++ a :: l2 /\ xrun pr umax y0 l1 = Ok y1 /\ lists y1 a p i.
(** [R] happened during [l] and the row has been there all the time since. *)
Definition ever_since (R : sys -> xact -> Prop) (y0 : sys) (l : list xact) (i : nat) : Prop :=
  exists l1 a l2 y1 y2, l = l1 ++ a :: l2 /\ xrun pr umax y0 l1 = Ok y1 /\ xstep pr umax y1 a = Ok y2 /\
    R y1 a /\ alive_through y2 l2 i.

Definition actor (a : xact) : nat :=
  match a with XLock p | XOp p _ | XClose p | XFlush p _ _ | XApply p | XRemove p _ _ _ => p end.

(** While a thread is between the two halves of a flush, the others neither push nor remove the rows it is
    about to remove. *)
Definition undisturbed (y0 : sys) (l : list xact) : Prop :=
  forall l1 a l2 y y' p ev ch i, l = l1 ++ a :: l2 -> xrun pr umax y0 l1 = Ok y -> xstep pr umax y a = Ok y' ->
    waits y p = Some (ev, ch) -> actor a <> p -> chosen ch i -> alive y' i = alive y i.
End Spec.
