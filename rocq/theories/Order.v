(** Total preorders given by a comparison function (Rust's [Ord::cmp] on rows and keys). *)
From Coq Require Import List Sorted.
Import ListNotations.

Record total_preorder {K} (c : K -> K -> comparison) : Prop := {
  tp_anti : forall x y, c y x = CompOpp (c x y);
  tp_trans : forall x y z, c x y <> Gt -> c y z <> Gt -> c x z <> Gt }.

Definition le_by {K} (c : K -> K -> comparison) (x y : K) : Prop := c x y <> Gt.
(** Ascending (equal elements allowed). *)
Definition ascending {K} (c : K -> K -> comparison) (l : list K) : Prop := StronglySorted (le_by c) l.
