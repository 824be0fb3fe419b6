(** Vocabulary of the properties about caught panics. *)
From Coq Require Import List Arith Bool Sorted.
From Verif Require Import Base Column RowRange Table SortedTab BagTab TableSpec Hist Unwind.
Import ListNotations.

(** Ids are values of the row-id type. *)
Definition ids_in (imax : nat) (o : op) : Prop :=
  match o with
  | OGet i | OCell _ i | OAssign _ i _ | ODelete i | OSelect i => i <= imax
  | ORange r _ => r_end r <= imax
  | ORemoveSorted rows | ORemoveRows _ _ (SThese rows) => Forall (fun i => i <= imax) rows
  | _ => True
  end.
(** A call rustc accepts. *)
Definition uop_ok (sch : schema) (o : uop) : Prop :=
  op_ty (s_cols sch) (calm o) /\ ids_in (s_imax sch) (calm o).
(** [Ord] of the elements does not panic during the call. *)
Definition no_ord_panic (c : (key -> list key -> bool) * uop) : Prop := forall k m, fst c k m = false.
(** [Ord] of [bool] and of row ids never panics. *)
Definition ord_ok (c : (key -> list key -> bool) * uop) : Prop :=
  forall v n m, match v with VInt _ => True | _ => fst c (v, n) m = false end.
(** No [VecCol] comes after an indexed [VecCol]. *)
Definition index_last (sch : schema) : Prop :=
  forall i j tj, nth_error (s_cols sch) i = Some (Indexed TVec) -> nth_error (s_cols sch) j = Some tj -> i < j ->
    ct_base tj = TBool.
(** Not the case of C11. *)
Definition harmless_calls (pr : profile) (sch : schema) (l : list ((key -> list key -> bool) * uop)) : Prop :=
  pr = Debug \/ s_kind sch <> Bag \/ Forall (fun c => removal_flush (calm (snd c)) = false) l.

(** No user code panics during the call. *)
Definition calm_call (o : uop) : Prop :=
  match o with
  | UPushAll _ stop | UPushArray _ stop => stop = false
  | ULiveFlush _ tp _ | UFlush _ tp _ | URemoveRows _ tp _ _ => tp = false
  | URetain A f _ => forall s w i, snd (f s w i) <> None
  | UVisit A f _ => forall s w i, match snd (f s w i) with UContinue _ _ stop => stop = false | UBreak => True | UPanic => False end
  | UMerge cmp A log _ _ stop => (forall a b, cmp a b <> None) /\ (forall s w i, log s w i <> None) /\ stop = false
  | _ => True
  end.
(** Calls of Hist.v that are written again in Unwind.v are called by their new names; a checked id is of a row that exists. *)
Definition own_name (t : table) (o : uop) : Prop :=
  match o with
  | UCall o => plain_call o = true
  | UCell _ i | USetCell _ i _ => t_contains t i = true
  | _ => True
  end.

(** ** What a panic leaves of the rows *)
Definition no_panics (k : key) (m : list key) : bool := false.
(** The answers of a closure to calls with the ids [i], [i + 1].. when it sees these tables. *)
Fixpoint answers {A B} (f : A -> wlock -> nat -> A * B) (s : A) (i : nat) (seen : list wlock) : list B :=
  match seen with
  | [] => []
  | w :: seen => let p := f s w i in snd p :: answers f (fst p) (Datatypes.S i) seen
  end.
(** The closure was shown the rows in order, its own one and the later ones still being the original ones. *)
Definition shown (t : table) (n : nat) (seen : list wlock) : Prop :=
  length seen <= n /\
  forall k w1, nth_error seen k = Some w1 -> t_len (w_tab w1) = n /\
    forall j, k <= j < n -> t_get_row (w_tab w1) j = t_get_row t j.
Definition stopping (a : uaction) : bool := match a with UContinue _ _ stop => stop | _ => false end.
(** The rows the answers ask for, up to the first iterator that panics. *)
Fixpoint asked_for (rows : list row) (acts : list uaction) : list row :=
  match rows, acts with
  | r :: rs, UContinue remove add stop :: acts => (if remove then [] else [r]) ++ add ++ (if stop then [] else asked_for rs acts)
  | _, UPanic :: _ => []
  | _, _ => rows
  end.
(** The closure has panicked at the last call, or an iterator given by it has. *)
Definition cut_short (acts : list uaction) : Prop :=
  Forall (fun a => match a with UContinue _ _ _ => True | _ => False end) (removelast acts) /\
  (last acts UBreak = UPanic \/ last acts UBreak <> UPanic /\ existsb stopping acts = true).
(** The rows then: as many of those asked for as there was room for among the rows already shown, and after them
    the old rows. *)
Definition left_over (rows : list row) (acts : list uaction) : list row :=
  let out := asked_for rows acts in
  let c := match last acts UBreak with UPanic => Nat.min (length acts - 1) (length out) | _ => length out end in
  firstn c out ++ skipn c rows.
(** The indexes are right: [find] lists, in increasing order, exactly the rows with the value (but the row with the
    last id there can be, C04). *)
Definition finds_right (t : table) : Prop :=
  forall k b v, nth_error (s_cols (t_sch t)) k = Some (Indexed b) ->
  exists l, t_find t k v = Ok l /\ StronglySorted lt l /\
    forall i, In i l <-> i < t_imax t /\ exists r, t_get_row t i = Ok r /\ nth_error r k = Some v.
