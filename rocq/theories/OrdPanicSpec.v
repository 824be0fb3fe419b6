(** Vocabulary for an indexed column whose elements have a panicking [Ord] (C112). *)
From Coq Require Import List Arith Bool Sorted.
From Verif Require Import Base Column ColumnHist Unwind.
Import ListNotations.

(** What can be seen of the column: the elements, and which rows [find] knows under which value. *)
Record view := View { v_elems : list val; v_known : val -> nat -> Prop }.

(** The map first forgets ([false]) or learns ([true]) that a row has a value. *)
Definition edit (known : val -> nat -> Prop) (e : bool * (val * nat)) : val -> nat -> Prop :=
  fun v i => if fst e then (v, i) = snd e \/ known v i else known v i /\ (v, i) <> snd e.
(** What a call does to the map, in order. *)
Definition edits (vs : list val) (o : iop) : list (bool * (val * nat)) :=
  match o with
  | IPush v => [(true, (v, length vs))]
  | ISwapOut i v => match nth_error vs i with Some old => [(false, (old, i)); (true, (v, i))] | None => [] end
  | ISwap i j =>
      match nth_error vs i, nth_error vs j with
      | Some a, Some b => [(false, (a, i)); (false, (b, j)); (true, (a, j)); (true, (b, i))]
      | _, _ => []
      end
  | IDeleted i => match nth_error vs i with Some old => [(false, (old, i))] | None => [] end
  | ITruncate n => map (pair false) (combine (skipn n vs) (seq n (length vs - n)))
  | IClear => []
  end.
(** The elements when the call is done, and when it panics. *)
Definition elems_done (vs : list val) (o : iop) : list val :=
  match o with
  | IPush v => vs ++ [v]
  | ISwapOut i v => upd vs i v
  | ISwap i j => match nth_error vs i, nth_error vs j with Some a, Some b => upd (upd vs i b) j a | _, _ => vs end
  | IDeleted _ => vs
  | ITruncate n => firstn n vs
  | IClear => []
  end.
Definition elems_panic (vs : list val) (o : iop) : list val := match o with IPush v => vs ++ [v] | _ => vs end.

(** The row is there, or there is an id for it. *)
Definition allowed (imax : nat) (vs : list val) (o : iop) : Prop :=
  match o with
  | IPush _ => length vs <= imax
  | ISwapOut i _ | IDeleted i => i < length vs
  | ISwap i j => i < length vs /\ j < length vs
  | _ => True
  end.

(** A call on a column while [Ord] of the elements panics when the map is searched for a key, as [boom] says. *)
Definition rough_step (imax : nat) (boom : key -> list key -> bool) (c : col) (o : iop) : col * res unit :=
  match o with
  | IPush v => uc_push imax boom c v
  | ISwapOut i v => drop_res (uc_swap_out imax boom c i v)
  | ISwap i j => uc_swap imax boom c i j
  | IDeleted i => uc_deleted imax boom c i
  | ITruncate n => uc_truncate imax boom c n
  | IClear => (c_clear c, Ok tt)
  end.

(** It runs to its end; or [Ord] panics at one of the edits, those before it are done and the others are not. *)
Definition outcome (boom : key -> list key -> bool) (o : iop) (a b : view) (r : res unit) : Prop :=
  let es := edits (v_elems a) o in
  (r = Ok tt /\ v_elems b = elems_done (v_elems a) o /\
     v_known b = match o with IClear => fun _ _ => False | _ => fold_left edit es (v_known a) end) \/
  (exists n e m, nth_error es n = Some e /\ m <> [] /\ boom (snd e) m = true /\ r = panic PUser /\
     v_elems b = elems_panic (v_elems a) o /\ v_known b = fold_left edit (firstn n es) (v_known a)).

(** A new column after calls, panicking or not, with what each of them gave. *)
Inductive ran (imax : nat) (t : btype) : list ((key -> list key -> bool) * iop * res unit) -> col -> Prop :=
| ran_new : ran imax t [] (c_new (Indexed t))
| ran_call h c boom o c' r :
    ran imax t h c -> iop_ty t o -> allowed imax (c_into_iter c) o -> rough_step imax boom c o = (c', r) ->
    ran imax t (h ++ [(boom, o, r)]) c'.

(** What can be seen of it, by the rule of [outcome] for each call. *)
Inductive account : list ((key -> list key -> bool) * iop * res unit) -> view -> Prop :=
| account_new : account [] (View [] (fun _ _ => False))
| account_call h a boom o r b : account h a -> outcome boom o a b r -> account (h ++ [(boom, o, r)]) b.

(** The column has these elements, and [find] gives the known rows below the last id, in order. *)
Definition seen (imax : nat) (c : col) (a : view) : Prop :=
  c_into_iter c = v_elems a /\
  forall k, exists rows, c_find imax c k = Ok rows /\ StronglySorted lt rows /\
    forall i, In i rows <-> i < imax /\ v_known a k i.
