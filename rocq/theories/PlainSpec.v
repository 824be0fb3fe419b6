(** A table as a plain list of rows: what C85 compares [table!]'s code with.  No columns, bit vectors, search trees or free
    lists: rows in a list, who is found and who is free as sets of ids, and what the write lock remembers. *)
From Coq Require Import List Arith Bool.
From Verif Require Import Base Column RowRange Table Visit SortedTab TableSpec Hist SkipSpec Answers.
Import ListNotations.

(** [Fails]: panics.  [Unsaid]: nothing is claimed (such a program does not compile, waits for its own lock, or another
    property is about it). *)
Inductive outcome (A : Type) := Fine (x : A) | Fails | Unsaid.
Arguments Fine {A}. Arguments Fails {A}. Arguments Unsaid {A}.
Definition after {A B} (x : outcome A) (f : A -> outcome B) : outcome B :=
  match x with Fine a => f a | Fails => Fails | Unsaid => Unsaid end.

(** [p_found i]: the indexes know row [i].  [p_free i]: id [i] waits to be used again.
    [p_lock]: the rows the trackers will be told of, whether rows were pushed, whether rows were deleted. *)
Record plain := Pl { p_rows : list row; p_found : nat -> bool; p_free : nat -> bool; p_lock : option (select * bool * bool) }.
Definition p_new : plain := Pl [] (fun _ => true) (fun _ => false) None.

Definition set (f : nat -> bool) (i : nat) (b : bool) : nat -> bool := fun j => if j =? i then b else f j.
Definition more (s : select) (ids : list nat) : select := match s with SAll => SAll | SThese l => SThese (l ++ ids) end.
Definition nothing_to_tell (s : select) : bool := match s with SThese [] => true | _ => false end.
Definition all_below (n : nat) (ids : list nat) : bool := forallb (fun i => i <? n) ids.
Fixpoint rising (ids : list nat) : bool :=
  match ids with
  | x :: (y :: _) as l => (x <? y) && rising l
  | _ => true
  end.
Definition only_next (o : it_op) : bool := match o with ItNext => true | _ => false end.

Section Plain.
Variable pr : profile.
Variable umax : nat.
Variable sch : schema.
Notation kd := (s_kind sch).
Notation imax := (s_imax sch).
Notation consistent := (kind_eqb kd Consistent).

Definition len (a : plain) : nat := length (p_rows a).
Definition there (a : plain) (i : nat) : bool := (i <? len a) && negb (p_free a i).
Definition with_rows (a : plain) (rows : list row) : plain := Pl rows (p_found a) (p_free a) (p_lock a).
Definition with_lock (a : plain) (l : option (select * bool * bool)) : plain := Pl (p_rows a) (p_found a) (p_free a) l.
Definition row_at (a : plain) (i : nat) : row := nth i (p_rows a) [].

(** The lock notes pushed and deleted rows, for consistent tables only. *)
Definition note (a : plain) (ids : list nat) (pushed deleted : bool) : plain :=
  match p_lock a with
  | Some (s, p, d) => if consistent then with_lock a (Some (more s ids, p || pushed, d || deleted)) else a
  | None => a
  end.

(** ** Adding *)
Definition grow (a : plain) (rs : list row) : plain :=
  note (Pl (p_rows a ++ rs) (fun j => (len a <=? j) || p_found a j) (p_free a) (p_lock a)) (seq (len a) (length rs)) true false.
(** The free id that is used first. *)
Definition free_id (a : plain) : option nat := find (p_free a) (seq 0 (S imax)).
Definition put (a : plain) (r : row) : outcome (plain * nat) :=
  match free_id a with
  | Some i => if i <? len a then Fine (note (Pl (upd (p_rows a) i r) (set (p_found a) i true) (set (p_free a) i false) (p_lock a)) [i] true false, i)
              else Fails
  | None => if len a <=? imax then Fine (grow a [r], len a) else Fails
  end.
Fixpoint puts (a : plain) (rs : list row) : outcome plain :=
  match rs with [] => Fine a | r :: rs => after (put a r) (fun p => puts (fst p) rs) end.

(** ** Removing *)
Definition emptied (a : plain) : plain := with_rows a [].
(** Consistent tables: the rows stay where they are, but are free. *)
Definition freed (a : plain) (ids : list nat) : plain :=
  Pl (p_rows a) (fun j => p_found a j && negb (mem j ids)) (fun j => p_free a j || mem j ids) (p_lock a).
(** Bags: the last row takes the place. *)
Definition swapped_out (rows : list row) (i : nat) : list row := firstn (length rows - 1) (upd rows i (last rows [])).
Fixpoint swapped_outs (n : nat) (rows : list row) (ids : list nat) : outcome (list row) :=
  match ids with
  | [] => Fine rows
  | i :: ids => if i <? n then match rows with
                               | [] => match pr with Debug => Fails | Release => Unsaid end
                               | _ => swapped_outs n (swapped_out rows i) ids
                               end
                else Fails
  end.
Definition removed (a : plain) (s : select) : outcome plain :=
  match s with
  | SAll => Fine (emptied a)
  | SThese ids =>
      match kd with
      | Consistent => if all_below (len a) ids then Fine (freed a ids) else Fails
      | Bag => after (swapped_outs (len a) (p_rows a) ids) (fun rows => Fine (with_rows a rows))
      | _ => match ids with [] => Fine a | _ => Fails end
      end
  end.
(** The flush of a lock that remembers [l]. *)
Definition flushed (a : plain) (l : select * bool * bool) (srt : bool) (ev : event) : outcome plain :=
  let '(s, p, d) := l in
  if nothing_to_tell s then Fine a
  else if (p && d) || (ev_removal ev && ev_creation ev) || (max_event_types <=? ev_id ev) then Fails
  else if ev_removal ev then removed a (match s with SThese ids => SThese (if srt then sort_ids ids else ids) | SAll => SAll end)
  else Fine a.

(** ** Whole table *)
Fixpoint kept_rows {A} (g : A -> row -> A * bool) (s : A) (rows : list row) : list row :=
  match rows with
  | [] => []
  | r :: rs => let p := g s r in if snd p then r :: kept_rows g (fst p) rs else kept_rows g (fst p) rs
  end.
Fixpoint visited_rows {A} (g : A -> row -> A * action) (s : A) (rows : list row) : list row :=
  match rows with
  | [] => []
  | r :: rs => let p := g s r in
               match snd p with
               | Break => rows
               | Continue rm add => (if rm then [] else [r]) ++ add ++ visited_rows g (fst p) rs
               end
  end.
(** Which row the closure stops at, and how many rows come before it then.  [i]: rows seen, [n]: rows there are by now. *)
Fixpoint broke {A} (g : A -> row -> A * action) (s : A) (rows : list row) (i n : nat) : option (nat * nat) :=
  match rows with
  | [] => None
  | r :: rs => let p := g s r in
               match snd p with
               | Break => Some (i, n)
               | Continue rm add => broke g (fst p) rs (S i) (n + (if rm then 0 else 1) + length add)
               end
  end.
(** A full table must not be visited to its end: the closure stops at the first row, or before the last one and when as many rows
    have been added as removed. *)
Definition stops_early {A} (g : A -> row -> A * action) (s : A) (rows : list row) : bool :=
  match broke g s rows 0 0 with Some (i, n) => (n =? i) && ((i =? 0) || (i <? imax)) | None => false end.
(** Where the new rows come to be: merge tagged rows, and look for the tags. *)
Definition merge_ids (cmp : row -> row -> comparison) (rows new : list row) : list nat :=
  let m := merge_order (fun x y => cmp (snd x) (snd y)) (map (pair false) rows) (map (pair true) new) in
  filter (fun i => nth i (map fst m) false) (seq 0 (length m)).
Definition merged_with (a : plain) (cmp : row -> row -> comparison) (new : list row) : outcome plain :=
  match new with
  | [] => Fine a
  | first :: _ =>
         if len a <=? imax then
           if len a + length new <=? S imax then Fine (with_rows a (merge_order cmp (p_rows a) new)) else Fails
         else match pr with
              | Debug => Fails
              (* C87 *)
              | Release => if forallb (is_lt cmp first) (p_rows a) then Unsaid else Fails
              end
  end.

(** ** Iterating over the rows [b..e) *)
Definition told (a : plain) (its : list it_op) (b e : nat) : outcome answer :=
  (* skipping past the largest [usize]: C88 *)
  if match pr with Debug => true | Release => forallb only_next its || (Nat.max b e + skipped its <=? umax) end then
    match walk imax umax (there a) its b e with
    | Some l => Fine (AItems l (map (fun o => match o with Some i => row_at a i | None => [] end) l))
    | None => Fails
    end
  else Unsaid.

(** ** The calls *)
Definition looks (a : plain) (o : op) : outcome answer :=
  match o with
  | OGet i => if there a i then Fine (ARow (row_at a i)) else Fails
  | OCell k i =>
      match nth_error (s_cols sch) k with
      | Some _ => if i <? len a then Fine (AVal (nth k (row_at a i) (VBool false))) else Fails
      | None => Unsaid
      end
  | OFind k v =>
      match nth_error (s_cols sch) k with
      | Some (Indexed _) =>
          (* the largest row id is never found, see C04 *)
          Fine (AIds (filter (fun i => (i <? imax) && p_found a i && val_eqb (nth k (row_at a i) (VBool false)) v) (seq 0 (len a))))
      | _ => Unsaid
      end
  | OLast => Fine (AId (match len a with 0 => None | S n => Some n end))
  | ODump => if consistent then Unsaid else if len a <=? imax then Fine (ARows (p_rows a)) else Fails
  | ORange r its =>
      if r_end r <=? imax then
        if ((r_start r <? len a) || (r_start r =? r_end r)) && (r_end r <=? len a) then told a its (r_start r) (r_end r) else Fails
      else Unsaid
  | OIter its => if len a <=? imax then told a its 0 (len a) else Fails
  | _ => Unsaid
  end.

(** With the lock [l]. *)
Definition does (a : plain) (l : select * bool * bool) (c : call) : outcome (plain * answer) :=
  let '(s, p, d) := l in
  let quietly (x : outcome plain) := after x (fun a => Fine (a, ANothing)) in
  match c with
  | Do (OLiveFlush srt ev) =>
      if nothing_to_tell s then Fine (a, ANothing)
      else quietly (after (flushed a l srt ev) (fun a => Fine (with_lock a (Some (SThese [], false, false)))))
  | Do (OEdit its) => if len a <=? imax then after (told a its 0 (len a)) (fun x => Fine (a, x)) else Fails
  | Do (OAssign k i v) =>
      match nth_error (s_cols sch) k with
      | Some (Plain _) => if i <? len a then Fine (with_rows a (upd (p_rows a) i (upd (row_at a i) k v)), ANothing) else Fails
      | _ => Unsaid
      end
  | Do (OSelect i) => Fine (with_lock a (Some (more s [i], p, d)), ANothing)
  | Do OSelectAll => Fine (with_lock a (Some (SAll, p, d)), ANothing)
  | Do OClearRaw => Fine (emptied a, ANothing)
  | Do OClear =>
      match kd with
      | Consistent => Fine (with_lock a (Some (SAll, p, true)), ANothing)
      | Append | Bag => Fine (emptied a, ANothing)
      | _ => Fine (a, ANothing)
      end
  | Do (OPush r) => if kind_eqb kd Sorted then Unsaid else after (put a r) (fun q => Fine (fst q, AId (Some (snd q))))
  | Do (OPushAll rs) => if kind_eqb kd Sorted then Unsaid else quietly (puts a rs)
  | Do (OPushArray rs) =>
      if kind_eqb kd Sorted then Unsaid else
      match rs with
      | [] => Fine (a, ASpan imax imax)
      | _ => let e := len a + length rs in
             if e <=? imax then Fine (grow a rs, ASpan (len a) e)
             else match pr with
                  | Debug => Fails
                  | Release => if e =? S imax then Fine (grow a rs, ASpan (len a) 0) else Fails
                  end
      end
  | Do ONextPushed =>
      if kind_eqb kd Sorted then Unsaid
      else if len a <=? imax then Fine (a, AId (Some (match free_id a with Some i => i | None => len a end))) else Fails
  | Do (ODelete i) =>
      match kd with
      | Consistent => if there a i then Fine (note a [i] false true, ANothing) else Fails
      | Bag => if i <? len a then Fine (with_rows a (swapped_out (p_rows a) i), ANothing) else Fails
      | _ => Unsaid
      end
  | Do (ORemoveSorted ids) =>
      if kind_eqb kd Sorted then
        if rising ids && all_below (len a) ids then Fine (with_rows a (without 0 (p_rows a) ids), ANothing) else Fails
      else Unsaid
  | CRetain _ g s =>
      if consistent then Unsaid
      else if len a <=? imax then Fine (with_rows a (kept_rows g s (p_rows a)), ANothing)
      else match pr with Debug => Fails | Release => Unsaid (* C87 *) end
  | CVisit _ g s =>
      if consistent || kind_eqb kd Sorted then Unsaid
      else if len a <=? imax then
        let out := visited_rows g s (p_rows a) in
        if length out <=? S imax then Fine (with_rows a out, ANothing) else Fails
      else if stops_early g s (p_rows a) then Fine (with_rows a (visited_rows g s (p_rows a)), ANothing)
      else match pr with Debug => Fails | Release => Unsaid (* C87 *) end
  | Do (OMerge cmp new) => if kind_eqb kd Sorted then quietly (merged_with a cmp (sort_rows cmp new)) else Unsaid
  | CMergeLogged cmp new =>
      if kind_eqb kd Sorted then after (merged_with a cmp new) (fun a' => Fine (a', AIds (merge_ids cmp (p_rows a) new))) else Unsaid
  | Do (OMergeSingle cmp r) =>
      if kind_eqb kd Sorted then
        after (merged_with a cmp [r]) (fun a' => Fine (a', AId (Some (length (take_while (is_lt cmp r) (p_rows a))))))
      else Unsaid
  | _ => Unsaid
  end.

(** [Table::remove_rows]. *)
Definition removes_rows (a : plain) (srt : bool) (ev : event) (s : select) : outcome plain :=
  match kd, p_lock a with
  | Consistent, l =>
      let '(log, p, d) := match l with Some l => l | None => (SThese [], false, false) end in
      after (match s with
             | SThese ids => after (removed a s) (fun a => flushed a (log, p, d) srt ev)
             | SAll => flushed (emptied a) (SAll, p, true) srt ev
             end) (fun a => Fine (with_lock a None))
  | Sorted, None =>
      match s with
      | SAll => Fine (emptied a)
      | SThese ids => if rising ids && all_below (len a) ids then Fine (with_rows a (without 0 (p_rows a) ids)) else Fails
      end
  | _, _ => Unsaid
  end.

Definition acts (a : plain) (c : call) : outcome (plain * answer) :=
  match c, p_lock a with
  | Do OLock, None => Fine (with_lock a (Some (SThese [], false, false)), ANothing)
  | Do OClose, Some (s, _, _) => if consistent && negb (nothing_to_tell s) then Fails else Fine (with_lock a None, ANothing)
  | Do (OFlush srt ev), Some l => after (flushed a l srt ev) (fun a => Fine (with_lock a None, ANothing))
  | Do (ORemoveRows srt ev s), _ => after (removes_rows a srt ev s) (fun a => Fine (a, ANothing))
  | Do ((OGet _ | OCell _ _ | OFind _ _ | OLast | ODump | ORange _ _ | OIter _) as o), _ => after (looks a o) (fun x => Fine (a, x))
  | _, Some l => does a l c
  | _, None => Unsaid
  end.

(** A program, and all it is told. *)
Fixpoint plays (a : plain) (cs : list call) : outcome (list answer) :=
  match cs with
  | [] => Fine []
  | c :: cs => after (acts a c) (fun p => after (plays (fst p) cs) (fun l => Fine (snd p :: l)))
  end.
End Plain.

Definition call_ty (ts : list ctype) (c : call) : Prop :=
  match c with
  | Do o => op_ty ts o
  | CVisit _ g _ => forall s r s' rm add, g s r = (s', Continue rm add) -> Forall (row_ty ts) add
  | CMergeLogged _ rows => Forall (row_ty ts) rows
  | CRetain _ _ _ => True
  end.

(** ** When something is said *)
(** The program compiles, does not wait for its own lock, and uses no closures but those of Answers.v (nor BagIters). *)
Definition legal (sch : schema) (locked : bool) (c : call) : bool :=
  match c with
  | Do OLock => negb locked
  | Do (OClose | OFlush _ _) => locked
  | Do (ORemoveRows _ _ _) => kind_eqb (s_kind sch) Consistent || kind_eqb (s_kind sch) Sorted && negb locked
  | Do (OGet _ | OLast | OIter _) => true
  | Do ODump => negb (kind_eqb (s_kind sch) Consistent)
  | Do (OCell k _) => k <? length (s_cols sch)
  | Do (OFind k _) => match nth_error (s_cols sch) k with Some (Indexed _) => true | _ => false end
  | Do (ORange r _) => r_end r <=? s_imax sch
  | Do (OAssign k _ _) => locked && match nth_error (s_cols sch) k with Some (Plain _) => true | _ => false end
  | Do (ORetain _ _ _ | OVisit _ _ _ | OMergeLogged _ _ _ _ _ | OBagNew | OBagNext _ | OBagMark _ | OBagEnd _) => false
  | _ => locked && avail (s_kind sch) (op_of c)
  end.
Definition locked_after (locked : bool) (c : call) : bool :=
  match c with Do OLock => true | Do (OClose | OFlush _ _ | ORemoveRows _ _ _) => false | _ => locked end.
Fixpoint all_legal (sch : schema) (locked : bool) (cs : list call) : bool :=
  match cs with [] => true | c :: cs => legal sch locked c && all_legal sch (locked_after locked c) cs end.
