(** What a panic leaves behind.  In Table.v and the files based on it a call that panics has no state after it.
    Here the calls that can panic half way are written again so that they give the state left too: the panic
    may be caught ([catch_unwind]) while the lock lives on, and the lock used again.  UnwindAgree.v proves that
    they are the same functions otherwise.
    User code that is called can panic as well: closures, iterators, comparisons of rows, trackers, and [Ord] of the
    elements of an indexed column.
    Simplification: panics in [Clone] and [Drop] of elements are left out. *)
From Coq Require Import List Arith Bool.
From Verif Require Import Base Column RowRange Table SortedTab BagTab Hist.
Import ListNotations.

(** A call: the state left, and the result. *)
Definition thn {X A B} (p : X * res A) (f : X -> A -> X * res B) : X * res B :=
  match snd p with Ok a => f (fst p) a | Err e => (fst p, Err e) end.
Fixpoint ufold {X A} (f : X -> A -> X * res unit) (l : list A) (x : X) : X * res unit :=
  match l with
  | [] => (x, Ok tt)
  | a :: l => thn (f x a) (fun x _ => ufold f l x)
  end.
Definition drop_res {X A} (p : X * res A) : X * res unit := thn p (fun x _ => (x, Ok tt)).

(** ** Columns *)
Section Col.
Variable imax : nat.
(** Whether [Ord] of the elements panics while the key is looked for in the map (of which this is the content). *)
Variable boom : key -> list key -> bool.
(** A BTreeMap compares only if it is not empty.  The map is not changed by a panic then. *)
Definition booms (k : key) (m : list key) : bool := match m with [] => false | _ => boom k m end.

(** src/map_index.rs:102-107.  The value is stored before the index is touched. *)
Definition uc_push (c : col) (v : val) : col * res unit :=
  match c with
  | CPlain b => match b_push b v with Ok b' => (CPlain b', Ok tt) | Err e => (c, Err e) end
  | CIdx b ix =>
      match b_push b v with
      | Err e => (c, Err e)
      | Ok b' =>
          match native imax (b_len b) with
          | Err e => (CIdx b' ix, Err e)
          | Ok n => if booms (v, n) ix then (CIdx b' ix, panic PUser) else (CIdx b' (bt_insert (v, n) ix), Ok tt)
          end
      end
  end.

(** src/map_index.rs:109-115 *)
Definition uc_swap_out (c : col) (i : nat) (new : val) : col * res val :=
  match c with
  | CPlain b => match b_swap_out b i new with Ok p => (CPlain (fst p), Ok (snd p)) | Err e => (c, Err e) end
  | CIdx b ix =>
      match b_index b i with
      | Err e => (c, Err e)
      | Ok old =>
          match native imax i with
          | Err e => (c, Err e)
          | Ok n =>
              if booms (old, n) ix then (c, panic PUser) else
              let ix := bt_remove (old, n) ix in
              if booms (new, n) ix then (CIdx b ix, panic PUser) else
              let ix := bt_insert (new, n) ix in
              match b_swap_out b i new with
              | Ok p => (CIdx (fst p) ix, Ok (snd p))
              | Err e => (CIdx b ix, Err e)
              end
          end
      end
  end.

(** src/map_index.rs:117-127 *)
Definition uc_swap (c : col) (i j : nat) : col * res unit :=
  match c with
  | CPlain b => match b_swap b i j with Ok b' => (CPlain b', Ok tt) | Err e => (c, Err e) end
  | CIdx b ix =>
      match b_index b i, b_index b j with
      | Err e, _ | Ok _, Err e => (c, Err e)
      | Ok old_a, Ok old_b =>
          match native imax i, native imax j with
          | Err e, _ | Ok _, Err e => (c, Err e)
          | Ok na, Ok nb =>
              if booms (old_a, na) ix then (c, panic PUser) else
              let ix := bt_remove (old_a, na) ix in
              if booms (old_b, nb) ix then (CIdx b ix, panic PUser) else
              let ix := bt_remove (old_b, nb) ix in
              if booms (old_a, nb) ix then (CIdx b ix, panic PUser) else
              let ix := bt_insert (old_a, nb) ix in
              if booms (old_b, na) ix then (CIdx b ix, panic PUser) else
              let ix := bt_insert (old_b, na) ix in
              match b_swap b i j with
              | Ok b' => (CIdx b' ix, Ok tt)
              | Err e => (CIdx b ix, Err e)
              end
          end
      end
  end.

(** src/map_index.rs:129-134 *)
Definition uc_deleted (c : col) (i : nat) : col * res unit :=
  match c with
  | CPlain b => (c, Ok tt)
  | CIdx b ix =>
      match b_index b i with
      | Err e => (c, Err e)
      | Ok old =>
          match native imax i with
          | Err e => (c, Err e)
          | Ok n => if booms (old, n) ix then (c, panic PUser) else (CIdx b (bt_remove (old, n) ix), Ok tt)
          end
      end
  end.

(** src/map_index.rs:86-94 *)
Definition uc_truncate (c : col) (n : nat) : col * res unit :=
  match c with
  | CPlain b => (CPlain (b_truncate b n), Ok tt)
  | CIdx b ix =>
      thn (ufold uc_deleted (seq n (b_len b - n)) c)
          (fun c _ => (match c with CPlain b => CPlain (b_truncate b n) | CIdx b ix => CIdx (b_truncate b n) ix end, Ok tt))
  end.

(** [#(self.col.f(..);)*]: column by column, until one panics. *)
Fixpoint ucols {A B} (f : col -> A -> col * res B) (cs : list col) (l : list A) : list col * res (list B) :=
  match cs, l with
  | c :: cs, a :: l =>
      match f c a with
      | (c, Err e) => (c :: cs, Err e)
      | (c, Ok b) => let q := ucols f cs l in (c :: fst q, let* bs := snd q in Ok (b :: bs))
      end
  | _, _ => (cs, Ok [])
  end.
Definition ueach {B} (f : col -> col * res B) (cs : list col) : list col * res (list B) :=
  ucols (fun c (_ : col) => f c) cs cs.
End Col.

(** ** Tables *)
Definition cols_left {A} (w : wlock) (p : list col * res A) : wlock * res A := (with_tab w (with_cols (w_tab w) (fst p)), snd p).

Section Tab.
Variables (pr : profile) (umax : nat).
Variable boom : key -> list key -> bool.

(** output.rs:1249-1253 *)
Definition u_push_only (w : wlock) (r : row) : wlock * res nat :=
  let t := w_tab w in
  if length (t_cols t) =? length r then
    thn (cols_left w (ucols (uc_push (t_imax t) boom) (t_cols t) r))
        (fun w _ => (w, let* l := t_last (w_tab w) in match l with Some i => Ok i | None => panic PUnwrap end))
  else (w, panic PRustType).
(** output.rs:1242-1246 *)
Definition u_push_end (w : wlock) (r : row) : wlock * res nat :=
  thn (u_push_only w r) (fun w i => (event_add w i, Ok i)).
(** output.rs:1310-1315 *)
Definition u_swap_out_row (w : wlock) (i : nat) (r : row) : wlock * res row :=
  let t := w_tab w in
  match t_check t i with
  | Err e => (w, Err e)
  | Ok i =>
      if length (t_cols t) =? length r then
        cols_left w (ucols (fun c v => uc_swap_out (t_imax t) boom c i v) (t_cols t) r)
      else (w, panic PRustType)
  end.
(** output.rs:1327-1329 *)
Definition u_truncate (w : wlock) (n : nat) : wlock * res unit :=
  drop_res (cols_left w (ueach (fun c => uc_truncate (t_imax (w_tab w)) boom c n) (t_cols (w_tab w)))).
(** output.rs:829-834 (consistent), 859-870 (bag), 879-881 *)
Definition u_delete_raw (w : wlock) (i : nat) : wlock * res unit :=
  let t := w_tab w in
  match t_kind t with
  | Consistent =>
      thn (cols_left w (ueach (fun c => uc_deleted (t_imax t) boom c i) (t_cols t)))
          (fun w _ => match rid_from_usize (t_imax t) i with
                      | Err e => (w, Err e)
                      | Ok n => (with_tab w (Tab (t_sch (w_tab w)) (t_cols (w_tab w)) (set_insert n (t_free (w_tab w)))), Ok tt)
                      end)
  | Bag =>
      match usub pr umax (t_len t) 1 with
      | Err e => (w, Err e)
      | Ok len1 =>
          thn (if i <? len1 then drop_res (cols_left w (ueach (fun c => uc_swap (t_imax t) boom c i len1) (t_cols t)))
               else (w, Ok tt))
              (fun w _ => u_truncate w len1)
      end
  | _ => (w, panic PUnimplemented)
  end.

(** output.rs:1553-1575.  The free list and the change log are updated before the row is stored. *)
Definition u_push (w : wlock) (r : row) : wlock * res nat :=
  match t_free (w_tab w) with
  | old :: _ =>
      let t := w_tab w in
      let w := with_tab w (Tab (t_sch t) (t_cols t) (set_remove old (t_free t))) in
      let w := event_add w old in
      thn (u_swap_out_row w old r) (fun w _ => (w, Ok old))
  | [] => u_push_end w r
  end.
(** A user's iterator: its rows, and whether it panics when it is asked for more than those. *)
Definition stop_res (stop : bool) : res unit := if stop then panic PUser else Ok tt.
(** output.rs:1542-1547 *)
Definition u_push_all (w : wlock) (rs : list row) (stop : bool) : wlock * res unit :=
  thn (ufold (fun w r => drop_res (u_push w r)) rs w) (fun w _ => (w, stop_res stop)).
(** output.rs:1594-1599: the loop *)
Fixpoint u_push_ends (rs : list row) (w : wlock) (last : nat) : wlock * res nat :=
  match rs with
  | [] => (w, Ok last)
  | r :: rs => thn (u_push_end w r) (fun w i => u_push_ends rs w i)
  end.
(** output.rs:1587-1605 *)
Definition u_push_array (w : wlock) (rs : list row) (stop : bool) : wlock * res rrange :=
  match rs with
  | [] => (w, let* _ := stop_res stop in Ok (rr_empty (t_imax (w_tab w))))
  | r :: rs =>
      thn (u_push_end w r) (fun w i =>
      thn (u_push_ends rs w i) (fun w l =>
        (w, let* _ := stop_res stop in let* e := rid_next pr (t_imax (w_tab w)) l in Ok (RR i e))))
  end.

(** output.rs:823-827, 855-858 *)
Definition u_delete (w : wlock) (i : nat) : wlock * res unit :=
  match t_kind (w_tab w) with
  | Consistent => match t_check (w_tab w) i with Err e => (w, Err e) | Ok i => (event_del w i, Ok tt) end
  | Bag => match t_check (w_tab w) i with Err e => (w, Err e) | Ok i => u_delete_raw w i end
  | _ => (w, panic PUnimplemented)
  end.

(** output.rs:357-364, 957-966, 1002-1008: the loop over the rows *)
Definition u_delete_rows (w : wlock) (rows : list nat) : wlock * res unit :=
  let len := t_len (w_tab w) in
  ufold (fun w i => if i <? len then u_delete_raw w i else (w, panic PRemoveRange)) rows w.
(** output.rs:952-970, 997-1011 *)
Definition u_flush_apply (w : wlock) (ev : event) (changes : select) : wlock * res unit :=
  if ev_removal ev && negb (sel_empty changes) then
    match changes with
    | SAll => (clear_raw w, Ok tt)
    | SThese rows => u_delete_rows w rows
    end
  else (w, Ok tt).
(** output.rs:980-1023; [tp]: a tracker panics.  The changes are taken out of the lock before anything else. *)
Definition u_live_flush (srt tp : bool) (w : wlock) (ev : event) : wlock * res unit :=
  if sel_empty (w_changes w) then (w, Ok tt)
  else
    let changes := if srt then sel_sort (w_changes w) else w_changes w in
    let w' := W (w_tab w) (SThese []) (w_pushed w) (w_delete w) in
    match (let* _ := flush_check (w_pushed w) (w_delete w) ev in stop_res tp) with
    | Err e => (w', Err e)
    | Ok _ => thn (u_flush_apply w' ev changes) (fun w _ =>
                if sel_empty (w_changes w) then (W (w_tab w) (w_changes w) false false, Ok tt) else (w, panic PNotFlushed))
    end.

(** output.rs:424-439 and 399-441 *)
Fixpoint u_rm_col (imax : nat) (uglies : list nat) (bad : nat) (c : col) (rows : list nat) : col * res nat :=
  match uglies with
  | [] => (c, Ok bad)
  | ugly :: us =>
      if match rows with x :: _ => ugly =? x | [] => false end then u_rm_col imax us bad c (tl rows)
      else thn (if bad =? ugly then (c, Ok tt) else uc_swap imax boom c bad ugly) (fun c _ => u_rm_col imax us (S bad) c rows)
  end.
Definition u_sorted_remove (w : wlock) (rows : list nat) : wlock * res unit :=
  match rows with
  | [] => (w, Ok tt)
  | _ =>
      let t := w_tab w in
      match (let* _ := rm_check rows in assert_ (last rows 0 <? t_len t) PRemoveRange) with
      | Err e => (w, Err e)
      | Ok _ =>
          drop_res (cols_left w (ueach (fun c => thn (u_rm_col (t_imax t) (seq 0 (t_len t)) 0 c rows)
                                                     (fun c bad => uc_truncate (t_imax t) boom c bad)) (t_cols t)))
      end
  end.

(** ** visit and retain, output.rs:1337-1428 *)
(** What the closure answers; the iterator it gives may panic too. *)
Inductive uaction := UContinue (remove : bool) (add : list row) (stop : bool) | UBreak | UPanic.
Inductive urug := URow (r : row) | UIter (l : list row) (stop : bool).
Inductive upulled := UPulled (r : row) (rug : list urug) | UEmpty | UStopped.
(** output.rs:1364-1377 *)
Fixpoint u_pull (rug : list urug) : upulled :=
  match rug with
  | [] => UEmpty
  | URow r :: rug => UPulled r rug
  | UIter [] stop :: rug => if stop then UStopped else u_pull rug
  | UIter (x :: l) stop :: rug => UPulled x (UIter l stop :: rug)
  end.
(** output.rs:1402-1409 *)
Fixpoint u_fill (n : nat) (w : wlock) (rug : list urug) (front back : nat) : wlock * res (list urug * nat) :=
  match n with
  | 0 => (w, Ok (rug, front))
  | S n =>
      if front <? back then
        match u_pull rug with
        | UStopped => (w, panic PUser)
        | UEmpty => (w, Ok ([], front))
        | UPulled r rug =>
            thn (u_swap_out_row w front r) (fun w _ =>
              match rid_next pr (t_imax (w_tab w)) front with
              | Err e => (w, Err e)
              | Ok front => u_fill n w rug front back
              end)
        end
      else (w, Ok (rug, front))
  end.
(** output.rs:1412-1414.  [n] bounds the number of rows the rug can still give. *)
Fixpoint u_pour (n : nat) (w : wlock) (rug : list urug) : wlock * res unit :=
  match n with
  | 0 => (w, Ok tt)
  | S n =>
      match u_pull rug with
      | UStopped => (w, panic PUser)
      | UEmpty => (w, Ok tt)
      | UPulled r rug => thn (u_push_end w r) (fun w _ => u_pour n w rug)
      end
  end.
Fixpoint u_rug_size (rug : list urug) : nat :=
  match rug with [] => 0 | URow _ :: rug => S (u_rug_size rug) | UIter l _ :: rug => length l + u_rug_size rug end.

Section Visit.
Context {A : Type}.
Variable f : A -> wlock -> nat -> A * uaction.
(** output.rs:1382-1410 *)
Fixpoint u_loop (fuel : nat) (s : A) (w : wlock) (rug : list urug) (front back : nat) (stopped : bool)
  : wlock * res (option (list urug * nat)) :=
  match fuel with
  | 0 => if back <? t_len (w_tab w) then (w, Err EFuel) else (w, Ok (Some (rug, front)))
  | S n =>
      if back <? t_len (w_tab w) then
        let sa := if stopped then (s, UBreak) else f s w back in
        let go rug stopped :=
          match rid_next pr (t_imax (w_tab w)) back with
          | Err e => (w, Err e)
          | Ok back => (fun rug => thn (u_fill (back - front) w rug front back)
                                       (fun w q => u_loop n (fst sa) w (fst q) (snd q) back stopped)) rug
          end in
        match snd sa with
        | UPanic => (w, panic PUser)
        | UContinue remove add stop =>
            if remove then go (rug ++ [UIter add stop]) stopped
            else match t_get_row (w_tab w) back with
                 | Err e => (w, Err e)
                 | Ok r => go ((rug ++ [URow r]) ++ [UIter add stop]) stopped
                 end
        | UBreak =>
            if (front =? back) && match rug with [] => true | _ => false end then (w, Ok None)
            else match t_get_row (w_tab w) back with
                 | Err e => (w, Err e)
                 | Ok r => go (rug ++ [URow r]) true
                 end
        end
      else (w, Ok (Some (rug, front)))
  end.
(** output.rs:1354-1415; [retain] (1337-1345) is the case where nothing is added. *)
Definition u_visit (s : A) (w : wlock) : wlock * res unit :=
  thn (u_loop (t_len (w_tab w)) s w [] 0 0 false) (fun w q =>
    match q with
    | None => (w, Ok tt)
    | Some (rug, front) => thn (u_truncate w front) (fun w _ => u_pour (S (u_rug_size rug)) w rug)
    end).
End Visit.
Definition u_retain {A} (f : A -> wlock -> nat -> A * option bool) (s : A) (w : wlock) : wlock * res unit :=
  u_visit (fun s w i => let p := f s w i in
                        (fst p, match snd p with Some b => UContinue (negb b) [] false | None => UPanic end)) s w.

(** ** merge, output.rs:1433-1536 *)
Section Merge.
(** [Ord] of the rows, the [log] closure (both may panic). *)
Variable cmp : row -> row -> option comparison.
Context {A : Type}.
Variable log : A -> wlock -> nat -> option A.
(** output.rs:1490-1503, 1511-1516, 1527-1531: peeking may ask the iterator for a row *)
Definition u_take (rug iter : list row) (stop : bool) : res (option (side * row * list row * list row)) :=
  match rug, iter with
  | _, [] => if stop then panic PUser
             else Ok (match rug with [] => None | r :: rug => Some (Rug, r, rug, iter) end)
  | [], i :: is => Ok (Some (Iter, i, [], is))
  | r :: rs, i :: is =>
      match cmp r i with
      | None => panic PUser
      | Some Gt => Ok (Some (Iter, i, rug, is))
      | Some _ => Ok (Some (Rug, r, rs, iter))
      end
  end.
(** output.rs:1480-1482 *)
Fixpoint u_merge_skip (n : nat) (t : table) (first : row) (cursor : nat) : res nat :=
  match n with
  | 0 => if cursor <? t_len t then Err EFuel else Ok cursor
  | S n =>
      if cursor <? t_len t then
        let* r := t_get_row t cursor in
        match cmp r first with
        | None => panic PUser
        | Some Lt => let* cursor := rid_next pr (t_imax t) cursor in u_merge_skip n t first cursor
        | Some _ => Ok cursor
        end
      else Ok cursor
  end.
Definition u_log (s : A) (sd : side) (w : wlock) (i : nat) : res A :=
  match sd with
  | Rug => Ok s
  | Iter => match log s w i with Some s => Ok s | None => panic PUser end
  end.
(** output.rs:1507-1522 *)
Fixpoint u_merge_shift (cursors : list nat) (s : A) (w : wlock) (rug iter : list row) (stop : bool)
  : wlock * res (A * list row * list row) :=
  match cursors with
  | [] => (w, Ok (s, rug, iter))
  | c :: cs =>
      match u_take rug iter stop with
      | Err e => (w, Err e)
      | Ok None => (w, panic PUnwrap)
      | Ok (Some (sd, v, rug, iter)) =>
          thn (u_swap_out_row w c v) (fun w old =>
            match u_log s sd w c with
            | Err e => (w, Err e)
            | Ok s => u_merge_shift cs s w (rug ++ [old]) iter stop
            end)
      end
  end.
(** output.rs:1523-1535.  [n] is more than the number of rows left. *)
Fixpoint u_merge_tail (n : nat) (s : A) (w : wlock) (rug iter : list row) (stop : bool) : wlock * res unit :=
  match n with
  | 0 => (w, Ok tt)
  | S n =>
      match u_take rug iter stop with
      | Err e => (w, Err e)
      | Ok None => (w, Ok tt)
      | Ok (Some (sd, v, rug, iter)) =>
          thn (u_push_end w v) (fun w i =>
            match u_log s sd w i with
            | Err e => (w, Err e)
            | Ok s => u_merge_tail n s w rug iter stop
            end)
      end
  end.
(** output.rs:1462-1536 *)
Definition u_merge (s : A) (w : wlock) (rows : list row) (stop : bool) : wlock * res unit :=
  match rows with
  | [] => (w, stop_res stop)
  | first :: _ =>
      let t := w_tab w in
      match (let* cursor := u_merge_skip (t_len t) t first 0 in
             let* e := rid_from_usize (t_imax t) (t_len t) in
             it_collect pr (t_imax t) (S (e - cursor)) (rr_iter_slow (RR cursor e))) with
      | Err e => (w, Err e)
      | Ok ids =>
          thn (u_merge_shift ids s w [] rows stop) (fun w q =>
            u_merge_tail (S (length (snd (fst q)) + length (snd q))) (fst (fst q)) w (snd (fst q)) (snd q) stop)
      end
  end.
End Merge.

(** ** Bags, src/index.rs:640-673 *)
Definition u_bag_next (w : wlock) (p : bag_pos) : (wlock * bag_pos) * res unit :=
  let '(mark, i, lst) := p in
  let t := w_tab w in
  if t_len t <=? i then ((w, p), Ok tt)
  else if mark then
    match lst with
    | None => ((w, (false, i, lst)), panic PUnwrap)
    | Some l =>
        match rid_from_usize (t_imax t) l with
        | Err e => ((w, (false, i, lst)), Err e)
        | Ok l => let q := u_delete w l in ((fst q, (false, i, lst)), snd q)
        end
    end
  else ((w, (false, S i, Some i)), let* _ := rid_from_usize (t_imax t) i in Ok tt).
Definition u_bag_drop (w : wlock) (p : bag_pos) : wlock * res unit :=
  match snd p with
  | Some l => if fst (fst p) then
                match rid_from_usize (t_imax (w_tab w)) l with Err e => (w, Err e) | Ok l => u_delete w l end
              else (w, Ok tt)
  | None => (w, Ok tt)
  end.
End Tab.

(** ** Cells by a checked id *)
(** src/index.rs:503-520, src/columns.rs:95-103.  The id is compared with the length of the first column only. *)
Definition u_cell (t : table) (k i : nat) : res val :=
  match nth_error (t_cols t) k with Some c => let* i := t_check t i in c_index c i | None => panic PRustType end.
(** src/columns.rs:104-111; rustc rejects it on indexed columns (output.rs:463-466) *)
Definition u_set_cell (t : table) (k i : nat) (v : val) : res table :=
  match nth_error (t_cols t) k with
  | Some (CPlain b) => let* i := t_check t i in
                       let* c := c_write (CPlain b) i v in Ok (with_cols t (upd (t_cols t) k c))
  | _ => panic PRustType
  end.

(** ** Programs that catch panics *)
Inductive uop :=
(* a call that panics, if at all, before it changes anything *)
| UCall (o : op)
| UPush (r : row) | UPushAll (rs : list row) (stop : bool) | UPushArray (rs : list row) (stop : bool)
| UDelete (i : nat) | ULiveFlush (srt tp : bool) (ev : event) | URemoveSorted (rows : list nat)
| URetain (A : Type) (f : A -> wlock -> nat -> A * option bool) (s : A)
| UVisit (A : Type) (f : A -> wlock -> nat -> A * uaction) (s : A)
| UMerge (cmp : row -> row -> option comparison) (A : Type) (log : A -> wlock -> nat -> option A) (s : A) (rows : list row) (stop : bool)
| UBagNext (k : nat) | UBagEnd (k : nat)
(* [table.col_k[i.check(&table)]], and an assignment to it: src/columns.rs:95-111 *)
| UCell (k i : nat) | USetCell (k i : nat) (v : val)
(* calls that consume the lock, or take one *)
| UClose | UFlush (srt tp : bool) (ev : event) | URemoveRows (srt tp : bool) (ev : event) (rows : select).

(** The same call without panicking user code. *)
Definition calm (o : uop) : op :=
  match o with
  | UCall o => o
  | UPush r => OPush r | UPushAll rs _ => OPushAll rs | UPushArray rs _ => OPushArray rs
  | UDelete i => ODelete i | ULiveFlush srt _ ev => OLiveFlush srt ev | URemoveSorted rows => ORemoveSorted rows
  | URetain A f s => ORetain A (fun s w i => (fst (f s w i), match snd (f s w i) with Some b => b | None => true end)) s
  | UVisit A f s => OVisit A (fun s w i => (fst (f s w i), match snd (f s w i) with
                      UContinue rm add _ => Visit.Continue rm add | _ => Visit.Break end)) s
  | UMerge cmp A log s rows _ => OMergeLogged (fun a b => match cmp a b with Some c => c | None => Eq end) A
                                   (fun s w i => match log s w i with Some s => s | None => s end) s rows
  | UBagNext k => OBagNext k | UBagEnd k => OBagEnd k
  | UCell k i => OCell k i | USetCell k i v => OAssign k i v
  | UClose => OClose | UFlush srt _ ev => OFlush srt ev | URemoveRows srt _ ev rows => ORemoveRows srt ev rows
  end.
(** Calls written above only because of [UCall]: those of Hist.v that are not written again. *)
Definition plain_call (o : op) : bool :=
  match o with
  | OPush _ | OPushAll _ | OPushArray _ | ODelete _ | OLiveFlush _ _ | ORemoveSorted _ | ORetain _ _ _ | OVisit _ _ _
  | OMergeLogged _ _ _ _ _ | OMerge _ _ | OMergeSingle _ _ | OBagNext _ | OBagEnd _ | OClose | OFlush _ _ | ORemoveRows _ _ _ => false
  | _ => true
  end.

(** [Lost]: the panic went through a method that owns the lock, so the lock was released while panicking and is
    poisoned (or, if there were changes to flush, the process aborted, output.rs:845-851); nobody gets at the table
    any more.  [Stuck]: the call does not return. *)
Inductive ustate := Live (st : state) | Lost | Stuck | Undefined.

Definition carry_on (st : state) (r : res unit) : ustate :=
  match r with
  | Ok _ | Err (EPanic _) => Live st
  | Err EUB => Undefined
  | Err _ => Stuck
  end.
(** A method that owns the lock returned: the table is free. *)
Definition let_go (t : table) (r : res unit) : ustate :=
  match r with
  | Ok _ => Live (Free t)
  | Err (EPanic _) => Lost
  | Err EUB => Undefined
  | Err _ => Stuck
  end.

Section Step.
Variables (pr : profile) (umax : nat).
(** output.rs:932-976.  If [do_flush] panics the lock has been released and the changes are forgotten. *)
Definition u_flush (boom : key -> list key -> bool) (srt tp : bool) (w : wlock) (ev : event) : ustate :=
  if sel_empty (w_changes w) then let_go (w_tab w) (Ok tt)
  else
    let changes := if srt then sel_sort (w_changes w) else w_changes w in
    match (let* _ := flush_check (w_pushed w) (w_delete w) ev in stop_res tp) with
    | Err _ => Live (Free (w_tab w))
    | Ok _ => let p := u_flush_apply pr umax boom (w_new (w_tab w)) ev changes in let_go (w_tab (fst p)) (snd p)
    end.
(** output.rs:346-397 *)
Definition u_remove_rows (boom : key -> list key -> bool) (srt tp : bool) (w : wlock) (ev : event) (rows : select) : ustate :=
  let p := match rows with
           | SThese rows => match t_kind (w_tab w) with Sorted => u_sorted_remove boom w rows | _ => u_delete_rows pr umax boom w rows end
           | SAll => (clear (clear_raw w), Ok tt)
           end in
  match snd p with
  | Ok _ => u_flush boom srt tp (fst p) ev
  | Err e => let_go (w_tab (fst p)) (Err e)
  end.

(** One call, with [boom] for as long as it lasts.  A call the program could not make changes nothing. *)
Definition ustep (st : state) (c : (key -> list key -> bool) * uop) : ustate :=
  let '(boom, o) := c in
  if avail (t_kind (st_tab st)) (calm o) then
    match st, o with
    | _, UCall o => if plain_call o then
                      match step pr umax st o with Ok st' => Live st' | Err e => carry_on st (Err e) end
                    else Live st
    | _, UCell k i => carry_on st (let* _ := u_cell (st_tab st) k i in Ok tt)
    | Locked w its, USetCell k i v =>
        match u_set_cell (w_tab w) k i v with Ok t => Live (Locked (with_tab w t) its) | Err e => carry_on st (Err e) end
    | Locked w its, UPush r => let p := u_push boom w r in carry_on (Locked (fst p) its) (snd (drop_res p))
    | Locked w its, UPushAll rs stop => let p := u_push_all boom w rs stop in carry_on (Locked (fst p) its) (snd p)
    | Locked w its, UPushArray rs stop => let p := u_push_array pr boom w rs stop in carry_on (Locked (fst p) its) (snd (drop_res p))
    | Locked w its, UDelete i => let p := u_delete pr umax boom w i in carry_on (Locked (fst p) its) (snd p)
    | Locked w its, ULiveFlush srt tp ev => let p := u_live_flush pr umax boom srt tp w ev in carry_on (Locked (fst p) its) (snd p)
    | Locked w its, URemoveSorted rows => let p := u_sorted_remove boom w rows in carry_on (Locked (fst p) its) (snd p)
    | Locked w its, URetain _ f s => let p := u_retain pr boom f s w in carry_on (Locked (fst p) its) (snd p)
    | Locked w its, UVisit _ f s => let p := u_visit pr boom f s w in carry_on (Locked (fst p) its) (snd p)
    | Locked w its, UMerge cmp _ log s rows stop =>
        let p := u_merge pr boom cmp log s w rows stop in carry_on (Locked (fst p) its) (snd p)
    | Locked w its, UBagNext k =>
        match nth_error its k with
        | Some q => let p := u_bag_next pr umax boom w q in carry_on (Locked (fst (fst p)) (upd its k (snd (fst p)))) (snd p)
        | None => Live st
        end
    | Locked w its, UBagEnd k =>
        match nth_error its k with
        | Some q => let p := u_bag_drop pr umax boom w q in carry_on (Locked (fst p) (firstn k its ++ skipn (S k) its)) (snd p)
        | None => Live st
        end
    | Locked w [], UClose => match w_drop w with Ok t => Live (Free t) | Err e => let_go (w_tab w) (Err e) end
    | Locked w [], UFlush srt tp ev => u_flush boom srt tp w ev
    | Locked w [], URemoveRows srt tp ev rows =>
        match t_kind (w_tab w) with Consistent => u_remove_rows boom srt tp w ev rows | _ => Live st end
    | Free t, URemoveRows srt tp ev rows => u_remove_rows boom srt tp (w_new t) ev rows
    | _, _ => Live st
    end
  else Live st.

Definition ustep_all (st : ustate) (c : (key -> list key -> bool) * uop) : ustate :=
  match st with Live st => ustep st c | _ => st end.
Definition urun (st : state) (l : list ((key -> list key -> bool) * uop)) : ustate := fold_left ustep_all l (Live st).
End Step.
