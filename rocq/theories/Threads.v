(** Several threads.  The calls of Cascade.v and Extract.v again, as programs that take and give back locks one by one, so
    that the steps of different threads can be interleaved.  ThreadSeq.v proves that one such program alone does
    what Cascade.v and Extract.v say. *)
From Coq Require Import List Arith Bool.
From Verif Require Import Base Names Column RowRange Table SortedTab Events Cascade Extract.
Import ListNotations.

(** [LT p]: the [RwLock<GenericTable>] of table [p] (src/domain.rs:159-163; output.rs:1648-1705);
    [LF p]: the lock around its trackers ([GuardedFlush], src/tracking.rs:225-233). *)
Inductive lock := LT (p : nat) | LF (p : nat).
Definition lock_eqb (a b : lock) : bool :=
  match a, b with LT p, LT q | LF p, LF q => p =? q | _, _ => false end.
(** Locks held; [true]: for writing. *)
Definition guards := list (lock * bool).

(** A program: take a lock, give it back, look at or change what is shared.  [Ret (Err _)]: a panic, which gives all
    locks back.  [Endless]: the call goes on for ever (the model's budget for its depth is used up). *)
Inductive prog (A : Type) : Type :=
| Ret (r : res A)
| Endless
| Acq (l : lock) (wr : bool) (k : prog A)
| Rel (l : lock) (wr : bool) (k : prog A)
| Act (B : Type) (f : xuni -> xuni * B) (k : B -> prog A).
Arguments Ret {A}. Arguments Endless {A}. Arguments Acq {A}. Arguments Rel {A}. Arguments Act {A B}.

Fixpoint pbind {A B} (m : prog A) (f : A -> prog B) : prog B :=
  match m with
  | Ret (Ok a) => f a
  | Ret (Err e) => Ret (Err e)
  | Endless => Endless
  | Acq l wr k => Acq l wr (pbind k f)
  | Rel l wr k => Rel l wr (pbind k f)
  | Act g k => Act g (fun b => pbind (k b) f)
  end.
Notation "'let!' x := m 'in' k" := (pbind m (fun x => k)) (at level 200, x pattern, m at level 100, k at level 200).
Definition take_lock (l : lock) (wr : bool) : prog unit := Acq l wr (Ret (Ok tt)).
Definition give_lock (l : lock) (wr : bool) : prog unit := Rel l wr (Ret (Ok tt)).
Definition look {B} (f : universe -> B) : prog B := Act (fun x => (x, f (xu_u x))) (fun b => Ret (Ok b)).
Definition change (f : universe -> universe) : prog unit := Act (fun x => (XU (f (xu_u x)) (xu_fl x), tt)) (fun _ => Ret (Ok tt)).
Definition lift {A} (r : res A) : prog A := Ret r.
Definition get_tab (p : nat) : prog table := let! r := look (fun u => u_get u p) in lift r.
Definition put_tab (p : nat) (t : table) : prog unit := change (fun u => u_put u p t).

Section Calls.
Variables (pr : profile) (umax : nat).

Section With.
(** [Flush::do_flush] of table [p], whose trackers are locked for reading. *)
Variable call : nat -> event -> bool -> bool -> select -> prog select.

(** output.rs:934-976.  The thread has table [p] locked for writing; the guard is dropped (944-946) before the trackers
    are locked (947). *)
Definition p_flush_with (p : nat) (w : wlock) (ev : event) : prog unit :=
  if sel_empty (w_changes w) then
    let! t := lift (w_drop w) in
    let! _ := put_tab p t in
    give_lock (LT p) true
  else
    let! _ := put_tab p (w_tab w) in
    let! _ := give_lock (LT p) true in
    let! _ := take_lock (LF p) false in
    let! sel := call p ev (w_pushed w) (w_delete w) (w_changes w) in
    let! _ := give_lock (LF p) false in
    if ev_removal ev && negb (sel_empty sel) then
      let! _ := take_lock (LT p) true in
      let! t := get_tab p in
      let! w := lift (flush_apply pr umax (w_new t) ev sel) in
      let! _ := lift (assert_ (sel_empty (w_changes w)) PNotFlushed) in
      let! t := lift (w_drop w) in
      let! _ := put_tab p t in
      give_lock (LT p) true
    else lift (Ok tt).

(** output.rs:980-1023: the table stays locked.  A forgotten guard (1016) is counted in [fs_leaked]. *)
Definition p_live_flush_with (p : nat) (w : wlock) (ev : event) : prog wlock :=
  if sel_empty (w_changes w) then
    let! _ := put_tab p (w_tab w) in
    lift (Ok w)
  else
    let! _ := put_tab p (w_tab w) in
    let! _ := take_lock (LF p) false in
    let! sel := call p ev (w_pushed w) (w_delete w) (w_changes w) in
    let! t := get_tab p in
    let! w := lift (flush_apply pr umax (W t (SThese []) (w_pushed w) (w_delete w)) ev sel) in
    let! _ := lift (assert_ (sel_empty (w_changes w)) PNotFlushed) in
    let! _ := put_tab p (w_tab w) in
    let! r := Act (fun x => match xu_flush x p with
                            | Ok f => let f := if has_remapping f then
                                        let f := FS (fs_ident f) (fs_remap f) (S (fs_leaked f)) in
                                        if fs_leaked f =? 0 then set_remapping f [] else f
                                      else f in
                                      (XU (xu_u x) (upd (xu_fl x) p f), Ok tt)
                            | Err e => (x, Err e)
                            end) (fun r => Ret (Ok r)) in
    let! _ := lift r in
    let! _ := give_lock (LF p) false in
    lift (Ok (W (w_tab w) (w_changes w) false false)).

(** output.rs:348-376, 380-396, 446-448; [write(universe)] locks the table.  The kind never changes, so reading it needs no lock. *)
Definition p_remove_rows_with (c : nat) (ev : event) (rows : select) : prog unit :=
  let! t := get_tab c in
  match t_kind t with
  | Consistent =>
      let! _ := take_lock (LT c) true in
      let! t := get_tab c in
      let w := w_new t in
      let! w := lift (match rows with
                      | SThese rows =>
                          let len := t_len (w_tab w) in
                          fold_res (fun w i => let* _ := assert_ (i <? len) PRemoveRange in delete_raw pr umax w i) rows w
                      | SAll => Ok (clear (clear_raw w))
                      end) in
      p_flush_with c w ev
  | Sorted =>
      let! _ := take_lock (LT c) true in
      let! t := get_tab c in
      let w := w_new t in
      let! w := lift (match rows with
                      | SThese rows => sorted_remove_rows w rows
                      | SAll => Ok (clear (clear_raw w))
                      end) in
      p_flush_with c w ev
  | _ => lift (panic PNoRemove)
  end.

(** src/event.rs:125-152; the deletion handler locks the table to find the function (140) *)
Definition p_handle_with (hd : handler) (c : nat) (ev : event) (rows : select) : prog unit :=
  match hd with
  | HNull => lift (Ok tt)
  | HPanic => lift (panic PNoHandler)
  | HDelete =>
      let! _ := take_lock (LT c) false in
      let! _ := give_lock (LT c) false in
      p_remove_rows_with c ev rows
  end.

(** src/event.rs:100-119, and 134-137 ([needs_sort]) *)
Definition p_run_with (hd : handler) (c : nat) (ev : event) (rows : select) : prog unit :=
  let! rows :=
    match hd with
    | HDelete =>
        let! _ := take_lock (LT c) false in
        let! t := get_tab c in
        let! _ := give_lock (LT c) false in
        lift (Ok (if kind_eqb (t_kind t) Sorted then sel_sort rows else rows))
    | _ => lift (Ok rows)
    end in
  let! _ := p_handle_with hd c ev rows in
  let! _ := take_lock (LT c) false in
  let! _ := take_lock (LF c) false in
  let! _ := call c ev (ev_creation ev) (ev_removal ev) rows in
  let! _ := give_lock (LF c) false in
  give_lock (LT c) false.

(** output.rs:1130-1140 *)
Definition p_auto_handle (hd : handler) (c k : nat) (key : bool) (ev : event) (rows : select) : prog unit :=
  let! _ := take_lock (LT c) false in
  let! t := get_tab c in
  let! rows := lift (if key then select_sorted pr t k rows else select_indexed t k rows) in
  let! _ := give_lock (LT c) false in
  p_run_with hd c ev rows.

(** src/tracking.rs:265-277 *)
Definition p_turn (hd : handler) (p : nat) (ev : event) (s : select * bool) (x : nat * tracker) : prog (select * bool) :=
  let tr := snd x in
  if tracker_considers tr ev then
    let! srt := look (fun u => tracker_sorts u tr) in
    let now := negb (snd s) && srt in
    let sel := if now then sel_sort (fst s) else fst s in
    let! _ := change (fun u => u_say u (Note p (fst x) ev sel)) in
    let! _ := match tr with
              | TAuto c k key => p_auto_handle hd c k key ev sel
              | TUser _ _ => lift (Ok tt)
              end in
    lift (Ok (sel, snd s || now))
  else lift (Ok s).
Fixpoint p_fold {S X} (f : S -> X -> prog S) (l : list X) (s : S) : prog S :=
  match l with
  | [] => lift (Ok s)
  | x :: l => let! s := f s x in p_fold f l s
  end.
End With.

(** src/tracking.rs:248-288 *)
Fixpoint p_do_flush (fuel : nat) (p : nat) (ev : event) (pushed del : bool) (sel : select) : prog select :=
  match fuel with
  | 0 => Endless
  | S n =>
      let! _ := lift (assert_ (negb ((pushed && del) || (ev_removal ev && ev_creation ev))) PInterleave) in
      let! r := look (fun u => handlers_get (u_hdl u) ev) in
      let! hd := lift r in
      let! trs := look (fun u => u_trackers u p) in
      let! s := p_fold (p_turn (p_do_flush n) hd p ev) (combine (seq 0 (length trs)) trs)
                       (sel, match sel with SAll => true | _ => false end) in
      lift (Ok (fst s))
  end.

(** ** Restoring, output.rs:1860-1908 *)
Variable heads : nat -> header.
Variable foreign : nat -> list (nat * nat).
Variable order : nat -> row -> row -> comparison.
(** 1870-1894: each table referred to, and its trackers, are locked for reading; 1900: given back at the end of the block *)
Fixpoint p_take_all (qs : list nat) : prog unit :=
  match qs with
  | [] => lift (Ok tt)
  | q :: qs => let! _ := take_lock (LT q) false in let! _ := take_lock (LF q) false in p_take_all qs
  end.
Fixpoint p_give_all (qs : list nat) : prog unit :=
  match qs with
  | [] => lift (Ok tt)
  | q :: qs => let! _ := give_lock (LF q) false in let! _ := give_lock (LT q) false in p_give_all qs
  end.
(** The thread has table [p] locked for writing. *)
Definition p_restore_extract (fuel : nat) (p : nat) (w : wlock) (e : extraction) (ev : event) : prog unit :=
  let! v := lift (validate (heads p) (ex_head e)) in
  match v with
  | Some er =>
      let! t := lift (w_drop w) in
      let! _ := put_tab p t in
      give_lock (LT p) true
  | None =>
      let qs := map snd (foreign p) in
      let! _ := p_take_all qs in
      let! _ := take_lock (LF p) false in
      let! no_trackers := look (fun u => match u_trackers u p with [] => true | _ => false end) in
      let! _ := give_lock (LF p) false in
      let! r := Act (fun x => (x, merge_extract pr foreign order (xu_fl x) p no_trackers w e)) (fun r => Ret (Ok r)) in
      let! s := lift r in
      let w := fst s in
      let! _ := p_give_all (rev qs) in
      if sel_empty (w_changes w) then
        let! t := lift (w_drop w) in
        let! _ := put_tab p t in
        give_lock (LT p) true
      else
        let! _ := take_lock (LF p) true in
        let! r := Act (fun x => match xu_flush x p with
                                | Ok f => (XU (xu_u x) (upd (xu_fl x) p (set_remapping f (snd s))), Ok tt)
                                | Err e => (x, Err e)
                                end) (fun r => Ret (Ok r)) in
        let! _ := lift r in
        let! _ := give_lock (LF p) true in
        p_flush_with (p_do_flush fuel) p w ev
  end.

(** ** What a thread does (as in Extract.v) *)
Definition p_step (fuel : nat) (o : xop) : prog unit :=
  match o with
  | XFlush p es ev =>
      let! _ := take_lock (LT p) true in
      let! t := get_tab p in
      let! w := lift (do_edits pr umax (w_new t) es) in
      p_flush_with (p_do_flush fuel) p w ev
  | XLive p es ev =>
      let! _ := take_lock (LT p) true in
      let! t := get_tab p in
      let! w := lift (do_edits pr umax (w_new t) es) in
      let! w := p_live_flush_with (p_do_flush fuel) p w ev in
      let! t := lift (w_drop w) in
      let! _ := put_tab p t in
      give_lock (LT p) true
  | XRestore p e ev =>
      let! _ := take_lock (LT p) true in
      let! t := get_tab p in
      p_restore_extract fuel p (w_new t) e ev
  | XRegister p tr =>
      (* src/tracking.rs:332-339, 315-321 *)
      let! _ := take_lock (LT p) true in
      let! t := get_tab p in
      let! _ := take_lock (LF p) true in
      let! r := Act (fun x => (x, xu_flush x p)) (fun r => Ret (Ok r)) in
      let! _ := lift r in
      let! _ := lift (assert_ (t_consistent t) PNotConsistent) in
      let! _ := change (fun u => Uni (u_tabs u) (upd (u_trk u) p (u_trackers u p ++ [tr])) (u_hdl u) (u_log u)) in
      let! _ := give_lock (LF p) true in
      give_lock (LT p) true
  | XIdentity p =>
      (* output.rs:319-321 *)
      let! _ := take_lock (LT p) true in
      let! _ := take_lock (LF p) true in
      let! r := Act (fun x => match xu_flush x p with
                              | Ok f => (XU (xu_u x) (upd (xu_fl x) p (set_identity_remap f)), Ok tt)
                              | Err e => (x, Err e)
                              end) (fun r => Ret (Ok r)) in
      let! _ := lift r in
      let! _ := give_lock (LF p) true in
      give_lock (LT p) true
  end.
(** output.rs:887-929: [select_all] and [select_rows] of a read lock, which is given up before the trackers are locked *)
Definition p_select (fuel : nat) (p : nat) (ev : event) (sel : select) : prog unit :=
  let! _ := take_lock (LT p) false in
  let! _ := give_lock (LT p) false in
  let! _ := take_lock (LF p) false in
  let! _ := p_do_flush fuel p ev false false sel in
  give_lock (LF p) false.
(** Tables locked one after the other ([context!], src/context.rs:88-92; or [read] and [write] by hand,
    output.rs:1648-1705) and given back; [true]: for writing.  Simplification: nothing is done with them meanwhile. *)
Fixpoint p_locks (ls : list (nat * bool)) : prog unit :=
  match ls with
  | [] => lift (Ok tt)
  | (q, wr) :: ls =>
      let! _ := take_lock (LT q) wr in
      let! _ := p_locks ls in
      give_lock (LT q) wr
  end.
Inductive top := TDo (o : xop) | TSelect (p : nat) (ev : event) (sel : select) | TLocks (ls : list (nat * bool)).
Definition p_top (fuel : nat) (o : top) : prog unit :=
  match o with
  | TDo o => p_step fuel o
  | TSelect p ev sel => p_select fuel p ev sel
  | TLocks ls => p_locks ls
  end.
Definition p_run (fuel : nat) (ops : list top) : prog unit := p_fold (fun _ o => p_top fuel o) ops tt.
End Calls.

(** ** One thread alone *)
Definition drop_guard (l : lock) (wr : bool) (g : guards) : guards :=
  (fix go (g : guards) := match g with
    | [] => []
    | x :: g => if lock_eqb (fst x) l && eqb (snd x) wr then g else x :: go g
    end) g.
(** Whether these guards, and those forgotten, let the lock be taken: one writer, or readers. *)
Definition lets (g : guards) (l : lock) (wr : bool) : bool :=
  forallb (fun x => negb (lock_eqb (fst x) l) || (negb wr && negb (snd x))) g.
Definition not_leaked (x : xuni) (l : lock) (wr : bool) : bool :=
  match l with
  | LF p => negb wr || match nth_error (xu_fl x) p with Some f => fs_leaked f =? 0 | None => true end
  | LT _ => true
  end.
Fixpoint alone {A} (m : prog A) (x : xuni) (g : guards) : res (xuni * guards * A) :=
  match m with
  | Ret r => let* a := r in Ok (x, g, a)
  | Endless => Err EFuel
  | Acq l wr k => if lets g l wr && not_leaked x l wr then alone k x ((l, wr) :: g) else Err EDeadlock
  | Rel l wr k => alone k x (drop_guard l wr g)
  | Act f k => alone (k (snd (f x))) (fst (f x)) g
  end.

(** ** Threads *)
(** Each thread: the locks it has, and what it still has to do. *)
Record threads := TH { th_x : xuni; th_ts : list (guards * prog unit) }.
(** A thread that has panicked has given everything back. *)
Definition owned (t : guards * prog unit) : guards := match snd t with Ret (Err _) => [] | _ => fst t end.
Definition may_take (c : threads) (l : lock) (wr : bool) : Prop :=
  (forall t, In t (th_ts c) -> lets (owned t) l wr = true) /\ not_leaked (th_x c) l wr = true.
(** One step of one thread.  Whoever takes a lock may find that it is poisoned, and panics.  (Simplification: that a
    panicking thread does poison the locks it has for writing is left out; any lock may be poisoned.) *)
Inductive thread_step : threads -> threads -> Prop :=
| ts_acq x a g l wr k b : may_take (TH x (a ++ (g, Acq l wr k) :: b)) l wr ->
    thread_step (TH x (a ++ (g, Acq l wr k) :: b)) (TH x (a ++ ((l, wr) :: g, k) :: b))
| ts_poisoned x a g l wr k b : may_take (TH x (a ++ (g, Acq l wr k) :: b)) l wr ->
    thread_step (TH x (a ++ (g, Acq l wr k) :: b)) (TH x (a ++ (g, Ret (panic PPoisoned)) :: b))
| ts_rel x a g l wr k b : thread_step (TH x (a ++ (g, Rel l wr k) :: b)) (TH x (a ++ (drop_guard l wr g, k) :: b))
| ts_act x a g B (f : xuni -> xuni * B) k b :
    thread_step (TH x (a ++ (g, Act f k) :: b)) (TH (fst (f x)) (a ++ (g, k (snd (f x))) :: b)).
Inductive thread_steps : threads -> threads -> Prop :=
| tss_refl c : thread_steps c c
| tss_more c c' c'' : thread_steps c c' -> thread_step c' c'' -> thread_steps c c''.
