(** Model: threads, some of which panic.  As in Threads.v, but a panicking thread gives back its locks one by one while
    it unwinds; what it had locked for writing is left half-changed and poisoned; and a poisoned lock cannot be taken any
    more.  In Threads.v all this is simplified: a thread that panics loses its locks and its unfinished changes at once,
    and whoever takes any lock may panic. *)
From Coq Require Import List Arith Bool.
From Verif Require Import Base Names Column RowRange Table SortedTab TableSpec Hist Events Cascade CascadeSpec Extract Threads.
Import ListNotations.

(** What may have become of what is behind a lock when a panic interrupts changes: a table has other rows, in columns of
    any lengths, and another free list, but its columns have the types they had (src/tables.rs:69-77, output.rs:303-316); trackers and
    remapping are others (src/tracking.rs:229-233). *)
Inductive half_done : lock -> xuni -> xuni -> Prop :=
| half_none l x : half_done l x x
| half_table p t t' x : nth_error (u_tabs (xu_u x)) p = Some t -> t_sch t' = t_sch t ->
    half_done (LT p) x (XU (u_put (xu_u x) p t') (xu_fl x))
| half_trackers p f f' trs x : nth_error (xu_fl x) p = Some f -> fs_leaked f' = fs_leaked f ->
    half_done (LF p) x (XU (Uni (u_tabs (xu_u x)) (upd (u_trk (xu_u x)) p trs) (u_hdl (xu_u x)) (u_log (xu_u x))) (upd (xu_fl x) p f')).

(** Threads, and the locks that are poisoned. *)
Record crowd := CR { cr_c : threads; cr_bad : list lock }.
(** std's [RwLock]: nobody has the lock, or wants to read and nobody writes; guards of unwinding threads count until they are dropped. *)
Definition free_for (c : threads) (l : lock) (wr : bool) : Prop :=
  (forall t, In t (th_ts c) -> lets (fst t) l wr = true) /\ not_leaked (th_x c) l wr = true.
(** One thread makes one step.  Taking a lock is [.read().unwrap()] or [.write().unwrap()] (output.rs:318, 893, 945, 988,
    1874, 1893, 1896, 1905, 1650, 1693, src/event.rs:107-139, src/tracking.rs:334-337), which panics if the lock is poisoned.
    A guard that is dropped during a panic poisons its lock if it was for writing. *)
Inductive crowd_step : crowd -> crowd -> Prop :=
| cs_acq x a g l wr k b bad : free_for (TH x (a ++ (g, Acq l wr k) :: b)) l wr -> ~ In l bad ->
    crowd_step (CR (TH x (a ++ (g, Acq l wr k) :: b)) bad) (CR (TH x (a ++ ((l, wr) :: g, k) :: b)) bad)
| cs_poisoned x a g l wr k b bad : free_for (TH x (a ++ (g, Acq l wr k) :: b)) l wr -> In l bad ->
    crowd_step (CR (TH x (a ++ (g, Acq l wr k) :: b)) bad) (CR (TH x (a ++ (g, Ret (panic PPoisoned)) :: b)) bad)
| cs_rel x a g l wr k b bad :
    crowd_step (CR (TH x (a ++ (g, Rel l wr k) :: b)) bad) (CR (TH x (a ++ (drop_guard l wr g, k) :: b)) bad)
| cs_act x a g B (f : xuni -> xuni * B) k b bad :
    crowd_step (CR (TH x (a ++ (g, Act f k) :: b)) bad) (CR (TH (fst (f x)) (a ++ (g, k (snd (f x))) :: b)) bad)
| cs_unwind_read x a l g e b bad :
    crowd_step (CR (TH x (a ++ ((l, false) :: g, Ret (Err e)) :: b)) bad) (CR (TH x (a ++ (g, Ret (Err e)) :: b)) bad)
| cs_unwind_write x x' a l g e b bad : half_done l x x' ->
    crowd_step (CR (TH x (a ++ ((l, true) :: g, Ret (Err e)) :: b)) bad) (CR (TH x' (a ++ (g, Ret (Err e)) :: b)) (l :: bad)).
Inductive crowd_steps : crowd -> crowd -> Prop :=
| css_refl d : crowd_steps d d
| css_more d d' d'' : crowd_steps d d' -> crowd_step d' d'' -> crowd_steps d d''.
