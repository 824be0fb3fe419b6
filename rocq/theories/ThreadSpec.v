(** Vocabulary of the properties of threads. *)
From Coq Require Import List Arith Bool Sorting.Permutation.
From Verif Require Import Base Names Column Order RowRange Table SortedTab TableSpec Hist Events Cascade CascadeSpec Extract Threads.
Import ListNotations.

(** Whether a thread that locks these tables one after the other, and gives none back, does not wait for itself. *)
Fixpoint takes (h : locks) (ls : list (nat * bool)) : bool :=
  match ls with
  | [] => true
  | (q, wr) :: ls => (if wr then can_write h q else can_read h q) && takes ((q, wr) :: h) ls
  end.
(** What a thread does if it is alone, according to Cascade.v and Extract.v. *)
Definition seq_top (pr : profile) (umax : nat) (heads : nat -> header) (foreign : nat -> list (nat * nat))
  (order : nat -> row -> row -> comparison) (fuel : nat) (x : xuni) (o : top) : res xuni :=
  match o with
  | TDo o => x_step pr umax heads foreign order fuel x o
  | TSelect p ev sel => let* u := read_select pr umax fuel (xu_u x) [] p ev sel in Ok (XU u (xu_fl x))
  | TLocks ls => let* _ := lock_ok (takes [] ls) in Ok x
  end.

(** All threads at their beginning. *)
Definition started (x : xuni) (ms : list (prog unit)) : threads := TH x (map (pair []) ms).

(** Done, or panicked. *)
Definition finished (t : guards * prog unit) : Prop := exists r, snd t = Ret r.
(** Thread [i] can do something now.  The strictest rule for locks: who wants to read also waits for those who wait
    to write. *)
Definition goes_on (c : threads) (i : nat) : Prop :=
  exists t, nth_error (th_ts c) i = Some t /\
  match snd t with
  | Ret _ | Endless => False
  | Acq l wr _ => may_take c l wr /\ (wr = false -> forall t' k, In t' (th_ts c) -> snd t' <> Acq l true k)
  | Rel _ _ _ | Act _ _ => True
  end.
(** Nobody can do anything, under the most lenient rule for locks, and not all are finished. *)
Definition deadlocked (c : threads) : Prop :=
  (forall c', ~ thread_step c c') /\ exists t, In t (th_ts c) /\ ~ finished t.

(** The tables depend on each other in no circle, no guard was forgotten, and where [live_flush] is called nothing is remapped (see C52). *)
Definition calm (rank : nat -> nat) (live : nat -> Prop) (x : xuni) : Prop :=
  acyclic rank (xu_u x) /\
  forall p f, nth_error (xu_fl x) p = Some f -> fs_leaked f = 0 /\ (live p -> fs_remap f = []).
(** What threads may do: not restore a table with foreign columns, nor one that is flushed live; add no circle; lock
    several tables only in the order of the cascade, referred to before referring. *)
Fixpoint descending (rank : nat -> nat) (ls : list (nat * bool)) : Prop :=
  match ls with
  | [] => True
  | (q, _) :: ls => Forall (fun y => rank (fst y) < rank q) ls /\ descending rank ls
  end.
Definition orderly (foreign : nat -> list (nat * nat)) (rank : nat -> nat) (live : nat -> Prop) (o : top) : Prop :=
  match o with
  | TDo (XLive p _ _) => live p
  | TDo (XRestore p _ _) => foreign p = [] /\ ~ live p
  | TDo (XRegister p (TAuto c _ _)) => rank c < rank p
  | TLocks ls => descending rank ls
  | _ => True
  end.

(** The same under the strictest rule. *)
Definition jammed (c : threads) : Prop := (forall i, ~ goes_on c i) /\ exists t, In t (th_ts c) /\ ~ finished t.
(** Each of the threads does well alone, but together they may come to a state that is [bad]. *)
Definition may_become (pr : profile) (umax : nat) (heads : nat -> header) (foreign : nat -> list (nat * nat))
  (order : nat -> row -> row -> comparison) (fuel : nat) (x : xuni) (tss : list (list top)) (bad : threads -> Prop) : Prop :=
  (forall ops, In ops tss -> exists y, fold_res (seq_top pr umax heads foreign order fuel) ops x = Ok y) /\
  exists c, thread_steps (started x (map (p_run pr umax heads foreign order fuel) tss)) c /\ bad c.

(** ** What threads do to tables *)
(** What is pushed or restored has the right types; the columns of an extraction may be of different lengths. *)
Definition top_ty (u : universe) (o : top) : Prop :=
  match o with
  | TDo (XFlush p es _) | TDo (XLive p es _) => forall t, nth_error (u_tabs u) p = Some t -> Forall (op_ty (s_cols (t_sch t))) es
  | TDo (XRestore p e _) => forall t, nth_error (u_tabs u) p = Some t ->
      Forall2 (fun ty c => Forall (v_ty (ct_base ty)) (c_into_iter c)) (s_cols (t_sch t)) (ex_data e)
  | _ => True
  end.
(** Tables are as some program made them. *)
Definition made (pr : profile) (umax : nat) (u : universe) : Prop :=
  forall p t, nth_error (u_tabs u) p = Some t -> reachable pr umax (t_sch t) (Free t).
(** The state that the trackers' lock of [p] protects. *)
Definition behind (x : xuni) (p : nat) : list tracker * option (bool * list (nat * nat)) :=
  (u_trackers (xu_u x) p, option_map (fun f => (fs_ident f, fs_remap f)) (nth_error (xu_fl x) p)).
(** One thread made the step from [c] to [c'], having [l] locked for writing, and no other thread has it locked. *)
Definition exclusive (c c' : threads) (l : lock) : Prop :=
  exists a g m m' b, th_ts c = a ++ (g, m) :: b /\ th_ts c' = a ++ (g, m') :: b /\ In (l, true) g /\
    forall t wr, In t (a ++ b) -> ~ In (l, wr) (owned t).

(** ** What threads do depends on *)
(** What a thread with these locks may look at is the same in [x] and [y]: the tables and the trackers it has locked,
    and what never changes. *)
Definition same_for (g : guards) (x y : xuni) : Prop :=
  (forall p wr, In (LT p, wr) g -> nth_error (u_tabs (xu_u y)) p = nth_error (u_tabs (xu_u x)) p) /\
  (forall p wr, In (LF p, wr) g -> behind y p = behind x p) /\
  map t_sch (u_tabs (xu_u y)) = map t_sch (u_tabs (xu_u x)) /\ length (u_trk (xu_u y)) = length (u_trk (xu_u x)) /\
  u_hdl (xu_u y) = u_hdl (xu_u x).
(** Thread [i] looks at or changes something. *)
Definition acts (c : threads) (i : nat) (c' : threads) : Prop :=
  exists g B (f : xuni -> xuni * B) k, nth_error (th_ts c) i = Some (g, Act f k) /\
    c' = TH (fst (f (th_x c))) (upd (th_ts c) i (g, k (snd (f (th_x c))))).
(** All tables, trackers and remappings are the same. *)
Definition same_state (x y : xuni) : Prop :=
  u_tabs (xu_u y) = u_tabs (xu_u x) /\ forall p, behind y p = behind x p.

(** ** Changes of one table *)
(** [t'] has some of the rows of [t] and nothing else. *)
Definition fewer (t t' : table) : Prop :=
  match t_kind t with
  | Consistent => forall j r, t_get_row t' j = Ok r -> t_get_row t j = Ok r
  | Sorted => forall rows, holds t rows -> exists ids, holds t' (without 0 rows ids)
  | _ => forall rows, holds t rows -> exists left gone, holds t' left /\ Permutation rows (left ++ gone)
  end.
(** [t'] has all rows of [t], and maybe others; if it is sorted by [cmp] it remains so. *)
Definition more (cmp : row -> row -> comparison) (t t' : table) : Prop :=
  match t_kind t with
  | Sorted => forall rows, holds t rows -> exists rows' new, holds t' rows' /\ Permutation (rows ++ new) rows' /\
      (total_preorder cmp -> ascending cmp rows -> ascending cmp rows')
  | _ => forall j r, t_get_row t j = Ok r -> t_get_row t' j = Ok r
  end.
(** How [t] becomes [t'], if threads do [ops]: by the changes made under one lock, all together; by removal of rows; or by
    restoring rows. *)
Inductive becomes (pr : profile) (umax : nat) (order : nat -> row -> row -> comparison) (ops : list top) (p : nat) (t t' : table) : Prop :=
| becomes_edited es ev w : In (TDo (XFlush p es ev)) ops \/ In (TDo (XLive p es ev)) ops ->
    do_edits pr umax (w_new t) es = Ok w -> t' = w_tab w -> becomes pr umax order ops p t t'
| becomes_fewer : fewer t t' -> becomes pr umax order ops p t t'
| becomes_more e ev : In (TDo (XRestore p e ev)) ops -> more (order p) t t' -> becomes pr umax order ops p t t'.
(** A thread's changes under the lock of table [p] keep rows in the order [cmp] (C27). *)
Definition top_keeps (cmp : row -> row -> comparison) (p : nat) (o : top) : Prop :=
  match o with
  | TDo (XFlush q es _) | TDo (XLive q es _) => q = p -> Forall (keeps_order cmp) es
  | _ => True
  end.

(** ** One after the other *)
(** What a session of calls under the lock of one table makes of all tables; other calls leave them. *)
Definition one_session (pr : profile) (umax : nat) (ts : list table) (o : top) : res (list table) :=
  match o with
  | TDo (XFlush p es _) | TDo (XLive p es _) =>
      match nth_error ts p with
      | Some t => let* w := do_edits pr umax (w_new t) es in Ok (upd ts p (w_tab w))
      | None => panic PRustType
      end
  | _ => Ok ts
  end.
Definition is_session (o : top) : bool := match o with TDo (XFlush _ _ _) | TDo (XLive _ _ _) => true | _ => false end.
(** Nothing is removed by the event, and nothing restored. *)
Definition no_removal (hs : list handler) (o : top) : Prop :=
  match o with
  | TDo (XFlush _ _ ev) | TDo (XLive _ _ ev) => ev_removal ev = false /\ handlers_get hs ev <> Ok HDelete
  | TSelect _ ev _ => handlers_get hs ev <> Ok HDelete
  | TDo (XRestore _ _ _) => False
  | _ => True
  end.
(** [l] has all elements of the lists [ds], those of each list in its order. *)
Inductive interleaved {A} : list (list A) -> list A -> Prop :=
| il_none ds : Forall (eq []) ds -> interleaved ds []
| il_next a d b l o : interleaved (a ++ d :: b) l -> interleaved (a ++ (d ++ [o]) :: b) (l ++ [o]).

(** ** Threads that use different tables *)
(** A call locks only tables of [s], and has them tracked only by tables of [s]. *)
Definition uses_only (foreign : nat -> list (nat * nat)) (s : nat -> Prop) (o : top) : Prop :=
  match o with
  | TDo (XFlush p _ _) | TDo (XLive p _ _) | TDo (XIdentity p) | TDo (XRegister p (TUser _ _)) | TSelect p _ _ => s p
  | TDo (XRegister p (TAuto c _ _)) => s p /\ s c
  | TDo (XRestore p _ _) => s p /\ forall k q, In (k, q) (foreign p) -> s q
  | TLocks ls => forall q wr, In (q, wr) ls -> s q
  end.
(** Tables of [s] are tracked only by tables of [s]. *)
Definition self_contained (s : nat -> Prop) (u : universe) : Prop := forall p c k key, s p -> In (TAuto c k key) (u_trackers u p) -> s c.
