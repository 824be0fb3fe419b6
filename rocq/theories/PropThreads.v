(** Threads that register and look up properties: the [static mut VAL] of [property!] (src/property.rs:205-239), which is written under
    the lock of the registry but read without.

    Simplifications.  A call is cut into steps at the accesses to [VAL.index] and at the lock; memory is sequentially consistent (as it is
    where there is no data race).  Domains, tables and universes are made before.  [VAL] counts as accessed where it is read or written, not where
    [&mut VAL] is made.  A thread that panics is over. *)
From Coq Require Import List Arith Bool.
From Verif Require Import Base Names Table Extract Registry.
Import ListNotations.

(** [prop.register()], and any lookup of [universe[prop]]; properties are numbered as in Registry.v *)
Inductive pcall := PReg (k : nat) | PUse (k : nat).
(** Where a thread is. *)
Inductive ppc :=
| AtRest
| RegWait (k : nat)   (* in [init], src/property.rs:267: wants the lock *)
| RegRead (k : nat)   (* has the lock; is to read [VAL.index], 277 *)
| RegWrite (k : nat)  (* has the lock; is to write it, 298 *)
| UseRead (k : nat)   (* in [get], 227: is to read [VAL.index.domain_id] *)
| UseWait (k : nat)   (* in [sync_alias], 319-320: wants the lock *)
| UseWrite (k : nat)  (* has the lock; is to write [VAL.index], 324 *)
| UseAgain (k : nat)  (* in [index], 381, 395: is to read [VAL.index] through what [get] returned *)
| Dead.               (* panicked *)
(** What each finished call gave: for a lookup the index. *)
Record pthread := PT { pt_pc : ppc; pt_rest : list pcall; pt_ans : list (res (option pindex)) }.
(** [pw_lock]: who has the lock of the registry. *)
Record pworld := PW { pw_reg : world; pw_lock : option nat; pw_thr : list pthread }.
Definition p_start (w : world) (progs : list (list pcall)) : pworld := PW w None (map (fun p => PT AtRest p []) progs).

(** A step of thread [t]; [None]: it is over, or waits for the lock. *)
Definition p_step (s : pworld) (t : nat) : option pworld :=
  match nth_error (pw_thr s) t with
  | None => None
  | Some (PT pc rest ans) =>
      let w := pw_reg s in
      let go w lock pc rest ans := Some (PW w lock (upd (pw_thr s) t (PT pc rest ans))) in
      match pc with
      | Dead => None
      | AtRest =>
          match rest with
          | [] => None
          | PReg k :: rest => go w (pw_lock s) (RegWait k) rest ans
          | PUse k :: rest => go w (pw_lock s) (UseRead k) rest ans
          end
      | RegWait k =>
          match pw_lock s with
          | Some _ => None
          | None => if w_poison w then go w None Dead rest (ans ++ [panic PPoisoned]) else go w (Some t) (RegRead k) rest ans
          end
      | RegRead k =>
          match nth_error (w_stat w) k with
          | Some (_, Some _) => go w None AtRest rest (ans ++ [Ok None])
          | _ => match prop_init w k with
                 | (_, Ok _) => go w (Some t) (RegWrite k) rest ans
                 | (w, Err e) => go w None Dead rest (ans ++ [Err e])
                 end
          end
      | RegWrite k => go (fst (prop_init w k)) None AtRest rest (ans ++ [Ok None])
      | UseRead k =>
          match nth_error (w_stat w) k with
          | None => go w (pw_lock s) Dead rest (ans ++ [panic PRustType])
          | Some (_, Some _) => go w (pw_lock s) (UseAgain k) rest ans
          | Some (_, None) => go w (pw_lock s) (UseWait k) rest ans
          end
      | UseWait k =>
          match pw_lock s, nth_error (w_stat w) k with
          | None, Some (d, _) =>
              match sync_alias w k d with
              | (_, Ok _) => go w (Some t) (UseWrite k) rest ans
              | (w, Err e) => go w None Dead rest (ans ++ [Err e])
              end
          | _, _ => None
          end
      | UseWrite k =>
          match nth_error (w_stat w) k with
          | Some (d, _) => go (fst (sync_alias w k d)) None (UseAgain k) rest ans
          | None => None
          end
      | UseAgain k =>
          match nth_error (w_stat w) k with
          | Some (_, Some i) => go w (pw_lock s) AtRest rest (ans ++ [Ok (Some i)])
          | _ => None
          end
      end
  end.
(** Any order of steps. *)
Fixpoint p_run (s : pworld) (sched : list nat) : pworld :=
  match sched with
  | [] => s
  | t :: sched => p_run (match p_step s t with Some s => s | None => s end) sched
  end.
