(** The registry of Registry.v with domains that are unlocked again: [DomainName::set_locked] is public, though hidden in the
    documentation. *)
From Coq Require Import List.
From Verif Require Import Base Names Registry.
Import ListNotations.

(** [DomainName::set_locked], src/domain.rs:98-100, 80-85, 204-206.  The registry is locked for writing when an unknown domain makes it panic. *)
Definition set_locked (w : world) (n : name) (b : bool) : world * res unit :=
  writing w (fun w =>
    match nget (g_doms (w_glob w)) n with
    | None => (w, panic PUndefDomain)
    | Some i => (set_glob w (set_dom (w_glob w) n (DI (di_id i) (di_name i) (di_props i) (di_tabs i) (di_order i) (di_n2d i) b)), Ok tt)
    end).

(** ** Programs: the calls of Registry.v, and this one *)
Inductive hop :=
| HCall (o : rop)
| HLock (n : name) (b : bool).        (* n.set_locked(b) *)
Definition h_step (w : world) (o : hop) : world * res (option nat) :=
  match o with
  | HCall o => r_step w o
  | HLock n b => unit_res (set_locked w n b)
  end.
Definition h_run (w : world) (os : list hop) : world := fold_left (fun w o => fst (h_step w o)) os w.
(** What a call gives *)
Definition h_ans (w : world) (o : hop) : res (option nat) := snd (h_step w o).
