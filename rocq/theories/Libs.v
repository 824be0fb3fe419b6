(** Programs with dynamic libraries: src/domain.rs:383-420.

    The main program and each library may have their own copy of [V11_GLOBALS], which points to a registry (Registry.v): module
    [m] starts with registry [m], and module 0 is the main program.  Universes can be handed from one to the other.

    Simplifications.  Which module's copy of the crate a call runs in is the module that makes the call; in particular it
    registers the trackers of a table that comes from elsewhere with its own registry.  Every module may use every property.
    Locks are only held during the calls.  If the libraries are linked such that they share [V11_GLOBALS], they are one module. *)
From Coq Require Import List Arith Bool.
From Verif Require Import Base Names Table Extract Registry.
Import ListNotations.

(** [l_regs]: the registries, and whether the lock is poisoned; [l_mods]: [V11_GLOBALS] of each module (src/domain.rs:397-399),
    that is which registry it points to and whether its own lock is poisoned. *)
Record lworld := LW { l_regs : list (globals * bool); l_mods : list (nat * bool); l_stat : list (pdecl * option pindex); l_unis : list uni }.
(** [n] modules, nothing registered *)
Definition l0 (n : nat) (ps : list pdecl) : lworld :=
  LW (repeat (GL [] [] [] [], false) n) (map (fun m => (m, false)) (seq 0 n)) (map (fun d => (d, None)) ps) [].

(** [clone_globals], src/domain.rs:401-404; the registry's number stands for the [Arc] *)
Definition clone_globals (l : lworld) (m : nat) : res nat :=
  match nth_error (l_mods l) m with
  | None => panic PRustType
  | Some (_, true) => panic PPoisoned
  | Some (r, false) => Ok r
  end.
(** [is_empty], src/domain.rs:383-385 *)
Definition is_empty {A} (l : list A) : bool := match l with [] => true | _ => false end.
Definition globals_empty (g : globals) : bool := is_empty (g_doms g) && is_empty (g_prod g).
(** [sync_globals], src/domain.rs:406-420, of module [m] with registry [h].  Every panic poisons [V11_GLOBALS]. *)
Definition sync_globals (l : lworld) (m h : nat) : lworld * res unit :=
  match nth_error (l_mods l) m with
  | None => (l, panic PRustType)
  | Some (_, true) => (l, panic PPoisoned)
  | Some (r, false) =>
      let point r b := LW (l_regs l) (upd (l_mods l) m (r, b)) (l_stat l) (l_unis l) in
      match nth_error (l_regs l) r, nth_error (l_regs l) h with
      | Some (old, p), Some (_, p') =>
          if p then (point r true, panic PPoisoned)
          else if p' then (point r true, panic PPoisoned)
          else if r =? h then (l, Ok tt)
          else if negb (globals_empty old) then (point r true, panic PGlobalsSet)
          else (point h false, Ok tt)
      | _, _ => (l, panic PRustType)
      end
  end.

(** A call of module [m].  [clone_globals().read().unwrap()] and [.write().unwrap()] panic if either lock is poisoned;
    only the lock of the registry can become poisoned. *)
Definition l_do (l : lworld) (m : nat) (o : rop) : lworld * res (option nat) :=
  match nth_error (l_mods l) m with
  | None => (l, panic PRustType)
  | Some (r, b) =>
      match nth_error (l_regs l) r with
      | None => (l, panic PRustType)
      | Some (g, p) =>
          let (w, a) := r_step (W g (p || b) (l_stat l) (l_unis l)) o in
          (LW (upd (l_regs l) r (w_glob w, if b then p else w_poison w)) (l_mods l) (w_stat w) (w_unis w), a)
      end
  end.

(** Calls in any order, by any module; a panic is caught. *)
Inductive lop :=
| LDo (m : nat) (o : rop)
| LClone (m : nat)           (* clone_globals() *)
| LSync (m h : nat).         (* sync_globals(h) *)
Definition l_step (l : lworld) (o : lop) : lworld * res (option nat) :=
  match o with
  | LDo m o => l_do l m o
  | LClone m => (l, let* r := clone_globals l m in Ok (Some r))
  | LSync m h => (fst (sync_globals l m h), let* _ := snd (sync_globals l m h) in Ok None)
  end.
Definition l_run (l : lworld) (os : list lop) : lworld := fold_left (fun l o => fst (l_step l o)) os l.
Definition l_ans (l : lworld) (o : lop) : res (option nat) := snd (l_step l o).
