(** Vocabulary of the property of threads that register and look up properties. *)
From Coq Require Import List Arith Bool.
From Verif Require Import Base Names Table Extract Registry PropThreads.
Import ListNotations.

(** What a thread is about to do to which property's [VAL.index]; [true] is writing. *)
Definition access (pc : ppc) : option (nat * bool) :=
  match pc with
  | RegRead k | UseRead k | UseAgain k => Some (k, false)
  | RegWrite k | UseWrite k => Some (k, true)
  | AtRest | RegWait _ | UseWait _ | Dead => None
  end.
(** Two threads are about to access the same, one of them to write. *)
Definition data_race (s : pworld) : Prop :=
  exists t t' th th' k b, t <> t' /\ nth_error (pw_thr s) t = Some th /\ nth_error (pw_thr s) t' = Some th' /\
  access (pt_pc th) = Some (k, true) /\ access (pt_pc th') = Some (k, b).

Definition call_on (k : nat) (c : pcall) : bool := match c with PReg j | PUse j => j =? k end.
(** The first call on [k] is a lookup. *)
Fixpoint looks_first (k : nat) (p : list pcall) : bool :=
  match p with
  | [] => false
  | PReg j :: p => if j =? k then false else looks_first k p
  | PUse j :: p => if j =? k then true else looks_first k p
  end.
Definition has_index (w : world) (k : nat) : Prop := exists d i, nth_error (w_stat w) k = Some (d, Some i).
(** Threads may share a property if it was registered or looked up before they start, or only one of them calls on it, or each of them registers it
    before it looks it up. *)
Definition shares_well (w : world) (progs : list (list pcall)) (k : nat) : Prop :=
  has_index w k \/
  (forall t t' p p', nth_error progs t = Some p -> nth_error progs t' = Some p' -> existsb (call_on k) p = true -> existsb (call_on k) p' = true -> t = t') \/
  (forall p, In p progs -> looks_first k p = false).

(** One after the other. *)
Definition seq_call (w : world) (c : pcall) : world * res (option pindex) :=
  match c with
  | PReg k => match prop_init w k with (w, Ok _) => (w, Ok None) | (w, Err e) => (w, Err e) end
  | PUse k => match prop_get w k with (w, Ok (_, i)) => (w, Ok (Some i)) | (w, Err e) => (w, Err e) end
  end.
Fixpoint seq_run (w : world) (os : list (nat * pcall)) : world * list (nat * res (option pindex)) :=
  match os with
  | [] => (w, [])
  | (t, c) :: os => let (w, a) := seq_call w c in let (w, r) := seq_run w os in (w, (t, a) :: r)
  end.
(** Those of thread [t]. *)
Definition of_thread {A} (t : nat) (l : list (nat * A)) : list A := map snd (filter (fun p => fst p =? t) l).

(** The call would succeed. *)
Definition call_ok (w : world) (c : pcall) : Prop := exists a, snd (seq_call w c) = Ok a.
(** What a program calls would succeed to begin with, or is a lookup of what it registers before. *)
Definition orderly (w : world) (p : list pcall) : Prop :=
  forall p1 c p2, p = p1 ++ c :: p2 -> call_ok w c \/ exists k, c = PUse k /\ In (PReg k) p1.
