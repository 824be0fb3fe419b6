(** Vocabulary of the properties of the registry (C45-C49, C57-C59). *)
From Coq Require Import List Arith Bool.
From Verif Require Import Base Names Table Extract Registry.
Import ListNotations.

(** Any calls, in any order, panics caught, in a program with any properties. *)
Definition reached (w : world) : Prop := exists ps os, w = r_run (w0 ps) os.
(** After a call *)
Definition after (w : world) (o : rop) : world := fst (r_step w o).
(** Property [k] of the program is [d]. *)
Definition declared (w : world) (k : nat) (d : pdecl) : Prop := exists i, nth_error (w_stat w) k = Some (d, i).
(** It was registered, or found to be a twin of one that was. *)
Definition known (w : world) (k : nat) : Prop := exists d i, nth_error (w_stat w) k = Some (d, Some i).
(** Two declarations of one property *)
Definition twins (d d' : pdecl) : Prop := pd_name d = pd_name d' /\ pd_domain d = pd_domain d'.
(** Universe [v] has domain [n], which is [d] there. *)
Definition has_domain (w : world) (v : nat) (n : name) (d : dinst) : Prop :=
  exists u, nth_error (w_unis w) v = Some u /\ In (Dom d) u /\ dn_name d = n.
(** Which tables a domain of a universe has. *)
Definition tables (d : dinst) : list (name * tdecl) := map (fun p => (fst p, ti_decl (snd p))) (dn_tabs d).
(** The types of the values of its properties. *)
Definition types (d : dinst) : list nat := map fst (dn_cells d).
(** The call is on universe [v]. *)
Definition on (v : nat) (o : rop) : Prop :=
  match o with
  | RAdd x _ | RMore x | RGet x _ | RSet x _ _ | RRead x _ | RWrite x _ _ | RTrack x _ => x = v
  | _ => False
  end.
(** The call looks at universe [v]. *)
Definition looks (v : nat) (o : rop) : Prop := match o with RGet x _ | RRead x _ => x = v | _ => False end.
(** [t] was registered. *)
Definition has_table (w : world) (t : tdecl) : Prop :=
  exists i, nget (g_doms (w_glob w)) (td_domain t) = Some i /\ nget (di_tabs i) (td_name t) = Some t.

(** Trackers registered with a table of a universe *)
Definition trackers_of (w : world) (v : nat) (dn tn : name) : option (list nat) :=
  match nth_error (w_unis w) v with
  | None => None
  | Some u => match find_table w u dn tn with Ok (_, _, t) => Some (ti_trk t) | Err _ => None end
  end.
(** Trackers that the tables of domain [n] want registered, in order of registration of the tables *)
Definition wanted (w : world) (n : name) : list tracker :=
  match nget (g_doms (w_glob w)) n with Some i => flat_map (fun p => td_trk (snd p)) (di_tabs i) | None => [] end.
Definition tracks (dn tn : name) (t : tracker) : bool := name_eqb (tk_domain t) dn && name_eqb (tk_table t) tn.

(** Property [k], or a twin of it, was registered. *)
Definition findable (w : world) (k : nat) : Prop :=
  exists d j d', declared w k d /\ declared w j d' /\ known w j /\ twins d d'.
(** The calls that poison the registry: panics while it is locked for writing *)
Definition guilty (w : world) (o : rop) : Prop :=
  match o with
  | RProp k => exists e, r_ans w o = Err e
  | RTable t => new_generic_table t = Ok tt /\ exists e, r_ans w o = Err e
  | RNew ns => exists n, In n ns /\ ~ In n (g_d2n (w_glob w))
  | RGet v k | RSet v k _ => v < length (w_unis w) /\ (exists d, declared w k d) /\ ~ findable w k
  | _ => False
  end.
