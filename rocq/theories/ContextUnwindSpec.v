(** Vocabulary of the properties of contexts that panic, and of contexts of several universes. *)
From Coq Require Import List Arith Bool.
From Verif Require Import Base Context ContextUnwind.
Import ListNotations.

(** Guards without these. *)
Definition without (hs l : list hold) : list hold := filter (fun x => negb (mem (h_id x) (map h_id hs))) l.
(** New guards get new numbers. *)
Definition numbered (s : cworld) : Prop := Forall (fun h => h_id h < cw_next s) (cw_held s).
(** No guard of a universe that is gone. *)
Definition alive (s : cworld) (hs : list hold) : Prop := forall h, In h hs -> ~ In (h_uni h) (cw_gone s).
Definition clean (hs : list hold) : Prop := forall h, In h hs -> h_dirty h = false.
(** The guards and the fields of one name are of one type (src/context.rs:31-32). *)
Definition no_collision (fields : list lockty) (hs : list hold) : Prop :=
  forall f h, In f fields -> In h hs -> lt_name f = lt_name (h_ty h) -> f = h_ty h.
(** One of these locks is poisoned. *)
Definition some_poisoned (s : cworld) (u : nat) (fields : list lockty) : Prop :=
  exists f, In f fields /\ In (u, lt_res f) (cw_poison s).

(** The guards of one universe of Context.v. *)
Definition in_uni (u : nat) (g : guard) : hold := HL (g_id g) (g_ty g) u (g_dirty g).
Definition uni_world (u : nat) (poison : list (nat * nat)) (gone : list nat) (wd : world) : cworld :=
  CW (map (in_uni u) (wd_held wd)) (wd_next wd) poison gone.

(** All lock types of a program; and programs that convert a context only with the universe it borrows. *)
Definition op_fields (o : cop) : list lockty := match o with CNew _ l | CFrom _ l _ => l | _ => [] end.
Definition from_same (p : cprog) (o : cop) : Prop :=
  match o with
  | CFrom u _ vs => forall v x, In v vs -> nth_error (cp_vars p) v = Some (Some x) -> v_life x = u
  | _ => True
  end.
(** Every conversion on the way of this program is one of those. *)
Fixpoint same_universe (p : cprog) (os : list cop) : Prop :=
  match os with
  | [] => True
  | o :: os => from_same p o /\ same_universe (fst (c_step true p o)) os
  end.
Definition start : cprog := CP (CW [] 0 [] []) [].
