(** What a universe says of itself: its domains, its tables, and the value a property had. *)
From Coq Require Import String List Arith Bool.
From Verif Require Import Base Names Extract Registry.
Import ListNotations.

(** [Universe::get_domain_names], src/domain.rs:292-300 *)
Fixpoint domain_names (u : uni) : list name :=
  match u with
  | [] => []
  | Unset _ :: u => domain_names u
  | Dom d :: u => dn_name d :: domain_names u
  end.
Definition get_domain_names (w : world) (v : nat) : res (list name) :=
  match nth_error (w_unis w) v with None => panic PRustType | Some u => Ok (domain_names u) end.

(** [GenericTable::info], src/tables.rs:183-189 *)
Definition table_info (t : tdecl) : name :=
  td_name t ++ nm ":" ++ concat (map (fun c => nm " " ++ cm_name c ++ nm ":[" ++ cm_type c ++ nm "]") (td_cols t)).
(** [Itertools::join] *)
Fixpoint join (sep : name) (l : list name) : name :=
  match l with [] => [] | [x] => x | x :: l => x ++ sep ++ join sep l end.
(** [Universe::info], src/lib.rs:134-150.  [order]: how the [HashMap] of a domain is iterated.  [unwrap] panics at a poisoned table;
    a lock taken for reading is not poisoned. *)
Fixpoint info_of (order : dinst -> list (name * tinst)) (u : uni) : res name :=
  match u with
  | [] => Ok []
  | Unset _ :: u => info_of order u
  | Dom d :: u =>
      let* ts := map_res (fun p => if ti_poison (snd p) then panic PPoisoned else Ok (table_info (ti_decl (snd p)))) (order d) in
      let* l := info_of order u in
      Ok (dn_name d ++ nm ": " ++ join (nm " ") ts ++ [10] ++ l)
  end.
Definition info (order : dinst -> list (name * tinst)) (w : world) (v : nat) : res name :=
  match nth_error (w_unis w) v with None => panic PRustType | Some u => info_of order u end.

(** [Universe::swap], src/property.rs:364-369 *)
Definition swap_prop (w : world) (v k x : nat) : world * res nat :=
  match prop_index w v k with
  | (w, Err e) => (w, Err e)
  | (w, Ok (u, d, p, i)) =>
      match nth_error (dn_cells d) (pi_dix i) with
      | None => (w, panic PUnknownProp)
      | Some c =>
          (set_unis w (upd (w_unis w) v (upd u (pi_did i)
             (Dom (DN (dn_id d) (dn_name d) (upd (dn_cells d) (pi_dix i) (fst c, x)) (dn_tabs d) (dn_order d))))), Ok (snd c))
      end
  end.
