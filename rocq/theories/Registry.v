(** The registry of domains, properties and tables, and the universes made from it:
    src/domain.rs, src/property.rs:230-417, src/tables.rs:16-228, src/tracking.rs:315-339, src/lib.rs:118-127.

    Simplifications.  [set_locked] (hidden in the documentation) is only called by [instantiate_domain]; Reopen.v has it as a call.  There is one
    registry (Libs.v has several).  [gid2name] is only printed.  The initial value of a property is a constant.  The rows
    of a table are a number here (Table.v has them).  A column has the storage type that its stored type name names.
    Locks are only held during the calls; poisoning is modelled.  [check_lock()] is [!cfg!(test)] (src/domain.rs:104-107): the model
    is of builds other than the crate's own unit tests. *)
From Coq Require Import List Arith Bool Ascii.
From Verif Require Import Base Names Table Extract.
Import ListNotations.

(** HashMap with names as keys *)
Fixpoint nget {A} (m : list (name * A)) (k : name) : option A :=
  match m with [] => None | (x, v) :: m => if name_eqb x k then Some v else nget m k end.
(** [insert] for a key that is absent *)
Definition nadd {A} (m : list (name * A)) (k : name) (v : A) : list (name * A) := m ++ [(k, v)].
(** [get_mut] for a key that is present *)
Fixpoint nset {A} (m : list (name * A)) (k : name) (v : A) : list (name * A) :=
  match m with [] => [] | (x, y) :: m => if name_eqb x k then (x, v) :: m else (x, y) :: nset m k v end.

(** ** Declarations *)
(** What [property!] declares, src/property.rs:130-240: [DOMAIN_NAME], [NAME] ("domain/name"), the type and [INIT] *)
Record pdecl := PD { pd_domain : name; pd_name : name; pd_ty : nat; pd_init : nat }.
(** [PropertyIndex], src/property.rs:38-46 *)
Record pindex := PI { pi_did : nat; pi_dix : nat; pi_gid : nat }.

(** A tracker: the table it tracks (domain, name, Rust type, is it consistent), and which tracker it is.
    src/tracking.rs:165-222 *)
Record tracker := TK { tk_domain : name; tk_table : name; tk_type : nat; tk_cons : bool; tk_id : nat }.
(** What [table!] declares: macros/output.rs:227-242, 300-345, 1708-1735, 1785-1792.  [td_type]: the Rust type [Table] of its
    module; [td_trk]: what [register_foreign_trackers] registers. *)
Record tdecl := TD { td_domain : name; td_name : name; td_cols : list colmeta; td_kind : kind; td_type : nat; td_trk : list tracker }.

(** ** State *)
(** [DomainInfo], src/domain.rs:158-166 *)
Record dinfo := DI { di_id : nat; di_name : name; di_props : list nat; di_tabs : list (name * tdecl); di_order : list name;
                     di_n2d : list (name * nat); di_locked : bool }.
(** [GlobalProperties], src/domain.rs:362-370; [g_prod]: type and value that each producer makes *)
Record globals := GL { g_n2g : list (name * nat); g_prod : list (nat * nat); g_doms : list (name * dinfo); g_d2n : list name }.

(** A table of a universe (src/tables.rs:69-77): its declaration, registered trackers, rows, and whether its lock is poisoned. *)
Record tinst := TI { ti_decl : tdecl; ti_trk : list nat; ti_rows : nat; ti_poison : bool }.
(** [DomainInstance] and [MaybeDomain], src/domain.rs:211-225, 303-310 *)
Record dinst := DN { dn_id : nat; dn_name : name; dn_cells : list (nat * nat); dn_tabs : list (name * tinst); dn_order : list name }.
Inductive mdomain := Unset (n : name) | Dom (d : dinst).
Notation uni := (list mdomain) (only parsing).

(** [w_stat]: the properties declared, with [VAL.index] *)
Record world := W { w_glob : globals; w_poison : bool; w_stat : list (pdecl * option pindex); w_unis : list uni }.

Definition w0 (ps : list pdecl) : world := W (GL [] [] [] []) false (map (fun d => (d, None)) ps) [].
Definition set_glob (w : world) (g : globals) : world := W g (w_poison w) (w_stat w) (w_unis w).
Definition set_unis (w : world) (us : list uni) : world := W (w_glob w) (w_poison w) (w_stat w) us.
Definition set_stat (w : world) (k : nat) (d : pdecl) (i : pindex) : world := W (w_glob w) (w_poison w) (upd (w_stat w) k (d, Some i)) (w_unis w).
Definition set_dom (g : globals) (n : name) (i : dinfo) : globals := GL (g_n2g g) (g_prod g) (nset (g_doms g) n i) (g_d2n g).

(** A panic while the registry is locked for writing poisons its lock. *)
Definition poison (w : world) : world := W (w_glob w) true (w_stat w) (w_unis w).
Definition writing {A} (w : world) (f : world -> world * res A) : world * res A :=
  if w_poison w then (w, panic PPoisoned)
  else match f w with (w, Err e) => (poison w, Err e) | (w, Ok a) => (w, Ok a) end.
Definition reading {A} (w : world) (x : res A) : res A := if w_poison w then panic PPoisoned else x.

(** ** Registration *)
(** [DomainName::register], src/domain.rs:45-71 *)
Definition register_domain (w : world) (n : name) : world * res unit :=
  match check_name n with
  | Err e => (w, Err e)
  | Ok _ =>
      writing w (fun w =>
        let g := w_glob w in
        match nget (g_doms g) n with
        | Some _ => (w, Ok tt)
        | None =>
            let id := length (g_doms g) in
            (set_glob w (GL (g_n2g g) (g_prod g) (nadd (g_doms g) n (DI id n [] [] [] [] false)) (g_d2n g ++ [n])), Ok tt)
        end)
  end.

(** [get_id], src/domain.rs:73-78, 88-90 *)
Definition get_id (w : world) (n : name) : res nat :=
  reading w match nget (g_doms (w_glob w)) n with Some i => Ok (di_id i) | None => panic PUndefDomain end.

(** [DomainName::locked], src/domain.rs:93-95 *)
Definition dom_locked (w : world) (n : name) : res bool :=
  reading w match nget (g_doms (w_glob w)) n with Some i => Ok (di_locked i) | None => panic PUndefDomain end.

(** [splitn(2, '/')], src/property.rs:334-336 *)
Fixpoint split_slash (n : name) : name * option name :=
  match n with
  | [] => ([], None)
  | c :: n => if c =? nat_of_ascii "/" then ([], Some n) else let p := split_slash n in (c :: fst p, snd p)
  end.
(** [Prop::check_name], src/property.rs:332-341 *)
Definition prop_check_name (d : pdecl) : res unit :=
  let* _ := check_name (pd_domain d) in
  match split_slash (pd_name d) with
  | (_, None) => panic PBadName
  | (dn, Some n) => if name_eqb dn (pd_domain d) then check_name n else panic PBadName
  end.

(** [Prop::init], src/property.rs:266-311.  Of twins (same name) the first adds its producer, each adds a member to the domain. *)
Definition prop_init (w : world) (k : nat) : world * res unit :=
  writing w (fun w =>
    let g := w_glob w in
    match nth_error (w_stat w) k with
    | None => (w, panic PRustType)
    | Some (_, Some _) => (w, Ok tt)
    | Some (d, None) =>
        match prop_check_name d with
        | Err e => (w, Err e)
        | Ok _ =>
            match nget (g_doms g) (pd_domain d) with
            | None => (w, panic PUndefDomain)
            | Some i =>
                if di_locked i then (w, panic PLocked)
                else
                  let (gid, first) := match nget (g_n2g g) (pd_name d) with
                                      | Some x => (x, false)
                                      | None => (length (g_prod g), true)
                                      end in
                  let (dix, new) := match nget (di_n2d i) (pd_name d) with
                                    | Some x => (x, false)
                                    | None => (length (di_props i), true)
                                    end in
                  let i' := DI (di_id i) (di_name i) (di_props i ++ [gid]) (di_tabs i) (di_order i)
                              (if new then nadd (di_n2d i) (pd_name d) dix else di_n2d i) (di_locked i) in
                  let g' := GL (if first then nadd (g_n2g g) (pd_name d) gid else g_n2g g)
                              (if first then g_prod g ++ [(pd_ty d, pd_init d)] else g_prod g)
                              (nset (g_doms g) (pd_domain d) i') (g_d2n g) in
                  (set_stat (set_glob w g') k d (PI (di_id i) dix gid), Ok tt)
            end
        end
    end).

(** [Prop::sync_alias], src/property.rs:314-330 *)
Definition sync_alias (w : world) (k : nat) (d : pdecl) : world * res pindex :=
  writing w (fun w =>
    match nget (g_doms (w_glob w)) (pd_domain d) with
    | None => (w, panic PUndefDomain)
    | Some i =>
        match nget (g_n2g (w_glob w)) (pd_name d) with
        | None => (w, panic PUnknownProp)
        | Some gid =>
            match nget (di_n2d i) (pd_name d) with
            | None => (w, panic PUnwrap)
            | Some dix => (set_stat w k d (PI (di_id i) dix gid), Ok (PI (di_id i) dix gid))
            end
        end
    end).
(** [PropRef::get], src/property.rs:226-231 *)
Definition prop_get (w : world) (k : nat) : world * res (pdecl * pindex) :=
  match nth_error (w_stat w) k with
  | None => (w, panic PRustType)
  | Some (d, Some i) => (w, Ok (d, i))
  | Some (d, None) => match sync_alias w k d with (w, Ok i) => (w, Ok (d, i)) | (w, Err e) => (w, Err e) end
  end.

(** [GenericTable::new] and [add_column], src/tables.rs:86-101, 130-140 *)
Fixpoint check_cols (done cols : list colmeta) : res unit :=
  match cols with
  | [] => Ok tt
  | c :: cols =>
      let* _ := check_name (cm_name c) in
      if existsb (fun x => name_eqb (cm_name x) (cm_name c)) done then panic PDuplicate else check_cols (done ++ [c]) cols
  end.
Definition new_generic_table (t : tdecl) : res unit :=
  let* _ := check_name (td_name t) in check_cols [] (td_cols t).
(** [equivalent], src/tables.rs:218-228 *)
Fixpoint metas_eqb (a b : list colmeta) : bool :=
  match a, b with
  | [], [] => true
  | x :: a, y :: b => colmeta_eqb x y && metas_eqb a b
  | _, _ => false
  end.
Definition equivalent (a b : tdecl) : bool :=
  name_eqb (td_domain a) (td_domain b) && name_eqb (td_name a) (td_name b) && metas_eqb (td_cols a) (td_cols b).
(** [register], macros/output.rs:1731-1733, src/tables.rs:191-216 *)
Definition register_table (w : world) (t : tdecl) : world * res unit :=
  match new_generic_table t with
  | Err e => (w, Err e)
  | Ok _ =>
      writing w (fun w =>
        let g := w_glob w in
        match nget (g_doms g) (td_domain t) with
        | None => (w, panic PUndefDomain)
        | Some i =>
            if di_locked i then (w, panic PLocked)
            else match nget (di_tabs i) (td_name t) with
                 | None =>
                     (set_glob w (set_dom g (td_domain t)
                        (DI (di_id i) (di_name i) (di_props i) (nadd (di_tabs i) (td_name t) t) (di_order i ++ [td_name t])
                          (di_n2d i) (di_locked i))), Ok tt)
                 | Some t' => if equivalent t t' then (w, Ok tt) else (w, panic PDuplicate)
                 end
        end)
  end.

(** ** Universes *)
(** [instantiate_domain] and [instantiate], src/domain.rs:372-381, 186-200; the tables are empty copies (src/tables.rs:116-128) *)
Definition instantiate (g : globals) (n : name) : globals * res dinst :=
  match nget (g_doms g) n with
  | None => (g, panic PUndefDomain)
  | Some i =>
      let g := set_dom g n (DI (di_id i) (di_name i) (di_props i) (di_tabs i) (di_order i) (di_n2d i) true) in
      (g, let* cells := map_res (fun gid => match nth_error (g_prod g) gid with Some v => Ok v | None => panic PIndexOOB end) (di_props i) in
          Ok (DN (di_id i) (di_name i) cells (map (fun p => (fst p, TI (snd p) [] 0 false)) (di_tabs i)) (di_order i)))
  end.
(** [get_domains], src/domain.rs:230-241 *)
Fixpoint get_domains_loop (g : globals) (u : uni) (ns : list name) : globals * res uni :=
  match ns with
  | [] => (g, Ok u)
  | n :: ns =>
      match instantiate g n with
      | (g, Err e) => (g, Err e)
      | (g, Ok d) => if dn_id d <? length u then get_domains_loop g (upd u (dn_id d) (Dom d)) ns else (g, panic PIndexOOB)
      end
  end.
Definition get_domains (w : world) (ns : list name) : world * res uni :=
  writing w (fun w => let p := get_domains_loop (w_glob w) (map Unset (g_d2n (w_glob w))) ns in (set_glob w (fst p), snd p)).

(** [get_generic_table], src/index.rs:72-75, src/tables.rs:18-23, src/domain.rs:336-344: where the table is *)
Definition find_table (w : world) (u : uni) (dn tn : name) : res (nat * dinst * tinst) :=
  let* id := get_id w dn in
  match nth_error u id with
  | Some (Dom d) => match nget (dn_tabs d) tn with Some t => Ok (id, d, t) | None => panic PUnsetDomain end
  | _ => panic PUnsetDomain
  end.
Definition put_table (u : uni) (id : nat) (d : dinst) (tn : name) (t : tinst) : uni :=
  upd u id (Dom (DN (dn_id d) (dn_name d) (dn_cells d) (nset (dn_tabs d) tn t) (dn_order d))).

(** [Universe::register_tracker], src/tracking.rs:332-339, 315-321: a panic poisons the lock of the table *)
Definition register_tracker (w : world) (u : uni) (tr : tracker) : uni * res unit :=
  match find_table w u (tk_domain tr) (tk_table tr) with
  | Err e => (u, Err e)
  | Ok (id, d, t) =>
      if ti_poison t then (u, panic PPoisoned)
      else if negb (td_type (ti_decl t) =? tk_type tr) then
        (put_table u id d (tk_table tr) (TI (ti_decl t) (ti_trk t) (ti_rows t) true), panic PDowncast)
      else if negb (tk_cons tr) then
        (put_table u id d (tk_table tr) (TI (ti_decl t) (ti_trk t) (ti_rows t) true), panic PNotConsistent)
      else (put_table u id d (tk_table tr) (TI (ti_decl t) (ti_trk t ++ [tk_id tr]) (ti_rows t) false), Ok tt)
  end.
Fixpoint register_trackers (w : world) (u : uni) (ts : list tracker) : uni * res unit :=
  match ts with
  | [] => (u, Ok tt)
  | t :: ts => match register_tracker w u t with (u, Ok _) => register_trackers w u ts | (u, Err e) => (u, Err e) end
  end.
(** [init_domain], src/domain.rs:252-265 *)
Fixpoint init_tables (w : world) (u : uni) (id : nat) (order : list name) : uni * res unit :=
  match order with
  | [] => (u, Ok tt)
  | tn :: order =>
      match nth_error u id with
      | Some (Dom d) =>
          match nget (dn_tabs d) tn with
          | None => (u, panic PUnwrap)
          | Some t =>
              if ti_poison t then (u, panic PPoisoned)
              else match register_trackers w u (td_trk (ti_decl t)) with
                   | (u, Ok _) => init_tables w u id order
                   | (u, Err e) => (u, Err e)
                   end
          end
      | _ => (u, panic PUnsetDomain)
      end
  end.
Definition init_domain (w : world) (u : uni) (n : name) : uni * res unit :=
  match get_id w n with
  | Err e => (u, Err e)
  | Ok id => match nth_error u id with
             | Some (Dom d) => init_tables w u id (dn_order d)
             | _ => (u, panic PUnsetDomain)
             end
  end.
Fixpoint init_domains (w : world) (u : uni) (ns : list name) : uni * res unit :=
  match ns with
  | [] => (u, Ok tt)
  | n :: ns => match init_domain w u n with (u, Ok _) => init_domains w u ns | (u, Err e) => (u, Err e) end
  end.
(** [Universe::new], src/lib.rs:118-127 *)
Definition new_universe (w : world) (ns : list name) : world * res unit :=
  match get_domains w ns with
  | (w, Err e) => (w, Err e)
  | (w, Ok u) => match init_domains w u ns with
                 | (u, Ok _) => (set_unis w (w_unis w ++ [u]), Ok tt)
                 | (_, Err e) => (w, Err e)
                 end
  end.

(** [sync_domain_list], src/domain.rs:268-273.  Slicing panics if the universe has more domains than the registry. *)
Definition sync_domains (w : world) (u : uni) : uni := u ++ map Unset (skipn (length u) (g_d2n (w_glob w))).
(** [Universe::add_domain], src/domain.rs:243-250, on universe number [v] *)
Definition add_domain (w : world) (v : nat) (n : name) : world * res unit :=
  match nth_error (w_unis w) v with
  | None => (w, panic PRustType)
  | Some u =>
      if w_poison w then (w, panic PPoisoned)
      else if length (g_d2n (w_glob w)) <? length u then (w, panic PIndexOOB)
      else
        let u := sync_domains w u in
        let w := set_unis w (upd (w_unis w) v u) in
        match get_id w n with
        | Err e => (w, Err e)
        | Ok id =>
            match nth_error u id with
            | None => (w, panic PIndexOOB)
            | Some (Dom _) => (w, Ok tt)
            | Some (Unset _) =>
                match writing w (fun w => let p := instantiate (w_glob w) n in (set_glob w (fst p), snd p)) with
                | (w, Err e) => (w, Err e)
                | (w, Ok d) =>
                    let p := init_domain w (upd u id (Dom d)) n in
                    (set_unis w (upd (w_unis w) v (fst p)), snd p)
                end
            end
        end
  end.

(** [DomainInstance::add_properties], src/domain.rs:326-334 *)
Fixpoint more_cells (g : globals) (cells : list (nat * nat)) (gids : list nat) : list (nat * nat) * res unit :=
  match gids with
  | [] => (cells, Ok tt)
  | gid :: gids => match nth_error (g_prod g) gid with
                   | Some v => more_cells g (cells ++ [v]) gids
                   | None => (cells, panic PIndexOOB)
                   end
  end.
Definition add_cells (g : globals) (d : dinst) : dinst * res unit :=
  match nget (g_doms g) (dn_name d) with
  | None => (d, panic PUndefDomain)
  | Some i => let p := more_cells g (dn_cells d) (skipn (length (dn_cells d)) (di_props i)) in
              (DN (dn_id d) (dn_name d) (fst p) (dn_tabs d) (dn_order d), snd p)
  end.
(** [Universe::add_properties], src/domain.rs:278-289: a panic leaves the domains before it done *)
Fixpoint add_all_cells (g : globals) (u : uni) : uni * res unit :=
  match u with
  | [] => ([], Ok tt)
  | Unset n :: u => let p := add_all_cells g u in (Unset n :: fst p, snd p)
  | Dom d :: u => match add_cells g d with
                  | (d, Ok _) => let p := add_all_cells g u in (Dom d :: fst p, snd p)
                  | (d, Err e) => (Dom d :: u, Err e)
                  end
  end.
Definition add_properties (w : world) (v : nat) : world * res unit :=
  match nth_error (w_unis w) v with
  | None => (w, panic PRustType)
  | Some u =>
      if w_poison w then (w, panic PPoisoned)
      else let p := add_all_cells (w_glob w) u in (set_unis w (upd (w_unis w) v (fst p)), snd p)
  end.

(** [Index<&ToPropRef>], src/property.rs:380-417: which cell of universe [v] *)
Definition prop_index (w : world) (v k : nat) : world * res (uni * dinst * pdecl * pindex) :=
  match nth_error (w_unis w) v with
  | None => (w, panic PRustType)
  | Some u =>
      match prop_get w k with
      | (w, Err e) => (w, Err e)
      | (w, Ok (p, i)) =>
          (w, match nth_error u (pi_did i) with
              | Some (Dom d) =>
                  match nth_error (dn_cells d) (pi_dix i) with
                  | None => panic PUnknownProp
                  | Some c => if fst c =? pd_ty p then Ok (u, d, p, i) else panic PDowncast
                  end
              | _ => panic PUnsetDomain
              end)
      end
  end.
(** [Universe::get], src/property.rs:353-357 *)
Definition get_prop (w : world) (v k : nat) : world * res nat :=
  match prop_index w v k with
  | (w, Err e) => (w, Err e)
  | (w, Ok (u, d, p, i)) => (w, match nth_error (dn_cells d) (pi_dix i) with Some c => Ok (snd c) | None => panic PUnknownProp end)
  end.
(** [Universe::set], src/property.rs:359-362 *)
Definition set_prop (w : world) (v k x : nat) : world * res unit :=
  match prop_index w v k with
  | (w, Err e) => (w, Err e)
  | (w, Ok (u, d, p, i)) =>
      (set_unis w (upd (w_unis w) v (upd u (pi_did i)
         (Dom (DN (dn_id d) (dn_name d) (upd (dn_cells d) (pi_dix i) (pd_ty p, x)) (dn_tabs d) (dn_order d))))), Ok tt)
  end.

(** ** Tables of a universe *)
(** [get_column] of each column, then the downcast of the table: macros/output.rs:1615-1645, 1666-1689, src/tables.rs:142-181 *)
Fixpoint get_columns (have want : list colmeta) : res unit :=
  match want with
  | [] => Ok tt
  | c :: want =>
      match find (fun x => name_eqb (cm_name x) (cm_name c)) have with
      | None => panic PUnwrap
      | Some x => if name_eqb (cm_type x) (cm_type c) then get_columns have want else panic PDowncast
      end
  end.
Definition convert (have want : tdecl) : res unit :=
  let* _ := get_columns (td_cols have) (td_cols want) in
  if td_type have =? td_type want then Ok tt else panic PDowncast.
(** [read(universe)], macros/output.rs:1649-1657, and what the rows are *)
Definition read_table (w : world) (v : nat) (t : tdecl) : res nat :=
  match nth_error (w_unis w) v with
  | None => panic PRustType
  | Some u =>
      let* f := find_table w u (td_domain t) (td_name t) in
      let ti := snd f in
      let* _ := convert (ti_decl ti) t in
      if ti_poison ti then panic PPoisoned else Ok (ti_rows ti)
  end.
(** [write(universe)], macros/output.rs:1692-1700, and replacing the rows; a panic poisons the lock of the table *)
Definition write_table (w : world) (v : nat) (t : tdecl) (x : nat) : world * res unit :=
  match nth_error (w_unis w) v with
  | None => (w, panic PRustType)
  | Some u =>
      match find_table w u (td_domain t) (td_name t) with
      | Err e => (w, Err e)
      | Ok (id, d, ti) =>
          let put ti := set_unis w (upd (w_unis w) v (put_table u id d (td_name t) ti)) in
          match convert (ti_decl ti) t with
          | Err e => (put (TI (ti_decl ti) (ti_trk ti) (ti_rows ti) true), Err e)
          | Ok _ => if ti_poison ti then (w, panic PPoisoned) else (put (TI (ti_decl ti) (ti_trk ti) x false), Ok tt)
          end
      end
  end.
(** [register_tracker] on a universe *)
Definition add_tracker (w : world) (v : nat) (tr : tracker) : world * res unit :=
  match nth_error (w_unis w) v with
  | None => (w, panic PRustType)
  | Some u => let p := register_tracker w u tr in (set_unis w (upd (w_unis w) v (fst p)), snd p)
  end.

(** ** Programs *)
(** Calls in any order; a panic is caught. *)
Inductive rop :=
| RDomain (n : name)                  (* n.register() *)
| RProp (k : nat)                     (* static k .register() *)
| RTable (t : tdecl)                  (* t::register() *)
| RNew (ns : list name)               (* Universe::new(&ns) *)
| RAdd (v : nat) (n : name)           (* universe v .add_domain(n) *)
| RMore (v : nat)                     (* universe v .add_properties() *)
| RGet (v k : nat)                    (* universe v .get(static k) *)
| RSet (v k x : nat)                  (* universe v .set(static k, x) *)
| RRead (v : nat) (t : tdecl)         (* t::read(universe v) *)
| RWrite (v : nat) (t : tdecl) (x : nat)
| RTrack (v : nat) (tr : tracker).    (* universe v .register_tracker(tr) *)

Definition unit_res (p : world * res unit) : world * res (option nat) :=
  (fst p, match snd p with Ok _ => Ok None | Err e => Err e end).
Definition some_res (p : world * res nat) : world * res (option nat) :=
  (fst p, match snd p with Ok x => Ok (Some x) | Err e => Err e end).
Definition r_step (w : world) (o : rop) : world * res (option nat) :=
  match o with
  | RDomain n => unit_res (register_domain w n)
  | RProp k => unit_res (prop_init w k)
  | RTable t => unit_res (register_table w t)
  | RNew ns => unit_res (new_universe w ns)
  | RAdd v n => unit_res (add_domain w v n)
  | RMore v => unit_res (add_properties w v)
  | RGet v k => some_res (get_prop w v k)
  | RSet v k x => unit_res (set_prop w v k x)
  | RRead v t => some_res (w, read_table w v t)
  | RWrite v t x => unit_res (write_table w v t x)
  | RTrack v tr => unit_res (add_tracker w v tr)
  end.
Definition r_run (w : world) (os : list rop) : world := fold_left (fun w o => fst (r_step w o)) os w.
(** What a call gives. *)
Definition r_ans (w : world) (o : rop) : res (option nat) := snd (r_step w o).
