(** Properties of the registry of domains, properties and tables, and of universes (C45-C49, C57-C59). *)
From Coq Require Import String List Arith Bool.
From Verif Require Import Base Names Table Extract Registry RegistrySpec RegistryProps RegistryInit RegistryMore RegistryCases.
Import ListNotations.
Local Notation length := List.length.
Local Ltac calc := vm_compute; reflexivity.

(** C45.  Two domains do not have the same id. *)
Theorem C45_unique : forall w n m i, reached w -> get_id w n = Ok i -> get_id w m = Ok i -> n = m.
Proof. exact ids_unique. Qed.
Print Assumptions C45_unique.
(** C45.  The list from id to name is the inverse (so ids are less than the number of domains). *)
Theorem C45_names : forall w n i, reached w -> w_poison w = false -> (get_id w n = Ok i <-> nth_error (g_d2n (w_glob w)) i = Some n).
Proof. exact ids_names. Qed.
Print Assumptions C45_names.
(** C45.  Ids are dense. *)
Theorem C45_dense : forall w n i, reached w -> get_id w n = Ok i -> forall j, j < i -> exists m, get_id w m = Ok j.
Proof. exact ids_dense. Qed.
Print Assumptions C45_dense.
(** C45.  Whatever is called later, the id does not change (but asking for it panics once the registry is poisoned, see C57). *)
Theorem C45_stable : forall w n i os, reached w -> get_id w n = Ok i -> get_id (r_run w os) n = Ok i \/ get_id (r_run w os) n = panic PPoisoned.
Proof. exact id_stable. Qed.
Print Assumptions C45_stable.
(** C45.  Registering gives an id, and nothing else does. *)
Theorem C45_given : forall w n, r_ans w (RDomain n) = Ok None -> exists i, get_id (after w (RDomain n)) n = Ok i.
Proof. exact id_given. Qed.
Print Assumptions C45_given.
Theorem C45_only : forall ps os n i, get_id (r_run (w0 ps) os) n = Ok i -> In (RDomain n) os.
Proof. exact id_only. Qed.
Print Assumptions C45_only.
Example C45_case :
  reached w1 /\ get_id w1 da = Ok 0 /\ get_id w1 db = Ok 1 /\ w_poison w1 = false /\ g_d2n (w_glob w1) = [da; db] /\
  r_ans w1 (RDomain (nm "rocks")) = Ok None /\ get_id (after w1 (RDomain (nm "rocks"))) (nm "rocks") = Ok 2 /\
  get_id (r_run w1 [RDomain da; RDomain (nm "rocks"); RDomain db]) db = Ok 1.
Proof. split; [exact w1_reached|]. repeat (split; [calc|]). calc. Qed.

(** C46.  Two statics of the same name (and type) share the value: what is written with one is read with the other. *)
Theorem C46_shared :
  forall w v a b da db x, reached w -> declared w a da -> declared w b db -> twins da db -> pd_ty da = pd_ty db -> w_poison w = false \/ known w b ->
  r_ans w (RSet v a x) = Ok None -> r_ans (after w (RSet v a x)) (RGet v b) = Ok (Some x).
Proof. exact twins_share. Qed.
Print Assumptions C46_shared.
(** C46.  Those of other names, and other universes, do not change. *)
Theorem C46_distinct :
  forall w v a b da db x v', reached w -> declared w a da -> declared w b db -> pd_name da <> pd_name db \/ v' <> v ->
  r_ans w (RSet v a x) = Ok None -> r_ans (after w (RSet v a x)) (RGet v' b) = r_ans w (RGet v' b).
Proof. exact others_unchanged. Qed.
Print Assumptions C46_distinct.
(** C46.  The first static of a name that is registered says what the value is in every universe made later, whatever happens
    in between; twins of another type can not read it. *)
Theorem C46_initial :
  forall w k d os ns j d', reached w -> declared w k d -> (forall j d', declared w j d' -> known w j -> pd_name d' <> pd_name d) ->
  r_ans w (RProp k) = Ok None ->
  let w' := r_run (after w (RProp k)) os in
  r_ans w' (RNew ns) = Ok None -> In (pd_domain d) ns -> declared w j d' -> twins d d' ->
  r_ans (after w' (RNew ns)) (RGet (length (w_unis w')) j) = if pd_ty d =? pd_ty d' then Ok (Some (pd_init d)) else panic PDowncast.
Proof. exact initial_value. Qed.
Print Assumptions C46_initial.
(** C46.  A property that was registered has a value in every universe that has the domain. *)
Theorem C46_readable :
  forall w v k d n dn, reached w -> declared w k d -> known w k -> has_domain w v n dn -> pd_domain d = n ->
  (exists x, r_ans w (RGet v k) = Ok (Some x)) \/ r_ans w (RGet v k) = panic PDowncast.
Proof. exact readable. Qed.
Print Assumptions C46_readable.
Definition w_bare := r_run (w0 progs) [RDomain da; RDomain db].
Example C46_case :
  reached w1 /\ declared w1 0 p0 /\ declared w1 1 p1 /\ declared w1 2 p2 /\ twins p0 p1 /\ pd_name p0 <> pd_name p2 /\ w_poison w1 = false /\ known w1 0 /\
  r_ans w1 (RSet 0 0 8) = Ok None /\ r_ans (after w1 (RSet 0 0 8)) (RGet 0 1) = Ok (Some 8) /\
  r_ans (after w1 (RSet 0 0 8)) (RGet 0 2) = Ok (Some 7) /\ r_ans (after w1 (RSet 0 0 8)) (RGet 1 0) = Ok (Some 5) /\
  (exists d, has_domain w1 0 da d) /\
  (** the first of its name *)
  reached w_bare /\ declared w_bare 0 p0 /\ (forall j d', declared w_bare j d' -> known w_bare j -> pd_name d' <> pd_name p0) /\
  r_ans w_bare (RProp 0) = Ok None /\
  let w' := r_run (after w_bare (RProp 0)) [RProp 1; RNew [da]; RSet 0 0 6] in
  r_ans w' (RNew [db; da]) = Ok None /\ declared w_bare 1 p1 /\ twins p0 p1 /\
  r_ans (after w' (RNew [db; da])) (RGet 1 1) = Ok (Some 5) /\ r_ans (after w' (RNew [db; da])) (RGet 1 3) = panic PDowncast.
Proof.
  split; [exact w1_reached|]. split; [eexists; calc|]. split; [eexists; calc|]. split; [eexists; calc|]. split; [split; reflexivity|]. split; [discriminate|]. split; [calc|].
  split; [do 2 eexists; calc|]. split; [calc|]. split; [calc|]. split; [calc|]. split; [calc|].
  split; [do 2 eexists; split; [vm_compute; reflexivity|]; split; [left; reflexivity|reflexivity]|].
  split; [exists progs, [RDomain da; RDomain db]; reflexivity|]. split; [eexists; calc|].
  split; [intros j d' _ (d & i & K); exfalso; vm_compute in K; do 6 (destruct j as [|j]; [discriminate|]); discriminate|].
  split; [calc|]. cbv zeta. split; [calc|]. split; [eexists; calc|]. split; [split; reflexivity|]. split; calc.
Qed.

(** C47.  Writing a property of a universe changes nothing that another universe answers. *)
Theorem C47_set :
  forall w v k x v' q, reached w -> r_ans w (RSet v k x) = Ok None -> v' <> v -> looks v' q -> r_ans (after w (RSet v k x)) q = r_ans w q.
Proof. exact set_apart. Qed.
Print Assumptions C47_set.
(** C47.  Nor does any call on a universe, if it does not poison the registry (see C57). *)
Theorem C47_apart :
  forall w o v v' q, reached w -> on v o -> v' <> v -> looks v' q -> w_poison (after w o) = w_poison w -> r_ans (after w o) q = r_ans w q.
Proof. exact universes_apart. Qed.
Print Assumptions C47_apart.
(** C47.  Making universes and registering things do not change what a universe has. *)
Theorem C47_kept :
  forall w o v q x, reached w -> ~ on v o -> looks v q -> w_poison (after w o) = false -> r_ans w q = Ok x -> r_ans (after w o) q = Ok x.
Proof. exact answers_kept. Qed.
Print Assumptions C47_kept.
(** C47.  [add_domain] keeps the values (even if it panics) and rows that the universe has, and the second time does nothing. *)
Theorem C47_add_values : forall w v n k x, reached w -> r_ans w (RGet v k) = Ok x -> r_ans (after w (RAdd v n)) (RGet v k) = Ok x.
Proof. exact get_kept. Qed.
Print Assumptions C47_add_values.
Theorem C47_add_rows :
  forall w v n t x, reached w -> r_ans w (RAdd v n) = Ok None -> r_ans w (RRead v t) = Ok x -> r_ans (after w (RAdd v n)) (RRead v t) = Ok x.
Proof. exact read_kept. Qed.
Print Assumptions C47_add_rows.
Theorem C47_add_twice :
  forall w v n, reached w -> r_ans w (RAdd v n) = Ok None -> r_step (after w (RAdd v n)) (RAdd v n) = (after w (RAdd v n), Ok None).
Proof. exact add_again. Qed.
Print Assumptions C47_add_twice.
Example C47_case :
  reached w1 /\ on 0 (RWrite 0 ta 9) /\ looks 1 (RRead 1 ta) /\ w_poison (after w1 (RWrite 0 ta 9)) = w_poison w1 /\
  r_ans (after w1 (RWrite 0 ta 9)) (RRead 1 ta) = Ok (Some 4) /\ r_ans (after w1 (RWrite 0 ta 9)) (RRead 0 ta) = Ok (Some 9) /\
  r_ans w1 (RSet 0 1 8) = Ok None /\ r_ans (after w1 (RSet 0 1 8)) (RGet 1 0) = Ok (Some 5) /\
  w_poison (after w1 (RNew [da])) = false /\ r_ans (after w1 (RNew [da])) (RGet 0 0) = Ok (Some 6) /\
  r_ans w1 (RAdd 0 db) = Ok None /\ r_ans w1 (RGet 0 0) = Ok (Some 6) /\ r_ans (after w1 (RAdd 0 db)) (RGet 0 0) = Ok (Some 6) /\
  r_ans w1 (RRead 0 ta) = Ok (Some 3) /\ r_ans (after w1 (RAdd 0 db)) (RRead 0 ta) = Ok (Some 3) /\
  r_ans w1 (RRead 0 tb) = panic PUnsetDomain /\ r_ans (after w1 (RAdd 0 db)) (RRead 0 tb) = Ok (Some 0).
Proof. split; [exact w1_reached|]. split; [reflexivity|]. split; [reflexivity|]. repeat (split; [calc|]). calc. Qed.

(** C48.  Once a universe has a domain, registering a table in it panics, at any later time, and does not change the registry. *)
Theorem C48_tables :
  forall w os v n d t, reached w -> has_domain w v n d -> td_domain t = n ->
  let w' := r_run w os in
  (exists e, r_ans w' (RTable t) = Err e) /\ w_glob (after w' (RTable t)) = w_glob w' /\ w_unis (after w' (RTable t)) = w_unis w' /\
  (w_poison w' = false -> new_generic_table t = Ok tt -> r_ans w' (RTable t) = panic PLocked).
Proof. exact table_rejected. Qed.
Print Assumptions C48_tables.
(** C48.  The same of properties. *)
Theorem C48_properties :
  forall w os v n d k p, reached w -> has_domain w v n d ->
  let w' := r_run w os in
  declared w' k p -> pd_domain p = n -> ~ known w' k ->
  (exists e, r_ans w' (RProp k) = Err e) /\ w_glob (after w' (RProp k)) = w_glob w' /\ w_unis (after w' (RProp k)) = w_unis w' /\
  w_stat (after w' (RProp k)) = w_stat w' /\
  (w_poison w' = false -> prop_check_name p = Ok tt -> r_ans w' (RProp k) = panic PLocked).
Proof. exact prop_rejected. Qed.
Print Assumptions C48_properties.
(** C48.  All universes, at all times, that have the domain have the same tables, and the same types of values. *)
Theorem C48_same :
  forall w os v v' n d d', reached w -> has_domain w v n d -> has_domain (r_run w os) v' n d' -> tables d' = tables d /\ types d' = types d.
Proof. exact same_tables. Qed.
Print Assumptions C48_same.
Example C48_case :
  reached w1 /\ (exists d, has_domain w1 0 da d /\ tables d = [(nm "apples", ta)] /\ types d = [1; 1]) /\ td_domain tc = da /\ w_poison w1 = false /\
  new_generic_table tc = Ok tt /\ r_ans w1 (RTable tc) = panic PLocked /\ declared w1 4 p4 /\ ~ known w1 4 /\ prop_check_name p4 = Ok tt /\
  r_ans w1 (RProp 4) = panic PLocked /\ r_ans w_setup (RTable tc) = Ok None /\ r_ans w_setup (RProp 4) = Ok None /\
  (exists d, has_domain (r_run w1 [RNew [db; da]]) 2 da d).
Proof.
  split; [exact w1_reached|]. split; [eexists; split; [eexists; split; [vm_compute; reflexivity|]; split; [left; reflexivity|reflexivity]|split; calc]|].
  split; [reflexivity|]. split; [calc|]. split; [calc|]. split; [calc|]. split; [eexists; calc|]. split; [intros (d & i & K); vm_compute in K; discriminate|].
  split; [calc|]. split; [calc|]. split; [calc|]. split; [calc|]. eexists. eexists. split; [vm_compute; reflexivity|]. split; [left; reflexivity|reflexivity].
Qed.

(** C49.  Registering a table again, or another declaration of the same name and columns, does nothing until the domain is locked;
    then it panics. *)
Theorem C49_again :
  forall w t s os b, reached w -> r_ans w (RTable t) = Ok None -> td_domain s = td_domain t -> td_name s = td_name t -> td_cols s = td_cols t ->
  let w' := r_run (after w (RTable t)) os in
  dom_locked w' (td_domain t) = Ok b -> r_step w' (RTable s) = if b then (poison w', panic PLocked) else (w', Ok None).
Proof. exact register_again. Qed.
Print Assumptions C49_again.
(** C49.  A table of the same name but other columns is rejected. *)
Theorem C49_other :
  forall w t s os, reached w -> r_ans w (RTable t) = Ok None -> td_domain s = td_domain t -> td_name s = td_name t -> td_cols s <> td_cols t ->
  exists e, r_ans (r_run (after w (RTable t)) os) (RTable s) = Err e.
Proof. exact register_other. Qed.
Print Assumptions C49_other.
(** C49.  Registering a property again does nothing, even in a locked domain. *)
Theorem C49_property : forall w k, known w k -> w_poison w = false -> r_step w (RProp k) = (w, Ok None).
Proof. exact prop_again. Qed.
Print Assumptions C49_property.
(** C49.  A declaration that is accepted as the same (see [C49_again]) but is of another module can not be used: reading and writing
    panic... *)
Theorem C49_imposter :
  forall w os t s v x, reached w -> has_table w t -> td_domain s = td_domain t -> td_name s = td_name t -> td_type s <> td_type t ->
  let w' := r_run w os in (exists e, r_ans w' (RRead v s) = Err e) /\ (exists e, r_ans w' (RWrite v s x) = Err e).
Proof. exact imposter_useless. Qed.
Print Assumptions C49_imposter.
(** C49.  ...and trying to write it makes the table unusable. *)
Theorem C49_imposter_write :
  forall w t s v x y, reached w -> has_table w t -> td_domain s = td_domain t -> td_name s = td_name t -> td_type s <> td_type t ->
  r_ans w (RRead v t) = Ok (Some y) -> r_ans (after w (RWrite v s x)) (RRead v t) = panic PPoisoned.
Proof. exact imposter_harmful. Qed.
Print Assumptions C49_imposter_write.
Example C49_case :
  reached (r_run (w0 progs) [RDomain da]) /\ r_ans (r_run (w0 progs) [RDomain da]) (RTable ta) = Ok None /\ dom_locked w_setup da = Ok false /\ r_ans w_setup (RTable ta) = Ok None /\
  r_ans w_setup (RTable ta') = Ok None /\ td_kind ta' <> td_kind ta /\ td_type ta' <> td_type ta /\ td_cols ta2 <> td_cols ta /\ r_ans w_setup (RTable ta2) = panic PDuplicate /\
  dom_locked w1 da = Ok true /\ r_ans w1 (RTable ta) = panic PLocked /\ known w1 0 /\ r_ans w1 (RProp 0) = Ok None /\
  has_table w1 ta /\ r_ans w1 (RRead 0 ta) = Ok (Some 3) /\ r_ans w1 (RRead 0 ta') = panic PDowncast /\ r_ans (after w1 (RWrite 0 ta' 0)) (RRead 0 ta) = panic PPoisoned.
Proof.
  split; [exists progs, [RDomain da]; reflexivity|]. repeat (split; [calc|]). split; [discriminate|]. split; [discriminate|]. split; [discriminate|]. repeat (split; [calc|]).
  split; [do 2 eexists; calc|]. split; [calc|]. split; [eexists; split; calc|]. repeat (split; [calc|]). calc.
Qed.
(** C49.  So registering the same table twice may panic, and a declaration of another kind may be accepted. *)
Theorem C49_refuted :
  (exists w t, reached w /\ has_table w t /\ w_poison w = false /\ r_ans w (RTable t) = panic PLocked) /\
  (exists w t s, reached w /\ has_table w t /\ td_name s = td_name t /\ td_kind s <> td_kind t /\ r_ans w (RTable s) = Ok None).
Proof.
  split.
  - exists w1, ta. split; [exact w1_reached|]. split; [eexists; split; calc|]. split; calc.
  - exists w_setup, ta, ta'. split; [exact w_setup_reached|]. split; [eexists; split; calc|]. split; [reflexivity|]. split; [discriminate|]. calc.
Qed.
Print Assumptions C49_refuted.

(** C57.  Which calls poison the registry: failed registrations, [Universe::new] with an unknown domain, and using a property that
    was not registered (see [guilty]). *)
Theorem C57_which : forall w o, reached w -> w_poison w = false -> (w_poison (after w o) = true <-> guilty w o).
Proof. exact guilty_iff. Qed.
Print Assumptions C57_which.
(** C57.  From then on every call in every universe panics, and does nothing, but for getting and setting properties. *)
Theorem C57_stuck :
  forall w o, w_poison w = true -> match o with RGet _ _ | RSet _ _ _ => False | _ => True end -> after w o = w /\ exists e, r_ans w o = Err e.
Proof. exact poison_stuck. Qed.
Print Assumptions C57_stuck.
Theorem C57_forever : forall os w, w_poison w = true -> w_poison (r_run w os) = true.
Proof. exact poison_forever. Qed.
Print Assumptions C57_forever.
(** C57.  So asking one universe for a property can stop another one from reading its tables, for ever. *)
Theorem C57_refuted :
  exists w v k v' t x, reached w /\ v <> v' /\ r_ans w (RRead v' t) = Ok (Some x) /\
    forall os, exists e, r_ans (r_run (after w (RGet v k)) os) (RRead v' t) = Err e.
Proof.
  exists w1, 0, 4, 1, ta, 4. split; [exact w1_reached|]. split; [discriminate|]. split; [calc|]. intro os.
  exact (proj2 (poison_stuck _ (RRead 1 ta) (poison_forever os (after w1 (RGet 0 4)) eq_refl) I)).
Qed.
Print Assumptions C57_refuted.
Example C57_case :
  reached w1 /\ w_poison w1 = false /\ guilty w1 (RTable tc) /\ w_poison (after w1 (RTable tc)) = true /\ r_ans (after w1 (RTable tc)) (RRead 1 ta) = panic PPoisoned /\
  r_ans (after w1 (RTable tc)) (RGet 0 0) = Ok (Some 6) /\ ~ guilty w1 (RGet 0 1).
Proof.
  split; [exact w1_reached|]. split; [calc|]. split; [split; [calc|eexists; calc]|]. split; [calc|]. split; [calc|]. split; [calc|].
  intros (_ & _ & H). apply H. exists p1, 0, p0. split; [eexists; calc|]. split; [eexists; calc|]. split; [do 2 eexists; calc|]. split; reflexivity.
Qed.

(** C58.  The trackers of a table of a new universe are those that the tables of its domains ask for, in order of the domains
    given and of registration of the tables. *)
Theorem C58_new :
  forall w ns t, reached w -> r_ans w (RNew ns) = Ok None -> In (td_domain t) ns -> has_table w t ->
  trackers_of (after w (RNew ns)) (length (w_unis w)) (td_domain t) (td_name t) =
    Some (map tk_id (filter (tracks (td_domain t) (td_name t)) (flat_map (wanted w) ns))).
Proof. exact trackers_new. Qed.
Print Assumptions C58_new.
(** C58.  Adding a domain adds those that its tables ask for. *)
Theorem C58_add :
  forall w v n dn tn l, reached w -> r_ans w (RAdd v n) = Ok None -> trackers_of w v dn tn = Some l -> (forall d, ~ has_domain w v n d) ->
  trackers_of (after w (RAdd v n)) v dn tn = Some (l ++ map tk_id (filter (tracks dn tn) (wanted w n))).
Proof. exact add_trackers. Qed.
Print Assumptions C58_add.
Example C58_case :
  reached w_setup /\ r_ans w_setup (RNew [da; db]) = Ok None /\ has_table w_setup ta /\ wanted w_setup db = [trk] /\
  trackers_of (after w_setup (RNew [da; db])) 0 da (nm "apples") = Some [77] /\
  r_ans w1 (RAdd 0 db) = Ok None /\ trackers_of w1 0 da (nm "apples") = Some [] /\ (forall d, ~ has_domain w1 0 db d) /\
  trackers_of (after w1 (RAdd 0 db)) 0 da (nm "apples") = Some [77].
Proof.
  split; [exact w_setup_reached|]. split; [calc|]. split; [eexists; split; calc|]. split; [calc|]. split; [calc|]. split; [calc|]. split; [calc|]. split; [|calc].
  intros d (u & E & I & N). vm_compute in E. injection E as <-. destruct I as [I|[I|[]]]; [|discriminate]. injection I as <-. discriminate.
Qed.
(** C58.  So a domain that is given twice has its trackers registered twice. *)
Theorem C58_refuted :
  exists w ns t, reached w /\ r_ans w (RNew ns) = Ok None /\ has_table w t /\ wanted w db = [trk] /\
    trackers_of (after w (RNew ns)) (length (w_unis w)) (td_domain t) (td_name t) = Some [77; 77].
Proof. exists w_setup, [da; db; db], ta. split; [exact w_setup_reached|]. split; [calc|]. split; [eexists; split; calc|]. split; calc. Qed.
Print Assumptions C58_refuted.

(** C59.  After [add_domain] of a domain there is, whether it panicked or not, calling it again does nothing. *)
Theorem C59_retry :
  forall w v n, reached w -> v < length (w_unis w) -> w_poison w = false -> In n (g_d2n (w_glob w)) ->
  r_step (after w (RAdd v n)) (RAdd v n) = (after w (RAdd v n), Ok None).
Proof. exact add_retry. Qed.
Print Assumptions C59_retry.
Example C59_case :
  reached w2 /\ 2 < length (w_unis w2) /\ w_poison w2 = false /\ In db (g_d2n (w_glob w2)) /\ r_ans w2 (RAdd 2 db) = panic PUnsetDomain /\ r_ans (after w2 (RAdd 2 db)) (RAdd 2 db) = Ok None.
Proof. split; [exact w2_reached|]. split; [vm_compute; do 2 constructor|]. split; [calc|]. split; [vm_compute; auto|]. split; calc. Qed.
(** C59.  So trackers whose registration failed, because the domain of the table they track is added later, are never registered. *)
Theorem C59_refuted :
  exists w v e, reached w /\ r_ans w (RAdd v db) = Err e /\
    let w' := r_run w [RAdd v db; RAdd v da; RAdd v db] in
    w_poison w' = false /\ trackers_of w' v da (nm "apples") = Some [] /\ trackers_of (r_run w [RAdd v da; RAdd v db]) v da (nm "apples") = Some [77].
Proof. exists w2, 2. eexists. split; [exact w2_reached|]. split; [calc|]. cbv zeta. split; [calc|]. split; calc. Qed.
Print Assumptions C59_refuted.
