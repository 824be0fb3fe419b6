(** Domains that are unlocked after universes were made (C113). *)
From Coq Require Import String List Arith Bool.
From Verif Require Import Base Names NamesFacts Table Registry RegistrySpec Reopen ReopenSpec ReopenProps RegistryCases.
Import ListNotations.
Local Ltac calc := vm_compute; reflexivity.

(** C113.  Locking or unlocking a registered domain does that, and nothing else: no other domain is locked or unlocked, none
    moves, and nothing read from a universe changes... *)
Theorem C113_lock :
  forall w n b i, get_id w n = Ok i ->
  h_ans w (HLock n b) = Ok None /\
  let w' := h_after w (HLock n b) in
  dom_locked w' n = Ok b /\ (forall m, m <> n -> dom_locked w' m = dom_locked w m) /\ (forall m, get_id w' m = get_id w m) /\
  forall v q, looks v q -> r_ans w' q = r_ans w q.
Proof. exact lock_exact. Qed.
Print Assumptions C113_lock.
(** C113.  ...one that was not registered makes it panic, and poisons the registry. *)
Theorem C113_lock_unknown :
  forall w n b, w_poison w = false -> (forall i, get_id w n <> Ok i) -> h_ans w (HLock n b) = panic PUndefDomain /\ h_after w (HLock n b) = poison w.
Proof. exact lock_unknown. Qed.
Print Assumptions C113_lock_unknown.

(** C113.  A universe keeps the tables a domain had when it was added: whatever is called later, domains being unlocked and tables
    registered, it has these tables, and the properties it had, and perhaps more... *)
Theorem C113_tables :
  forall w os v n d, h_reached w -> has_domain w v n d ->
  (exists d', has_domain (h_run w os) v n d') /\
  forall d', has_domain (h_run w os) v n d' -> tables d' = tables d /\ exists l, types d' = types d ++ l.
Proof. exact old_tables. Qed.
Print Assumptions C113_tables.
(** C113.  ...reading one that is registered later panics, for good (a registry that is poisoned comes first)... *)
Theorem C113_missing :
  forall w os v n d t, h_reached w -> has_domain w v n d -> td_domain t = n -> ~ In (td_name t) (map fst (tables d)) ->
  r_ans (h_run w os) (RRead v t) = panic (if w_poison (h_run w os) then PPoisoned else PUnsetDomain).
Proof. exact missing_table. Qed.
Print Assumptions C113_missing.
(** C113.  ...but a universe that is made then has all that are registered. *)
Theorem C113_new :
  forall w ns n, h_reached w -> r_ans w (RNew ns) = Ok None -> In n ns ->
  exists d, has_domain (after w (RNew ns)) (length (w_unis w)) n d /\
    forall tn t, In (tn, t) (tables d) <-> has_table w t /\ td_domain t = n /\ td_name t = tn.
Proof. exact new_tables. Qed.
Print Assumptions C113_new.
(** C113.  Of the tables two universes have of one domain, those of one are the first of the other. *)
Theorem C113_prefix :
  forall w v v' n d d', h_reached w -> has_domain w v n d -> has_domain w v' n d' ->
  exists l, tables d' = tables d ++ l \/ tables d = tables d' ++ l.
Proof. exact tables_prefix. Qed.
Print Assumptions C113_prefix.

(** C113.  A property registered when the universe had its domain panics on reading, until [add_properties] is called... *)
Theorem C113_unknown :
  forall w os v k p d, h_reached w -> has_domain w v (pd_domain p) d -> declared w k p ->
  (forall j p', declared w j p' -> known w j -> pd_name p' <> pd_name p) ->
  ~ In (HCall (RMore v)) os -> known (h_run w os) k -> r_ans (h_run w os) (RGet v k) = panic PUnknownProp.
Proof. exact unknown_value. Qed.
Print Assumptions C113_unknown.
(** C113.  ...which gives the properties that are missing the values they would have in a universe made now, and no other property
    another value... *)
Theorem C113_more :
  forall w v k p ns d, h_reached w -> declared w k p -> known w k -> has_domain w v (pd_domain p) d ->
  r_ans w (RNew ns) = Ok None -> In (pd_domain p) ns ->
  r_ans (after w (RMore v)) (RGet v k) =
    match r_ans w (RGet v k) with
    | Err (EPanic PUnknownProp) => r_ans (after w (RNew ns)) (RGet (length (w_unis w)) k)
    | r => r
    end.
Proof. exact more_value. Qed.
Print Assumptions C113_more.
(** C113.  ...so that all can be read... *)
Theorem C113_readable :
  forall w v k p d, h_reached w -> w_poison w = false -> declared w k p -> known w k -> has_domain w v (pd_domain p) d ->
  (exists x, r_ans (after w (RMore v)) (RGet v k) = Ok (Some x)) \/ r_ans (after w (RMore v)) (RGet v k) = panic PDowncast.
Proof. exact more_readable. Qed.
Print Assumptions C113_readable.
(** C113.  ...but adds no tables. *)
Theorem C113_no_tables :
  forall w v v' t, h_reached w -> w_poison w = false -> r_ans (after w (RMore v)) (RRead v' t) = r_ans w (RRead v' t).
Proof. exact more_tables. Qed.
Print Assumptions C113_no_tables.

(** C113.  What C46 says of properties holds still: properties of one name and type are one variable... *)
Theorem C113_shared :
  forall w v a b da db x, h_reached w -> declared w a da -> declared w b db -> twins da db -> pd_ty da = pd_ty db ->
  (w_poison w = false \/ known w b) ->
  r_ans w (RSet v a x) = Ok None -> r_ans (after w (RSet v a x)) (RGet v b) = Ok (Some x).
Proof. exact twins_share. Qed.
Print Assumptions C113_shared.
(** C113.  ...those of other names, and those of other universes, are others... *)
Theorem C113_distinct :
  forall w v a b da db x v', h_reached w -> declared w a da -> declared w b db -> pd_name da <> pd_name db \/ v' <> v ->
  r_ans w (RSet v a x) = Ok None -> r_ans (after w (RSet v a x)) (RGet v' b) = r_ans w (RGet v' b).
Proof. exact others_unchanged. Qed.
Print Assumptions C113_distinct.
(** C113.  ...and its value in a universe made later is the one given with the first property of its name. *)
Theorem C113_initial :
  forall w k p os ns, h_reached w -> declared w k p ->
  (forall j p', declared w j p' -> known w j -> pd_name p' <> pd_name p) -> r_ans w (RProp k) = Ok None ->
  let w' := h_run (after w (RProp k)) os in
  r_ans w' (RNew ns) = Ok None -> In (pd_domain p) ns ->
  forall j q, declared w j q -> known w' j -> twins p q ->
  r_ans (after w' (RNew ns)) (RGet (length (w_unis w')) j) = if pd_ty p =? pd_ty q then Ok (Some (pd_init p)) else panic PDowncast.
Proof. exact initial_value. Qed.
Print Assumptions C113_initial.

(** C113.  A call on a universe changes nothing in another... *)
Theorem C113_apart :
  forall w o v v' q, h_reached w -> on v o -> v' <> v -> looks v' q -> w_poison (after w o) = w_poison w -> r_ans (after w o) q = r_ans w q.
Proof. exact universes_apart. Qed.
Print Assumptions C113_apart.
(** C113.  ...and what can be read stays as it is through every call that is not on this universe and leaves the registry sound. *)
Theorem C113_kept :
  forall w o v q x, h_reached w -> ~ h_on v o -> looks v q -> w_poison (h_after w o) = false -> r_ans w q = Ok x -> r_ans (h_after w o) q = Ok x.
Proof. exact answers_kept. Qed.
Print Assumptions C113_kept.

(** In [w1] universes 0 and 1 have the domain "fruit", with the table "apples" and the properties "ripe" and "size".  It is unlocked,
    and the table "pears" and the property "lost" are registered; universe 2 is made then. *)
Local Definition opened := h_run w1 [HLock da false; HCall (RTable tc); HCall (RProp 4)].
Local Definition three := h_run opened [HCall (RNew [da])].
Example C113_case_locked : r_ans w1 (RTable tc) = panic PLocked /\ r_ans (h_run w1 [HLock da false]) (RTable tc) = Ok None.
Proof. split; calc. Qed.
Example C113_case_tables :
  r_ans three (RRead 0 tc) = panic PUnsetDomain /\ r_ans three (RRead 2 tc) = Ok (Some 0) /\ r_ans three (RRead 0 ta) = Ok (Some 3) /\
  r_ans (after three (RMore 0)) (RRead 0 tc) = panic PUnsetDomain.
Proof. repeat split; calc. Qed.
Example C113_case_properties :
  r_ans three (RGet 0 4) = panic PUnknownProp /\ r_ans three (RGet 2 4) = Ok (Some 4) /\
  r_ans (after three (RMore 0)) (RGet 0 4) = Ok (Some 4) /\ r_ans (after three (RMore 0)) (RGet 0 0) = Ok (Some 6) /\
  r_ans (after three (RMore 0)) (RGet 1 4) = panic PUnknownProp.
Proof. repeat split; calc. Qed.
Example C113_case_reached : h_reached w1 /\ h_reached opened /\ h_reached three.
Proof.
  assert (R : h_reached w1) by (exists progs, (map HCall ops1); calc). split; [exact R|]. destruct R as (ps & os & R). unfold three, opened. rewrite R.
  split; eexists ps, _; unfold h_run; rewrite <- !fold_left_app; reflexivity.
Qed.
Example C113_case_domain : exists d d', has_domain three 0 da d /\ has_domain three 2 da d' /\ tables d' = tables d ++ [(nm "pears"%string, tc)] /\ w_poison three = false /\ known three 4.
Proof.
  do 2 eexists. repeat split.
  - eexists. split; [calc|]. split; [left; reflexivity|calc].
  - eexists. split; [calc|]. split; [left; reflexivity|calc].
  - calc.
  - do 2 eexists. calc.
Qed.
Example C113_case_unknown : h_ans w1 (HLock (nm "rocks"%string) false) = panic PUndefDomain /\ get_id w1 (nm "fruit"%string) = Ok 0.
Proof. split; calc. Qed.

(** C113.  Two universes with a domain need not have the same tables of it. *)
Theorem C113_same_tables_refuted :
  exists w v v' n d d', h_reached w /\ has_domain w v n d /\ has_domain w v' n d' /\ tables d <> tables d'.
Proof.
  exists three, 0, 2, da. destruct C113_case_domain as (d & d' & H & K & T & _). exists d, d'. split; [apply C113_case_reached|]. split; [exact H|]. split; [exact K|].
  rewrite T. intro E. rewrite <- app_nil_r in E at 1. apply app_inv_head in E. discriminate.
Qed.
Print Assumptions C113_same_tables_refuted.
