(** What a universe says of itself (C114). *)
From Coq Require Import String List Arith Bool Permutation Sorting.Sorted.
From Verif Require Import Base Names Table Extract Registry RegistrySpec Reopen ReopenSpec About AboutSpec AboutFacts RegistryCases.
Import ListNotations.
Local Ltac calc := vm_compute; reflexivity.

(** C114.  [get_domain_names] of a new universe gives the domains it was made with... *)
Theorem C114_new :
  forall w ns n, h_reached w -> r_ans w (RNew ns) = Ok None ->
  (In n (domains_of (after w (RNew ns)) (length (w_unis w))) <-> In n ns).
Proof. exact new_names. Qed.
Print Assumptions C114_new.
(** C114.  ...[add_domain] adds the domain it is given if it is registered (also if it panics later, when trackers are registered)... *)
Theorem C114_add :
  forall w v n m, h_reached w -> v < length (w_unis w) ->
  (In m (domains_of (after w (RAdd v n)) v) <-> In m (domains_of w v) \/ (m = n /\ exists i, get_id w n = Ok i)).
Proof. exact add_names. Qed.
Print Assumptions C114_add.
(** C114.  ...and no other call, on this universe or not, changes them. *)
Theorem C114_others :
  forall w o v, h_reached w -> v < length (w_unis w) -> (forall n, o <> HCall (RAdd v n)) -> domains_of (h_after w o) v = domains_of w v.
Proof. exact step_names. Qed.
Print Assumptions C114_others.
(** C114.  No domain is given twice... *)
Theorem C114_once : forall w v, h_reached w -> NoDup (domains_of w v).
Proof. exact names_nodup. Qed.
Print Assumptions C114_once.
(** C114.  ...and they come in the order in which they were registered. *)
Theorem C114_order : forall w v, h_reached w -> w_poison w = false -> StronglySorted (before w) (domains_of w v).
Proof. exact names_order. Qed.
Print Assumptions C114_order.

(** C114.  It gives exactly the domains whose properties are not refused because the universe does not have the domain... *)
Theorem C114_usable :
  forall w v k p, h_reached w -> v < length (w_unis w) -> declared w k p -> known w k ->
  (r_ans w (RGet v k) = panic PUnsetDomain <-> ~ In (pd_domain p) (domains_of w v)).
Proof. exact usable. Qed.
Print Assumptions C114_usable.
(** C114.  ...and tables of other domains are refused. *)
Theorem C114_unusable :
  forall w v t, h_reached w -> v < length (w_unis w) -> w_poison w = false -> has_table w t ->
  ~ In (td_domain t) (domains_of w v) -> r_ans w (RRead v t) = panic PUnsetDomain.
Proof. exact unusable. Qed.
Print Assumptions C114_unusable.

(** C114.  [info] gives a line for each of these domains, in this order, with all its tables and their columns, the tables in any order; it
    panics if and only if the lock of one of the tables is poisoned. *)
Theorem C114_info :
  forall order w v, (forall d, Permutation (order d) (dn_tabs d)) -> v < length (w_unis w) ->
  match info order w v with
  | Ok s => (forall n t, ~ broken w v n t) /\
      exists ls, Forall2 (fun n l => exists d ts, has_domain w v n d /\ Permutation ts (map snd (tables d)) /\ l = line n ts) (domains_of w v) ls /\
        s = concat ls
  | Err e => e = EPanic PPoisoned /\ exists n t, broken w v n t
  end.
Proof. exact info_text. Qed.
Print Assumptions C114_info.

(** C114.  [swap] of a property does what [set] does, and gives what [get] would have given. *)
Theorem C114_swap :
  forall w v k x, fst (swap_prop w v k x) = after w (RSet v k x) /\
  r_ans w (RGet v k) = match snd (swap_prop w v k x) with Ok y => Ok (Some y) | Err e => Err e end.
Proof. exact swap_is. Qed.
Print Assumptions C114_swap.

(** [w1]: universe 0 has "fruit", universe 1 has "fruit" and "trees". *)
Example C114_case_reached : h_reached w1.
Proof. exists progs, (map HCall ops1). calc. Qed.
Example C114_case_names : domains_of w1 0 = [da] /\ domains_of w1 1 = [da; db] /\ domains_of (after w1 (RAdd 0 db)) 0 = [da; db] /\
  domains_of (after w1 (RAdd 0 (nm "rocks"))) 0 = [da].
Proof. repeat split; calc. Qed.
(** A universe made with the domains in another order gives them in the order of registration. *)
Example C114_case_order : domains_of (after w1 (RNew [db; da])) 2 = [da; db] /\ r_ans w1 (RNew [db; da]) = Ok None /\ before w1 da db.
Proof. split; [calc|]. split; [calc|]. exists 0, 1. split; [calc|]. split; [calc|]. constructor. Qed.
(** A domain is there although adding it panicked: a tracker of its table could not be registered. *)
Definition w_torn := r_run w_setup [RNew [db]].
Definition w_half := r_run w_setup [RNew []; RAdd 0 db].
Example C114_case_half : r_ans w_setup (RNew [db]) = panic PUnsetDomain /\ length (w_unis w_torn) = 0 /\
  r_ans (r_run w_setup [RNew []]) (RAdd 0 db) = panic PUnsetDomain /\ domains_of w_half 0 = [db].
Proof. repeat split; calc. Qed.
Example C114_case_usable : r_ans w_half (RGet 0 0) = panic PUnsetDomain /\ r_ans w_half (RRead 0 ta) = panic PUnsetDomain /\ r_ans w1 (RGet 0 0) = Ok (Some 6) /\
  known w_half 0 /\ has_table w_half ta.
Proof.
  split; [calc|]. split; [calc|]. split; [calc|]. split; [exists p0; eexists; calc|]. eexists. split; calc.
Qed.
Example C114_case_info :
  info dn_tabs w1 1 = Ok (nm "fruit: apples: a:[VecCol<u8>]" ++ [10] ++ nm "trees: leaves: b:[VecCol<apples::RowId>]" ++ [10]) /\
  info dn_tabs (after w1 (RWrite 1 ta2 5)) 1 = panic PPoisoned /\ info dn_tabs (after w1 (RWrite 1 ta2 5)) 0 = Ok (nm "fruit: apples: a:[VecCol<u8>]" ++ [10]).
Proof. repeat split; calc. Qed.
Example C114_case_swap : snd (swap_prop w1 0 0 8) = Ok 6 /\ r_ans (fst (swap_prop w1 0 0 8)) (RGet 0 0) = Ok (Some 8) /\ snd (swap_prop w1 0 4 8) = panic PUnknownProp.
Proof. repeat split; calc. Qed.
