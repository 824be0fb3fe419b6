(** Which registrations are accepted, and which declarations can be read (C111). *)
From Coq Require Import String List Arith Bool Ascii.
From Verif Require Import Base Names NamesFacts Table Extract Registry RegistrySpec RegisterSpec RegisterFacts RegistryCases.
Import ListNotations.
Local Ltac calc := vm_compute; reflexivity.

(** C111.  A domain can be registered exactly if its name is an identifier... *)
Theorem C111_domain : forall w n, r_ans w (RDomain n) = Ok None <-> w_poison w = false /\ identifier n.
Proof. exact domain_iff. Qed.
Print Assumptions C111_domain.
(** C111.  ...a table exactly if its domain is there and has not been used yet, the names of the table and of its columns are
    identifiers, no two columns have one name, and a table of this name that is there already has the same columns... *)
Theorem C111_table :
  forall w t, reached w ->
  (r_ans w (RTable t) = Ok None <->
   w_poison w = false /\ dom_locked w (td_domain t) = Ok false /\ proper t /\
   forall t', has_table w t' -> td_domain t' = td_domain t -> td_name t' = td_name t -> td_cols t' = td_cols t).
Proof. exact table_iff. Qed.
Print Assumptions C111_table.
(** C111.  ...a property exactly if it was before, or its domain is there and has not been used yet, and its name is that of the
    domain, a slash and an identifier. *)
Theorem C111_property :
  forall w k d, reached w -> declared w k d ->
  (r_ans w (RProp k) = Ok None <->
   w_poison w = false /\
   (known w k \/
    dom_locked w (pd_domain d) = Ok false /\ identifier (pd_domain d) /\ exists n, identifier n /\ pd_name d = pd_domain d ++ nat_of_ascii "/" :: n)).
Proof. exact property_iff. Qed.
Print Assumptions C111_property.

(** C111.  Registering a table adds this table if it is accepted and there is none of the name, and does nothing else to the tables... *)
Theorem C111_added :
  forall w t t', reached w ->
  (has_table (after w (RTable t)) t' <->
   has_table w t' \/ (t' = t /\ r_ans w (RTable t) = Ok None /\ forall s, has_table w s -> td_domain s = td_domain t -> td_name s <> td_name t)).
Proof. exact table_after. Qed.
Print Assumptions C111_added.
(** C111.  ...and no other call adds or removes tables... *)
Theorem C111_others : forall w o t, (forall s, o <> RTable s) -> (has_table (after w o) t <-> has_table w t).
Proof. exact other_after. Qed.
Print Assumptions C111_others.
(** C111.  ...so that the tables there are were asked for, are proper, and there is one of each name. *)
Theorem C111_given : forall ps os t, has_table (r_run (w0 ps) os) t -> In (RTable t) os.
Proof. exact only_given. Qed.
Print Assumptions C111_given.
Theorem C111_proper : forall w t, reached w -> has_table w t -> proper t.
Proof. exact proper_all. Qed.
Print Assumptions C111_proper.
Theorem C111_one : forall w s t, has_table w s -> has_table w t -> td_domain s = td_domain t -> td_name s = td_name t -> s = t.
Proof. exact only_one. Qed.
Print Assumptions C111_one.

(** C111.  A universe gives the rows of a table for exactly the declarations with its name, whose Rust type is that of the table
    there and whose columns are all there, of the same type, in a universe with the domain, if no panic happened to it. *)
Theorem C111_read :
  forall w v t x, reached w -> w_poison w = false ->
  (r_ans w (RRead v t) = Ok (Some x) <->
   exists t', has_table w t' /\ td_domain t' = td_domain t /\ td_name t' = td_name t /\
     td_type t' = td_type t /\ fits_in (td_cols t) (td_cols t') /\
     exists d k, has_domain w v (td_domain t) d /\ In (td_name t, TI t' k x false) (dn_tabs d)).
Proof. exact read_iff. Qed.
Print Assumptions C111_read.

(** Two columns of one name; a name that is none *)
Local Notation t_twice := (TD da (nm "plums") [CM (nm "a") (nm "VecCol<u8>") 0; CM (nm "a") (nm "VecCol<u16>") 0] Consistent 15 []).
Local Notation t_bad := (TD da (nm "_plums") [CM (nm "a") (nm "VecCol<u8>") 0] Consistent 16 []).
Local Notation p_bad := (PD da (nm "trees/ripe") 1 5).
Example C111_case :
  reached w_setup /\ w_poison w_setup = false /\ dom_locked w_setup da = Ok false /\ has_table w_setup ta /\
  r_ans w_setup (RDomain (nm "rocks")) = Ok None /\ r_ans w_setup (RDomain (nm "ro-cks")) = panic PBadName /\
  r_ans w_setup (RTable tc) = Ok None /\ has_table (after w_setup (RTable tc)) tc /\
  r_ans w_setup (RTable t_twice) = panic PDuplicate /\ r_ans w_setup (RTable t_bad) = panic PBadName /\ r_ans w_setup (RTable ta2) = panic PDuplicate /\
  declared w_setup 4 p4 /\ r_ans w_setup (RProp 4) = Ok None /\
  (let w := r_run (w0 [p_bad]) [RDomain da] in reached w /\ r_ans w (RProp 0) = panic PBadName) /\
  reached w1 /\ w_poison w1 = false /\ r_ans w1 (RRead 0 ta) = Ok (Some 3) /\
  (exists d, has_domain w1 0 da d /\ In (nm "apples", TI ta [] 3 false) (dn_tabs d)) /\
  (exists e, r_ans w1 (RRead 0 (TD da (nm "apples") [CM (nm "a") (nm "VecCol<u16>") 0] Consistent 10 [])) = Err e).
Proof.
  split; [exact w_setup_reached|]. split; [calc|]. split; [calc|]. split; [eexists; split; calc|]. split; [calc|]. split; [calc|]. split; [calc|]. split; [eexists; split; calc|].
  split; [calc|]. split; [calc|]. split; [calc|]. split; [eexists; calc|]. split; [calc|]. split; [split; [exists [p_bad], [RDomain da]; reflexivity|calc]|].
  split; [exact w1_reached|]. split; [calc|]. split; [calc|]. split; [|eexists; calc].
  eexists. split; [eexists; split; [vm_compute; reflexivity|]; split; [left; reflexivity|reflexivity]|]. left. calc.
Qed.
