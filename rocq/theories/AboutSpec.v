(** Vocabulary for what a universe says of itself (C114). *)
From Coq Require Import String List Arith Bool.
From Verif Require Import Base Names Extract Registry RegistrySpec About.
Import ListNotations.

(** What [get_domain_names] gives, and nothing if there is no such universe *)
Definition domains_of (w : world) (v : nat) : list name := match get_domain_names w v with Ok l => l | Err _ => [] end.
(** A panic has poisoned the lock of table [t] of domain [n]. *)
Definition broken (w : world) (v : nat) (n t : name) : Prop :=
  exists d i, has_domain w v n d /\ In (t, i) (dn_tabs d) /\ ti_poison i = true.
(** [m] was registered before [n]. *)
Definition before (w : world) (m n : name) : Prop := exists i j, get_id w m = Ok i /\ get_id w n = Ok j /\ i < j.

(** " column:[type]" for each column *)
Fixpoint columns_text (cs : list colmeta) : name :=
  match cs with [] => [] | c :: cs => nm " " ++ cm_name c ++ nm ":[" ++ cm_type c ++ nm "]" ++ columns_text cs end.
(** "table: column:[type] column:[type]" *)
Definition table_text (t : tdecl) : name := td_name t ++ nm ":" ++ columns_text (td_cols t).
(** A line is the domain, a colon, for each table a space and the table (at least one space), and the end of the line. *)
Definition line (n : name) (ts : list tdecl) : name :=
  n ++ nm ":" ++ match ts with [] => nm " " | _ => concat (map (fun t => nm " " ++ table_text t) ts) end ++ [10].
