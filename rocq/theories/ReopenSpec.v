(** Vocabulary of the properties of domains that are unlocked again (C113).  That of RegistrySpec.v ([declared], [known], [twins],
    [has_domain], [tables], [types]) says nothing of how the world was reached, and is used as well. *)
From Coq Require Import List.
From Verif Require Import Base Names Table Registry RegistrySpec Reopen.
Import ListNotations.

(** Any calls, in any order, panics caught, in a program with any properties *)
Definition h_reached (w : world) : Prop := exists ps os, w = h_run (w0 ps) os.
(** After a call *)
Definition h_after (w : world) (o : hop) : world := fst (h_step w o).
(** The call is on universe [v]. *)
Definition h_on (v : nat) (o : hop) : Prop := match o with HCall o => on v o | HLock _ _ => False end.
