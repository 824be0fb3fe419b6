(** Property of programs with dynamic libraries (C79). *)
From Coq Require Import String List Arith Bool Lia.
From Verif Require Import Base Names Table Extract Registry RegistrySpec RegistryCases Libs LibsSpec LibsFacts.
Import ListNotations.
Local Ltac calc := vm_compute; reflexivity.

(** C79.  If every library first calls [sync_globals] with the globals of the main program, then every call by whichever module
    gives what it gives in a program without libraries, also after panics, and the universes are the same. *)
Theorem C79_as_one : forall n ps os, proper n os ->
  l_answers (l0 n ps) os = r_answers (w0 ps) (erase os) /\ l_unis (l_run (l0 n ps) os) = w_unis (r_run (w0 ps) (erase os)).
Proof. exact as_one. Qed.
Print Assumptions C79_as_one.
(** C79.  That call of [sync_globals] succeeds, however often it is made, unless an earlier panic poisoned the registry. *)
Theorem C79_syncs : forall n ps os m, proper n (os ++ [LSync m 0]) ->
  l_ans (l_run (l0 n ps) os) (LSync m 0) = Ok None \/ w_poison (r_run (w0 ps) (erase os)) = true.
Proof. exact syncs. Qed.
Print Assumptions C79_syncs.
(** C79.  A library that has registered a domain before can not sync any more.  If it tries, it panics, and from then on whatever
    it calls (except using properties) panics and does nothing. *)
Theorem C79_too_late : forall n ps a d b m h, m < n -> h < n -> h <> m -> (forall h', ~ In (LSync m h') (a ++ LDo m (RDomain d) :: b)) ->
  l_ans (l_run (l0 n ps) a) (LDo m (RDomain d)) = Ok None ->
  let l := l_run (l0 n ps) (a ++ LDo m (RDomain d) :: b) in
  (exists e, l_ans l (LSync m h) = Err e) /\
  forall os o, (match o with RGet _ _ | RSet _ _ _ => False | _ => True end) ->
  let l' := l_run (fst (l_step l (LSync m h))) os in
  (exists e, l_ans l' (LDo m o) = Err e) /\ fst (l_step l' (LDo m o)) = l'.
Proof. exact late. Qed.
Print Assumptions C79_too_late.
(** C79.  Nobody else notices that a module has called [sync_globals], whether it panicked or not. *)
Theorem C79_unnoticed : forall l m h os, (forall o, In o os -> caller o <> m) -> l_all (fst (l_step l (LSync m h))) os = l_all l os.
Proof. exact unnoticed. Qed.
Print Assumptions C79_unnoticed.

Definition p5 := PD db (nm "trees/tall") 1 8.
(** Main registers fruit; library 1 trees and leaves, library 2 a twin of fruit/ripe; main makes the universe *)
Definition good_lib : list lop :=
  [LClone 0; LDo 0 (RDomain da); LSync 1 0; LDo 0 (RProp 0); LDo 1 (RDomain db); LDo 1 (RTable tb); LDo 0 (RTable ta); LDo 1 (RProp 2);
   LSync 2 0; LDo 2 (RProp 1); LDo 0 (RNew [da; db]); LSync 2 0; LDo 2 (RSet 0 1 4); LDo 1 (RGet 0 0); LDo 0 (RRead 0 tb); LDo 2 (RNew [nm "rocks"]); LSync 1 0; LDo 1 (RRead 0 tb); LDo 1 (RGet 0 0)].
Definition bad_lib : list lop := [LDo 0 (RDomain da); LDo 1 (RDomain db)].
Example C79_case :
  proper 3 good_lib /\
  l_answers (l0 3 [p0; p1; p5]) good_lib =
    [Ok None; Ok None; Ok None; Ok None; Ok None; Ok None; Ok None; Ok None; Ok None; Ok (Some 4); Ok (Some 0);
     panic PUndefDomain; panic PPoisoned; Ok (Some 4)] /\
  l_ans (l_run (l0 3 [p0; p1; p5]) (firstn 2 good_lib)) (LSync 1 0) = Ok None /\
  (forall h, ~ In (LSync 1 h) bad_lib) /\ l_ans (l_run (l0 2 []) [LDo 0 (RDomain da)]) (LDo 1 (RDomain db)) = Ok None /\
  l_ans (l_run (l0 2 []) bad_lib) (LSync 1 0) = panic PGlobalsSet /\
  l_all (l_run (l0 2 []) (bad_lib ++ [LSync 1 0])) [LDo 1 (RDomain db); LClone 1; LDo 0 (RDomain db); LClone 0] = [panic PPoisoned; panic PPoisoned; Ok None; Ok (Some 0)].
Proof.
  split.
  { intros i o H. do 19 (destruct i as [|i]; [injection H as <-; cbn; split; [lia|]; first [exact I|reflexivity|left; reflexivity|right; exists 2; split; [lia|reflexivity]|right; exists 8; split; [lia|reflexivity]]|]).
    destruct i; discriminate. }
  split; [calc|]. split; [calc|]. split; [intros h [H|[H|[]]]; discriminate|]. split; [calc|]. split; calc.
Qed.

(** C79.  Without [sync_globals] no call panics, but a library that uses a universe of the main program may read another
    property than the one it names: here the 5 of fruit/ripe instead of the 8 of trees/tall. *)
Theorem C79_unsynced_refuted : exists ps os,
  Forall is_ok (l_answers (l0 2 ps) os) /\ Forall is_ok (r_answers (w0 ps) (erase os)) /\
  (exists a, os = a ++ [LDo 1 (RGet 0 1)]) /\ nth_error ps 1 = Some p5 /\
  l_ans (l_run (l0 2 ps) (removelast os)) (LDo 1 (RGet 0 1)) = Ok (Some 5) /\
  r_ans (r_run (w0 ps) (erase (removelast os))) (RGet 0 1) = Ok (Some 8).
Proof.
  exists [p0; p5], [LDo 0 (RDomain da); LDo 0 (RDomain db); LDo 0 (RProp 0); LDo 1 (RDomain db); LDo 1 (RProp 1); LDo 0 (RNew [da; db]); LDo 1 (RGet 0 1)].
  split; [vm_compute; repeat constructor; eexists; reflexivity|]. split; [vm_compute; repeat constructor; eexists; reflexivity|].
  split; [eexists [_; _; _; _; _; _]; reflexivity|]. split; [reflexivity|]. split; calc.
Qed.
Print Assumptions C79_unsynced_refuted.
(** [add_properties] by a library that has not synced: a domain it does not know makes it panic; to a domain of the same
    name it adds the library's own properties, beyond those of the main program. *)
Example C79_unsynced_more_case :
  l_all (l0 2 [p0; p1; p2]) [LDo 0 (RDomain da); LDo 0 (RProp 0); LDo 0 (RNew [da]); LDo 1 (RDomain db); LDo 1 (RMore 0)] =
    [Ok None; Ok None; Ok None; Ok None; panic PUndefDomain] /\
  let own := [LDo 0 (RDomain da); LDo 0 (RProp 0); LDo 0 (RNew [da]); LDo 1 (RDomain da); LDo 1 (RProp 1); LDo 1 (RProp 2)] in
  l_all (l_run (l0 2 [p0; p1; p2]) own) [LDo 1 (RGet 0 2); LDo 1 (RMore 0); LDo 1 (RGet 0 2)] = [panic PUnknownProp; Ok None; Ok (Some 7)].
Proof. split; calc. Qed.
