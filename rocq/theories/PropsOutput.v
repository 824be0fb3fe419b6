(** The names in the code that [table!] writes (C86). *)
From Coq Require Import List Bool Arith NArith String Lia.
From Verif Require Import Base Table Schema SchemaSpec Output OutputSpec OutputFacts.
Import ListNotations.
Local Open Scope string_scope.
Local Open Scope list_scope.

Local Notation a_kind k := (At "kind" (MStr k)).
(** Positions on a grid, with a column of each index. *)
Local Notation s_grid := (Src [At "row_derive" (MList [IWord "Clone"]); a_kind "list"]
  true "GAME" "grid" [CS [] "i" "u32" "VecCol<u32>"; CS [] "j" "u32" "VecCol<u32>"] false).
(** A table whose indexed reference is called [all]. *)
Local Notation s_all := (Src [a_kind "consistent"]
  true "GAME" "memberships" [CS [At "index" MWord; At "foreign_auto" MWord] "all" "groups::RowId" "VecCol<groups::RowId>"] false).
(** A sorted table whose rows are to be compared for equality as well. *)
Local Notation s_eq := (Src [At "row_derive" (MList [IWord "Clone"; IWord "PartialEq"]); a_kind "sorted"]
  true "GAME" "scores" [CS [At "sort_key" MWord] "score" "u32" "VecCol<u32>"] false).
(** A sorted table whose sorting column refers to another table, beside an indexed reference and one to be tracked by hand. *)
Local Notation s_good := (Src [At "row_derive" (MList [IWord "Clone"; IWord "Debug"]); a_kind "sorted"; At "save" MWord]
  true "FISH" "scales"
  [CS [At "foreign_auto" MWord; At "sort_key" MWord] "fish" "fishes::RowId" "VecCol<fishes::RowId>";
   CS [At "index" MWord; At "foreign_auto" MWord] "pond" "ponds::RowId" "VecCol<ponds::RowId>";
   CS [At "foreign" MWord] "owner" "people::RowId" "VecCol<people::RowId>"] false).

(** C86.  The code for an accepted declaration defines no name twice, and its local names mean what they are meant to:
    false, the names that the declaration gives can get in the way. *)
Theorem C86_refuted :
  (exists s o, output_of s = Some o /\ (forall p, NoDup (o_names o p)) /\ ~ well_named o) /\
  (exists s o p, output_of s = Some o /\ ~ NoDup (o_names o p) /\
     Forall (means (o_constants o) [("transmute", Transmute)]) (o_bodies o)).
Proof.
  split.
  - exists s_grid. eexists. split; [vm_compute; reflexivity|]. split.
    + intros p. apply nodupb_spec. destruct p; vm_compute; reflexivity.
    + intros [_ F]. inversion F as [|? ? F1 _]. cbn in F1. decompose [and] F1. discriminate.
  - exists s_all. eexists. exists OfRead. split; [vm_compute; reflexivity|]. split.
    + intros N. cbn in N. repeat (inversion N as [|? ? X N']; clear N; rename N' into N; subst;
        first [apply X; cbn; tauto|clear X]).
    + repeat (constructor; [cbn; repeat split; intros X; repeat (destruct X as [X|X]; [discriminate|]); exact X|]). constructor.
Qed.
Print Assumptions C86_refuted.
(** C86.  It is so exactly for the declarations whose names keep out of the way. *)
Theorem C86_named : forall s o k, output_of s = Some o -> readable s k -> (well_named o <-> tidy s k).
Proof. exact well_named_iff. Qed.
Print Assumptions C86_named.
(** C86.  Whatever the code uses is there, or it is for the user to add. *)
Theorem C86_complete : forall s o k, output_of s = Some o -> readable s k ->
  forall p n, In (p, n) (o_uses o) -> In n (o_names o p) \/ left_to_user s k p n.
Proof. exact uses_defined. Qed.
Print Assumptions C86_complete.
(** C86.  There is an output for exactly the declarations of C54. *)
Theorem C86_when : forall s, (exists o, output_of s = Some o) <-> exists c, expand s = Expanded c.
Proof. exact output_expanded. Qed.
Print Assumptions C86_when.

Local Ltac bad H := repeat (destruct H as [H|H]; [discriminate H|]); exact H.
Example C86_case : exists o,
  output_of s_good = Some o /\ readable s_good Sorted /\ tidy s_good Sorted /\ well_named o /\
  In (OfWrite, "swap_out_row") (o_uses o) /\ In "swap_out_row" (o_names o OfWrite) /\
  In (Trackers, "track_owner_events") (o_uses o) /\ left_to_user s_good Sorted Trackers "track_owner_events" /\
  ~ In "track_owner_events" (o_names o Trackers).
Proof.
  assert (H : exists o, output_of s_good = Some o /\
    In (OfWrite, "swap_out_row") (o_uses o) /\ In "swap_out_row" (o_names o OfWrite) /\
    In (Trackers, "track_owner_events") (o_uses o) /\ ~ In "track_owner_events" (o_names o Trackers)).
  { eexists. split; [vm_compute; reflexivity|]. split; [apply mem_u; vm_compute; reflexivity|].
    split; [apply existsb_In; vm_compute; reflexivity|]. split; [apply mem_u; vm_compute; reflexivity|].
    cbn. intros X; bad X. }
  destruct H as (o & E & U1 & U2 & U3 & U4).
  assert (R : readable s_good Sorted).
  { constructor; cbn.
    - constructor; [|constructor; [|constructor; [|constructor]]].
      + right. right. right. cbn. tauto.
      + left. exists "sorted", Sorted. cbn. tauto.
      + right. right. right. cbn. tauto.
    - exists "sorted". cbn. tauto.
    - repeat (apply Forall_cons; [repeat (apply Forall_cons; [intros X; discriminate X|]); apply Forall_nil|]). apply Forall_nil.
    - lia.
    - reflexivity.
    - reflexivity.
    - intros _. exists [IWord "Clone"; IWord "Debug"]. cbn. tauto. }
  assert (T : tidy s_good Sorted).
  { constructor; cbn.
    - apply nodupb_spec. reflexivity.
    - intros c [<-|[<-|[<-|[]]]]; cbn; intros X; bad X.
    - intros c c' [<-|[<-|[<-|[]]]] [<-|[<-|[<-|[]]]] _; discriminate.
    - intros c [<-|[<-|[<-|[]]]] _ _; split; discriminate.
    - intros c c' [<-|[<-|[<-|[]]]] _ _ [<-|[]] _; discriminate.
    - apply nodupb_spec. reflexivity.
    - split; [|intros _]; intros X; bad X.
    - intros _ n [<-|[<-|[<-|[<-|[]]]]] X; bad X. }
  exists o. split; [exact E|]. split; [exact R|]. split; [exact T|].
  split; [now apply (C86_named _ _ _ E R)|]. do 3 (split; [assumption|]). split; [|exact U4].
  right. split; [reflexivity|]. eexists. split; [right; right; left; reflexivity|]. repeat split; reflexivity.
Qed.
(** ... and the declarations above, which do not keep out of the way. *)
Example C86_untidy_case :
  (exists o, output_of s_eq = Some o /\ ~ NoDup (o_names o TraitRow)) /\ ~ tidy s_grid List_ /\ ~ tidy s_all Consistent.
Proof.
  split; [|split].
  - eexists. split; [vm_compute; reflexivity|]. intros N. cbn in N.
    repeat (inversion N as [|? ? X N']; clear N; rename N' into N; subst; first [apply X; cbn; tauto|clear X]).
  - intros T. apply (ti_reserved _ _ T (CS [] "i" "u32" "VecCol<u32>")); cbn; tauto.
  - intros T. destruct (ti_select _ _ T (CS [At "index" MWord; At "foreign_auto" MWord] "all" "groups::RowId" "VecCol<groups::RowId>")) as [X _];
      [cbn; tauto|exists (At "index" MWord); cbn; tauto|reflexivity|now apply X].
Qed.
