(** Properties of the [table!] macro (C54, C60-C62). *)
From Coq Require Import List Bool Arith NArith ZArith String Permutation Lia.
From Verif Require Import Base Schema Column RowRange Table Cascade Hist SchemaSpec SchemaFacts Parts PartFacts.
Import ListNotations.
Local Open Scope string_scope.
Local Open Scope list_scope.

(** Two declarations: a sorted table whose sorting column refers to another table, and a consistent table. *)
Local Notation a_kind k := (At "kind" (MStr k)).
Local Notation s_sorted := (Src [At "doc" (MStr " Scales."); At "row_derive" (MList [IWord "Clone"; IWord "Debug"]); a_kind "sorted"; At "version" (MStr "+012")]
  true "FISH" "scales"
  [CS [At "version" (MStr "3"); At "foreign_auto" MWord; At "serde" MWord; At "sort_key" MWord] "fish" "fishes::RowId" "VecCol<fishes::RowId>";
   CS [At "index" MWord; At "foreign_auto" MWord] "pond" "ponds::RowId" "VecCol<ponds::RowId>"] false).
Local Notation s_cons := (Src [At "row_derive" (MList [IWord "Clone"]); a_kind "consistent"; At "add_tracker" (MStr "BirdWatch"); At "save" MWord;
                               At "row_id" (MStr "u16"); At "row_id" (MStr "u8")]
  false "FISH" "fishes" [CS [At "foreign" MWord] "friend" "birds::RowId" "VecCol<birds::RowId>"; CS [] "name" "String" "VecCol<String>"] false).

(** C54.  [table!] writes code for exactly the coherent declarations. *)
Theorem C54_accepted : forall s,
  (exists c, expand s = Expanded c) <-> exists k, readable s k /\ sensible s k /\ lookup_ok s.
Proof. exact expanded_iff. Qed.
Print Assumptions C54_accepted.
(** C54.  The kind is unique, and the published guarantees are a function of the kind alone. *)
Theorem C54_kind : forall s k k', readable s k -> readable s k' -> k = k'.
Proof. exact readable_kind. Qed.
Print Assumptions C54_kind.
Theorem C54_guarantee : forall s c, expand s = Expanded c -> exists k, readable s k /\ k_guarantee c = kind_guarantee k.
Proof. exact expanded_kind. Qed.
Print Assumptions C54_guarantee.
(** C54.  The order of the table's attributes does not matter to what is accepted, nor to the guarantees. *)
Theorem C54_order : forall s l c, Permutation (so_attrs s) l -> expand s = Expanded c ->
  exists c', expand (with_attrs s l) = Expanded c' /\ k_guarantee c' = k_guarantee c.
Proof. exact order_expanded. Qed.
Print Assumptions C54_order.
(** C54.  The code is for the declared columns, in order; the row id type and version are those given last. *)
Theorem C54_content : forall s c, expand s = Expanded c ->
  k_dom c = so_dom s /\ k_name c = so_name s /\
  k_row_id c = last (given "row_id" (so_attrs s)) "usize" /\
  version_is (so_attrs s) (k_version c) /\
  Forall2 column_as (so_cols s) (k_cols c).
Proof. exact expanded_content. Qed.
Print Assumptions C54_content.
Example C54_case :
  (exists c, expand s_sorted = Expanded c /\ k_guarantee c = Gu false true false /\ k_version c = 12%N /\
    map oc_version (k_cols c) = [3%N; 0%N] /\ map oc_edit_only (k_cols c) = [false; true]) /\
  (exists c, expand s_cons = Expanded c /\ k_guarantee c = Gu true false false /\ k_row_id c = "u8") /\
  (exists c, expand (with_attrs s_cons (rev (so_attrs s_cons))) = Expanded c /\ k_row_id c = "u16") /\
  expand (with_attrs s_cons [a_kind "consistent"; a_kind "consistent"]) = Refused RTwice /\
  expand (with_attrs s_sorted [a_kind "bag"]) = Refused RKeyKind /\
  expand (with_attrs s_cons [At "save" MWord; a_kind "bag"]) = Refused RAssert.
Proof.
  split; [eexists; repeat (split; [vm_compute; reflexivity|]); vm_compute; reflexivity|].
  split; [eexists; repeat (split; [vm_compute; reflexivity|]); vm_compute; reflexivity|].
  split; [eexists; repeat (split; [vm_compute; reflexivity|]); vm_compute; reflexivity|].
  repeat (split; [vm_compute; reflexivity|]). vm_compute; reflexivity.
Qed.

(** C60.  A declaration is written out, or the build stops.  This is false: *)
Theorem C60_refuted : exists s c, expand s = Nothing c.
Proof. exists (Src [a_kind "append"] true "FISH" "empty" [] false), NoColumns. reflexivity. Qed.
Print Assumptions C60_refuted.
(** C60.  The declarations of which nothing remains, silently, are exactly those that can be read but make no sense. *)
Theorem C60_silent : forall s, (exists c, expand s = Nothing c) <-> exists k, readable s k /\ ~ sensible s k.
Proof. exact nothing_iff. Qed.
Print Assumptions C60_silent.
Example C60_case :
  expand (with_attrs s_sorted (At "add_tracker" (MStr "BirdWatch") :: so_attrs s_sorted)) = Nothing OnlyConsistent /\
  expand (with_attrs s_cons [a_kind "append"; At "row_derive" (MList [IWord "Copy"])]) = Nothing CopyNotClone /\
  exists c, expand s_cons = Expanded c.
Proof. split; [vm_compute; reflexivity|]. split; [vm_compute; reflexivity|]. eexists. vm_compute; reflexivity. Qed.

(** C61.  The trackers that are registered when the table is initialised are those of the referring columns, once each and
    in order, and then those asked for with [#[add_tracker = ".."]]. *)
Theorem C61_registered : forall s c, expand s = Expanded c ->
  k_registered c = map tracker_of (filter refers (so_cols s)) ++ given "add_tracker" (so_attrs s).
Proof. exact (fun s c H => proj1 (expanded_trackers s c H)). Qed.
Print Assumptions C61_registered.
(** C61.  A tracker is implemented for each [foreign_auto] column, and the function with which it looks up rows is there. *)
Theorem C61_auto : forall s c, expand s = Expanded c ->
  map fst (k_auto c) = map tracker_of (filter auto (so_cols s)) /\
  (forall x, In x (k_auto c) -> In (snd x) (k_selectors c)).
Proof. exact (fun s c H => proj2 (expanded_trackers s c H)). Qed.
Print Assumptions C61_auto.
(** C61.  Every [add_tracker] attribute of an accepted table leads to a tracker: false, one that is not given as a string is
    dropped without a word. *)
Theorem C61_refuted : exists s c a, expand s = Expanded c /\ In a (so_attrs s) /\ at_name a = "add_tracker" /\ k_registered c = [].
Proof.
  exists (Src [a_kind "consistent"; At "add_tracker" (MList [IWord "BirdWatch"])] true "FISH" "fishes" [CS [] "name" "String" "VecCol<String>"] false).
  eexists. exists (At "add_tracker" (MList [IWord "BirdWatch"])). split; [vm_compute; reflexivity|]. cbn. tauto.
Qed.
Print Assumptions C61_refuted.
Example C61_case :
  (exists c, expand s_sorted = Expanded c /\ k_registered c = ["track_fish_events"; "track_pond_events"] /\
     k_auto c = [("track_fish_events", "select_sorted_fish"); ("track_pond_events", "select_pond")] /\
     k_selectors c = ["select_pond"; "select_sorted_fish"]) /\
  (exists c, expand s_cons = Expanded c /\ k_registered c = ["track_friend_events"; "BirdWatch"] /\ k_auto c = []).
Proof.
  split; eexists; repeat (split; [vm_compute; reflexivity|]); vm_compute; reflexivity.
Qed.

(** C62.  The calls the histories of Hist.v allow for a kind are exactly the methods that are written for it, if rows can be
    cloned; otherwise fewer are written. *)
Theorem C62_methods : forall s c k o m, expand s = Expanded c -> readable s k -> derives_word "Clone" (so_attrs s) ->
  method_of o = Some m -> (In m (k_write c) <-> avail k o = true).
Proof. exact methods_iff. Qed.
Print Assumptions C62_methods.
Theorem C62_only : forall s c k o m, expand s = Expanded c -> readable s k ->
  method_of o = Some m -> In m (k_write c) -> avail k o = true.
Proof. exact methods_only. Qed.
Print Assumptions C62_only.
(** C62.  Where the code differs from kind to kind, the model's calls on a table of the kind are those that are written for it.
    Logging of changes and [clear]: *)
Theorem C62_logging : forall s c k w i, expand s = Expanded c -> readable s k -> t_kind (w_tab w) = k ->
  written_as (k_parts c) (fun p => part_cleared p w) (clear w) /\
  written_as (k_parts c) (fun p => part_add p w i) (event_add w i) /\
  written_as (k_parts c) (fun p => part_del p w i) (event_del w i).
Proof. exact (fun s c k w i E R T => conj (cleared_as s c k E R w T) (conj (add_as s c k E R w i T) (del_as s c k E R w i T))). Qed.
Print Assumptions C62_logging.
(** C62.  Ranges and [contains]: *)
Theorem C62_looking : forall s c k t r i, expand s = Expanded c -> readable s k -> t_kind t = k ->
  written_as (k_parts c) (fun p => part_range p t r) (t_range t r) /\
  written_as (k_parts c) (fun p => part_contains p t i) (t_contains t i).
Proof. exact (fun s c k t r i E R T => conj (range_as s c k E R t r T) (contains_as s c k E R t i T)). Qed.
Print Assumptions C62_looking.
(** C62.  Deletion, and the end of the lock: *)
Theorem C62_deletion : forall s c k pr umax w i, expand s = Expanded c -> readable s k -> t_kind (w_tab w) = k ->
  written_as (k_parts c) (fun p => part_delete_raw pr umax p w i) (delete_raw pr umax w i) /\
  written_as (k_parts c) (fun p => part_drop p w) (w_drop w) /\
  (exists p l, In p (k_parts c) /\ In l (k_parts c) /\ part_delete pr umax p l w i = Some (delete pr umax w i)) /\
  (forall p l x, In p (k_parts c) -> In l (k_parts c) -> part_delete pr umax p l w i = Some x -> x = delete pr umax w i).
Proof.
  exact (fun s c k pr umax w i E R T =>
    conj (delete_raw_as s c k E R pr umax w i T) (conj (drop_as s c k E R w T) (delete_as s c k E R pr umax w i T))).
Qed.
Print Assumptions C62_deletion.
(** C62.  [Table::remove_rows] of table [q], which is locked by nobody: *)
Theorem C62_removal : forall s c k pr umax n u h q t ev rows, expand s = Expanded c -> readable s k ->
  u_get u q = Ok t -> t_kind t = k -> can_write h q = true ->
  (exists p l d x, In p (k_parts c) /\ In l (k_parts c) /\ In d (k_parts c) /\
     part_remove pr umax p l d (w_new t) rows = Some x /\
     remove_rows pr umax n u h q ev rows = let* w := x in flush pr umax n u h q w ev) /\
  (forall p l d x, In p (k_parts c) -> In l (k_parts c) -> In d (k_parts c) ->
     part_remove pr umax p l d (w_new t) rows = Some x ->
     remove_rows pr umax n u h q ev rows = let* w := x in flush pr umax n u h q w ev).
Proof. exact (fun s c k pr umax n u h q t ev rows E R => remove_as s c k E R pr umax n u h q t ev rows). Qed.
Print Assumptions C62_removal.
Example C62_case :
  exists c k, expand s_sorted = Expanded c /\ readable s_sorted k /\ derives_word "Clone" (so_attrs s_sorted) /\
  method_of (OMergeSingle (fun _ _ => Eq) []) = Some "merge_in_a_single_row" /\ In "merge_in_a_single_row" (k_write c) /\
  ~ In "push" (k_write c) /\ avail k (OPush []) = false.
Proof.
  destruct (proj1 (C54_accepted s_sorted)) as (k & R & _ & _); [eexists; vm_compute; reflexivity|].
  assert (k = Sorted) as ->.
  { apply (rd_key _ _ R). discriminate. }
  eexists. exists Sorted. split; [vm_compute; reflexivity|]. split; [exact R|].
  split; [exists [IWord "Clone"; IWord "Debug"]; cbn; tauto|]. split; [reflexivity|].
  split; [cbn; tauto|]. split; [|reflexivity]. cbn. intros H. repeat destruct H as [H|H]; try discriminate H. exact H.
Qed.
Local Notation s_bag := (Src [a_kind "bag"; At "row_derive" (MList [IWord "Clone"])] true "FISH" "bubbles" [CS [] "size" "u8" "VecCol<u8>"] false).
Example C62_case_bag :
  exists c w, expand s_bag = Expanded c /\ readable s_bag Bag /\ t_kind (w_tab w) = Bag /\
  push (w_new (t_new (Sch Bag 7 [Plain TVec]))) [VInt 5%Z] = Ok (w, 0) /\
  In PLogBasic (k_parts c) /\ part_cleared PLogBasic w = Some (clear w) /\ t_len (w_tab (clear w)) = 0 /\
  part_cleared PLogIgnored w = Some w /\ t_len (w_tab w) = 1 /\ ~ In PLogIgnored (k_parts c) /\
  part_delete Debug 100 PDeleteBag PLogBasic w 0 = Some (delete Debug 100 w 0) /\ part_drop PDeleteBag w = Some (Ok (w_tab w)).
Proof.
  destruct (proj1 (C54_accepted s_bag)) as (k & R & _ & _); [eexists; vm_compute; reflexivity|].
  assert (k = Bag) as ->.
  { destruct (rd_kind _ _ R) as (n & I & F). cbn in F. injection F as <-.
    cbn in I. repeat destruct I as [I|I]; try discriminate I; try contradiction. now injection I as <-. }
  eexists. eexists. split; [vm_compute; reflexivity|]. split; [exact R|].
  assert (P : push (w_new (t_new (Sch Bag 7 [Plain TVec]))) [VInt 5%Z] =
    Ok (W (Tab (Sch Bag 7 [Plain TVec]) [CPlain (BVec [VInt 5%Z])] []) (SThese []) false false, 0)) by (vm_compute; reflexivity).
  split; [|split; [exact P|]]; [reflexivity|].
  split; [vm_compute; tauto|]. repeat (split; [reflexivity|]).
  split; [vm_compute; intros H; repeat destruct H as [H|H]; try discriminate H; exact H|]. split; reflexivity.
Qed.
