(** Vocabulary for the statements about the names in the code that [table!] writes (Output.v). *)
From Coq Require Import List Bool Arith NArith String.
From Verif Require Import Base Table Schema SchemaSpec Output.
Import ListNotations.
Local Open Scope string_scope.

(** Rust's lexical scoping: the latest binding of a name counts, and constants cannot be rebound. *)
Fixpoint lookup_var (env : list (string * meant)) (n : string) : option meant :=
  match env with [] => None | (x, m) :: env => if x =? n then Some m else lookup_var env n end.
Fixpoint means (consts : list string) (env : list (string * meant)) (b : list stmt) : Prop :=
  match b with
  | [] => True
  | Bind n m :: b => ~ In n consts /\ means consts ((n, m) :: env) b
  | Use n m :: b => lookup_var env n = Some m /\ means consts env b
  end.

(** Nothing is defined twice, and every local name is what it is meant to be. *)
Definition well_named (o : output) : Prop :=
  (forall p, NoDup (o_names o p)) /\
  Forall (means (o_constants o) [("transmute", Transmute)]) (o_bodies o).

(** Names a column cannot have. *)
Definition reserved : list string :=
  ["_lock"; "_table"; "_universe"; "_changes"; "_pushed"; "_delete"; "_inner"; "selection"; "i"; "msg"; "transmute";
   "TABLE_NAME"; "TABLE_DOMAIN"; "VERSION"; "GUARANTEES"; "FIRST"; "INVALID"; "EXTRACTION_FMT";
   "TableName"; "AssertSorted"; "DomainName"; "GenerativeIter"; "None"; "Some"; "Ok"; "Err"].
(** What is derived for the rows. *)
Definition derived (s : source) : list string :=
  flat_map (fun a => if at_name a =? "row_derive" then match at_node a with MList i => map item_text i | _ => [] end else [])
           (so_attrs s).
(** The names a declaration uses do not get in the way. *)
Record tidy (s : source) (k : kind) : Prop := {
  ti_cols : NoDup (map cs_name (so_cols s));
  ti_reserved : forall c, In c (so_cols s) -> ~ In (cs_name c) reserved;
  ti_track : forall c c', In c (so_cols s) -> In c' (so_cols s) -> refers c' = true -> cs_name c <> tracker_of c';
  ti_select : forall c, In c (so_cols s) -> has "index" (cs_attrs c) -> refers c = true ->
                cs_name c <> "all" /\ cs_name c <> "rows";
  ti_select_sorted : forall c c', In c (so_cols s) -> has "index" (cs_attrs c) -> refers c = true ->
                In c' (sort_keys s) -> refers c' = true -> cs_name c <> "sorted_" ++ cs_name c';
  ti_derive : NoDup (derived s);
  ti_derive_table : ~ In "GetTableName" (derived s) /\ (has "save" (so_attrs s) -> ~ In "SerialExtraction" (derived s));
  ti_derive_ord : k = Sorted -> forall n, In n ["PartialOrd"; "Ord"; "PartialEq"; "Eq"] -> ~ In n (derived s) }.

(** What the user has to add to the output: an order of the rows of a sorted table without a sorting column, and a
    tracker for each column that refers to another table without [foreign_auto]. *)
Definition left_to_user (s : source) (k : kind) (p : place) (n : string) : Prop :=
  (p = TraitRowRef /\ n = "Ord" /\ k = Sorted /\ sort_keys s = []) \/
  (p = Trackers /\ exists c, In c (so_cols s) /\ refers c = true /\ auto c = false /\ n = tracker_of c).
