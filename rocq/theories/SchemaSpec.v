(** Vocabulary for the statements about [table!] (Schema.v): which declarations are coherent, and what a
    declaration says. *)
From Coq Require Import List Bool Arith NArith String Ascii.
From Verif Require Import Base Table Hist Schema.
Import ListNotations.
Local Open Scope string_scope.

(** The kinds by name. *)
Definition kinds : list (string * kind) :=
  [("append", Append); ("consistent", Consistent); ("bag", Bag); ("list", List_); ("sorted", Sorted)].
(** The other attributes of a table. *)
Definition plain : list string := ["row_derive"; "save"; "add_tracker"; "doc"].

(** An attribute of that name is present. *)
Definition has (n : string) (l : list attr) : Prop := exists a, In a l /\ at_name a = n.
(** The strings given as [#[n = "..."]], in order. *)
Definition given (n : string) (l : list attr) : list string :=
  flat_map (fun a => if at_name a =? n then match at_node a with MStr s => [s] | _ => [] end else []) l.
(** [#[row_derive(.., w, ..)]] is present. *)
Definition derives_word (w : string) (l : list attr) : Prop :=
  exists i, In (At "row_derive" (MList i)) l /\ In (IWord w) i.

(** [s] is a decimal numeral, with or without a plus sign, of value [v]. *)
Definition numeral (s : string) (v : N) : Prop :=
  exists ds, ds <> [] /\ Forall (fun d => (d < 10)%N) ds /\
    (let t := fold_right (fun d => String (ascii_of_N (48 + d))) "" ds in s = t \/ s = String "+" t) /\
    v = fold_left (fun a d => (10 * a + d)%N) ds 0%N.

(** One attribute, taken alone, is fit for a table. *)
Definition fit (a : attr) : Prop :=
  (exists n k, a = At "kind" (MStr n) /\ In (n, k) kinds) \/
  (exists s, a = At "row_id" (MStr s)) \/
  (exists s v, a = At "version" (MStr s) /\ numeral s v /\ (v <= 4294967295)%N) \/
  In (at_name a) plain.
(** ... for a column: a version has to be a number. *)
Definition fit_col (a : attr) : Prop :=
  at_name a = "version" -> exists s v, a = At "version" (MStr s) /\ numeral s v /\ (v <= 18446744073709551615)%N.

(** The sorting columns. *)
Definition sort_keys (s : source) : list colsrc :=
  filter (fun c => existsb (fun a => at_name a =? "sort_key") (cs_attrs c)) (so_cols s).

(** The declaration can be read, and is of kind [k]. *)
Record readable (s : source) (k : kind) : Prop := {
  rd_fit : Forall fit (so_attrs s);
  rd_kind : exists n, In (n, k) kinds /\
              filter (fun a => at_name a =? "kind") (so_attrs s) = [At "kind" (MStr n)];
  rd_fit_col : Forall (fun c => Forall fit_col (cs_attrs c)) (so_cols s);
  rd_one_key : List.length (sort_keys s) <= 1;
  rd_key : sort_keys s <> [] -> k = Sorted;
  rd_rest : so_rest s = false;
  rd_save : has "save" (so_attrs s) -> derives_word "Clone" (so_attrs s) }.

(** ... and makes sense. *)
Record sensible (s : source) (k : kind) : Prop := {
  se_names : so_dom s <> "" /\ so_name s <> "";
  se_cols : so_cols s <> [];
  se_copy : derives_word "Copy" (so_attrs s) -> derives_word "Clone" (so_attrs s);
  se_trackers : given "add_tracker" (so_attrs s) <> [] -> k = Consistent }.

(** Every [foreign_auto] column can be looked up: it is indexed, or bears the name of the sorting column. *)
Definition lookup_ok (s : source) : Prop :=
  forall c, In c (so_cols s) -> has "foreign_auto" (cs_attrs c) ->
    has "index" (cs_attrs c) \/ exists c', In c' (sort_keys s) /\ cs_name c' = cs_name c.

(** The guarantees that belong to a kind. *)
Definition kind_guarantee (k : kind) : guarantee :=
  match k with
  | Append => Gu false false true
  | Consistent => Gu true false false
  | Sorted => Gu false true false
  | Bag | List_ => Gu false false false
  end.

(** The version that was given last; 0 if none was. *)
Definition version_is (l : list attr) (v : N) : Prop :=
  match given "version" l with [] => v = 0%N | s :: r => numeral (last r s) v end.

(** [o] is what the output should declare for the column [c]. *)
Definition column_as (c : colsrc) (o : colout) : Prop :=
  oc_name o = cs_name c /\ oc_elem o = cs_elem c /\
  (oc_edit_only o = true <-> has "index" (cs_attrs c)) /\
  oc_type o = (if oc_edit_only o then "Col<BTreeIndex<" ++ cs_ty c ++ ", Row>, Row>" else "Col<" ++ cs_ty c ++ ", Row>") /\
  version_is (cs_attrs c) (oc_version o) /\
  oc_attrs o = filter (fun a => negb (existsb (fun n => at_name a =? n) ["index"; "foreign"; "sort_key"; "foreign_auto"; "version"]))
                      (cs_attrs c).

(** Columns that refer to another table. *)
Definition refers (c : colsrc) : bool :=
  existsb (fun a => (at_name a =? "foreign") || (at_name a =? "foreign_auto")) (cs_attrs c).
Definition auto (c : colsrc) : bool := existsb (fun a => at_name a =? "foreign_auto") (cs_attrs c).
Definition tracker_of (c : colsrc) : string := "track_" ++ cs_name c ++ "_events".

(** The same declaration with other table attributes. *)
Definition with_attrs (s : source) (l : list attr) : source :=
  Src l (so_pub s) (so_dom s) (so_name s) (so_cols s) (so_rest s).

(** The method each call of Hist.v stands for (none: locking, access through a column, use of an iterator). *)
Definition method_of (o : op) : option string :=
  match o with
  | OLock | OCell _ _ | OFind _ _ | OAssign _ _ _ | OBagNext _ | OBagMark _ | OBagEnd _ => None
  | OClose => Some "close"
  | OFlush _ _ => Some "flush"
  | OLiveFlush _ _ => Some "live_flush"
  | OGet _ => Some "get_row"
  | OLast => Some "last"
  | ONextPushed => Some "next_pushed"
  | ODump => Some "dump"
  | ORange _ _ => Some "range"
  | OIter _ => Some "iter"
  | OEdit _ => Some "editing"
  | OPush _ => Some "push"
  | OPushAll _ => Some "push_all"
  | OPushArray _ => Some "push_array"
  | ODelete _ => Some "delete"
  | OSelect _ => Some "select"
  | OSelectAll => Some "select_all"
  | OClear => Some "clear"
  | OClearRaw => Some "clear_raw"
  | ORemoveRows _ _ _ => Some "Table::remove_rows"
  | ORemoveSorted _ => Some "remove_rows(&mut self)"
  | ORetain _ _ _ => Some "retain"
  | OVisit _ _ _ => Some "visit"
  | OMergeLogged _ _ _ _ _ => Some "merge_logged"
  | OMerge _ _ => Some "merge"
  | OMergeSingle _ _ => Some "merge_in_a_single_row"
  | OBagNew => Some "iter_mut -> BagIter"
  end.

(** Exactly what one of the parts written for a table says about a call, [f p], is [y]. *)
Definition written_as {A} (ps : list part) (f : part -> option A) (y : A) : Prop :=
  (exists p, In p ps /\ f p = Some y) /\ forall p x, In p ps -> f p = Some x -> x = y.
