(** The names in the code that [table!] writes (macros/output.rs): which items, methods, fields, trait implementations
    and local variables it defines, and which of them it uses.  Paths into v11 and std are not listed.  The names that
    the code takes over from the module around it ([use super::*], output.rs:153) are unknown and not modelled. *)
From Coq Require Import List Bool Arith NArith String.
From Verif Require Import Base Table Schema.
Import ListNotations.
Local Open Scope string_scope.
Local Open Scope list_scope.

(** Where a name can be defined: the module itself, the inherent methods of a type, the fields of a struct, the traits
    implemented for a type, the module [column_format] (output.rs:162), the types that implement [Tracker]. *)
Inductive place :=
| InModule
| OfRead | OfWrite | OfTable | OfRow | OfRowRef | OfExtraction
| FieldRow | FieldRowRef | FieldRead | FieldWrite | FieldEdit | FieldOwned | FieldExtraction | FieldTable
| TraitRow | TraitRowRef | TraitRead | TraitWrite
| Formats | Trackers.

(** What is written for every table. *)
Definition fixed (p : place) : list string :=
  match p with
  | InModule =>
      ["TABLE_NAME"; "TABLE_DOMAIN"; "VERSION"; "GUARANTEES"; "column_format";             (* output.rs:156-162 *)
       "RawType"; "RowId"; "CheckIdRead"; "CheckIdWrite"; "CheckId"; "FIRST"; "INVALID"; "at";  (* 170-210 *)
       "Row"; "RowRef"; "Table"; "Read"; "Write"; "Edit";                                   (* 230, 248, 303, 480, 489, 501 *)
       "EXTRACTION_FMT"; "Extraction"; "Owned"; "downcast_any_selection";                   (* 555-572, 630 *)
       "select"; "convert_read_guard"; "read"; "read_result"; "try_read";                   (* 887; 1615-1659 *)
       "convert_write_guard"; "write"; "write_result"; "try_write";                         (* 1666-1702 *)
       "new_generic_table"; "register"; "get_generic_table"; "register_foreign_trackers"]   (* 1707-1731, 1757, 1785 *)
  | OfRead => ["len"; "row_range"; "get_row_ref"; "last"; "close";                         (* 764-803 *)
               "select_all"; "select_rows"]                                                 (* 905, 915 *)
  | OfWrite => ["editing"; "len"; "row_range"; "get_row_ref"; "last"; "close";             (* 512, 764-803 *)
                "flush"; "live_flush"; "flush_or_close"; "select"; "select_all";            (* 932-1037 *)
                "reserve"; "clear_raw"; "clear"; "push_end_unchecked"; "push_only_unchecked"; (* 1225-1249 *)
                "as_read"]                                                                  (* 1742 *)
  | OfRow => ["as_ref"]                                                                     (* 253 *)
  | OfExtraction => ["validate"; "into_iter"]                                               (* 576, 611 *)
  | FieldRead => ["_lock"; "_table"]                                                        (* 481-482 *)
  | FieldWrite => ["_universe"; "_lock"; "_table"; "_changes"; "_pushed"; "_delete"]        (* 490-495 *)
  | FieldEdit => ["_inner"]                                                                 (* 502 *)
  | FieldExtraction => ["extraction_fmt"; "domain"; "name"; "schema"; "columns"; "selection"; "data"]  (* 558-569 *)
  | FieldTable => ["flush"; "free"]                                                         (* 304-305 *)
  | TraitRow => ["GetTableName"]                                                            (* 233 *)
  | TraitRowRef => ["Clone"]                                                                (* 246 *)
  | TraitRead => ["LockedTable"; "Lockable"; "Drop"]                                        (* 543, 1809; 1158, 1164 *)
  | TraitWrite => ["LockedTable"; "Lockable"]                                               (* 548, 1805 *)
  | _ => []
  end.

(** What the parts of Schema.v define. *)
Definition by_part (x : part) (p : place) : list string :=
  match x, p with
  | (PRemoveConsistent | PRemoveSorted), OfWrite => ["remove_rows"]                         (* output.rs:353, 399 *)
  | (PRemoveConsistent | PRemoveSorted | PRemovePanics), OfTable => ["remove_rows"]         (* 348, 380, 446 *)
  | PToOwned, OfRowRef => ["to_owned"]                                                      (* 455 *)
  | (PIterBag | PIterInconsistent | PIterConsistent), OfRead => ["iter"]                    (* 670, 694, 718 *)
  | (PIterBag | PIterInconsistent), OfWrite => ["iter"; "iter_mut"]                         (* 676-681, 700-707 *)
  | PIterConsistent, OfWrite => ["iter"; "iter_del"]                                        (* 725-731 *)
  | (PRangeInconsistent | PRangeConsistent), (OfRead | OfWrite) => ["range"; "contains"]    (* 739-745; 641-649 *)
  | PDump, (OfRead | OfWrite) => ["dump"]                                                   (* 658 *)
  | PGetRow, (OfRead | OfWrite) => ["get_row"; "get_row_raw"]                               (* 752-757 *)
  | (PDeleteConsistent | PDeleteBag | PDeleteFake), OfWrite => ["delete"; "delete_raw"]     (* 823-829, 855-860, 874-879 *)
  | PDeleteConsistent, TraitWrite => ["Drop"]                                               (* 845 *)
  | (PDeleteBag | PDeleteFake), TraitWrite => ["Drop"]              (* 1169: under the same condition, not consistent *)
  | (PLogConsistent | PLogBasic | PLogIgnored), OfWrite =>
      ["event_cleared"; "event_add"; "event_del"; "event_add_reserve"; "event_del_reserve"] (* 1179-1194, 1200-1206, 1211-1215 *)
  | POrd, TraitRow => ["PartialOrd"; "Ord"; "PartialEq"; "Eq"]                              (* 1259-1277 *)
  | POrd, TraitRowRef => ["PartialOrd"; "PartialEq"; "Eq"]                                  (* 1279-1291 *)
  | POrdKey, TraitRowRef => ["Ord"]                                                         (* 1297 *)
  | PSwap, OfWrite => ["swap_out_row"; "swap"; "truncate"]                                  (* 1310-1327 *)
  | PRetain, OfWrite => ["retain"; "merge0"]                                                (* 1337, 1354 *)
  | PVisit, OfWrite => ["visit"]                                                            (* 1420 *)
  | PMerge, OfWrite => ["merge"; "merge_in_a_single_row"; "merge_logged"]                   (* 1433, 1444, 1462 *)
  | PPush, OfWrite => ["push_all"; "push"; "next_pushed"; "push_array"]                     (* 1542-1585 *)
  | PExtraction, OfWrite => ["restore_extract"]                                             (* 1859 *)
  | PExtraction, OfRead => ["extract_selection"]                                            (* 1912 *)
  | PSaved, TraitRow => ["SerialExtraction"]                                                (* 287 *)
  | _, _ => []
  end.

(** The text of an element of [row_derive] (output.rs:213-216). *)
Definition item_text (i : item) : string := match i with IWord s | IOther s => s end.
(** The derives that [RowRef] does not take over from [Row]: output.rs:218-222 *)
Definition row_only (s : string) : bool :=
  existsb (String.eqb s) ["Clone"; "RustcEncodable"; "RustcDecodable"; "Serialize"; "Deserialize"].
(** output.rs:1763-1766 *)
Definition track_name (c : colm) : string := "track_" ++ co_name c ++ "_events".

(** What is written once for each column, or each derive. *)
Definition by_table (t : tablem) (p : place) : list string :=
  match p with
  | InModule => map track_name (filter co_foreign (tm_cols t))                              (* output.rs:1782 *)
  | OfRead => selectors t                                                                   (* 1067, 1086 *)
  | FieldRow | FieldRowRef | FieldRead | FieldWrite | FieldEdit | FieldOwned                (* 231, 249, 483, 497, 503, 573 *)
  | Formats => map co_name (tm_cols t)                                                      (* 163 *)
  | TraitRow => map item_text (tm_row_derive t)                                             (* 229 *)
  | TraitRowRef => filter (fun s => negb (row_only s)) (map item_text (tm_row_derive t))    (* 245 *)
  | Trackers => map track_name (filter co_auto (tm_cols t))                                 (* 1123 *)
  | _ => []
  end.
Definition names (t : tablem) (p : place) : list string :=
  fixed p ++ flat_map (fun x => by_part x p) (parts t) ++ by_table t p.

(** What the code uses, wherever the use stands.  [both] is for code written for [Read] and for [Write]. *)
Definition both (l : list string) : list (place * string) := map (pair OfRead) l ++ map (pair OfWrite) l.
Definition uses_fixed : list (place * string) :=
  [(InModule, "new_generic_table");                                                         (* output.rs:241, 1732 *)
   (OfTable, "remove_rows"); (InModule, "downcast_any_selection"); (InModule, "select");    (* 322, 333-334 *)
   (OfWrite, "row_range");                                                                  (* 527 *)
   (OfRead, "len"); (OfWrite, "len"); (OfWrite, "delete");                                  (* 545, 550, 552 *)
   (InModule, "EXTRACTION_FMT"); (InModule, "TABLE_DOMAIN"); (InModule, "TABLE_NAME"); (InModule, "VERSION"); (* 578-589 *)
   (InModule, "write"); (OfWrite, "clear_raw"); (OfWrite, "delete_raw");                    (* 954-966, 998-1008 *)
   (OfWrite, "flush");                                                                      (* 1026 *)
   (OfRead, "iter");                                                                        (* 1092 *)
   (InModule, "read"); (InModule, "GUARANTEES");                                            (* 1128, 1138 *)
   (OfWrite, "event_add_reserve"); (OfWrite, "event_cleared");                              (* 1227, 1236 *)
   (OfWrite, "push_only_unchecked"); (OfWrite, "event_add"); (OfWrite, "last");             (* 1243-1251 *)
   (InModule, "read_result"); (InModule, "convert_read_guard");                             (* 1650-1661 *)
   (InModule, "write_result"); (InModule, "convert_write_guard");                           (* 1693-1704 *)
   (InModule, "register_foreign_trackers")]                                                 (* 1726 *)
  ++ both ["len"].                                                                          (* 776, 793 *)
Definition uses_part (sorted : bool) (x : part) : list (place * string) :=
  match x with
  | PRemoveConsistent => [(InModule, "write"); (OfWrite, "remove_rows"); (OfWrite, "len"); (OfWrite, "delete_raw");
                          (OfWrite, "clear_raw"); (OfWrite, "clear"); (OfWrite, "flush")]   (* output.rs:348-374 *)
  | PRemoveSorted => [(InModule, "write"); (OfWrite, "remove_rows"); (OfWrite, "clear_raw"); (OfWrite, "clear");
                      (OfWrite, "flush"); (InModule, "FIRST"); (OfWrite, "len")]            (* 380-420 *)
  | PIterBag | PIterInconsistent | PIterConsistent => both ["range"; "row_range"]           (* 670-732 *)
  | PRangeInconsistent | PRangeConsistent => both ["len"]                                   (* 745, 648 *)
  | PDump => both ["len"; "iter"; "get_row"]                                                (* 659-661 *)
  | PGetRow => both ["get_row_raw"]                                                         (* 754 *)
  | PDeleteConsistent => [(OfWrite, "event_del"); (InModule, "TABLE_NAME")]                 (* 826, 848 *)
  | PDeleteBag => [(OfWrite, "delete_raw"); (OfWrite, "len")]                               (* 858, 861 *)
  | PLogBasic => [(OfWrite, "clear_raw")]                                                   (* 1201 *)
  | POrd => [(OfRow, "as_ref"); (TraitRow, "Ord"); (TraitRowRef, "Ord")]                    (* 1261, 1267, 1281, 1287 *)
  | PRetain => [(OfWrite, "merge0"); (InModule, "FIRST"); (OfWrite, "len"); (OfWrite, "get_row");
                (OfWrite, "swap_out_row"); (OfWrite, "truncate"); (OfWrite, "push_end_unchecked")]  (* 1339-1413 *)
  | PVisit => [(OfWrite, "merge0")]                                                         (* 1425 *)
  | PMerge => [(OfWrite, "merge_logged"); (InModule, "FIRST"); (OfRow, "as_ref"); (OfWrite, "len");
               (OfWrite, "get_row_ref"); (TraitRowRef, "PartialOrd"); (OfWrite, "swap_out_row");
               (OfWrite, "reserve"); (OfWrite, "push_end_unchecked")]                       (* 1438-1530 *)
  | PPush => [(OfWrite, "reserve"); (OfWrite, "push"); (OfWrite, "next_pushed"); (OfWrite, "event_add");
              (OfWrite, "swap_out_row"); (OfWrite, "push_end_unchecked"); (OfWrite, "len")] (* 1543-1599 *)
  | PExtraction =>
      [(OfExtraction, "validate"); (OfExtraction, "into_iter"); (OfWrite, "flush"); (OfRead, "iter");
       (InModule, "EXTRACTION_FMT"); (InModule, "TABLE_DOMAIN"); (InModule, "TABLE_NAME"); (InModule, "VERSION")] ++  (* 1865-1946 *)
      (if sorted then [(OfWrite, "merge"); (OfWrite, "merge_in_a_single_row")]              (* 1835, 1841 *)
       else [(OfWrite, "push")])                                                            (* 1850 *)
  | PSaved => [(InModule, "downcast_any_selection"); (InModule, "read"); (OfRead, "extract_selection");
               (InModule, "write"); (OfWrite, "restore_extract")]                           (* 270-296 *)
  | _ => []
  end.
(** The function with which a [foreign_auto] tracker looks up rows: output.rs:1114-1120 *)
Definition lookup (t : tablem) (c : colm) : string :=
  if is_key t c then "select_sorted_" ++ co_name c else "select_" ++ co_name c.
Definition uses (t : tablem) : list (place * string) :=
  uses_fixed ++ flat_map (uses_part (tm_sorted t)) (parts t) ++
  map (fun c => (OfRead, lookup t c)) (filter co_auto (tm_cols t)) ++                       (* output.rs:1138 *)
  flat_map (fun c => [(InModule, track_name c); (Trackers, track_name c)]) (filter co_foreign (tm_cols t)).  (* 1787 *)

(** ** Local variables *)

(** What a local name is meant to be: the local of the given number of the text of the function, the one that belongs
    to the given column, or no local but the function [std::mem::transmute] (output.rs:1612). *)
Inductive meant := Loc (i : nat) | ColVar (k : nat) | Transmute.
Inductive stmt := Bind (n : string) (m : meant) | Use (n : string) (m : meant).
(** Numbered columns. *)
Definition cols_from (k : nat) (t : tablem) : list (string * nat) :=
  combine (map co_name (tm_cols t)) (seq k (List.length (tm_cols t))).
Definition bind_col (c : string * nat) : stmt := Bind (fst c) (ColVar (snd c)).
Definition use_col (c : string * nat) : stmt := Use (fst c) (ColVar (snd c)).
(** [Extraction::into_iter] (output.rs:611-627) *)
Definition body_into_iter (t : tablem) : list stmt :=
  [Bind "selection" (Loc 0)] ++ map bind_col (cols_from 0 t) ++
  [Use "selection" (Loc 0); Bind "i" (Loc 1); Use "i" (Loc 1); Bind "msg" (Loc 2); Use "i" (Loc 1)] ++
  flat_map (fun c => [use_col c; Use "msg" (Loc 2)]) (cols_from 0 t).
(** [convert_read_guard] (output.rs:1615-1645) *)
Definition body_read (t : tablem) : list stmt :=
  [Bind "_lock" (Loc 0)] ++
  flat_map (fun c => [Use "_lock" (Loc 0); Use "transmute" Transmute; bind_col c]) (cols_from 0 t) ++
  [Use "_lock" (Loc 0); Use "transmute" Transmute; Bind "_table" (Loc 1); Use "_lock" (Loc 0); Use "_table" (Loc 1)] ++
  map use_col (cols_from 0 t).
(** [convert_write_guard] (output.rs:1666-1689) *)
Definition body_write (t : tablem) : list stmt :=
  [Bind "_universe" (Loc 0); Bind "_lock" (Loc 1)] ++
  flat_map (fun c => [Use "_lock" (Loc 1); Use "transmute" Transmute; bind_col c]) (cols_from 0 t) ++
  [Use "_lock" (Loc 1); Use "transmute" Transmute; Bind "_table" (Loc 2);
   Use "_universe" (Loc 0); Use "_lock" (Loc 1); Use "_table" (Loc 2)] ++
  map use_col (cols_from 0 t).
(** Constants and tuple structs in scope, which a [let] cannot shadow: those of the module (output.rs:156-204, 555; the
    unit structs of 1782), those it imports (output.rs:135-148: src/tables.rs:261, 304, src/domain.rs:29,
    src/intern.rs:85), those of the standard prelude. *)
Definition constants (t : tablem) : list string :=
  ["TABLE_NAME"; "TABLE_DOMAIN"; "VERSION"; "GUARANTEES"; "FIRST"; "INVALID"; "EXTRACTION_FMT";
   "TableName"; "AssertSorted"; "DomainName"; "GenerativeIter"; "None"; "Some"; "Ok"; "Err"] ++
  map track_name (filter co_foreign (tm_cols t)).

(** ** The output *)
Record output := Output {
  o_names : place -> list string; o_uses : list (place * string);
  o_constants : list string; o_bodies : list (list stmt) }.
(** What [table!] makes of a declaration, where it makes anything of it: macros/lib.rs:21-86, with macros/output.rs. *)
Definition output_of (s : source) : option output :=
  match parse_table s, expand s with
  | Good t, Expanded _ =>
      Some (Output (names t) (uses t) (constants t) [body_into_iter t; body_read t; body_write t])
  | _, _ => None
  end.
