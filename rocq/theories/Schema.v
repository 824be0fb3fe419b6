(** What the [table!] macro accepts and what it makes of it: macros/lib.rs, macros/parse.rs,
    macros/table.rs, and the conditions of macros/output.rs that decide which code is written.
    The token level (what an attribute, an identifier, a type looks like) is not modelled: the input is
    the sequence of attributes and columns.  Types are their text. *)
From Coq Require Import List Bool Arith NArith String Ascii.
From Verif Require Import Base Table.
Import ListNotations.
Local Open Scope string_scope.
Local Notation length := List.length.

(** ** Input *)

(** One element of a list attribute: a bare word, or anything else (its text).
    [NestedMetaItemKind], as used in macros/parse.rs:60-73. *)
Inductive item := IWord (s : string) | IOther (s : string).
(** [MetaItemKind]: [#[a]], [#[a = "s"]], [#[a = 3]], [#[a(..)]] (macros/parse.rs:38-45). *)
Inductive meta := MWord | MStr (s : string) | MLit | MList (l : list item).
Record attr := At { at_name : string; at_node : meta }.
(** [#[attrs] name: [element; column],] (macros/parse.rs:112, 137-143) *)
Record colsrc := CS { cs_attrs : list attr; cs_name : string; cs_elem : string; cs_ty : string }.
(** [#[attrs] pub [domain/name] { columns } rest] (macros/parse.rs:47, 97-111, 167) *)
Record source := Src {
  so_attrs : list attr; so_pub : bool; so_dom : string; so_name : string;
  so_cols : list colsrc; so_rest : bool }.

(** Why the macro panics, which makes rustc reject the program. *)
Inductive refusal :=
| RArg        (* parse.rs:44: not of the form name = "value" *)
| RKind       (* parse.rs:57: unknown table kind *)
| RTwice      (* table.rs:58: kind already set *)
| RIndexNyi   (* table.rs:77 *)
| RNoKind     (* parse.rs:95 *)
| RAttr       (* parse.rs:90: unknown attribute *)
| RVersion    (* parse.rs:76, 131: not a number *)
| RKeyTwice   (* parse.rs:146 *)
| RKeyKind    (* parse.rs:149 *)
| RTokens     (* parse.rs:168 *)
| RAssert     (* table.rs:82, 83, 86, 87, 90, 91, 94 *)
| RColumn     (* output.rs:98: COL_NAME[0] *)
| RLookup     (* output.rs:1119: foreign_auto without index or sort_key *)
| RSave.      (* output.rs:1817 *)
Inductive got (A : Type) := Good (a : A) | Bad (r : refusal).
Arguments Good {A} a.
Arguments Bad {A} r.
Definition andthen {A B} (x : got A) (f : A -> got B) : got B :=
  match x with Good a => f a | Bad r => Bad r end.
Notation "'let+' p := x 'in' f" := (andthen x (fun p => f)) (at level 200, p pattern, f at level 200, x at level 100).
Fixpoint fold_got {A B} (f : A -> B -> got A) (l : list B) (a : A) : got A :=
  match l with [] => Good a | x :: l => let+ a := f a x in fold_got f l a end.

(** ** macros/table.rs *)

(** table.rs:13-18 *)
Record derives := Der { dv_clone : bool; dv_debug : bool; dv_copy : bool }.
(** table.rs:124-135 *)
Record colm := Co {
  co_attrs : list attr; co_name : string; co_elem : string; co_ty : string;
  co_indexed : bool; co_foreign : bool; co_auto : bool; co_version : N }.
(** table.rs:20-46 *)
Record tablem := Tm {
  tm_docs : list attr; tm_row_derive : list item; tm_pub : bool; tm_dom : string; tm_name : string;
  tm_kind : option kind; tm_cols : list colm; tm_trackers : list string;
  tm_row_id : string; tm_version : N; tm_save : bool; tm_derive : derives; tm_key : option string;
  tm_immutable : bool; tm_sorted : bool; tm_consistent : bool; tm_secret : bool }.
(** table.rs:97-103 *)
Definition tm_new : tablem :=
  Tm [] [] false "" "" None [] [] "usize" 0 false (Der false false false) None false false false false.

Definition with_kind (t : tablem) (k : kind) (srt cons sec : bool) : tablem :=
  Tm (tm_docs t) (tm_row_derive t) (tm_pub t) (tm_dom t) (tm_name t) (Some k) (tm_cols t) (tm_trackers t)
     (tm_row_id t) (tm_version t) (tm_save t) (tm_derive t) (tm_key t) (tm_immutable t) srt cons sec.
Definition with_row_id (t : tablem) (s : string) : tablem :=
  Tm (tm_docs t) (tm_row_derive t) (tm_pub t) (tm_dom t) (tm_name t) (tm_kind t) (tm_cols t) (tm_trackers t)
     s (tm_version t) (tm_save t) (tm_derive t) (tm_key t) (tm_immutable t) (tm_sorted t) (tm_consistent t) (tm_secret t).
Definition with_derive (t : tablem) (d : derives) (l : list item) : tablem :=
  Tm (tm_docs t) l (tm_pub t) (tm_dom t) (tm_name t) (tm_kind t) (tm_cols t) (tm_trackers t)
     (tm_row_id t) (tm_version t) (tm_save t) d (tm_key t) (tm_immutable t) (tm_sorted t) (tm_consistent t) (tm_secret t).
Definition with_save (t : tablem) : tablem :=
  Tm (tm_docs t) (tm_row_derive t) (tm_pub t) (tm_dom t) (tm_name t) (tm_kind t) (tm_cols t) (tm_trackers t)
     (tm_row_id t) (tm_version t) true (tm_derive t) (tm_key t) (tm_immutable t) (tm_sorted t) (tm_consistent t) (tm_secret t).
Definition with_version (t : tablem) (v : N) : tablem :=
  Tm (tm_docs t) (tm_row_derive t) (tm_pub t) (tm_dom t) (tm_name t) (tm_kind t) (tm_cols t) (tm_trackers t)
     (tm_row_id t) v (tm_save t) (tm_derive t) (tm_key t) (tm_immutable t) (tm_sorted t) (tm_consistent t) (tm_secret t).
Definition with_trackers (t : tablem) (l : list string) : tablem :=
  Tm (tm_docs t) (tm_row_derive t) (tm_pub t) (tm_dom t) (tm_name t) (tm_kind t) (tm_cols t) l
     (tm_row_id t) (tm_version t) (tm_save t) (tm_derive t) (tm_key t) (tm_immutable t) (tm_sorted t) (tm_consistent t) (tm_secret t).
Definition with_docs (t : tablem) (l : list attr) : tablem :=
  Tm l (tm_row_derive t) (tm_pub t) (tm_dom t) (tm_name t) (tm_kind t) (tm_cols t) (tm_trackers t)
     (tm_row_id t) (tm_version t) (tm_save t) (tm_derive t) (tm_key t) (tm_immutable t) (tm_sorted t) (tm_consistent t) (tm_secret t).
Definition with_head (t : tablem) (p : bool) (d n : string) : tablem :=
  Tm (tm_docs t) (tm_row_derive t) p d n (tm_kind t) (tm_cols t) (tm_trackers t)
     (tm_row_id t) (tm_version t) (tm_save t) (tm_derive t) (tm_key t) (tm_immutable t) (tm_sorted t) (tm_consistent t) (tm_secret t).
Definition with_key (t : tablem) (n : string) : tablem :=
  Tm (tm_docs t) (tm_row_derive t) (tm_pub t) (tm_dom t) (tm_name t) (tm_kind t) (tm_cols t) (tm_trackers t)
     (tm_row_id t) (tm_version t) (tm_save t) (tm_derive t) (Some n) (tm_immutable t) (tm_sorted t) (tm_consistent t) (tm_secret t).
Definition with_cols (t : tablem) (l : list colm) : tablem :=
  Tm (tm_docs t) (tm_row_derive t) (tm_pub t) (tm_dom t) (tm_name t) (tm_kind t) l (tm_trackers t)
     (tm_row_id t) (tm_version t) (tm_save t) (tm_derive t) (tm_key t) (tm_immutable t) (tm_sorted t) (tm_consistent t) (tm_secret t).

(** table.rs:57-79 *)
Definition set_kind (t : tablem) (k : kind) : got tablem :=
  match tm_kind t with
  | Some _ => Bad RTwice
  | None =>
      let t := match k with
               | Append => with_kind t k (tm_sorted t) (tm_consistent t) (tm_secret t)
               | Consistent => with_kind t k (tm_sorted t) true false
               | Bag | List_ => with_kind t k (tm_sorted t) (tm_consistent t) true
               | Sorted => with_kind t k true (tm_consistent t) (tm_secret t)
               end in
      if existsb co_indexed (tm_cols t) then Bad RIndexNyi else Good t
  end.

(** table.rs:80-96 *)
Definition validate_guarantees (t : tablem) : bool :=
  (if tm_immutable t then negb (tm_sorted t) && negb (tm_secret t) else true) &&
  (if tm_sorted t then negb (tm_immutable t) && negb (tm_consistent t) else true) &&
  (if tm_consistent t then negb (tm_sorted t) && negb (tm_secret t) else true) &&
  (if tm_save t then dv_clone (tm_derive t) else true).

(** The messages of table.rs:104-122. *)
Inductive complaint := NoDomain | NoName | NoColumns | CopyNotClone | OnlyConsistent.
(** table.rs:104-122 *)
Definition validate (t : tablem) : got (option complaint) :=
  if validate_guarantees t then
    Good (if (tm_dom t =? "")%string then Some NoDomain
          else if (tm_name t =? "")%string then Some NoName
          else if match tm_cols t with [] => true | _ => false end then Some NoColumns
          else if dv_copy (tm_derive t) && negb (dv_clone (tm_derive t)) then Some CopyNotClone
          else if negb (tm_consistent t) && match tm_trackers t with [] => false | _ => true end then Some OnlyConsistent
          else None)
  else Bad RAssert.

(** ** macros/parse.rs *)

(** parse.rs:38-45 *)
Definition meta_arg (a : attr) : got string :=
  match at_node a with MStr s => Good s | _ => Bad RArg end.

(** parse.rs:51-58 *)
Definition kind_named (s : string) : got kind :=
  if s =? "append" then Good Append
  else if s =? "consistent" then Good Consistent
  else if s =? "bag" then Good Bag
  else if s =? "list" then Good List_
  else if s =? "sorted" then Good Sorted
  else Bad RKind.

(** [str::parse] to an unsigned integer type with the given maximum (parse.rs:76, 131): an optional [+],
    then at least one decimal digit. *)
Definition digit (c : ascii) : option N :=
  let n := N_of_ascii c in
  if (48 <=? n)%N && (n <=? 57)%N then Some (n - 48)%N else None.
Fixpoint digits (max acc : N) (s : string) : option N :=
  match s with
  | EmptyString => Some acc
  | String c s =>
      match digit c with
      | Some d => if (acc * 10 + d <=? max)%N then digits max (acc * 10 + d) s else None
      | None => None
      end
  end.
Definition parse_num (max : N) (s : string) : option N :=
  match s with
  | EmptyString => None
  | String "+" EmptyString => None
  | String "+" s => digits max 0 s
  | _ => digits max 0 s
  end.
Definition u32_max : N := 4294967295.
Definition u64_max : N := 18446744073709551615.
Definition number (max : N) (a : attr) : got N :=
  let+ s := meta_arg a in match parse_num max s with Some n => Good n | None => Bad RVersion end.

(** parse.rs:61-71 *)
Definition derive_item (d : derives) (i : item) : derives :=
  match i with
  | IWord s =>
      if s =? "Clone" then Der true (dv_debug d) (dv_copy d)
      else if s =? "Copy" then Der (dv_clone d) (dv_debug d) true
      else if s =? "Debug" then Der (dv_clone d) true (dv_copy d)
      else d
  | IOther _ => d
  end.

(** One attribute of the table: parse.rs:48-93 *)
Definition table_attr (t : tablem) (a : attr) : got tablem :=
  let n := at_name a in
  if n =? "kind" then let+ s := meta_arg a in let+ k := kind_named s in set_kind t k
  else if n =? "row_id" then let+ s := meta_arg a in Good (with_row_id t s)
  else if n =? "row_derive" then
    match at_node a with
    | MList l => Good (with_derive t (fold_left derive_item l (tm_derive t)) (tm_row_derive t ++ l))
    | _ => Good t
    end
  else if n =? "save" then Good (with_save t)
  else if n =? "version" then let+ v := number u32_max a in Good (with_version t v)
  else if n =? "add_tracker" then
    match at_node a with
    | MStr s => Good (with_trackers t (tm_trackers t ++ [s]))
    | _ => Good t
    end
  else if n =? "doc" then Good (with_docs t (tm_docs t ++ [a]))
  else Bad RAttr.

(** What the attributes of a column say: the variables of parse.rs:113-118. *)
Record colflags := CF {
  cf_indexed : bool; cf_foreign : bool; cf_auto : bool; cf_key : bool; cf_version : N; cf_attrs : list attr }.
(** One attribute of a column: parse.rs:120-136 *)
Definition col_attr (c : colflags) (a : attr) : got colflags :=
  let n := at_name a in
  if n =? "index" then Good (CF true (cf_foreign c) (cf_auto c) (cf_key c) (cf_version c) (cf_attrs c))
  else if n =? "foreign" then Good (CF (cf_indexed c) true (cf_auto c) (cf_key c) (cf_version c) (cf_attrs c))
  else if n =? "sort_key" then Good (CF (cf_indexed c) (cf_foreign c) (cf_auto c) true (cf_version c) (cf_attrs c))
  else if n =? "foreign_auto" then Good (CF (cf_indexed c) true true (cf_key c) (cf_version c) (cf_attrs c))
  else if n =? "version" then
    let+ v := number u64_max a in Good (CF (cf_indexed c) (cf_foreign c) (cf_auto c) (cf_key c) v (cf_attrs c))
  else Good (CF (cf_indexed c) (cf_foreign c) (cf_auto c) (cf_key c) (cf_version c) (cf_attrs c ++ [a])).

(** One column: parse.rs:111-163.  The column is appended to [tm_cols] here; the code assigns the whole
    vector at the end (parse.rs:108), and nothing looks at it in between. *)
Definition table_col (t : tablem) (c : colsrc) : got tablem :=
  let+ f := fold_got col_attr (cs_attrs c) (CF false false false false 0 []) in
  let+ t := if cf_key f then
              match tm_key t with
              | Some _ => Bad RKeyTwice
              | None => match tm_kind t with
                        | Some Sorted => Good (with_key t (cs_name c))
                        | _ => Bad RKeyKind
                        end
              end
            else Good t in
  Good (with_cols t (tm_cols t ++ [Co (cf_attrs f) (cs_name c) (cs_elem c) (cs_ty c)
                                      (cf_indexed f) (cf_foreign f) (cf_auto f) (cf_version f)])).

(** parse.rs:34-171 *)
Definition parse_table (s : source) : got tablem :=
  let+ t := fold_got table_attr (so_attrs s) tm_new in
  match tm_kind t with
  | None => Bad RNoKind
  | Some _ =>
      let t := with_head t (so_pub s) (so_dom s) (so_name s) in
      let+ t := fold_got table_col (so_cols s) t in
      if so_rest s then Bad RTokens else Good t
  end.

(** ** macros/output.rs *)

(** [Guarantee] (src/tables.rs) as published: output.rs:112-123 *)
Record guarantee := Gu { gu_consistent : bool; gu_sorted : bool; gu_append_only : bool }.
Definition guarantees (t : tablem) : guarantee :=
  Gu (tm_consistent t) (tm_sorted t) (match tm_kind t with Some Append => true | _ => false end).

(** The parts of the output that are not always written, by their labels. *)
Inductive part :=
| PRemoveConsistent | PRemoveSorted | PRemovePanics            (* output.rs:346, 378, 444 *)
| PToOwned                                                      (* 453 *)
| PIterBag | PIterInconsistent | PIterConsistent                (* 667, 691, 714 *)
| PRangeInconsistent | PDump | PRangeConsistent | PGetRow       (* 738-749, 804, 654, 639-653, 750 *)
| PDeleteConsistent | PDeleteBag | PDeleteFake                  (* 821, 853, 872 *)
| PLogConsistent | PLogBasic | PLogIgnored                      (* 1175, 1197, 1208 *)
| POrd | POrdKey                                                (* 1258, 1294 *)
| PSwap | PRetain | PVisit | PMerge | PPush                     (* 1306, 1334, 1418, 1430, 1539 *)
| PExtraction | PSaved.                                         (* 1857; 263, 286, 473 *)
(** [out!] writes the first branch whose condition holds (output.rs:25-67). *)
Definition is_kind (t : tablem) (k : kind) : bool :=
  match tm_kind t with Some k' => kind_eqb k' k | None => false end.
Definition parts (t : tablem) : list part :=
  let clone := dv_clone (tm_derive t) in
  (if tm_consistent t then [PRemoveConsistent] else if tm_sorted t then [PRemoveSorted] else [PRemovePanics]) ++
  (if clone then [PToOwned] else []) ++
  (if is_kind t Bag then [PIterBag] else if negb (tm_consistent t) then [PIterInconsistent] else [PIterConsistent]) ++
  (if tm_consistent t then [PRangeConsistent] else PRangeInconsistent :: if clone then [PDump] else []) ++
  (if clone then [PGetRow] else []) ++
  (if tm_consistent t then [PDeleteConsistent] else if is_kind t Bag then [PDeleteBag] else [PDeleteFake]) ++
  (if tm_consistent t then [PLogConsistent] else if is_kind t Append || is_kind t Bag then [PLogBasic] else [PLogIgnored]) ++
  (if tm_sorted t then [POrd] else []) ++
  (match tm_key t with Some _ => [POrdKey] | None => [] end) ++
  (if tm_sorted t || negb (tm_immutable t) then [PSwap] else []) ++
  (if negb (tm_immutable t) && clone && negb (tm_consistent t) then [PRetain] else []) ++
  (if negb (tm_immutable t) && clone && negb (tm_sorted t) && negb (tm_consistent t) then [PVisit] else []) ++
  (if negb (tm_immutable t) && tm_sorted t && negb (tm_consistent t) then [PMerge]
   else if negb (tm_sorted t) then [PPush] else []) ++
  (if clone then [PExtraction] else []) ++
  (if tm_save t then [PSaved] else []).

(** The public methods of [Write] in each part (the code cited above); the rest of [Write]'s public
    methods are written for every table: 512, 764-803, 932-1037, 1221-1237, 1736-1754.  Where methods of the same name
    differ between kinds, the receiver or the result is part of the name here. *)
Definition part_methods (p : part) : list string :=
  match p with
  | PRemoveConsistent => ["Table::remove_rows"; "remove_rows(self)"]
  | PRemoveSorted => ["Table::remove_rows"; "remove_rows(&mut self)"]
  | PIterBag => ["iter"; "iter_mut -> BagIter"]
  | PIterInconsistent => ["iter"; "iter_mut -> UncheckedIter"]
  | PIterConsistent => ["iter"; "iter_del"]
  | PRangeInconsistent | PRangeConsistent => ["range"; "contains"]
  | PDump => ["dump"]
  | PGetRow => ["get_row"]
  | PDeleteConsistent | PDeleteBag => ["delete"]
  | PRetain => ["retain"]
  | PVisit => ["visit"]
  | PMerge => ["merge"; "merge_in_a_single_row"; "merge_logged"]
  | PPush => ["push_all"; "push"; "next_pushed"; "push_array"]
  | PExtraction => ["restore_extract"]
  | _ => []
  end.
Definition common_methods : list string :=
  ["editing"; "len"; "get_row_ref"; "last"; "close"; "flush"; "live_flush"; "flush_or_close"; "select"; "select_all";
   "reserve"; "clear_raw"; "clear"; "as_read"].
Definition write_methods (t : tablem) : list string := common_methods ++ flat_map part_methods (parts t).

(** A column as the output declares it: output.rs:77-89, 463-466, 1709-1724 *)
Record colout := CO {
  oc_name : string; oc_elem : string; oc_type : string; oc_version : N; oc_edit_only : bool; oc_attrs : list attr }.
Definition out_col (c : colm) : colout :=
  CO (co_name c) (co_elem c)
     (if co_indexed c then "Col<BTreeIndex<" ++ co_ty c ++ ", Row>, Row>" else "Col<" ++ co_ty c ++ ", Row>")
     (co_version c) (co_indexed c) (co_attrs c).

(** [Some(col.name) == table.sort_key] (output.rs:1053, 1114) *)
Definition is_key (t : tablem) (c : colm) : bool :=
  match tm_key t with Some n => co_name c =? n | None => false end.
(** output.rs:1041-1060 *)
Definition selectors (t : tablem) : list string :=
  map (fun c => "select_" ++ co_name c) (filter (fun c => co_indexed c && co_foreign c) (tm_cols t)) ++
  map (fun c => "select_sorted_" ++ co_name c) (filter (fun c => is_key t c && co_foreign c) (tm_cols t)).
(** The [Tracker] implementations written, each with the function it looks rows up with: output.rs:1111-1142 *)
Fixpoint auto_trackers (t : tablem) (l : list colm) : got (list (string * string)) :=
  match l with
  | [] => Good []
  | c :: l =>
      if co_auto c then
        let+ s := if is_key t c then Good ("select_sorted_" ++ co_name c)
                  else if co_indexed c then Good ("select_" ++ co_name c)
                  else Bad RLookup in
        let+ l := auto_trackers t l in
        Good (("track_" ++ co_name c ++ "_events", s) :: l)
      else auto_trackers t l
  end.
(** [register_foreign_trackers] (output.rs:1763-1792) *)
Definition registered (t : tablem) : list string :=
  map (fun c => "track_" ++ co_name c ++ "_events") (filter co_foreign (tm_cols t)) ++ tm_trackers t.

(** What is written for a table, as far as it depends on the attributes. *)
Record code := Code {
  k_dom : string; k_name : string; k_version : N; k_guarantee : guarantee; k_row_id : string;
  k_derives : list item; k_cols : list colout; k_selectors : list string;
  k_auto : list (string * string); k_registered : list string; k_parts : list part; k_write : list string }.
(** [write_out] (output.rs:24-1960) *)
Definition write_out (t : tablem) : got code :=
  match tm_cols t with
  | [] => Bad RColumn
  | _ =>
      let+ au := auto_trackers t (tm_cols t) in
      if tm_save t && negb (dv_clone (tm_derive t)) then Bad RSave
      else Good (Code (tm_dom t) (tm_name t) (tm_version t) (guarantees t) (tm_row_id t) (tm_row_derive t)
                      (map out_col (tm_cols t)) (selectors t) au (registered t) (parts t) (write_methods t))
  end.

(** ** macros/lib.rs *)

(** What comes of an invocation: a compile error, nothing at all (the complaint goes to stdout,
    lib.rs:34-37), or code. *)
Inductive outcome := Refused (r : refusal) | Nothing (c : complaint) | Expanded (k : code).
(** lib.rs:21-86 (without the dump to a file) *)
Definition expand (s : source) : outcome :=
  match parse_table s with
  | Bad r => Refused r
  | Good t =>
      match validate t with
      | Bad r => Refused r
      | Good (Some c) => Nothing c
      | Good None => match write_out t with Bad r => Refused r | Good k => Expanded k end
      end
  end.
