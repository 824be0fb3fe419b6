(** Programs that change tables and add saved rows. *)
From Coq Require Import List Arith.
From Verif Require Import Base Column Order RowRange Table SortedTab BagTab TableSpec Hist Events Cascade CascadeSpec Extract ExtractSpec BackupSpec
  IntegritySpec ImportSpec.
Import ListNotations.

(** What the declarations ensure of columns that refer to other tables ([foreign c]: column and table; all of them, with [#[foreign_auto]]
    or not): those with [#[foreign_auto]] are among them and no column is twice.  And what the program must see to if there is no
    [#[foreign_auto]] column that does: the tables referred to have a tracker (without, nobody notes which ids their rows get). *)
Definition declared (foreign : nat -> list (nat * nat)) (u : universe) : Prop :=
  (forall q c k key, In (TAuto c k key) (u_trackers u q) -> In (k, q) (foreign c)) /\
  (forall c, NoDup (map fst (foreign c))) /\
  (forall c k q, In (k, q) (foreign c) -> u_trackers u q <> []).
(** Nothing has been done about remapping yet. *)
Definition unmapped (x : xuni) : Prop :=
  forall p t, nth_error (u_tabs (xu_u x)) p = Some t -> nth_error (xu_fl x) p = Some fs_new.

(** The rows [es], those [sel] says of tables [ps], can be added to [x]: they were saved from tables [src], of any program, that are declared as those of [x]
    and are consistent, with all the rows they refer to and none twice; the tables come after those they refer to; the event is
    handled by nothing; and there are ids. *)
Definition importable (pr : profile) (umax : nat) (heads : nat -> header) (foreign : nat -> list (nat * nat)) (x : xuni)
    (ps : list nat) (src : nat -> table) (sel : nat -> select) (es : nat -> extraction) (ev : event) : Prop :=
  (forall p, In p ps -> exists d, nth_error (u_tabs (xu_u x)) p = Some d /\ t_sch d = t_sch (src p) /\ t_kind d = Consistent /\
     reachable pr umax (t_sch (src p)) (Free (src p)) /\ extract_selection pr (heads p) (src p) (sel p) = Ok (es p) /\
     NoDup (ex_sel (es p)) /\ rows_in d + length (ex_sel (es p)) <= t_imax d) /\
  complete foreign ps src es /\ NoDup ps /\ in_order foreign ps /\ handled_by_nothing (xu_u x) ev.

(** The same, but the rows may also refer to rows that are there already (or to nothing, see [null] in [refs_ok]), of tables that are not
    restored and whose ids are remapped to themselves ([set_identity_remap]); those of tables [ps] are remapped as usual. *)
Definition addable (pr : profile) (umax : nat) (heads : nat -> header) (foreign : nat -> list (nat * nat)) (null : nat -> nat -> Prop) (x : xuni)
    (ps : list nat) (src : nat -> table) (sel : nat -> select) (es : nat -> extraction) (ev : event) : Prop :=
  (forall p, In p ps -> (exists d, nth_error (u_tabs (xu_u x)) p = Some d /\ t_sch d = t_sch (src p) /\ t_kind d = Consistent /\
     reachable pr umax (t_sch (src p)) (Free (src p)) /\ extract_selection pr (heads p) (src p) (sel p) = Ok (es p) /\
     NoDup (ex_sel (es p)) /\ rows_in d + length (ex_sel (es p)) <= t_imax d) /\
     exists f, nth_error (xu_fl x) p = Some f /\ fs_ident f = false) /\
  complete_but (stays_put x ps) foreign ps src es /\ NoDup ps /\ in_order_but (stays_put x ps) foreign ps /\ handled_by_nothing (xu_u x) ev /\
  forall c k q i r a, In c ps -> In (k, q) (foreign c) -> stays_put x ps q -> In i (ex_sel (es c)) -> row_of (src c) i r ->
    nth_error r k = Some (VRow a) -> (exists t r', nth_error (u_tabs (xu_u x)) q = Some t /\ t_get_row t a = Ok r') \/ null q a.

(** Programs of careful sessions (see [careful]) and of such additions, and what they bring [x0] to. *)
Inductive grows (pr : profile) (umax fuel : nat) (heads : nat -> header) (foreign : nat -> list (nat * nat)) (null : nat -> nat -> Prop)
    (order : nat -> row -> row -> comparison) (x0 : xuni) : xuni -> Prop :=
| grows_start : grows pr umax fuel heads foreign null order x0 x0
| grows_session x p t es w ev x' : grows pr umax fuel heads foreign null order x0 x -> careful null order (xu_u x) p es ev ->
    nth_error (u_tabs (xu_u x)) p = Some t -> do_edits pr umax (w_new t) es = Ok w -> t_len (w_tab w) <= t_imax (w_tab w) ->
    x_flush pr umax fuel x [] p w ev = Ok x' -> grows pr umax fuel heads foreign null order x0 x'
| grows_import x ps src sel es ev x' : grows pr umax fuel heads foreign null order x0 x ->
    importable pr umax heads foreign x ps src sel es ev ->
    restore_all pr umax heads foreign order fuel es ev ps x x' -> grows pr umax fuel heads foreign null order x0 x'.
