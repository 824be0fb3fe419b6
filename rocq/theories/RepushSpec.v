(** Restoring as a session of pushes. *)
From Coq Require Import List Arith.
From Verif Require Import Base Names Column Order RowRange Table SortedTab BagTab TableSpec Hist Events Cascade CascadeSpec Extract ExtractSpec BackupSpec
  IntegritySpec MirrorSpec ImportSpec LifeSpec.
Import ListNotations.

(** The rows of [e]: the [n]th has the [n]th cell of every column; there are as many as ids. *)
Definition rows_saved (e : extraction) (rows : list row) : Prop :=
  length rows = length (ex_sel e) /\
  forall n r, nth_error rows n = Some r -> length r = length (ex_data e) /\
    forall k c, nth_error (ex_data e) k = Some c -> nth_error r k = nth_error (c_into_iter c) n.
(** [r'] is [r] with the ids its foreign keys [fc] are remapped to (what is behind the locks of the trackers: [fl]). *)
Definition remapped (fc : list (nat * nat)) (fl : list fstate) (r r' : row) : Prop :=
  same_but_foreign fc r r' /\
  forall k q, In (k, q) fc -> exists a b f, nth_error r k = Some (VRow a) /\ nth_error fl q = Some f /\ fs_lookup f a = Some b /\
    nth_error r' k = Some (VRow b).

(** Programs as in C116, of tidy sessions (see [tidy]). *)
Inductive grows_tidily (pr : profile) (umax fuel : nat) (heads : nat -> header) (foreign : nat -> list (nat * nat)) (null : nat -> nat -> Prop)
    (order : nat -> row -> row -> comparison) (x0 : xuni) : xuni -> Prop :=
| tidily_start : grows_tidily pr umax fuel heads foreign null order x0 x0
| tidily_session x p t es w ev x' : grows_tidily pr umax fuel heads foreign null order x0 x -> careful null order (xu_u x) p es ev ->
    nth_error (u_tabs (xu_u x)) p = Some t -> do_edits pr umax (w_new t) es = Ok w -> t_len (w_tab w) <= t_imax (w_tab w) -> tidy t w es ->
    x_flush pr umax fuel x [] p w ev = Ok x' -> grows_tidily pr umax fuel heads foreign null order x0 x'
| tidily_import x ps src sel es ev x' : grows_tidily pr umax fuel heads foreign null order x0 x ->
    importable pr umax heads foreign x ps src sel es ev ->
    restore_all pr umax heads foreign order fuel es ev ps x x' -> grows_tidily pr umax fuel heads foreign null order x0 x'.
