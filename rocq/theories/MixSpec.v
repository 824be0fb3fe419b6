(** Programs that do all of this (C120). *)
From Coq Require Import List Arith Bool.
From Verif Require Import Base Column Order RowRange Table SortedTab BagTab TableSpec Hist Events Cascade CascadeSpec Extract ExtractSpec BackupSpec
  IntegritySpec MirrorSpec ImportSpec LifeSpec ClearSpec.
Import ListNotations.

(** No guard of the trackers of tables [ps] was forgotten ([live_flush] does so once rows were restored, see C38). *)
Definition unleaked (x : xuni) (ps : list nat) : Prop :=
  forall p f, In p ps -> nth_error (xu_fl x) p = Some f -> fs_leaked f = 0.

(** What programs bring [x0] to, and which table is locked for writing then, and how.  They lock tables, change them with care (see
    [careful]; [fussy]: tidily too, see [tidy]), flush them with [flush] or, any number of times, [live_flush], unlock them; they clear
    consistent tables; they add saved rows; they have trackers told of rows they select with read
    locks; they register trackers; and they have tables remap ids to themselves. *)
Inductive runs (fussy : bool) (pr : profile) (umax fuel : nat) (heads : nat -> header) (foreign : nat -> list (nat * nat)) (null : nat -> nat -> Prop)
    (order : nat -> row -> row -> comparison) (x0 : xuni) : xuni -> option (nat * wlock) -> Prop :=
| runs_start : runs fussy pr umax fuel heads foreign null order x0 x0 None
| runs_lock x p t : runs fussy pr umax fuel heads foreign null order x0 x None -> nth_error (u_tabs (xu_u x)) p = Some t ->
    runs fussy pr umax fuel heads foreign null order x0 x (Some (p, w_new t))
| runs_live x p t w es w1 ev x' w' : runs fussy pr umax fuel heads foreign null order x0 x (Some (p, w)) -> careful null order (xu_u x) p es ev ->
    nth_error (u_tabs (xu_u x)) p = Some t -> t_kind t = Consistent -> do_edits pr umax w es = Ok w1 -> t_len (w_tab w1) <= t_imax (w_tab w1) ->
    (fussy = true -> tidy t w1 es) -> x_live_flush pr umax fuel x [] p w1 ev = Ok (x', w') ->
    runs fussy pr umax fuel heads foreign null order x0 x' (Some (p, w'))
| runs_flush x p t w es w1 ev x' : runs fussy pr umax fuel heads foreign null order x0 x (Some (p, w)) -> careful null order (xu_u x) p es ev ->
    nth_error (u_tabs (xu_u x)) p = Some t -> do_edits pr umax w es = Ok w1 -> t_len (w_tab w1) <= t_imax (w_tab w1) ->
    (fussy = true -> tidy t w1 es) -> x_flush pr umax fuel x [] p w1 ev = Ok x' -> runs fussy pr umax fuel heads foreign null order x0 x' None
| runs_clear x p t w es w1 ev x' : runs fussy pr umax fuel heads foreign null order x0 x (Some (p, w)) ->
    nth_error (u_tabs (xu_u x)) p = Some t -> t_kind t = Consistent -> wipes es -> none_deleted (xu_u x) p -> plain_removal ev ->
    nth_error (u_hdl (xu_u x)) (ev_id ev) = Some HDelete -> do_edits pr umax w es = Ok w1 -> x_flush pr umax fuel x [] p w1 ev = Ok x' ->
    runs fussy pr umax fuel heads foreign null order x0 x' None
| runs_close x p w t : runs fussy pr umax fuel heads foreign null order x0 x (Some (p, w)) -> w_drop w = Ok t ->
    runs fussy pr umax fuel heads foreign null order x0 (XU (u_put (xu_u x) p t) (xu_fl x)) None
| runs_select x p t sel ev u' : runs fussy pr umax fuel heads foreign null order x0 x None -> nth_error (u_tabs (xu_u x)) p = Some t ->
    t_kind t = Consistent -> handled_by_nothing (xu_u x) ev ->
    (fussy = true -> match sel with SAll => True | SThese ids => Forall (fun i => exists r, t_get_row t i = Ok r) ids end) ->
    read_select pr umax fuel (xu_u x) [] p ev sel = Ok u' -> runs fussy pr umax fuel heads foreign null order x0 (XU u' (xu_fl x)) None
| runs_register x p srt f x' : runs fussy pr umax fuel heads foreign null order x0 x None -> x_register_tracker x [] p (TUser srt f) = Ok x' ->
    runs fussy pr umax fuel heads foreign null order x0 x' None
| runs_import x ps src sel es ev x' : runs fussy pr umax fuel heads foreign null order x0 x None ->
    addable pr umax heads foreign null x ps src sel es ev -> unleaked x ps ->
    restore_all pr umax heads foreign order fuel es ev ps x x' -> runs fussy pr umax fuel heads foreign null order x0 x' None
| runs_identity x p x' : runs fussy pr umax fuel heads foreign null order x0 x None -> x_identity x p = Ok x' ->
    runs fussy pr umax fuel heads foreign null order x0 x' None.
