(** The place of tables for programs that save and restore them (C138). *)
From Coq Require Import List Arith Bool.
From Verif Require Import Base Column Table Events Cascade Extract PlaceSpec.
Import ListNotations.

Section Place.
(** Table [p] becomes table [sg p]. *)
Variable sg : nat -> nat.
Definition tables_of (x : xuni) : nat := length (u_tabs (xu_u x)).
(** The second universe has the tables of the first at their new places, with their remappings and trackers, maybe among other tables; it was told the same. *)
Record x_placed (x x' : xuni) : Prop := {
  xp_apart : forall p q, p < tables_of x -> q < tables_of x -> sg p = sg q -> p = q;
  xp_tables : forall p t, nth_error (u_tabs (xu_u x)) p = Some t -> nth_error (u_tabs (xu_u x')) (sg p) = Some t;
  xp_remaps : forall p, p < tables_of x -> nth_error (xu_fl x') (sg p) = nth_error (xu_fl x) p;
  xp_trackers : forall p, p < tables_of x -> u_trackers (xu_u x') (sg p) = map (place_tracker sg) (u_trackers (xu_u x) p);
  xp_known : forall p c k key, In (TAuto c k key) (u_trackers (xu_u x) p) -> c < tables_of x;
  xp_room : length (u_trk (xu_u x)) = tables_of x /\ forall p, p < tables_of x -> sg p < length (u_trk (xu_u x'));
  xp_handlers : u_hdl (xu_u x') = u_hdl (xu_u x);
  xp_told : u_log (xu_u x') = map (place_note sg) (u_log (xu_u x)) }.
(** Tables that are not among those of the first universe. *)
Definition elsewhere (x : xuni) (q : nat) : Prop := forall p, p < tables_of x -> sg p <> q.
Definition place_xop (o : xop) : xop :=
  match o with
  | XFlush p es ev => XFlush (sg p) es ev
  | XLive p es ev => XLive (sg p) es ev
  | XRestore p e ev => XRestore (sg p) e ev
  | XRegister p tr => XRegister (sg p) (place_tracker sg tr)
  | XIdentity p => XIdentity (sg p)
  end.
End Place.
(** The call is about tables that there are, [n] in all. *)
Definition x_about (n : nat) (o : xop) : Prop :=
  match o with
  | XFlush p _ _ | XLive p _ _ | XRestore p _ _ | XIdentity p | XRegister p (TUser _ _) => p < n
  | XRegister p (TAuto q _ _) => p < n /\ q < n
  end.
(** The same code for the tables at their new places; foreign columns refer to tables that there are. *)
Record same_code (sg : nat -> nat) (n : nat) (heads heads' : nat -> header) (foreign foreign' : nat -> list (nat * nat)) (order order' : nat -> row -> row -> comparison) : Prop := {
  sc_heads : forall p, p < n -> heads' (sg p) = heads p;
  sc_foreign : forall p, p < n -> foreign' (sg p) = map (fun kq => (fst kq, sg (snd kq))) (foreign p);
  sc_known : forall p kq, p < n -> In kq (foreign p) -> snd kq < n;
  sc_order : forall p, p < n -> order' (sg p) = order p }.
