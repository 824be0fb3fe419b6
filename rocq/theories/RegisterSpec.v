(** Vocabulary for what may be registered (PropsRegister.v). *)
From Coq Require Import List Arith Bool.
From Verif Require Import Base Names NamesFacts Table Extract Registry.
Import ListNotations.

(** Names that may be used, and no two columns of one name. *)
Definition proper (t : tdecl) : Prop :=
  identifier (td_name t) /\ Forall (fun c => identifier (cm_name c)) (td_cols t) /\ NoDup (map cm_name (td_cols t)).
(** Each column wanted is there, and is of the type wanted. *)
Definition fits_in (want have : list colmeta) : Prop :=
  Forall (fun c => exists x, In x have /\ cm_name x = cm_name c /\ cm_type x = cm_type c) want.
