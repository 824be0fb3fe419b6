(** C132 to C135 for programs that succeed in a debug build: the changed program succeeds alike in every build, release builds and builds with a larger [usize] too. *)
From Coq Require Import List Arith Bool ZArith.
From Verif Require Import Base Column RowRange Table Visit SortedTab TableSpec Hist Cases Answers PlainSpec PropsCut ChooseSpec PropsChoose WiderSpec PropsWider KindSpec PropsKind RenameSpec PropsRename AnyBuild.
Import ListNotations.

(** C132, any build. *)
Theorem C132_any_build :
  forall umax umax' pr, umax <= umax' -> forall pi sch cs cs' l, pi <> [] -> NoDup pi -> Forall (fun k => k < length (s_cols sch)) pi ->
  Forall (call_ty (s_cols sch)) cs -> Forall (call_ty (s_cols (choose_sch pi sch))) cs' -> Forall2 (moved pi (length (s_cols sch))) cs cs' -> all_legal sch false cs = true ->
  talks Debug umax (Free (t_new sch)) cs = Ok l -> talks pr umax' (Free (t_new (choose_sch pi sch))) cs' = Ok (map (choose_answer pi) l).
Proof. exact chosen_any. Qed.
Print Assumptions C132_any_build.
(** See [C132_case]. *)
Example C132_any_case :
  exists l, length l = 8 /\ talks Debug 255 (Free (t_new (wide Sorted))) old_calls = Ok l /\
    talks Release 511 (Free (t_new (choose_sch around (wide Sorted)))) new_calls = Ok (map (choose_answer around) l).
Proof. eexists. split; [|split; [vm_compute; reflexivity|vm_compute; reflexivity]]. reflexivity. Qed.

(** C133, any build. *)
Theorem C133_any_build :
  forall umax umax' pr, umax <= umax' -> forall sch big cs l, s_imax sch <= big -> s_cols sch <> [] -> Forall (call_ty (s_cols sch)) cs -> all_legal sch false cs = true ->
  talks Debug umax (Free (t_new sch)) cs = Ok l ->
  exists l', talks pr umax' (Free (t_new (with_ids sch big))) cs = Ok l' /\ Forall2 (fun cx x' => wider (s_imax sch) big (fst cx) (snd cx) x') (combine cs l) l'.
Proof. exact wider_any. Qed.
Print Assumptions C133_any_build.
(** See [C133_case]. *)
Example C133_any_case :
  talks Release 511 (Free (t_new (with_ids (few Consistent) 7))) fill_up =
    Ok [ANothing; ASpan 7 7; ASpan 0 2; AItems [Some 0; None] [r1; []]; ANothing; ANothing; ANothing; ANothing; ANothing; AId (Some 0); ANothing; AIds [0; 1; 2; 3]; ARow r2; AId (Some 3)].
Proof. vm_compute. reflexivity. Qed.

(** C134, any build. *)
Theorem C134_any_build :
  forall umax umax' pr, umax <= umax' -> forall sch k cs l, s_kind sch <> Sorted -> k <> Sorted -> s_cols sch <> [] -> Forall (call_ty (s_cols sch)) cs ->
  all_legal sch false cs = true -> all_legal (with_kind sch k) false cs = true ->
  forallb deletes_nothing cs = true -> (k = Consistent -> s_kind sch = Consistent \/ forallb tells cs = true) ->
  talks Debug umax (Free (t_new sch)) cs = Ok l -> talks pr umax' (Free (t_new (with_kind sch k))) cs = Ok l.
Proof. exact kind_any. Qed.
Print Assumptions C134_any_build.
(** See [C134_case]. *)
Example C134_any_case :
  exists l, length l = 16 /\ talks Debug 255 (Free (t_new (some_table Append))) fill = Ok l /\ talks Release 511 (Free (t_new (some_table Consistent))) fill = Ok l.
Proof. eexists. split; [|split; [vm_compute; reflexivity|vm_compute; reflexivity]]. reflexivity. Qed.

(** C135, any build. *)
Theorem C135_any_build :
  forall umax umax' pr, umax <= umax' -> forall rho sch ts cs cs' l, s_cols sch <> [] -> same_indexes (s_cols sch) ts ->
  Forall (call_ty (s_cols sch)) cs -> Forall (call_ty ts) cs' -> Forall2 (renamed rho (length (s_cols sch))) cs cs' -> all_legal sch false cs = true ->
  talks Debug umax (Free (t_new sch)) cs = Ok l -> talks pr umax' (Free (t_new (with_types sch ts))) cs' = Ok (rename_answers rho cs l).
Proof. exact renaming_any. Qed.
Print Assumptions C135_any_build.
(** See [C135_case]. *)
Example C135_any_case :
  exists l, length l = 13 /\ talks Debug 255 (Free (t_new (pairs_of Consistent))) numbers = Ok l /\
    talks Release 511 (Free (t_new (with_types (pairs_of Consistent) [Plain TBool; Indexed TVec]))) bits = Ok (rename_answers bit_and_back numbers l).
Proof. eexists. split; [|split; [vm_compute; reflexivity|vm_compute; reflexivity]]. reflexivity. Qed.
