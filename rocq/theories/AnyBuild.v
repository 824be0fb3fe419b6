(** What holds in debug builds, for programs that succeed there, holds in all builds (C132 to C135). *)
From Coq Require Import List Arith Bool.
From Verif Require Import Base Column RowRange Table Visit SortedTab TableSpec Hist Answers PlainSpec BuildFacts ChooseSpec ChooseFacts WiderSpec WiderFacts KindSpec KindFacts RenameSpec RenameFacts.
Import ListNotations.

Section B.
Variables (umax umax' : nat) (pr : profile).
Hypothesis Hu : umax <= umax'.
Lemma one_talks_ov cs : forall st, ov (talks Debug umax st cs) (talks pr umax' st cs).
Proof.
  induction cs as [|c cs IH]; intro st; cbn [talks]; [apply ov_refl|]. apply ov_bind; [apply step_ov; exact Hu|]. intro st'. apply ov_bind; [apply answer_ov; exact Hu|]. intro x.
  apply ov_bind; [apply IH|]. intro l. apply ov_refl.
Qed.
Lemma any_build st cs l : talks Debug umax st cs = Ok l -> talks pr umax' st cs = Ok l.
Proof. intro E. destruct (one_talks_ov cs st) as [O|O]; [rewrite O in E; discriminate E|congruence]. Qed.
Theorem chosen_any pi sch cs cs' l : pi <> [] -> NoDup pi -> Forall (fun k => k < length (s_cols sch)) pi ->
  Forall (call_ty (s_cols sch)) cs -> Forall (call_ty (s_cols (choose_sch pi sch))) cs' -> Forall2 (moved pi (length (s_cols sch))) cs cs' -> all_legal sch false cs = true ->
  talks Debug umax (Free (t_new sch)) cs = Ok l -> talks pr umax' (Free (t_new (choose_sch pi sch))) cs' = Ok (map (choose_answer pi) l).
Proof. intros H1 H2 H3 H4 H5 H6 H7 E. pose proof (chosen umax pi sch cs cs' H1 H2 H3 H4 H5 H6 H7) as Q. rewrite E in Q. apply any_build. exact Q. Qed.
Theorem wider_any sch big cs l : s_imax sch <= big -> s_cols sch <> [] -> Forall (call_ty (s_cols sch)) cs -> all_legal sch false cs = true -> talks Debug umax (Free (t_new sch)) cs = Ok l ->
  exists l', talks pr umax' (Free (t_new (with_ids sch big))) cs = Ok l' /\ Forall2 (fun cx x' => wider (s_imax sch) big (fst cx) (snd cx) x') (combine cs l) l'.
Proof. intros H1 H2 H3 H4 E. destruct (wider_ok umax sch big H1 cs l H2 H3 H4 E) as (l' & E' & W). exists l'. split; [apply any_build; exact E'|exact W]. Qed.
Theorem kind_any sch k cs l : s_kind sch <> Sorted -> k <> Sorted -> s_cols sch <> [] -> Forall (call_ty (s_cols sch)) cs ->
  all_legal sch false cs = true -> all_legal (with_kind sch k) false cs = true ->
  forallb deletes_nothing cs = true -> (k = Consistent -> s_kind sch = Consistent \/ forallb tells cs = true) ->
  talks Debug umax (Free (t_new sch)) cs = Ok l -> talks pr umax' (Free (t_new (with_kind sch k))) cs = Ok l.
Proof. intros H1 H2 H3 H4 H5 H6 H7 H8 E. apply any_build. eapply other_kind; eauto. Qed.
Theorem renaming_any rho sch ts cs cs' l : s_cols sch <> [] -> same_indexes (s_cols sch) ts ->
  Forall (call_ty (s_cols sch)) cs -> Forall (call_ty ts) cs' -> Forall2 (renamed rho (length (s_cols sch))) cs cs' -> all_legal sch false cs = true ->
  talks Debug umax (Free (t_new sch)) cs = Ok l -> talks pr umax' (Free (t_new (with_types sch ts))) cs' = Ok (rename_answers rho cs l).
Proof. intros H1 H2 H3 H4 H5 H6 E. pose proof (renaming umax rho sch ts cs cs' H1 H2 H3 H4 H5 H6) as Q. rewrite E in Q. apply any_build. exact Q. Qed.
End B.
