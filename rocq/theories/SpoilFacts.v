(** Lemmas behind PropsSpoil.v. *)
From Coq Require Import List Arith Bool Lia.
From Verif Require Import Base BaseFacts Names Column Order RowRange Table Visit SortedTab BagTab TableSpec TableFacts
  Hist HistFacts TableProps RowProps Events Race RaceSpec RaceFacts Cascade CascadeSpec CascadeFacts CascadeProps Extract
  IntegritySpec IntegrityFacts Threads ThreadSpec ThreadSeq ThreadFacts ThreadSafe Poison PoisonSpec PoisonFacts ThreadApart.
Import ListNotations.

Section Alone.
Variables (pr : profile) (umax : nat).
Lemma deletes_sane t ids w : t_kind t = Consistent -> sane pr umax (t_sch t) (Free t) -> do_edits pr umax (w_new t) (map ODelete ids) = Ok w ->
  sane pr umax (t_sch t) (Locked w []).
Proof.
  intros Kd Sn H. assert (Ks : s_kind (t_sch t) = Consistent) by exact Kd.
  assert (X : (fun q : wlock * list bag_pos => snd q = [] /\ sane pr umax (t_sch t) (Locked (fst q) [])) (w, [])); [|apply X].
  eapply (edits_inv pr umax) with (R := fun o => exists i, o = ODelete i); [|split; [reflexivity|]| |exact H].
  - apply Forall_map, Forall_forall. intros i _. eauto.
  - eapply sane_step with (o := OLock); [exact Sn|exact I|intro E; discriminate E|]. unfold step. cbn [st_tab]. unfold avail. reflexivity.
  - intros [w1 its] o [w2 its2] (Ei & S1) (i & ->) TL A W Sp. cbn [fst snd] in *. subst its.
    pose proof (sane_tg _ _ _ _ S1) as G. apply tg_weak in G. cbn [st_tab] in G. rewrite (tg_kind _ _ _ G), Ks in A.
    pose proof (its_nil _ _ _ _ _ _ A W) as ->. split; [reflexivity|]. eapply (sane_step _ _ _ _ (ODelete i)); [exact S1|exact I| |exact Sp]. intro E. discriminate E.
Qed.
Lemma deletes_flush rank fuel u p t ids ev : linked pr umax rank u -> rank p < fuel ->
  nth_error (u_tabs u) p = Some t -> t_kind t = Consistent -> sane pr umax (t_sch t) (Free t) ->
  Forall (fun i => t_contains t i = true) ids -> NoDup ids -> plain_removal ev -> nth_error (u_hdl u) (ev_id ev) = Some HDelete ->
  exists w u', do_edits pr umax (w_new t) (map ODelete ids) = Ok w /\ flush pr umax fuel u [] p w ev = Ok u' /\
    forall c tc, nth_error (u_tabs u) c = Some tc -> exists tc', nth_error (u_tabs u') c = Some tc' /\ loses (doomed u p ids c) tc tc'.
Proof.
  intros L Hf Hp Kd Sn Fc Nd PE HD.
  pose proof (sane_tg _ _ _ _ Sn) as G0. cbn [st_tab] in G0. pose proof (tg_weak _ _ _ G0) as G. pose proof G as (_ & live & rows & K & _).
  destruct (deletes_done pr umax t live rows ids K Kd Fc) as (w & He & Ew).
  pose proof (deletes_sane t ids w Kd Sn He) as Sl.
  destruct (edits_marks pr umax (t_sch t) (map ODelete ids) (w_new t) w Kd G eq_refl eq_refl) as (Ch & Pu & Lt); auto.
  1-3: apply Forall_map, Forall_forall; try reflexivity; intros; exact I.
  rewrite deleted_map in Ch, Lt.
  destruct (flush_cascade pr umax rank u p w ids ev) with (fuel := fuel) as (u' & E' & _ & _ & _ & T'); auto; try (rewrite ?Ew; auto; fail).
  { rewrite Pu. reflexivity. }
  { left. exact Nd. }
  exists w, u'. split; [exact He|]. split; [exact E'|]. intros c tc Hc. destruct (T' _ _ Hc) as (tc' & Hc' & _ & Ls & _). eauto.
Qed.
End Alone.
Lemma apart_deletes pr umax heads foreign order fuel x tss (ss : nat -> nat -> Prop) d rank :
  made pr umax (xu_u x) -> (forall p t, nth_error (u_tabs (xu_u x)) p = Some t -> pr = Debug \/ t_kind t <> Bag) -> Forall (Forall (top_ty (xu_u x))) tss ->
  (forall i j p, ss i p -> ss j p -> i = j) -> (forall i, self_contained (ss i) (xu_u x)) ->
  (forall i ops, nth_error tss i = Some ops -> Forall (uses_only foreign (ss i)) ops) ->
  crowd_steps (begun x (map (Threads.p_run pr umax heads foreign order fuel) tss)) d ->
  linked pr umax rank (xu_u x) ->
  forall i p t ids ev g r, nth_error tss i = Some [TDo (XFlush p (map ODelete ids) ev)] -> rank p < fuel ->
  nth_error (u_tabs (xu_u x)) p = Some t -> t_kind t = Consistent -> sane pr umax (t_sch t) (Free t) ->
  Forall (fun i => t_contains t i = true) ids -> NoDup ids -> plain_removal ev -> nth_error (u_hdl (xu_u x)) (ev_id ev) = Some HDelete ->
  nth_error (th_ts (cr_c d)) i = Some (g, Ret r) ->
  r = Ok tt /\ forall c tc tc', ss i c -> nth_error (u_tabs (xu_u x)) c = Some tc -> nth_error (u_tabs (xu_u (th_x (cr_c d)))) c = Some tc' ->
    loses (doomed (xu_u x) p ids c) tc tc'.
Proof.
  intros M B T D C U S L i p t ids ev g r Hi Hf Hp Kd Sn Fc Nd PE HD Hr.
  destruct (deletes_flush pr umax rank fuel _ p t ids ev L Hf Hp Kd Sn Fc Nd PE HD) as (w & u' & He & Hu & Hl).
  pose proof (apart_result pr umax heads foreign order fuel x tss ss d M B T D C U S i _ g r Hi Hr) as R.
  cbn [fold_res seq_top x_step] in R. unfold u_get in R. rewrite Hp in R. cbn [bind] in R. rewrite He in R. cbn [bind] in R.
  unfold x_flush in R. rewrite Hu in R. cbn [bind] in R. destruct r as [[]|e]; [|discriminate]. split; [reflexivity|].
  destruct R as (y & [= <-] & R). intros c tc tc' Sc Hc Hc'. destruct (R c Sc) as [R1 _]. cbn [xu_u] in R1.
  destruct (Hl c tc Hc) as (tc2 & Hc2 & Ls). rewrite Hc', Hc2 in R1. injection R1 as ->. exact Ls.
Qed.
