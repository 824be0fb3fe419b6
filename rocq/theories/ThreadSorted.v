(** Proofs: sorted tables stay sorted whatever threads do. *)
From Coq Require Import List Arith Bool Lia Sorting.Sorted.
From Verif Require Import Base BaseFacts Names Column Order RowRange Table Visit SortedTab BagTab TableSpec TableFacts
  SortedFacts Hist HistFacts RowProps Events Cascade CascadeSpec Extract Threads ThreadSpec ThreadSeq ThreadFacts ThreadSafe ThreadReads ThreadVal Poison PoisonSpec PoisonFacts.
Import ListNotations.

Lemma ascending_dec (cmp : row -> row -> comparison) rows : {ascending cmp rows} + {~ ascending cmp rows}.
Proof.
  induction rows as [|r rows IH]; [left; constructor|]. destruct IH as [IH|IH].
  - assert (D : forall b, {le_by cmp r b} + {~ le_by cmp r b}) by (intro b; unfold le_by; destruct (cmp r b); [left|left|right]; congruence).
    destruct (Forall_dec (le_by cmp r) D rows) as [F|F].
    + left. constructor; assumption.
    + right. intro A. inversion A; subst. contradiction.
  - right. intro A. inversion A; subst. contradiction.
Qed.
Lemma step_length c c' : all_read c -> thread_step c c' -> length (u_tabs (xu_u (th_x c'))) = length (u_tabs (xu_u (th_x c))).
Proof.
  intros R S. unfold all_read in R. rewrite Forall_forall in R. destruct S; try reflexivity. cbn [th_x th_ts] in *.
  assert (Hin : In (g, Act f k) (a ++ (g, Act f k) :: b)) by (apply in_or_app; right; left; reflexivity).
  destruct (R _ Hin x x (same_for_refl g x)) as (_ & _ & ((F & _) & _) & _). exact F.
Qed.
Lemma tg_ordered cmp s t rows : s_kind s = Sorted -> tg false s t -> holds t rows -> ascending cmp rows -> ordered s cmp t.
Proof.
  intros Ks (E & live & rs & K & _) H A. assert (Nk : t_kind t <> Consistent) by (unfold t_kind; rewrite E, Ks; discriminate).
  split; [exact E|]. exists rs. split; [exact (t_ok_all_live _ _ _ Nk K)|].
  rewrite (holds_unique t rs rows); [exact A|eapply holds_of; eauto|exact H].
Qed.
Lemma tg_holds s t : s_kind s = Sorted -> tg false s t -> exists rows, holds t rows.
Proof. intros Ks (E & live & rs & K & _). exists rs. eapply holds_of; [exact K|]. unfold t_kind. rewrite E, Ks. discriminate. Qed.
Lemma ordered_holds cmp s t rows : s_kind s = Sorted -> ordered s cmp t -> holds t rows -> ascending cmp rows.
Proof.
  intros Ks G H. pose proof G as (E & rs & K & A). replace rows with rs; [exact A|]. eapply holds_unique; [|exact H]. eapply holds_of; [exact K|].
  rewrite (ordered_kind s cmp Ks _ G). discriminate.
Qed.
Lemma edits_ordered pr umax cmp s es w w' : total_preorder cmp -> s_kind s = Sorted -> ordered s cmp (w_tab w) ->
  Forall (op_ty (s_cols s)) es -> Forall (keeps_order cmp) es -> do_edits pr umax w es = Ok w' -> ordered s cmp (w_tab w').
Proof.
  intros P Ks G Ty K H. unfold do_edits in H. bindn H q Hq. destruct (snd q); [|discriminate]. injection H as <-.
  revert Ty K Hq. assert (G0 : ordered s cmp (w_tab (fst (w, @nil bag_pos)))) by exact G. revert G0. generalize (w, @nil bag_pos). clear G.
  induction es as [|o es IH]; intros q0 G Ty K Hq; cbn [fold_res] in Hq; [injection Hq as <-; exact G|]. bindn Hq q1 H1.
  apply Forall_cons_iff in Ty. destruct Ty as [To Ty]. apply Forall_cons_iff in K. destruct K as [Ko K]. apply (IH q1); auto.
  unfold do_edit in H1. destruct (through_lock o); [|discriminate]. cbn [andb] in H1. destruct (avail _ o) eqn:A; [|discriminate].
  rewrite (ordered_kind s cmp Ks _ G) in A. eapply (write_ordered pr umax s cmp P Ks); eauto.
Qed.
Lemma threads_sorted pr umax heads foreign order fuel x tss p c :
  made pr umax (xu_u x) -> (forall p t, nth_error (u_tabs (xu_u x)) p = Some t -> pr = Debug \/ t_kind t <> Bag) ->
  Forall (Forall (top_ty (xu_u x))) tss -> total_preorder (order p) -> Forall (Forall (top_keeps (order p) p)) tss ->
  (forall t rows, nth_error (u_tabs (xu_u x)) p = Some t -> holds t rows -> ascending (order p) rows) ->
  thread_steps (started x (map (Threads.p_run pr umax heads foreign order fuel) tss)) c ->
  forall t rows, nth_error (u_tabs (xu_u (th_x c))) p = Some t -> t_kind t = Sorted -> holds t rows -> ascending (order p) rows.
Proof.
  intros M B T P K A0 S. remember (started x _) as c0 eqn:E0. induction S as [|c0 c1 c2 S IH S']; subst; [intros t rows Et _; exact (A0 t rows Et)|].
  specialize (IH eq_refl). intros t' rows' Et' Ks' H'.
  destruct (started_safe pr umax heads foreign order fuel x tss M B T) as (has & sch & Hx & NB & Ty & Safe).
  pose proof (all_safe_steps _ _ _ _ _ S Safe) as Sf1. pose proof (all_safe_step _ _ _ _ _ S' Sf1) as Sf2.
  pose proof (step_length _ _ (all_read_steps _ _ S (started_read pr umax heads foreign order fuel x tss)) S') as Len.
  destruct Sf1 as [I1 _]. destruct Sf2 as [I2 _]. destruct (I2 _ _ Et') as [Hp G'].
  assert (exists t, nth_error (u_tabs (xu_u (th_x c1))) p = Some t) as [t Et].
  { destruct (nth_error (u_tabs (xu_u (th_x c1))) p) eqn:E; eauto. exfalso.
    apply nth_error_None in E. assert (p < length (u_tabs (xu_u (th_x c2)))) by (apply nth_error_Some; congruence). lia. }
  destruct (I1 _ _ Et) as [_ G]. assert (Ks : s_kind (sch p) = Sorted) by (rewrite <- (tg_kind _ _ _ G'); exact Ks').
  assert (Kt : t_kind t = Sorted) by (rewrite (tg_kind _ _ _ G); exact Ks).
  destruct (tg_holds _ _ Ks G) as [rows H]. pose proof (IH _ _ Et Kt H) as A.
  destruct (ascending_dec (order p) rows') as [|NA]; [assumption|].
  assert (Ne : t' <> t) by (intros ->; exact (NA (IH _ _ Et Kt H'))).
  destruct (changes_of_tables pr umax heads foreign order fuel x tss c1 c2 p t t' M B T S S' Et Et' Ne) as (i & ops & Ei & _ & Bc).
  apply nth_error_In in Ei. rewrite Forall_forall in Ty, K. pose proof (Ty _ Ei) as Tyo. pose proof (K _ Ei) as Ko. rewrite Forall_forall in Tyo, Ko.
  destruct Bc as [es ev w Hin E Ew|F|e ev Hin Mo].
  - pose proof (tg_ordered (order p) _ _ _ Ks G H A) as O. subst t'. eapply (ordered_holds (order p) (sch p)); [exact Ks| |exact H'].
    destruct Hin as [Hin|Hin]; refine (edits_ordered pr umax (order p) (sch p) es (w_new t) w P Ks O _ _ E);
      first [exact (Tyo _ Hin Hp)|exact (proj2 (Tyo _ Hin))|exact (Ko _ Hin eq_refl)|idtac].
  - unfold fewer in F. rewrite Kt in F. destruct (F _ H) as (ids & F'). rewrite (holds_unique _ _ _ H' F'). apply without_asc. exact A.
  - unfold more in Mo. rewrite Kt in Mo. destruct (Mo _ H) as (rs & new & Hn & _ & Mn). rewrite (holds_unique _ _ _ H' Hn). apply Mn; assumption.
Qed.
Lemma crowd_sorted pr umax heads foreign order fuel x tss p d :
  made pr umax (xu_u x) -> (forall p t, nth_error (u_tabs (xu_u x)) p = Some t -> pr = Debug \/ t_kind t <> Bag) ->
  Forall (Forall (top_ty (xu_u x))) tss -> total_preorder (order p) -> Forall (Forall (top_keeps (order p) p)) tss ->
  (forall t rows, nth_error (u_tabs (xu_u x)) p = Some t -> holds t rows -> ascending (order p) rows) ->
  crowd_steps (begun x (map (Threads.p_run pr umax heads foreign order fuel) tss)) d -> ~ In (LT p) (cr_bad d) ->
  forall t rows, nth_error (u_tabs (xu_u (th_x (cr_c d)))) p = Some t -> t_kind t = Sorted -> holds t rows -> ascending (order p) rows.
Proof.
  intros M B T P K A0 S Nb t rows Et. destruct (crowd_as_if _ _ _ _ _ _ _ _ _ S) as (c & Sc & _ & (Sm & _)).
  rewrite (Sm _ Nb) in Et. exact (threads_sorted _ _ _ _ _ _ _ _ _ _ M B T P K A0 Sc t rows Et).
Qed.
