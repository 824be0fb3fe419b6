(** Lemmas behind PropsMirror.v. *)
From Coq Require Import List Arith Bool Lia Sorting.Sorted Sorting.Permutation.
From Verif Require Import Base BaseFacts Column ColumnFacts Order RowRange Table Visit VisitFacts SortedTab SortedFacts BagTab TableSpec
  TableFacts Hist HistFacts TableProps RowProps Events Cascade CascadeSpec CascadeLog CascadeFacts CascadeProps Extract RaceSpec RaceFacts IntegritySpec
  IntegrityFacts BlameFacts MirrorSpec.
Import ListNotations.

Lemma tended_lives pr umax fuel null order u0 u : tended pr umax fuel null order u0 u -> lives pr umax fuel null order u0 u.
Proof. induction 1; [constructor|econstructor; eauto]. Qed.

(** ** Calls under a lock: new rows are on the list *)
Section News.
Variables (pr : profile) (umax : nat) (s : schema).
Hypothesis Kc : s_kind s = Consistent.
Notation wt w := (tg true s (w_tab w)).
Notation has w i := (t_contains (w_tab w) i).
Lemma xpush_tg w r w' j : wt w -> row_ty (s_cols s) r -> push w r = Ok (w', j) -> wt w'.
Proof. intros G T H. pose proof (good_push_tg pr umax true s w r G T) as X. rewrite H in X. exact X. Qed.
Lemma xpush_end_tg w r w' j : wt w -> row_ty (s_cols s) r -> push_end_unchecked w r = Ok (w', j) -> wt w'.
Proof. intros G T H. pose proof (good_push_end_tg pr umax true s w r G T) as X. rewrite H in X. exact X. Qed.
Lemma xwrite_tg w o w' its : wt w -> op_ty (s_cols s) o -> avail Consistent o = true -> through_lock o = true -> wholesale o = false ->
  write_op pr umax w [] o = Ok (w', its) -> wt w'.
Proof.
  intros G T A TL Wh H. pose proof (good_write_op pr umax true s w [] o G T) as X. rewrite Kc, H in X.
  apply X; auto; [discriminate|]. intros _ Y. destruct o; try discriminate TL; try discriminate Wh; discriminate Y.
Qed.
Definition news (w w' : wlock) : Prop :=
  (forall i, has w i = true -> has w' i = true) /\
  (forall i, chosen (w_changes w) i -> chosen (w_changes w') i) /\
  (forall i, has w' i = true -> has w i = true \/ chosen (w_changes w') i) /\
  (forall i, chosen (w_changes w') i -> chosen (w_changes w) i \/ has w' i = true).
Lemma news_refl w : news w w.
Proof. repeat split; auto. Qed.
Lemma news_trans a b c : news a b -> news b c -> news a c.
Proof.
  intros (A1 & A2 & A3 & A4) (B1 & B2 & B3 & B4). split; [auto|]. split; [auto|]. split; intros i Hi.
  - destruct (B3 i Hi) as [X|X]; auto. destruct (A3 i X); auto.
  - destruct (B4 i Hi) as [X|X]; auto. destruct (A4 i X); auto.
Qed.
Lemma chosen_pushed c j i : chosen c i \/ i = j -> chosen (sel_push c j) i.
Proof. destruct c; cbn; [auto|]. rewrite in_app_iff. cbn. intuition. Qed.
Lemma news_one w w' j : (forall i, has w' i = true <-> has w i = true \/ i = j) -> w_changes w' = sel_push (w_changes w) j -> news w w'.
Proof.
  intros H E. split; [intros i Hi; apply H; auto|]. rewrite E. split; [intros i Hi; apply chosen_pushed; auto|]. split; intros i Hi.
  - apply H in Hi. destruct Hi; auto using chosen_pushed.
  - apply chosen_push in Hi. destruct Hi as [X|X]; auto. right. apply H. auto.
Qed.
Lemma push_news w r w' j : wt w -> row_ty (s_cols s) r -> push w r = Ok (w', j) -> news w w'.
Proof.
  intros G T H. pose proof G as (E & live & rows & K & _). pose proof (xpush_tg w r w' j G T H) as (E' & live' & rows' & K' & _).
  pose proof (push_full_spec w live rows r K) as P. rewrite E in P. specialize (P T). rewrite H in P.
  destruct P as (P1 & P0 & P2 & _). apply (news_one w w' j).
  - intro i. destruct (Nat.eq_dec i j) as [->|N].
    + split; [auto|]. intros _. apply (get_has _ live' rows' j K'). eauto.
    + destruct (P2 i N) as (_ & -> & _). tauto.
  - pose proof (tg_kind _ _ _ G) as Kw. rewrite Kc in Kw. clear - H Kw. unfold push in H.
    destruct (t_free (w_tab w)) as [|o f] eqn:F.
    + unfold push_end_unchecked in H. bindn H q Hq. destruct q as [w1 i1]. injection H as <- <-.
      destruct (push_only_log _ _ _ _ Hq) as (t & -> & Et). simpl. rewrite event_add_changes; auto.
      simpl. unfold t_kind in *. congruence.
    + bindn H q Hq. destruct q as [w1 o']. injection H as <- <-. apply swap_out_log in Hq. destruct Hq as (t & Q & Et).
      cbn [fst]. rewrite Q. simpl. rewrite event_add_changes; auto.
Qed.
Lemma push_end_news w r w' j : wt w -> row_ty (s_cols s) r -> push_end_unchecked w r = Ok (w', j) -> news w w'.
Proof.
  intros G T H. pose proof G as (E & live & rows & K & Xt). rewrite <- E in T.
  pose proof (tg_kind _ _ _ G) as Kw. rewrite Kc in Kw.
  destruct (Nat.leb_spec (length rows) (t_imax (w_tab w))) as [L|L].
  - destruct (push_end_ok w live rows r K T L (up live (length rows))) as (cs & Q & K').
    { intros x Hx. unfold up. destruct (Nat.eqb_spec x (length rows)); [lia|auto]. }
    { unfold up. rewrite Nat.eqb_refl. auto. }
    rewrite Q in H. injection H as <- <-. apply (news_one _ _ (length rows)).
    + intro i. rewrite event_add_tab. split.
      * intro Hi. apply (contains_iff _ _ _ K') in Hi. rewrite app_length in Hi. cbn [length with_tab w_tab t_free] in Hi. destruct Hi as [Hi Hf].
        destruct (Nat.eq_dec i (length rows)); [auto|]. left. apply (contains_iff _ _ _ K). split; [lia|exact Hf].
      * intros [Hi| ->].
        -- apply (contains_iff _ _ _ K) in Hi. destruct Hi as [Hi Hf]. apply (contains_iff _ _ _ K'). rewrite app_length. cbn. split; [lia|exact Hf].
        -- apply (contains_iff _ _ _ K'). rewrite app_length. cbn. split; [lia|]. destruct (mem (length rows) (t_free (w_tab w))) eqn:M; [|exact M].
           exfalso. pose proof (proj2 (Xt eq_refl)) as F. rewrite Forall_forall in F. apply mem_In in M. specialize (F _ M). lia.
    + rewrite event_add_changes by exact Kw. reflexivity.
  - rewrite (push_end_full w live rows r K T L) in H. discriminate.
Qed.
Lemma push_all_news rs : forall w w', wt w -> Forall (row_ty (s_cols s)) rs -> push_all w rs = Ok w' -> news w w'.
Proof.
  induction rs as [|r rs IH]; intros w w' G T H; unfold push_all in H; cbn [fold_res] in H.
  - injection H as <-. apply news_refl.
  - inv T. bindn H w1 H1. bindn H1 q Hq. injection H1 as <-. destruct q as [w1 j]. cbn [fst] in *.
    eapply news_trans; [eapply push_news; eauto|]. apply IH; auto. eapply xpush_tg; eauto.
Qed.
Lemma push_ends_news rs : forall w i w' j, wt w -> Forall (row_ty (s_cols s)) rs ->
  fold_res (fun s r => push_end_unchecked (fst s) r) rs (w, i) = Ok (w', j) -> news w w'.
Proof.
  induction rs as [|r rs IH]; intros w i w' j G T H; cbn [fold_res] in H.
  - injection H as <- _. apply news_refl.
  - inv T. bindn H q Hq. destruct q as [w1 i1]. cbn [fst] in *.
    eapply news_trans; [eapply push_end_news; eauto|]. eapply IH; eauto. eapply xpush_end_tg; eauto.
Qed.
Lemma push_array_news rs w w' x : wt w -> Forall (row_ty (s_cols s)) rs -> push_array pr w rs = Ok (w', x) -> news w w'.
Proof.
  intros G T H. destruct rs as [|r rs]; unfold push_array in H; [injection H as <- _; apply news_refl|].
  inv T. bindn H q Hq. bindn H q2 Hq2. bindn H e He. injection H as <- _. destruct q as [w1 i1], q2 as [w2 i2]. cbn [fst] in *.
  eapply news_trans; [eapply push_end_news; eauto|]. eapply push_ends_news; eauto. eapply xpush_end_tg; eauto.
Qed.
(** As [news], with rows that were selected. *)
Definition newsel (sel : nat -> Prop) (w w' : wlock) : Prop :=
  (forall i, has w i = true -> has w' i = true) /\
  (forall i, chosen (w_changes w) i -> chosen (w_changes w') i) /\
  (forall i, has w' i = true -> has w i = true \/ chosen (w_changes w') i) /\
  (forall i, chosen (w_changes w') i -> chosen (w_changes w) i \/ has w' i = true \/ sel i).
Lemma newsel_trans sel a b c : newsel sel a b -> newsel sel b c -> newsel sel a c.
Proof.
  intros (A1 & A2 & A3 & A4) (B1 & B2 & B3 & B4). split; [auto|]. split; [auto|]. split; intros i Hi.
  - destruct (B3 i Hi) as [X|X]; auto. destruct (A3 i X); auto.
  - destruct (B4 i Hi) as [X|X]; auto. destruct (A4 i X) as [Y|[Y|Y]]; auto.
Qed.
Lemma news_sel sel w w' : news w w' -> newsel sel w w'.
Proof. intros (A & B & C & D). split; auto. split; auto. split; auto. intros i Hi. destruct (D i Hi); auto. Qed.
Lemma write_newsel w o w' its : wt w -> op_ty (s_cols s) o -> avail Consistent o = true -> through_lock o = true -> wholesale o = false ->
  write_op pr umax w [] o = Ok (w', its) -> newsel (fun i => o = OSelect i) w w'.
Proof.
  intros G T A TL Wh H. pose proof (tg_kind _ _ _ G) as Kw. rewrite Kc in Kw.
  assert (RD : (let* _ := read_op pr umax (w_tab w) o in Ok (w, [])) = Ok (w', its) -> newsel (fun i => o = OSelect i) w w').
  { intro H'. bindn H' u Hu. injection H' as <- _. apply news_sel, news_refl. }
  destruct o; try discriminate A; try discriminate TL; try discriminate Wh; cbn [write_op] in H; try (apply RD; exact H); clear RD.
  - bindn H n H1. injection H as <- _. apply news_sel, news_refl.
  - bindn H n H1. bindn H n1 H2. bindn H n2 H3. injection H as <- _. apply news_sel, news_refl.
  - destruct (write_effect pr umax s Kc w (OAssign k i v) w' its (tg_weak _ _ _ G) T A H) as (E1 & E2 & _). bindn H w1 H1. injection H as <- _. bindn H1 t Ht. injection H1 as <-.
    split; [|split; [auto|split; [|auto]]].
    + intros j Hj. destruct (has (with_tab w t) j) eqn:C; [reflexivity|]. destruct (E1 j Hj C) as [X|(a & b & X & _)]; discriminate X.
    + intros j Hj. destruct (has w j) eqn:C; [auto|]. discriminate (E2 j C Hj).
  - bindn H w1 H1. injection H as <- _. bindn H1 q Hq. injection H1 as <-. destruct q. eapply news_sel, push_news; eauto.
  - bindn H w1 H1. injection H as <- _. destruct rs as [|r rs]; [injection H1 as <-; apply news_sel, news_refl|].
    eapply news_sel, push_all_news; eauto.
  - bindn H w1 H1. injection H as <- _. bindn H1 q Hq. injection H1 as <-. destruct q as [w2 x]. eapply news_sel, push_array_news; eauto.
  - bindn H w1 H1. injection H as <- _. unfold delete in H1. rewrite Kw in H1. bindn H1 x Hx. injection H1 as <-.
    pose proof G as (E & live & rows & K & _). apply (t_check_inv _ _ _ K) in Hx. destruct Hx as (-> & Hi & Hd).
    unfold event_del. rewrite Kw. split; [auto|]. cbn [w_changes w_tab]. split; [intros; apply chosen_pushed; auto|]. split; [auto|].
    intros j Hj. destruct (chosen_push _ _ _ Hj) as [X| ->]; auto. right. left. apply (contains_iff _ _ _ K). split; [exact Hi|].
    rewrite (t_deleted_iff _ _ _ K) in Hd. exact Hd.
  - injection H as <- _. split; [auto|]. cbn [w_changes w_tab]. split; [intros; apply chosen_pushed; auto|]. split; [auto|].
    intros j Hj. destruct (chosen_push _ _ _ Hj) as [X| ->]; auto.
Qed.
Lemma edits_news es t w : tg true s t -> Forall (fun o => op_ty (s_cols s) o /\ wholesale o = false) es -> do_edits pr umax (w_new t) es = Ok w ->
  newsel (fun i => In (OSelect i) es) (w_new t) w.
Proof.
  intros G T H.
  set (P := fun q : wlock * list bag_pos => snd q = [] /\ tg true s (w_tab (fst q)) /\ newsel (fun i => In (OSelect i) es) (w_new t) (fst q)).
  enough (X : P (w, [])) by apply X.
  eapply (edits_inv pr umax P (fun o => In o es /\ op_ty (s_cols s) o /\ wholesale o = false) es (w_new t)).
  - apply Forall_forall. intros o Ho. split; [exact Ho|]. rewrite Forall_forall in T. auto.
  - unfold P. cbn [fst snd w_new w_tab]. split; [reflexivity|]. split; [exact G|]. apply news_sel, news_refl.
  - intros [w0 its] o [w1 its'] (Pn & Pg & Ps) (Io & To & Wo) TL A W _. cbn [fst snd] in *. subst its. rewrite (tg_kind _ _ _ Pg), Kc in A.
    pose proof (write_newsel w0 o w1 its' Pg To A TL Wo W) as N.
    pose proof (xwrite_tg w0 o w1 its' Pg To A TL Wo W) as G1.
    unfold P. cbn [fst snd]. split; [eapply its_nil; eauto|]. split; [exact G1|]. eapply newsel_trans; [exact Ps|].
    destruct N as (N1 & N2 & N3 & N4). split; auto. split; auto. split; auto. intros i Hi. destruct (N4 i Hi) as [X|[X|X]]; auto. subst o. auto.
  - exact H.
Qed.
End News.

(** ** Keeping book *)
Lemma book_removal q m ev notes : ev_removal ev = true -> Forall (fun n => n_event n = ev /\ n_rows n <> SAll) notes ->
  forall b i, In i (fold_left (jot q m) notes b) <-> In i b /\ ~ In i (heard q m notes).
Proof.
  intros R F. induction F as [|n l [E N] F IH]; intros b i; cbn [fold_left]; [cbn; tauto|]. rewrite IH.
  change (n :: l) with ([n] ++ l). rewrite heard_app, in_app_iff. unfold jot, heard at 2. cbn [filter].
  destruct ((n_table n =? q) && (n_pos n =? m)); cbn [flat_map]; [|cbn; tauto].
  rewrite E, R. destruct (n_rows n) as [|x]; [congruence|]. rewrite app_nil_r, filter_In, negb_true_iff. destruct (mem i x) eqn:M.
  - apply mem_In in M. split; [intros [[_ ?] _]; discriminate|tauto].
  - assert (~ In i x) by (intro X; apply mem_In in X; congruence). tauto.
Qed.
Lemma book_other q m ev notes : ev_removal ev = false -> Forall (fun n => n_event n = ev) notes ->
  forall b i, In i (fold_left (jot q m) notes b) <-> In i b \/ In i (heard q m notes).
Proof.
  intros R F. induction F as [|n l E F IH]; intros b i; cbn [fold_left]; [cbn; tauto|]. rewrite IH.
  change (n :: l) with ([n] ++ l). rewrite heard_app, in_app_iff. unfold jot, heard at 2. cbn [filter].
  destruct ((n_table n =? q) && (n_pos n =? m)); cbn [flat_map]; [|cbn; tauto].
  rewrite E, R. destruct (n_rows n) as [|x]; [cbn; tauto|]. rewrite app_nil_r, in_app_iff. tauto.
Qed.

(** ** What is told when nothing is removed *)
Section Quiet.
Variables (pr : profile) (umax : nat) (rank : nat -> nat) (u0 : universe) (ev : event).
Hypothesis L0 : linked pr umax rank u0.
Hypothesis HN : nth_error (u_hdl u0) (ev_id ev) = Some HNull.
Definition live0 (q i : nat) : Prop := exists t r, nth_error (u_tabs u0) q = Some t /\ t_get_row t i = Ok r.
Definition fine (p : nat) (sel : select) (n : note) : Prop :=
  n_event n = ev /\ match n_rows n with SAll => False | SThese l => forall i, In i l -> n_table n = p /\ chosen sel i \/ live0 (n_table n) i end.
Lemma quiet_notes n : forall p u h a b ids u' sel', same_but_log u0 u -> do_flush pr umax n u h p ev a b (SThese ids) = Ok (u', sel') ->
  same_but_log u0 u' /\ exists notes, u_log u' = u_log u ++ notes /\ Forall (fine p (SThese ids)) notes.
Proof.
  induction n as [|n IH]; intros p u h a b ids u' sel' Sm H; cbn [do_flush] in H; [discriminate|].
  bindn H x Hx. unfold handlers_get in H. destruct Sm as (S1 & S2 & S3). rewrite S3, HN in H. cbn [bind] in H.
  replace (u_trackers u p) with (u_trackers u0 p) in H by (unfold u_trackers; congruence).
  assert (G : forall l u sel b s', same_but_log u0 u -> (forall x, In x l -> In (snd x) (u_trackers u0 p)) ->
    (exists ids', sel = SThese ids' /\ forall i, In i ids' -> In i ids) ->
    fold_res (tracker_turn pr umax (do_flush pr umax n) HNull h p ev) l (u, sel, b) = Ok s' ->
    same_but_log u0 (fst (fst s')) /\ exists notes, u_log (fst (fst s')) = u_log u ++ notes /\ Forall (fine p (SThese ids)) notes).
  { clear u u' sel' b x Hx S1 S2 S3 H. induction l as [|[m tr] l IHl]; intros u sel b s' S Hl Es H; cbn [fold_res] in H.
    { injection H as <-. split; [exact S|]. exists []. rewrite app_nil_r. auto. }
    assert (Htr : In tr (u_trackers u0 p)) by (apply (Hl (m, tr)); left; auto).
    assert (Hl' : forall x, In x l -> In (snd x) (u_trackers u0 p)) by (intros; apply Hl; right; auto).
    unfold tracker_turn at 1 in H. cbn [fst snd] in H. destruct (tracker_considers tr ev); [|cbn [bind] in H; eapply IHl; eauto].
    bindn H s1 H1. bindn H1 u1 Hu. injection H1 as <-.
    set (sel1 := if negb b && tracker_sorts u tr then sel_sort sel else sel) in *.
    assert (Es1 : exists ids', sel1 = SThese ids' /\ forall i, In i ids' -> In i ids).
    { destruct Es as (ids' & -> & Hi). unfold sel1. destruct (negb b && tracker_sorts u tr); [|eauto]. cbn [sel_sort]. eexists. split; [reflexivity|].
      intros i Hs. apply Hi. eapply Permutation_in; [apply Permutation_sym, sort_ids_perm|exact Hs] || (eapply Permutation_in; [apply sort_ids_perm|exact Hs]). }
    assert (T : same_but_log u0 u1 /\ exists notes, u_log u1 = u_log u ++ notes /\ Forall (fine p (SThese ids)) notes).
    { assert (F1 : fine p (SThese ids) (Note p m ev sel1)).
      { destruct Es1 as (ids' & -> & Hi). split; [reflexivity|]. cbn. auto. }
      destruct tr as [c k key|srt cons].
      2:{ injection Hu as <-. split; [exact S|]. exists [Note p m ev sel1]. auto. }
      destruct L0 as [L La]. destruct (L _ _ _ _ Htr) as (Rk & t & bb & E0 & Sn & Le & Hb & Hk).
      unfold auto_handle in Hu. bindn Hu y1 Hy1. bindn Hu t1 Ht1. destruct S as (S1 & S2 & S3).
      assert (t1 = t) by (unfold u_get in Ht1; cbn [u_say u_tabs] in Ht1; rewrite S1, E0 in Ht1; injection Ht1; auto). subst t1.
      bindn Hu rows Hrows. unfold run_with in Hu. bindn Hu t2 Ht2. cbn [handle_with bind] in Hu. bindn Hu y2 Hy2. bindn Hu q Hq. injection Hu as <-.
      destruct Es1 as (ids' & E1 & Hi). rewrite E1 in *.
      destruct q as [u2 s2]. cbn [fst].
      destruct key.
      - assert (Et : u_trackers u0 c = []) by (apply (La _ _ E0); destruct Hk; congruence).
        destruct n as [|n']; [discriminate Hq|]. cbn [do_flush] in Hq. bindn Hq z1 Hz1. bindn Hq z2 Hz2.
        replace (u_trackers _ c) with (@nil tracker) in Hq by (unfold u_trackers in *; cbn [u_say u_trk]; rewrite S2; auto).
        cbn in Hq. injection Hq as <- _. split; [split; auto|]. exists [Note p m ev (SThese ids')]. auto.
      - destruct Hk as [Kd [bt ->]]. destruct (select_indexed_ok pr umax t k bt ids' Sn) as (lr & El & _ & Il); auto; [destruct Kd; congruence|].
        rewrite El in Hrows. injection Hrows as <-.
        destruct (IH _ _ _ _ _ _ _ _ (conj S1 (conj S2 S3) : same_but_log u0 (u_say u (Note p m ev (SThese ids')))) Hq) as (S' & notes & En & Fn).
        split; [exact S'|]. exists (Note p m ev (SThese ids') :: notes). split; [rewrite En; cbn [u_say u_log]; rewrite <- app_assoc; reflexivity|].
        constructor; [exact F1|]. eapply Forall_impl; [|exact Fn]. intros nt [F2 F3]. split; [exact F2|]. destruct (n_rows nt) as [|l0]; [exact F3|].
        intros i Hl0. right. destruct (F3 i Hl0) as [[-> X]|X]; [|exact X]. cbn in X. apply Il in X. destruct X as (r & _ & X & _). exists t, r. auto. }
    destruct T as (S' & notes & En & Fn). destruct (IHl _ _ _ _ S' Hl' Es1 H) as (S2 & notes2 & En2 & Fn2). split; [exact S2|].
    exists (notes ++ notes2). rewrite En2, En, app_assoc. split; [reflexivity|]. apply Forall_app. auto. }
  bindn H s' Hs. destruct s' as [[u1 s1] b1]. cbn [fst] in H. injection H as <- <-.
  exact (G _ _ _ _ _ (conj S1 (conj S2 S3)) ltac:(intros [y1 y2] Hy; apply in_combine_r in Hy; exact Hy) ltac:(eauto) Hs).
Qed.
End Quiet.

Lemma alone_log pr umax fuel u p w ev u' : u_trackers u p = [] -> flush pr umax fuel u [] p w ev = Ok u' -> u_log u' = u_log u.
Proof.
  intros Et H. unfold flush, flush_with in H. destruct (sel_empty (w_changes w)).
  { bindn H t Ht. injection H as <-. reflexivity. }
  bindn H q Hq. destruct fuel as [|n]; [discriminate|]. cbn [do_flush] in Hq. bindn Hq x Hx. bindn Hq y Hy.
  replace (u_trackers _ p) with (@nil tracker) in Hq by (unfold u_trackers, u_put in *; cbn [u_trk]; auto). cbn in Hq. injection Hq as <-.
  cbn [fst snd] in H. destruct (_ && _) in H; [|injection H as <-; reflexivity].
  bindn H z1 Hz1. bindn H z2 Hz2. bindn H z3 Hz3. bindn H z4 Hz4. bindn H z5 Hz5. injection H as <-. reflexivity.
Qed.

(** ** Sessions *)
Section Mirror.
Variables (pr : profile) (umax fuel : nat) (rank : nat -> nat) (null : nat -> nat -> Prop) (order : nat -> row -> row -> comparison).
Hypothesis Or : forall c, total_preorder (order c).
Notation inv := (inv pr umax rank null order).
Notation live t i := (exists r, t_get_row t i = Ok r).
Definition mirrored (u : universe) : Prop :=
  forall q m srt f t, nth_error (u_trackers u q) m = Some (TUser srt f) -> (forall e, f e = true) -> nth_error (u_tabs u) q = Some t ->
    forall i, In i (book q m (u_log u)) <-> live t i.

Lemma listens u q m srt f ev : nth_error (u_trackers u q) m = Some (TUser srt f) -> f ev = true -> In (m, TUser srt f) (listeners u q ev).
Proof.
  intros H E. unfold listeners. apply filter_In. split; [|exact E].
  assert (X : nth_error (combine (seq 0 (length (u_trackers u q))) (u_trackers u q)) m = Some (m, TUser srt f)).
  { revert H. generalize (u_trackers u q). intro l. assert (G : forall k, nth_error l m = Some (TUser srt f) -> nth_error (combine (seq k (length l)) l) m = Some (k + m, TUser srt f)).
    { revert m. induction l as [|x l IH]; intros m k H; [destruct m; discriminate|]. destruct m; cbn in *; [injection H as ->; rewrite Nat.add_0_r; reflexivity|].
      rewrite IH by exact H. f_equal. f_equal. lia. }
    apply (G 0). }
  eapply nth_error_In; eauto.
Qed.
Lemma book_app q m a b : book q m (a ++ b) = fold_left (jot q m) b (book q m a).
Proof. unfold book. apply fold_left_app. Qed.

(** The rows a book [b] of tracker [m] of table [q] names are those there are... *)
Definition reads_as (u : universe) (q m : nat) (b : list nat) : Prop :=
  forall srt f t, nth_error (u_trackers u q) m = Some (TUser srt f) -> (forall e, f e = true) -> nth_error (u_tabs u) q = Some t -> forall i, In i b <-> live t i.
(** ...and stay so by what the trackers are told from [u] to [u']. *)
Definition follows (u u' : universe) : Prop :=
  exists notes, u_log u' = u_log u ++ notes /\ forall q m b, reads_as u q m b -> reads_as u' q m (fold_left (jot q m) notes b).
Lemma follows_mirror u u' : follows u u' -> mirrored u -> mirrored u'.
Proof.
  intros (notes & En & H) M q m srt f t Hq Ha Ht i. rewrite En, book_app. exact (H q m (book q m (u_log u)) (fun srt f t => M q m srt f t) srt f t Hq Ha Ht i).
Qed.
Lemma follows_refl u : follows u u.
Proof. exists []. rewrite app_nil_r. auto. Qed.
Lemma follows_trans u v w : follows u v -> follows v w -> follows u w.
Proof.
  intros (n1 & E1 & H1) (n2 & E2 & H2). exists (n1 ++ n2). split; [rewrite E2, E1, app_assoc; reflexivity|].
  intros q m b R. rewrite fold_left_app. auto.
Qed.

Lemma session_follows u p t es w ev u' : inv u -> careful null order u p es ev ->
  nth_error (u_tabs u) p = Some t -> do_edits pr umax (w_new t) es = Ok w -> t_len (w_tab w) <= t_imax (w_tab w) -> tidy t w es -> rank p < fuel ->
  flush pr umax fuel u [] p w ev = Ok u' -> follows u u'.
Proof.
  intros V Ca Hp He Le Ty Hf H. destruct (kind_eqb (t_kind t) Consistent) eqn:Kd.
  2:{ assert (Nk : t_kind t <> Consistent) by (intro E; rewrite E in Kd; discriminate).
      assert (Et : u_trackers u p = []) by exact (proj1 (proj2 (i_wired _ _ _ _ _ _ V)) _ _ Hp Nk).
      pose proof (alone_log _ _ _ _ _ _ _ _ Et H) as El.
      destruct (flush_alone pr umax fuel u p w ev u' Et (proj2 (proj2 (i_wired _ _ _ _ _ _ V))) ltac:(congruence) H) as (t' & _ & T1 & K1 & _).
      assert (Ut : forall q, u_trackers u' q = u_trackers u q) by (intro q; unfold u_trackers; congruence).
      exists []. split; [rewrite app_nil_r; exact El|]. intros q m b M srt f tq Hq Hall Htq i. cbn [fold_left]. rewrite Ut in Hq.
      assert (q <> p) by (intros ->; rewrite Et in Hq; destruct m; discriminate).
      rewrite T1, nth_error_upd_ne in Htq by auto. eapply M; eauto. }
  assert (Kc : t_kind t = Consistent) by (destruct (t_kind t); auto; discriminate). clear Kd.
  destruct (Ty Kc) as [ND Sel]. specialize (Ca t Hp). rewrite Kc in Ca. destruct Ca as [F Ca].
  destruct (edits_cons pr umax rank null order u p t es w V Hp Kc F He) as (Sn & Fi & Hs). assert (Ks : s_kind (t_sch t) = Consistent) by exact Kc.
  pose proof (sane_tg _ _ _ _ Sn) as G. cbn [st_tab] in G. assert (Es : t_sch (w_tab w) = t_sch t) by apply G.
  pose proof (tg_weak _ _ _ G) as G0. assert (Kw : t_kind (w_tab w) = Consistent) by (unfold t_kind; congruence).
  assert (PD : sel_empty (w_changes w) = true \/ w_pushed w && w_delete w = false).
  { destruct (sel_empty (w_changes w)) eqn:Em; [auto|right]. destruct (w_pushed w && w_delete w) eqn:E; [|reflexivity]. exfalso.
    unfold flush, flush_with in H. rewrite Em in H. destruct fuel; [discriminate|]. cbn [do_flush] in H. rewrite E in H. discriminate. }
  set (u1 := u_put u p (w_tab w)).
  assert (H1 : nth_error (u_tabs u1) p = Some (w_tab w)) by (apply nth_error_upd_eq; eapply nth_error_Some_lt; eauto).
  assert (Sf : sane pr umax (t_sch t) (Free (w_tab w))) by (apply sane_free; [congruence|exact Sn|exact PD]).
  assert (V1 : inv u1).
  { eapply (inv_put pr umax rank null order u u1 p t (w_tab w)); auto.
    - intros K. congruence.
    - intros _ i Hi. destruct (i_tg _ _ _ _ _ _ V _ _ Hp) as (_ & live & rows & K & _). apply (get_has t live rows i K) in Hi. apply Hs in Hi.
      destruct G0 as (_ & live' & rows' & K' & _). apply (get_has _ live' rows' i K'). exact Hi. }
  assert (H' : flush pr umax fuel u1 [] p w ev = Ok u').
  { unfold flush, flush_with in *. unfold u1. rewrite !put_put. destruct (sel_empty (w_changes w)); [|exact H].
    bindn H t0 Ht0. injection H as <-. rewrite Ht0. cbn [bind]. rewrite put_put. reflexivity. }
  clear H. rename H' into H.
  (* the list of the lock *)
  assert (Tt : tg true (t_sch t) t).
  { assert (Wk : watched_kind t) by (left; exact Kc). destruct (i_sane _ _ _ _ _ _ V _ _ Hp Wk) as [S0 _]. exact (sane_tg _ _ _ _ S0). }
  assert (Lv : forall i, live t i <-> t_contains t i = true).
  { intro i. destruct Tt as (_ & lv & rows & K & _). exact (get_has t lv rows i K). }
  assert (Lw : forall i, live (w_tab w) i <-> t_contains (w_tab w) i = true).
  { intro i. destruct G as (_ & lv & rows & K & _). exact (get_has _ lv rows i K). }
  destruct (edits_news pr umax (t_sch t) Ks es t w Tt) as (_ & _ & N3 & N4); auto.
  { eapply Forall_impl; [|exact F]. cbv beta. tauto. }
  cbn [w_new w_tab w_changes chosen] in N3, N4.
  assert (N5 : forall i, chosen (w_changes w) i -> live (w_tab w) i).
  { intros i Hi. destruct (N4 i Hi) as [[]|[X|X]]; [apply Lw; exact X|exact (Sel i X)]. }
  assert (N6 : forall i, live (w_tab w) i <-> live t i \/ chosen (w_changes w) i).
  { intro i. split; [intro X; apply Lw in X; destruct (N3 i X); [left; apply Lv; auto|auto]|]. intros [X|X]; [apply Lw, Hs, Lv; exact X|auto]. }
  clear N3 N4.
  assert (T0 : forall q tq, q <> p -> nth_error (u_tabs u1) q = Some tq -> nth_error (u_tabs u) q = Some tq).
  { intros q tq Nq Hq. unfold u1 in Hq. cbn [u_put u_tabs] in Hq. rewrite nth_error_upd_ne in Hq by auto. exact Hq. }
  assert (M1 : forall q m b, reads_as u q m b -> forall srt f tq, nth_error (u_trackers u1 q) m = Some (TUser srt f) -> (forall e, f e = true) -> nth_error (u_tabs u1) q = Some tq ->
    forall i, In i b <-> if q =? p then live t i else live tq i).
  { intros q m b M srt f tq Hq Ha Htq i. destruct (Nat.eqb_spec q p) as [->|Nq]; [eapply M; eauto|]. eapply M; eauto. }
  assert (Ac : acyclic rank u1) by (intros a b c d Htr; apply (inv_linked _ _ _ _ _ _ V1) in Htr; apply Htr).
  destruct (flush_told pr umax rank fuel u1 [] p w ev u' Ac H1 H) as (notes & En & Tn).
  destruct (sel_empty (w_changes w)) eqn:Em.
  { (* nothing to tell *)
    subst notes. exists []. split; [exact En|]. rewrite app_nil_r in En.
    assert (w_changes w = SThese []) as Ec by (destruct (w_changes w) as [|[|]]; try discriminate Em; reflexivity).
    assert (u' = u1) as ->.
    { unfold flush, flush_with in H. rewrite Ec in H. cbn [sel_empty] in H. unfold w_drop in H. rewrite Ec in H. cbn [sel_empty negb] in H. rewrite andb_false_r in H.
      cbn [bind] in H. injection H as <-. unfold u1. apply put_put. }
    intros q m b M srt f tq Hq Ha Htq i. cbn [fold_left]. rewrite (M1 _ _ _ M _ _ _ Hq Ha Htq i). destruct (Nat.eqb_spec q p) as [->|Nq]; [|reflexivity].
    rewrite H1 in Htq. injection Htq as <-. rewrite N6, Ec. cbn. tauto. }
  destruct PD as [PD|PD]; [discriminate|].
  destruct Ca as [[Nr Hd]|(PE & HD & Do & NR)].
  - (* no removal *)
    assert (Q : u_tabs u' = u_tabs u1 /\ u_trk u' = u_trk u1 /\
      exists ch, w_changes w = SThese ch /\ Forall (fine u1 ev p (w_changes w)) notes).
    { assert (Sall : w_changes w <> SAll).
      { intro E. assert (Ks' : s_kind (t_sch t) = Consistent) by exact Kc.
        destruct (edits_listing pr umax (t_sch t) es t w Ks' (tg_weak _ _ _ Tt)) as (_ & _ & X); auto.
        { eapply Forall_impl; [|exact F]. cbv beta. tauto. }
        rewrite E in X. rewrite Forall_forall in F. destruct X as [X|X]; apply F in X; destruct X as (_ & _ & X); discriminate X. }
      destruct (w_changes w) as [|ch] eqn:Ech; [congruence|]. destruct Hd as [Hd|Hd].
      - assert (E1 : u_put u1 p (w_tab w) = u1) by (unfold u1; rewrite put_put; reflexivity).
        unfold flush, flush_with in H. rewrite Ech, Em, E1 in H. bindn H q Hq. destruct q as [u2 s2]. cbn [fst snd] in H. rewrite Nr in H. cbn [andb] in H. injection H as <-.
        destruct (quiet_notes pr umax rank u1 ev (inv_linked _ _ _ _ _ _ V1) Hd _ _ _ _ _ _ _ _ _ (conj eq_refl (conj eq_refl eq_refl) : same_but_log u1 u1) Hq) as ((A1 & A2 & _) & notes' & En' & Fn).
        split; [exact A1|]. split; [exact A2|]. exists ch. split; [reflexivity|]. rewrite En in En'. apply app_inv_head in En'. subst notes'. exact Fn.
      - pose proof (alone_log _ _ _ _ _ _ _ _ (Hd : u_trackers u1 p = []) H) as El. rewrite En in El. rewrite <- (app_nil_r (u_log u1)) in El at 2. apply app_inv_head in El. subst notes.
        destruct (flush_alone pr umax fuel u1 p w ev u') as (t' & Ht' & T2 & K2 & D2); auto.
        { apply (i_wired _ _ _ _ _ _ V1). }
        { congruence. }
        assert (t' = w_tab w).
        { unfold w_flush in Ht'. rewrite Ech, Em in Ht'. bindn Ht' x Hx. unfold flush_apply in Ht'. rewrite Nr in Ht'. cbn [andb bind w_new w_changes] in Ht'. cbn in Ht'. unfold w_drop in Ht'. cbn in Ht'. rewrite andb_false_r in Ht'.
          injection Ht' as <-. reflexivity. }
        subst t'. split; [rewrite T2; apply upd_same; exact H1|]. split; [exact K2|]. exists ch. split; [reflexivity|]. constructor. }
    destruct Q as (Q1 & Q2 & ch & Ech & Fn). rewrite Ech in *.
    assert (Ut : forall q, u_trackers u' q = u_trackers u1 q) by (intro q; unfold u_trackers; congruence).
    exists notes. split; [exact En|]. intros q m b M srt f tq Hq Ha Htq i. rewrite Ut in Hq. rewrite Q1 in Htq.
    rewrite (book_other q m ev notes Nr) by (eapply Forall_impl; [|exact Fn]; intros n [X _]; exact X).
    rewrite (M1 _ _ _ M _ _ _ Hq Ha Htq i).
    assert (Hd1 : forall j, In j (heard q m notes) -> q = p /\ In j ch \/ live tq j).
    { intros j Hj. unfold heard in Hj. apply in_flat_map in Hj. destruct Hj as (n & Hn & Hj). apply filter_In in Hn. destruct Hn as [Hn Hb].
      apply andb_prop in Hb. destruct Hb as [Hb _]. apply Nat.eqb_eq in Hb. rewrite Forall_forall in Fn. destruct (Fn n Hn) as [_ X].
      destruct (n_rows n) as [|l]; [destruct X|]. destruct (X j Hj) as [[X1 X2]|(t2 & r & X1 & X2)]; [left; split; [congruence|exact X2]|].
      right. rewrite Hb, Htq in X1. injection X1 as <-. eauto. }
    destruct (Nat.eqb_spec q p) as [->|Nq].
    + rewrite H1 in Htq. injection Htq as <-. rewrite N6. cbn [chosen].
      assert (P : Permutation ch (heard p m notes)).
      { eapply heard_told; [exact Tn|]. eapply listens; eauto. }
      split; intros [X|X]; auto; right; [eapply Permutation_in; [apply Permutation_sym; exact P|exact X]|eapply Permutation_in; [exact P|exact X]].
    + split; [|auto]. intros [X|X]; [exact X|]. destruct (Hd1 i X) as [[? _]|Y]; [congruence|exact Y].
  - (* removal *)
    assert (Fw : Forall (op_ty (s_cols (t_sch t))) es /\ Forall (fun o => wholesale o = false) es).
    { split; (eapply Forall_impl; [|exact F]; cbv beta; tauto). }
    destruct (edits_marks pr umax (t_sch t) es (w_new t) w Ks (tg_weak _ _ _ Tt) eq_refl eq_refl (proj1 Fw) (proj2 Fw) Do He) as (Ch & Pu & Lt).
    assert (NR1 : no_repeats u1 (deleted es)) by (left; exact ND).
    assert (Sn1 : sane pr umax (t_sch (w_tab w)) (Locked w [])) by (rewrite Es; exact Sn).
    assert (HD1 : nth_error (u_hdl u1) (ev_id ev) = Some HDelete) by exact HD.
    destruct (flush_cascade pr umax rank u1 p w (deleted es) ev (inv_linked _ _ _ _ _ _ V1) PE HD1 H1 Sn1 Kw Ch PD Lt NR1 fuel Hf) as (u2 & E2 & K2 & D2 & L2 & T2).
    rewrite H in E2. injection E2 as <-.
    destruct (flush_heard pr umax rank u1 p w (deleted es) ev (inv_linked _ _ _ _ _ _ V1) PE HD1 H1 Sn1 Kw Ch PD Lt NR1 fuel Hf ND) as (u2 & notes' & E2 & En' & Fn & He').
    rewrite H in E2. injection E2 as <-. rewrite En in En'. apply app_inv_head in En'. subst notes'.
    assert (Ut : forall q, u_trackers u' q = u_trackers u1 q) by (intro q; unfold u_trackers; congruence).
    exists notes. split; [exact En|]. intros q m b M srt f tq Hq Ha Htq i. rewrite Ut in Hq.
    destruct (nth_error_lt_Some (u_tabs u1) q) as [tq0 Hq0]; [rewrite <- L2; eapply nth_error_Some_lt; eauto|].
    destruct (T2 _ _ Hq0) as (tq' & Hq' & _ & Ls & _). rewrite Htq in Hq'. injection Hq' as <-.
    assert (Kq : t_kind tq0 = Consistent).
    { destruct (t_kind tq0) eqn:Kq; auto; exfalso; rewrite (proj1 (proj2 (i_wired _ _ _ _ _ _ V1)) _ _ Hq0) in Hq by congruence; destruct m; discriminate. }
    unfold CascadeSpec.loses in Ls. rewrite Kq in Ls. destruct Ls as [_ Ls].
    assert (Lq : live tq i <-> live tq0 i /\ ~ doomed u1 p (deleted es) q i).
    { split; [intros [r Hr]; apply Ls in Hr; destruct Hr; eauto|]. intros [[r Hr] Nd]. exists r. apply Ls. auto. }
    rewrite Lq. rewrite (book_removal q m ev notes) by (auto; apply PE). rewrite (M1 _ _ _ M _ _ _ Hq Ha Hq0 i).
    pose proof (listens u1 q m srt f ev Hq (Ha ev)) as Li.
    destruct (Nat.eqb_spec q p) as [->|Nq].
    + rewrite H1 in Hq0. injection Hq0 as <-. rewrite N6, Ch. cbn [chosen].
      assert (P : Permutation (deleted es) (heard p m notes)).
      { rewrite Ch in Tn. eapply heard_told; [exact Tn|exact Li]. }
      assert (Ih : In i (heard p m notes) <-> In i (deleted es)) by (split; apply Permutation_in; auto using Permutation_sym).
      assert (Id : doomed u1 p (deleted es) p i <-> In i (deleted es)).
      { split; [|apply doomed_marked]. intro D. destruct (doomed_rank pr umax rank u1 p w (deleted es) (inv_linked _ _ _ _ _ _ V1) PD _ _ D) as [[_ X]|X]; [exact X|lia]. }
      rewrite Ih, Id. tauto.
    + destruct (He' q tq0 (m, TUser srt f) Nq Hq0 Li) as [_ Hh]. cbn [fst] in Hh. rewrite Hh. tauto.
Qed.

Lemma session_mirror u p t es w ev u' : inv u -> mirrored u -> careful null order u p es ev ->
  nth_error (u_tabs u) p = Some t -> do_edits pr umax (w_new t) es = Ok w -> t_len (w_tab w) <= t_imax (w_tab w) -> tidy t w es -> rank p < fuel ->
  flush pr umax fuel u [] p w ev = Ok u' -> mirrored u'.
Proof. intros V M Ca Hp He Le Ty Hf H. eapply follows_mirror; [|exact M]. eapply session_follows; eauto. Qed.

Theorem tended_mirror u0 u : (forall p, rank p < fuel) -> wired rank order u0 -> all_new u0 -> u_log u0 = [] -> tended pr umax fuel null order u0 u -> mirrored u.
Proof.
  intros Hf W N L0 T. induction T as [|u p t es w ev u' T IH Ca Hp He Le Ty H].
  - intros q m srt f t Hq Ha Ht i. rewrite L0. cbn. split; [intros []|]. intros [r Hr]. destruct (N _ _ Ht) as [_ E]. rewrite E in Hr.
    assert (K : t_ok (t_new (t_sch t)) (fun _ => true) []) by (apply t_new_ok; apply (N _ _ Ht)).
    apply (t_get_row_inv _ _ _ K) in Hr. destruct Hr as [Hr _]. destruct i; discriminate.
  - eapply session_mirror; eauto. eapply lives_inv; eauto. eapply tended_lives; eauto.
Qed.
End Mirror.

(** ** Rows removed directly *)
Lemma delete_raw_changes pr umax w i w' : delete_raw pr umax w i = Ok w' -> w_changes w' = w_changes w.
Proof.
  unfold delete_raw. intro H. destruct (t_kind (w_tab w)); try discriminate H.
  - bindn H cs Hc. bindn H n Hn. injection H as <-. reflexivity.
  - bindn H n Hn. bindn H cs Hc. bindn H cs' Hc'. injection H as <-. reflexivity.
Qed.
Lemma removed_silently pr umax fuel u h c ev l t u' : nth_error (u_tabs u) c = Some t -> t_kind t = Consistent ->
  remove_rows pr umax fuel u h c ev (SThese l) = Ok u' -> u_log u' = u_log u.
Proof.
  intros Ht Kc H. unfold remove_rows, remove_rows_with, u_get in H. rewrite Ht in H. cbn [bind] in H. rewrite Kc in H. bindn H x Hx. bindn H w Hw.
  assert (E : w_changes w = SThese []).
  { clear - Hw. cbn zeta in Hw. change (SThese []) with (w_changes (w_new t)). revert Hw. generalize (t_len (w_tab (w_new t))). generalize (w_new t).
    induction l as [|i l IH]; intros w0 n H; cbn [fold_res] in H; [injection H as <-; reflexivity|].
    bindn H w1 H1. bindn H1 y Hy. rewrite (IH _ _ H). eapply delete_raw_changes; eauto. }
  unfold flush_with in H. rewrite E in H. cbn [sel_empty] in H. bindn H t' Ht'. injection H as <-. reflexivity.
Qed.
