From Coq Require Import List Arith Bool Lia Sorting.Sorted Sorting.Permutation.
From Verif Require Import Base BaseFacts Column ColumnFacts Order RowRange RowRangeFacts Table Visit SortedTab BagTab TableSpec
  TableFacts Hist TableProps Events Cascade CascadeSpec.
Import ListNotations.

Definition emptied (t : table) : table := with_cols t (map c_clear (t_cols t)).
Lemma c_clear_twice c : c_clear (c_clear c) = c_clear c.
Proof.
  assert (B : forall b, b_clear (b_clear b) = b_clear b).
  { destruct b as [l|[v [i|] d]]; cbn [b_clear]; auto. f_equal. unfold bc_clear, bc_truncate, bc_flush. cbn [bc_idx bc_data].
    destruct (length d <=? i) eqn:L; cbn [bc_idx bc_data bc_val firstn length]; [|reflexivity].
    destruct i; reflexivity. }
  destruct c as [b|b f]; cbn; rewrite B; reflexivity.
Qed.
Lemma emptied_twice t : emptied (emptied t) = emptied t.
Proof.
  unfold emptied, with_cols. cbn [t_sch t_cols t_free]. f_equal. rewrite map_map. apply map_ext. apply c_clear_twice.
Qed.
Lemma emptied_len t : t_cols t <> [] -> t_len (emptied t) = 0.
Proof. unfold emptied, t_len. cbn. destruct (t_cols t) as [|c cs]; [congruence|]. intros _. simpl. destruct c as [b|b f]; destruct b; reflexivity. Qed.

Section Clear.
Variables (pr : profile) (umax : nat) (rank : nat -> nat) (u0 : universe) (ev : event).
Hypothesis A0 : acyclic rank u0.
Hypothesis R0 : removable u0.
Hypothesis PE : plain_removal ev.
Hypothesis HD : nth_error (u_hdl u0) (ev_id ev) = Some HDelete.

Definition cview (u : universe) (E : list nat) : Prop :=
  u_trk u = u_trk u0 /\ u_hdl u = u_hdl u0 /\ length (u_tabs u) = length (u_tabs u0) /\
  forall q t, nth_error (u_tabs u0) q = Some t -> nth_error (u_tabs u) q = Some (if mem q E then emptied t else t).

Lemma cview_put u E c t : cview u E -> nth_error (u_tabs u0) c = Some t -> cview (u_put u c (emptied t)) (c :: E).
Proof.
  intros (V1 & V2 & V3 & V) H. split; auto. split; auto. split; [simpl; rewrite upd_length; auto|]. intros q s Hq.
  cbn [u_put u_tabs]. unfold mem. cbn [existsb]. fold (mem q E). destruct (Nat.eqb_spec q c) as [->|N].
  - rewrite H in Hq. inv Hq. cbn [orb]. apply nth_error_upd_eq. rewrite V3. eapply nth_error_Some_lt; eauto.
  - cbn [orb]. rewrite nth_error_upd_ne by auto. auto.
Qed.

Definition cclosed (E : list nat) (q : nat) : Prop := forall c k key, In (TAuto c k key) (u_trackers u0 q) -> In c E.
Definition cadds (p : nat) (u : universe) (E : list nat) (u' : universe) (E' : list nat) : Prop :=
  cview u' E' /\ incl E E' /\ (forall q, rank p <= rank q -> nth_error (u_tabs u') q = nth_error (u_tabs u) q) /\
  (forall x, In x E' -> In x E \/ downstream u0 p x /\ cclosed E' x).
Lemma cclosed_incl E E' q : incl E E' -> cclosed E q -> cclosed E' q.
Proof. intros I H c k key Hc. apply I. eauto. Qed.
Lemma cadds_refl p u E : cview u E -> cadds p u E u E.
Proof. intro V. split; auto. split; [apply incl_refl|]. split; auto. Qed.
Lemma cadds_trans p u E u' E' u'' E'' : cadds p u E u' E' -> cadds p u' E' u'' E'' -> cadds p u E u'' E''.
Proof.
  intros (V1 & I1 & N1 & X1) (V2 & I2 & N2 & X2). split; auto. split; [eapply incl_tran; eauto|].
  split; [intros q Hq; rewrite N2, N1; auto|]. intros x Hx. destruct (X2 x Hx) as [H|H]; auto.
  destruct (X1 x H) as [H'|[H1 H2]]; auto. right. split; auto. eapply cclosed_incl; eauto.
Qed.
Lemma downstream_trans p c x : downstream u0 p c -> downstream u0 c x -> downstream u0 p x.
Proof. intros H D. induction D; eapply downstream_more; eauto. Qed.

Notation fcall := (universe -> locks -> nat -> event -> bool -> bool -> select -> res (universe * select)).
Definition clears (fc : fcall) (n : nat) : Prop := forall p u h E a b, rank p < n -> cview u E ->
  Forall (fun l => rank p <= rank (fst l)) h -> a && b = false ->
  exists u' E', fc u h p ev a b SAll = Ok (u', SAll) /\ cadds p u E u' E' /\ cclosed E' p.

Lemma can_rank h c p : rank c < rank p -> Forall (fun l => rank p <= rank (fst l)) h -> can_write h c = true /\ can_read h c = true.
Proof.
  intros R F. rewrite Forall_forall in F. unfold can_write, can_read. rewrite !forallb_forall.
  assert (X : forall x, In x h -> (fst x =? c) = false).
  { intros x Hx. apply Nat.eqb_neq. intros <-. specialize (F _ Hx). lia. }
  split; intros x Hx; rewrite (X x Hx); auto.
Qed.

Lemma auto_clear fc n : clears fc n -> forall p u h E c k key, rank p < S n -> cview u E ->
  Forall (fun l => rank p <= rank (fst l)) h -> In (TAuto c k key) (u_trackers u0 p) ->
  exists u' E', auto_handle pr umax fc HDelete u h c k key ev SAll = Ok u' /\ cadds p u E u' E' /\ In c E'.
Proof.
  intros CL p u h E c k key Rn V Fh Htr. pose proof (A0 _ _ _ _ Htr) as Rk. destruct (R0 _ _ _ _ Htr) as (t & Ht & Kt).
  destruct (can_rank _ _ _ Rk Fh) as [CW CR]. destruct PE as (P1 & P2 & P3).
  pose proof (proj2 (proj2 (proj2 V)) _ _ Ht) as Ht'. set (t1 := if mem c E then emptied t else t) in *.
  assert (K1 : t_kind t1 = t_kind t) by (unfold t1; destruct (mem c E); auto).
  assert (E1 : emptied t1 = emptied t) by (unfold t1; destruct (mem c E); auto using emptied_twice).
  unfold auto_handle. rewrite CR. cbn [lock_ok bind]. unfold u_get. rewrite Ht'. cbn [bind].
  replace (if key then select_sorted pr t1 k SAll else select_indexed t1 k SAll) with (Ok SAll : res select) by (destruct key; auto).
  cbn [bind]. unfold run_with, u_get. rewrite Ht'. cbn [bind handle_with].
  replace (if kind_eqb (t_kind t1) Sorted then sel_sort SAll else SAll) with SAll by (destruct (kind_eqb _ _); auto).
  assert (V1 : cview (u_put u c (emptied t)) (c :: E)) by (apply cview_put; auto).
  assert (Hh : Forall (fun l => rank c <= rank (fst l)) h) by (eapply Forall_impl; [|exact Fh]; simpl; intros; lia).
  assert (Rem : exists u2 E2, remove_rows_with pr umax fc u h c ev SAll = Ok u2 /\ cview u2 E2 /\ incl (c :: E) E2 /\
     (forall q, rank p <= rank q -> nth_error (u_tabs u2) q = nth_error (u_tabs u) q) /\
     (forall x, In x E2 -> In x (c :: E) \/ downstream u0 c x /\ cclosed E2 x)).
  { unfold remove_rows_with, u_get. rewrite Ht'. cbn [bind]. rewrite K1. destruct Kt as [Kt|[Kt Tr]]; rewrite Kt, CW; cbn [lock_ok bind].
    - unfold clear, event_cleared. change (t_kind (w_tab (clear_raw (w_new t1)))) with (t_kind t1). rewrite K1, Kt.
      unfold flush_with. cbn [w_changes sel_empty w_tab w_pushed w_delete].
      change (w_tab (clear_raw (w_new t1))) with (emptied t1). rewrite E1.
      destruct (CL c (u_put u c (emptied t)) h (c :: E) (w_pushed (clear_raw (w_new t1))) true) as (u2 & E2 & Q & (W1 & W2 & W3 & W4) & W5); auto; [lia|].
      rewrite Q. cbn [bind fst snd]. rewrite P1. cbn [sel_empty negb andb]. rewrite CW. cbn [lock_ok bind].
      unfold u_get. rewrite W3 by auto. cbn [u_put u_tabs]. rewrite nth_error_upd_eq by (eapply nth_error_Some_lt; eauto).
      cbn [bind]. unfold flush_apply. rewrite P1. cbn [sel_empty negb andb bind]. cbn [w_changes clear_raw with_tab w_new sel_empty assert_ bind].
      unfold w_drop. cbn [w_changes with_tab w_new sel_empty negb]. rewrite andb_false_r. cbn [bind].
      change (w_tab (clear_raw (w_new (emptied t)))) with (emptied (emptied t)).
      rewrite emptied_twice. exists (u_put u2 c (emptied t)), (c :: E2). split; auto. split; [apply cview_put; auto|].
      split; [|split].
      + intros x Hx. right. auto.
      + intros q Hq. cbn [u_put u_tabs]. rewrite nth_error_upd_ne by (intros ->; lia). rewrite W3 by lia.
        cbn [u_put u_tabs]. rewrite nth_error_upd_ne by (intros ->; lia). auto.
      + intros x [<-|Hx]; [left; left; auto|]. destruct (W4 x Hx) as [H|[H1 H2]]; auto. right. split; auto.
        eapply cclosed_incl; [|exact H2]. intros y Hy. right. auto.
    - unfold clear, event_cleared. change (t_kind (w_tab (clear_raw (w_new t1)))) with (t_kind t1). rewrite K1, Kt.
      unfold flush_with. cbn [clear_raw with_tab w_new w_changes sel_empty]. unfold w_drop. cbn [w_changes sel_empty negb]. rewrite andb_false_r.
      cbn [bind w_tab]. change (w_tab (clear_raw (w_new t1))) with (emptied t1). rewrite E1.
      exists (u_put u c (emptied t)), (c :: E). split; auto. split; auto. split; [apply incl_refl|]. split; auto.
      intros q Hq. cbn [u_put u_tabs]. apply nth_error_upd_ne. intros ->. lia. }
  destruct Rem as (u2 & E2 & Q2 & V2 & I2 & N2 & X2). rewrite Q2. cbn [bind]. rewrite CR. cbn [lock_ok bind].
  destruct (CL c u2 ((c, false) :: h) E2 (ev_creation ev) (ev_removal ev)) as (u3 & E3 & Q3 & (V3 & I3 & N3 & X3) & C3); auto; [lia| |].
  { rewrite P2. auto. }
  rewrite Q3. cbn [bind fst]. exists u3, E3. split; auto.
  assert (Dc : downstream u0 p c) by (eapply downstream_one; eauto).
  split; [split; [auto|split; [|split]]|].
  - intros x Hx. apply I3, I2. right. auto.
  - intros q Hq. rewrite N3 by lia. auto.
  - intros x Hx. destruct (X3 x Hx) as [H|[H1 H2]].
    + destruct (X2 x H) as [[<-|H']|[H1 H2]]; auto.
      right. split; [eapply downstream_trans; eauto|eapply cclosed_incl; eauto].
    + right. split; auto. eapply downstream_trans; eauto.
  - apply I3, I2. left. auto.
Qed.

Lemma loop_clear fc n : clears fc n -> forall p h, rank p < S n -> Forall (fun l => rank p <= rank (fst l)) h ->
  forall l u E, cview u E -> (forall x, In x l -> In (snd x) (u_trackers u0 p)) ->
  exists u' E', fold_res (tracker_turn pr umax fc HDelete h p ev) l (u, SAll, true) = Ok (u', SAll, true) /\
    cadds p u E u' E' /\ (forall x c k key, In x l -> snd x = TAuto c k key -> In c E').
Proof.
  intros CL p h Rn Fh. induction l as [|[m tr] l IH]; intros u E V Hl; cbn [fold_res].
  - exists u, E. split; auto. split; [apply cadds_refl; auto|]. intros x c k key [].
  - assert (Htr : In tr (u_trackers u0 p)) by (apply (Hl (m, tr)); left; auto).
    assert (Hl' : forall x, In x l -> In (snd x) (u_trackers u0 p)) by (intros; apply Hl; right; auto).
    unfold tracker_turn at 1. cbn [fst snd negb andb orb]. destruct tr as [c k key|srt cons].
    + cbn [tracker_considers].
      destruct (auto_clear fc n CL p (u_say u (Note p m ev SAll)) h E c k key) as (u1 & E1 & Q1 & A1 & C1); auto.
      rewrite Q1. cbn [bind]. destruct (IH u1 E1) as (u2 & E2 & Q2 & A2 & C2); auto; [apply A1|].
      exists u2, E2. split; auto. split; [eapply cadds_trans; [exact A1|exact A2]|].
      intros x c' k' key' [<-|Hx] Ex; [|eauto]. cbn [snd] in Ex. inv Ex. apply A2. auto.
    + cbn [tracker_considers]. destruct (cons ev); cbn [bind].
      * destruct (IH (u_say u (Note p m ev SAll)) E) as (u2 & E2 & Q2 & A2 & C2); auto.
        exists u2, E2. split; auto. split; auto. intros x c' k' key' [<-|Hx] Ex; [discriminate|eauto].
      * destruct (IH u E) as (u2 & E2 & Q2 & A2 & C2); auto.
        exists u2, E2. split; auto. split; auto. intros x c' k' key' [<-|Hx] Ex; [discriminate|eauto].
Qed.

Lemma do_flush_clear n : clears (do_flush pr umax n) n.
Proof.
  induction n as [|n IH]; intros p u h E a b Rn V Fh AB; [lia|].
  cbn [do_flush]. destruct PE as (P1 & P2 & P3). rewrite AB, P2, andb_false_r. cbn [orb negb assert_ bind].
  unfold handlers_get. rewrite (proj1 (proj2 V)), HD. cbn [bind].
  assert (Tr : u_trackers u p = u_trackers u0 p) by (unfold u_trackers; rewrite (proj1 V); auto). rewrite Tr.
  destruct (loop_clear _ n IH p h Rn Fh (combine (seq 0 (length (u_trackers u0 p))) (u_trackers u0 p)) u E V)
    as (u' & E' & Q & A & C).
  { intros [x y] Hx. apply in_combine_r in Hx. auto. }
  rewrite Q. cbn [bind fst]. exists u', E'. split; auto. split; auto.
  intros c k key Htr. destruct (In_nth_error _ _ Htr) as [m Hm]. apply (C (m, TAuto c k key) c k key); auto.
  apply nth_error_In with (n := m).
  assert (G : forall (l : list tracker) s m tr, nth_error l m = Some tr -> nth_error (combine (seq s (length l)) l) m = Some (s + m, tr)).
  { clear. induction l as [|x l IH]; intros s [|m'] tr H; try discriminate; simpl in *.
    - inv H. rewrite Nat.add_0_r. auto.
    - rewrite IH with (tr := tr) by auto. f_equal. f_equal. lia. }
  rewrite (G _ 0 m _ Hm). auto.
Qed.

Lemma downstream_rank p x : downstream u0 p x -> rank x < rank p.
Proof. induction 1 as [c k key H|q c k key D IH H]; apply A0 in H; lia. Qed.
Lemma downstream_kind p x : downstream u0 p x -> exists t, nth_error (u_tabs u0) x = Some t.
Proof. destruct 1 as [c k key H|q c k key D H]; apply R0 in H; destruct H as (t & H & _); eauto. Qed.

Theorem flush_all_cascade fuel p w : rank p < fuel -> nth_error (u_tabs u0) p = Some (w_tab w) ->
  w_changes w = SAll -> w_pushed w && w_delete w = false ->
  exists u', flush pr umax fuel u0 [] p w ev = Ok u' /\
    u_trk u' = u_trk u0 /\ u_hdl u' = u_hdl u0 /\ length (u_tabs u') = length (u_tabs u0) /\
    forall c t, nth_error (u_tabs u0) c = Some t -> exists t', nth_error (u_tabs u') c = Some t' /\
      ((c = p \/ downstream u0 p c) /\ t' = emptied t \/ ~ (c = p \/ downstream u0 p c) /\ t' = t).
Proof.
  intros Hf Hp Hc PD. unfold flush, flush_with. rewrite Hc. cbn [sel_empty].
  replace (u_put u0 p (w_tab w)) with u0 by (unfold u_put; rewrite upd_same by auto; destruct u0; reflexivity).
  destruct (do_flush_clear fuel p u0 [] [] (w_pushed w) (w_delete w)) as (u' & E & Q & (V & _ & N & X) & C); auto.
  { split; auto. }
  rewrite Q. cbn [bind fst snd]. destruct PE as (P1 & P2 & P3). rewrite P1. cbn [sel_empty negb andb can_write forallb lock_ok bind].
  unfold u_get. rewrite N, Hp by auto. cbn [bind]. unfold flush_apply. rewrite P1. cbn [sel_empty negb andb bind].
  cbn [w_changes clear_raw with_tab w_new sel_empty assert_ bind]. unfold w_drop. cbn [w_changes with_tab w_new sel_empty negb].
  rewrite andb_false_r. cbn [bind w_tab with_tab]. change (with_cols (w_tab w) (map c_clear (t_cols (w_tab w)))) with (emptied (w_tab w)).
  exists (u_put u' p (emptied (w_tab w))). split; auto. pose proof (cview_put _ _ _ _ V Hp) as (V1 & V2 & V3 & V4).
  split; auto. split; auto. split; auto. intros c t Ht. exists (if mem c (p :: E) then emptied t else t). split; [apply V4; auto|].
  assert (D : In c E <-> downstream u0 p c).
  { split.
    - intro H. destruct (X _ H) as [[]|[H' _]]. auto.
    - clear Ht. intro H. induction H as [c k key H|q c k key D IH H]; [eapply C; eauto|].
      destruct (X _ IH) as [[]|[_ Cl]]. eapply Cl; eauto. }
  destruct (mem c (p :: E)) eqn:M.
  - left. split; auto. apply mem_In in M. destruct M as [<-|M]; auto. right. apply D. auto.
  - right. split; auto. apply mem_nIn in M. rewrite <- D. intros [->|H]; apply M; [left|right]; auto.
Qed.
End Clear.

Lemma emptied_rows t i r : t_cols t <> [] -> t_get_row (emptied t) i <> Ok r.
Proof.
  intros N H. unfold t_get_row in H. bindn H x H1. unfold t_check in H1. rewrite (emptied_len t N) in H1.
  destruct i; discriminate.
Qed.
Theorem flush_all_observed pr umax rank u0 ev (AC : acyclic rank u0) (RM : removable u0) (PE : plain_removal ev)
  (HD : nth_error (u_hdl u0) (ev_id ev) = Some HDelete) fuel p w : rank p < fuel -> nth_error (u_tabs u0) p = Some (w_tab w) ->
  w_changes w = SAll -> w_pushed w && w_delete w = false ->
  exists u', flush pr umax fuel u0 [] p w ev = Ok u' /\ length (u_tabs u') = length (u_tabs u0) /\
    forall c t, nth_error (u_tabs u0) c = Some t -> t_cols t <> [] -> exists t', nth_error (u_tabs u') c = Some t' /\
      (c = p \/ downstream u0 p c -> t_sch t' = t_sch t /\ t_len t' = 0 /\ forall i r, t_get_row t' i <> Ok r) /\
      (~ (c = p \/ downstream u0 p c) -> t' = t).
Proof.
  intros R E C PD. destruct (flush_all_cascade pr umax rank u0 ev AC RM PE HD fuel p w R E C PD) as (u' & H & _ & _ & L & G).
  exists u'. split; auto. split; auto. intros c t Ht Nc. destruct (G c t Ht) as (t' & Ht' & [[D ->]|[D ->]]).
  - exists (emptied t). split; auto. split; [|tauto]. intros _. split; auto. split; [apply emptied_len; auto|].
    intros. apply emptied_rows. auto.
  - exists t. split; auto. split; [tauto|]. auto.
Qed.
