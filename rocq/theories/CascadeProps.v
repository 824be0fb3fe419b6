From Coq Require Import List Arith Bool Lia Sorting.Sorted Sorting.Permutation.
From Verif Require Import Base BaseFacts Column ColumnFacts Order RowRange RowRangeFacts Table Visit SortedTab BagTab TableSpec
  TableFacts VisitFacts SortedFacts BagFacts Hist HistFacts TableProps RowProps Events Cascade CascadeSpec CascadeLog CascadeFacts.
Import ListNotations.

Lemma without_nil {A} (rows : list A) : without 0 rows [] = rows.
Proof. generalize 0. induction rows; intro i; simpl; congruence. Qed.

(** ** C32, C33, C34, C37: removal of chosen rows *)
Section Flush.
Variables (pr : profile) (umax : nat) (rank : nat -> nat) (u : universe) (p : nat) (w : wlock) (ids : list nat) (ev : event).
Hypothesis L0 : linked pr umax rank u.
Hypothesis PE : plain_removal ev.
Hypothesis HD : nth_error (u_hdl u) (ev_id ev) = Some HDelete.
Hypothesis Ep : nth_error (u_tabs u) p = Some (w_tab w).
Hypothesis Sp : sane pr umax (t_sch (w_tab w)) (Locked w []).
Hypothesis Kp : t_kind (w_tab w) = Consistent.
Hypothesis Cp : w_changes w = SThese ids.
Hypothesis PD : w_pushed w && w_delete w = false.
Hypothesis Fp : Forall (fun i => i < t_len (w_tab w)) ids.
Hypothesis NR : no_repeats u ids.

Lemma doomed_rank q i : doomed u p ids q i -> q = p /\ In i ids \/ rank q < rank p.
Proof.
  induction 1 as [i H|q i c k key j D IH Htr Hr]; auto. right. destruct L0 as [L _].
  destruct (L _ _ _ _ Htr) as [R _]. destruct IH as [[-> _]|IH]; lia.
Qed.

Lemma flush_cascade fuel : rank p < fuel ->
  exists u', flush pr umax fuel u [] p w ev = Ok u' /\
    u_trk u' = u_trk u /\ u_hdl u' = u_hdl u /\ length (u_tabs u') = length (u_tabs u) /\
    forall c t, nth_error (u_tabs u) c = Some t -> exists t', nth_error (u_tabs u') c = Some t' /\ t_sch t' = t_sch t /\
      loses (doomed u p ids c) t t' /\ (c = p \/ sane pr umax (t_sch t) (Free t) -> sane pr umax (t_sch t) (Free t')).
Proof.
  intro Hf. assert (X : tg true (t_sch (w_tab w)) (w_tab w)) by exact (sane_tg _ _ _ _ Sp).
  apply tg_exact in X. destruct X as [_ [rows [K F]]].
  rewrite (t_len_ok _ _ _ K) in Fp.
  assert (Up : u_put u p (w_tab w) = u).
  { unfold u_put. rewrite upd_same by auto. destruct u; reflexivity. }
  assert (Dp : forall j, doomed u p ids p j <-> In j ids).
  { intro j. split; [|apply doomed_marked]. intro H. apply doomed_rank in H. destruct H as [[_ H]|H]; auto. lia. }
  assert (Pt : forall srt, exists t', w_flush pr umax srt w ev = Ok t' /\ t_sch t' = t_sch (w_tab w) /\
    loses (doomed u p ids p) (w_tab w) t' /\ sane pr umax (t_sch (w_tab w)) (Free t')).
  { intro srt. destruct (w_flush_these pr umax srt w _ rows ev ids K Kp Cp Fp PD PE) as (t' & Q & K' & Es & Fr).
    exists t'. split; auto. split; auto. split.
    - unfold loses. rewrite Kp, (t_len_ok _ _ _ K), (t_len_ok _ _ _ K'). split; auto. intros j r. rewrite Dp.
      exact (get_down _ _ _ _ _ _ _ _ K K' Fr).
    - eapply sane_step with (o := OFlush srt ev); [exact Sp|exact I| |].
      + intro H. cbn in H. rewrite Cp in H. rewrite andb_false_r in H. discriminate.
      + unfold step. cbn [st_tab]. rewrite Kp. cbn [avail]. rewrite Q. reflexivity. }
  unfold flush, flush_with. rewrite Cp. destruct ids as [|i0 ids'] eqn:Eids.
  - cbn [sel_empty]. destruct (Pt false) as (t' & Q & Es & Ls & Sn). unfold w_flush in Q. rewrite Cp in Q. cbn [sel_empty] in Q.
    rewrite Q. cbn [bind]. exists (u_put u p t'). split; auto. split; auto. split; auto. cbn [u_put u_tabs].
    split; [apply upd_length|]. intros c t Hc. destruct (Nat.eq_dec c p) as [->|N].
    + rewrite Ep in Hc. inv Hc. exists t'. split; [apply nth_error_upd_eq; eapply nth_error_Some_lt; eauto|]. auto.
    + exists t. rewrite nth_error_upd_ne by auto. split; auto. split; auto.
      assert (Nd : forall q j, ~ doomed u p [] q j) by (intros q j H; induction H; auto).
      split; [|tauto]. unfold loses. destruct (t_kind t); auto.
      * split; auto. intros j r. split; [intro H; split; auto|tauto].
      * exists []. split; [intros j _; split; [intros []|intro H; exact (Nd _ _ H)]|].
        intros rs Hrs. rewrite without_nil. auto.
  - rewrite <- Eids in *. replace (sel_empty (SThese ids)) with false by (rewrite Eids; reflexivity). rewrite Up.
    destruct (do_flush_ok pr umax rank u ev L0 PE HD fuel) as [CO _].
    destruct (CO p u [] [] ids (w_pushed w) (w_delete w) Hf (view_init _ _ _) ltac:(constructor) PD NR)
      as (u' & sel & D & E & Esel & (V & _ & N & XD & _) & C). rewrite E. cbn [bind fst snd].
    assert (Dm : forall q j, doomed u p ids q j <-> q = p /\ In j ids \/ In (q, j) D).
    { intros q j. split.
      - induction 1 as [i H|q i c k key j H IH Htr Hr]; auto. right. destruct IH as [[-> Hi]|Hi].
        + exact (C i Hi _ Htr j Hr).
        + destruct (XD _ Hi) as [[]|[_ Cl]]. exact (Cl _ Htr j Hr).
      - intros [[-> H]|H]; [apply doomed_marked; auto|]. destruct (XD _ H) as [[]|[H' _]]. auto. }
    assert (Hsel : exists srt : bool, sel = if srt then sort_ids ids else ids).
    { destruct Esel as [->| ->]; [exists false|exists true]; auto. }
    destruct Hsel as [srt ->]. destruct (Pt srt) as (t' & Q & Es & Ls & Sn).
    assert (Se : sel_empty (SThese (if srt then sort_ids ids else ids)) = false).
    { pose proof (sel_sort_empty srt (SThese ids)) as SE. rewrite Eids in SE at 3. destruct srt; exact SE. }
    unfold w_flush in Q. rewrite Cp in Q. replace (sel_empty (SThese ids)) with false in Q by (rewrite Eids; reflexivity).
    bindn Q a Q1. replace (if srt then sel_sort (SThese ids) else SThese ids) with (SThese (if srt then sort_ids ids else ids)) in Q
      by (destruct srt; auto).
    bindn Q w' Q2. bindn Q z Q3.
    rewrite (proj1 PE), Se. cbn [andb negb can_write forallb lock_ok bind]. unfold u_get. rewrite N, Ep by auto. cbn [bind].
    rewrite Q2. cbn [bind]. rewrite Q3. cbn [bind]. rewrite Q. cbn [bind].
    exists (u_put u' p t'). split; auto. destruct V as (V1 & V2 & V3 & V). split; auto. split; auto.
    cbn [u_put u_tabs]. split; [rewrite upd_length; auto|]. intros c t Hc. destruct (Nat.eq_dec c p) as [->|Nc].
    + rewrite Ep in Hc. inv Hc. exists t'. split; [apply nth_error_upd_eq; rewrite V3; eapply nth_error_Some_lt; eauto|]. auto.
    + destruct (V c t Hc) as (s & Hs & Vs). exists s. rewrite nth_error_upd_ne by auto. split; auto.
      assert (Dc : forall j, In j (dead_of c D) <-> doomed u p ids c j).
      { intro j. rewrite Dm, dead_of_In. split; auto. intros [[? _]|?]; [congruence|auto]. }
      destruct Vs as [[-> Ed]|(Vs1 & Vs2 & rws & X0 & X)].
      * split; auto. split; [|tauto]. rewrite Ed in Dc. unfold loses. destruct (t_kind t); auto.
        -- split; auto. intros j r. rewrite <- Dc. split; [intro H; split; auto|tauto].
        -- exists []. split; [auto|]. intros rs Hrs. rewrite without_nil. auto.
      * split; auto. split; [|auto]. unfold loses. destruct (t_kind t) eqn:Kt; try tauto.
        -- destruct X0 as [K0 _]. destruct X as [[K1 _] Fr]. rewrite (t_len_ok _ _ _ K0), (t_len_ok _ _ _ K1). split; auto.
           intros j r. rewrite <- Dc. exact (get_down _ _ _ _ _ _ _ _ K0 K1 Fr).
        -- exists (dead_of c D). split; [auto|]. intros rs Hrs. destruct X0 as [K0 _]. destruct X as [K1 _].
           rewrite (holds_unique t rs rws Hrs); [|eapply holds_of; [exact K0|congruence]].
           eapply holds_of; [exact K1|]. unfold t_kind in *. congruence.
Qed.

Lemma flush_heard fuel : rank p < fuel -> NoDup ids ->
  exists u' notes, flush pr umax fuel u [] p w ev = Ok u' /\ u_log u' = u_log u ++ notes /\
    Forall (fun n => n_event n = ev /\ n_rows n <> SAll) notes /\
    forall c t x, c <> p -> nth_error (u_tabs u) c = Some t -> In x (listeners u c ev) ->
      NoDup (heard c (fst x) notes) /\
      forall j, In j (heard c (fst x) notes) <-> doomed u p ids c j /\ exists r, t_get_row t j = Ok r.
Proof.
  intros Hf ND. destruct (flush_cascade fuel Hf) as (u' & E & _). exists u'.
  assert (Up : u_put u p (w_tab w) = u).
  { unfold u_put. rewrite upd_same by auto. destruct u; reflexivity. }
  pose proof E as E0. unfold flush, flush_with in E. rewrite Cp in E. destruct ids as [|i0 ids'] eqn:Eids.
  - cbn [sel_empty] in E. bindn E t E1. inv E. exists []. split; auto. split; [cbn [u_put u_log]; rewrite app_nil_r; auto|].
    split; [constructor|]. intros c t0 x Nc Hc Hx. cbn. split; [constructor|]. intro j. split; [intros []|]. intros [D _].
    assert (Nd : forall q j, ~ doomed u p [] q j) by (intros q i H; induction H; auto). exact (Nd _ _ D).
  - rewrite <- Eids in *. replace (sel_empty (SThese ids)) with false in E by (rewrite Eids; reflexivity). rewrite Up in E.
    destruct (do_flush_ok pr umax rank u ev L0 PE HD fuel) as [CO _].
    destruct (CO p u [] [] ids (w_pushed w) (w_delete w) Hf (view_init _ _ _) ltac:(constructor) PD NR)
      as (u1 & sel & D & E1 & Esel & (V & _ & N & XD & M & notes & EM & EG & RM & YM & TM) & C). rewrite E1 in E. cbn [bind fst snd] in E.
    assert (El : u_log u' = u_log u1).
    { destruct (_ && _) in E; [|inv E; auto]. bindn E a A1. bindn E t A2. bindn E w' A3. bindn E b A4. bindn E t' A5. inv E. auto. }
    exists notes. split; auto. split; [congruence|]. split; [eapply Forall_impl; [|exact YM]; simpl; tauto|].
    cbn [app] in EM. subst M. intros c t x Nc Hc Hx.
    assert (Kc : t_kind t = Consistent).
    { destruct (t_kind t) eqn:Kc; auto; exfalso; unfold listeners in Hx; rewrite (proj2 L0 _ _ Hc) in Hx by congruence; destruct Hx. }
    destruct (TM c t Hc Kc) as (A & B & H).
    assert (P : Permutation (dead_of c D) (heard c (fst x) notes)).
    { destruct x as [m tr]. destruct (Nat.lt_ge_cases (rank c) (rank p)) as [Lc|Lc]; [eauto|].
      replace (dead_of c D) with (@nil nat).
      2:{ destruct (dead_of c D) as [|j l] eqn:Ed; auto. exfalso. assert (Hj : In j (dead_of c D)) by (rewrite Ed; left; auto).
          apply dead_of_In in Hj. rewrite Forall_forall in RM. specialize (RM _ Hj). simpl in RM. lia. }
      replace (heard c (fst (m, tr)) notes) with (@nil nat); auto. cbn [fst]. rewrite heard_about.
      replace (about c notes) with (@nil note); auto. clear - YM Lc Nc. symmetry. unfold about.
      induction YM as [|y l Hy YM IH]; auto. cbn [filter]. destruct (Nat.eqb_spec (n_table y) c) as [E|E]; auto. exfalso.
      rewrite E in Hy. destruct Hy as [[Hy|Hy] _]; [auto|lia]. }
    split; [eapply Permutation_NoDup; [exact P|auto]|]. intro j.
    assert (Q : In j (heard c (fst x) notes) <-> In j (dead_of c D)).
    { split; apply Permutation_in; auto using Permutation_sym. }
    rewrite Q. split.
    + intro Hj. destruct (A j Hj) as [_ Hr]. split; auto. apply dead_of_In in Hj. destruct (XD _ Hj) as [[]|[Hd _]]. auto.
    + intros [Hd [r Hr]]. apply dead_of_In. revert Hd. assert (Dm : forall q i, doomed u p ids q i -> q = p /\ In i ids \/ In (q, i) D).
      { induction 1 as [i Hi|q i c' k key j' Hd IH Htr Hrf]; auto. right. destruct IH as [[-> Hi]|Hi].
        - exact (C i Hi _ Htr j' Hrf).
        - destruct (XD _ Hi) as [[]|[_ Cl]]. exact (Cl _ Htr j' Hrf). }
      intro Hd. destruct (Dm _ _ Hd) as [[? _]|?]; [congruence|auto].
Qed.

Lemma flush_integrity fuel u' : integrity u -> rank p < fuel -> flush pr umax fuel u [] p w ev = Ok u' -> integrity u'.
Proof.
  intros I Hf E. destruct (flush_cascade fuel Hf) as (u'' & E' & T1 & _ & T3 & T). rewrite E in E'. inversion E'; subst u''. clear E'.
  assert (Tb : forall c t', nth_error (u_tabs u') c = Some t' -> exists t, nth_error (u_tabs u) c = Some t /\ t_sch t' = t_sch t /\
     loses (doomed u p ids c) t t').
  { intros c t' H. destruct (nth_error_lt_Some (u_tabs u) c) as [t Ht].
    { rewrite <- T3. eapply nth_error_Some_lt; eauto. }
    destruct (T _ _ Ht) as (t2 & H2 & Es & Ls & _). rewrite H in H2. inv H2. eauto. }
  intros q c k key t' j i Htr Hq (tc' & r & Hc & Hr & Hk). unfold u_trackers in Htr. rewrite T1 in Htr. fold (u_trackers u q) in Htr.
  destruct (Tb _ _ Hq) as (t & Ht & Es & Ls). destruct (Tb _ _ Hc) as (tc & Htc & Esc & Lc).
  destruct L0 as [L1 L2].
  assert (Ok0 : exists j0, t_get_row tc j0 = Ok r /\ ~ doomed u p ids c j0).
  { destruct (L1 _ _ _ _ Htr) as (_ & t0 & b & H0 & S0 & _ & _ & Kd). rewrite Htc in H0. inv H0.
    assert (Kd' : t_kind t0 = Consistent \/ t_kind t0 = Sorted) by (destruct key; tauto).
    unfold loses in Lc. destruct Kd' as [Kd'|Kd']; rewrite Kd' in Lc.
    - exists j. apply Lc. auto.
    - destruct Lc as (dead & D1 & D2). destruct (sane_exact _ _ _ S0) as [rows [K0 _]]; [congruence|].
      assert (Hn : t_kind t0 <> Consistent) by congruence.
      pose proof (holds_of _ _ _ K0 Hn) as H0. pose proof (D2 _ H0) as H1. destruct H1 as [H1 H1'].
      assert (Lj : j < t_len tc').
      { assert (Sn : sane pr umax (t_sch t0) (Free tc')).
        { destruct (T _ _ Htc) as (t2 & H2 & _ & _ & S2). rewrite Hc in H2. inv H2. auto. }
        rewrite <- Esc in Sn. destruct (sane_exact _ _ _ Sn) as [rows' [K' _]]; [unfold t_kind in *; congruence|].
        apply (t_get_row_inv _ _ _ K') in Hr. rewrite (t_len_ok _ _ _ K'). eapply nth_error_Some_lt; apply Hr. }
      rewrite H1 in Lj. destruct (nth_error_lt_Some _ _ Lj) as [r' Hr']. pose proof (H1' _ _ Hr') as Hr2. rewrite Hr in Hr2. inv Hr2.
      destruct (without_nth _ _ _ _ Hr') as [G1 G2]. exists (nth j (surv (length rows) dead) 0). split; [apply H0; auto|].
      rewrite <- D1; auto. rewrite (proj1 H0). eapply nth_error_Some_lt; eauto. }
  destruct Ok0 as (j0 & Hj0 & Nd).
  assert (Hr0 : refers u c k j0 i) by (exists tc, r; auto).
  pose proof (I _ _ _ _ _ _ _ Htr Ht Hr0) as [ri Ct].
  assert (Nq : ~ doomed u p ids q i).
  { intro H. apply Nd. eapply doomed_dependent; eauto. }
  assert (Kq : t_kind t = Consistent).
  { destruct (t_kind t) eqn:Kq; auto; rewrite (L2 _ _ Ht) in Htr by congruence; destruct Htr. }
  unfold loses in Ls. rewrite Kq in Ls. destruct Ls as [Ll Lg].
  exists ri. apply Lg. auto.
Qed.
End Flush.

(** ** Events that concern only the table itself *)
Section Quiet.
Variables (pr : profile) (umax : nat) (rank : nat -> nat) (u0 : universe) (ev : event).
Hypothesis L0 : linked pr umax rank u0.
Hypothesis NI : ev_removal ev && ev_creation ev = false.
Hypothesis HN : nth_error (u_hdl u0) (ev_id ev) = Some HNull.

Lemma join_rows_total t k c ids : nth_error (t_cols t) k = Some c -> (forall i, In i ids -> exists v, c_index c i = Ok v) ->
  forall remove, exists l, join_rows t k ids remove = Ok l.
Proof.
  intros Ec. induction ids as [|i ids IH]; intros H remove; cbn [join_rows]; [eauto|].
  rewrite Ec. destruct (H i) as [v ->]; [left; auto|]. cbn [bind].
  assert (G : forall r, exists l, join_rows t k ids r = Ok l) by (apply IH; intros; apply H; right; auto).
  destruct (fst (join _ v remove)); [apply G|eauto|]. destruct (G (snd (join (fun l r => val_cmp l (VRow r)) v remove))) as [l ->]. cbn [bind]. eauto.
Qed.
Lemma select_total p c k key t sel : In (TAuto c k key) (u_trackers u0 p) -> nth_error (u_tabs u0) c = Some t ->
  exists sel', (if key then select_sorted pr t k sel else select_indexed t k sel) = Ok sel'.
Proof.
  clear HN NI. intros Htr Ht. destruct L0 as [L _]. destruct (L _ _ _ _ Htr) as (_ & t0 & b & E0 & S & Le & Hb & Hk).
  rewrite Ht in E0. inversion E0; subst t0. clear E0. destruct sel as [|ids]; [exists SAll; destruct key; auto|]. destruct key.
  - destruct Hk as [Kd _]. destruct (sane_exact _ _ _ S) as [rows [K F]]; [congruence|]. rewrite (t_len_ok _ _ _ K) in Le.
    unfold select_sorted. rewrite (t_iter_ok _ _ _ K Le). cbn [bind]. rewrite (cons_collect_ok pr (t_imax t) (t_free t)).
    2:{ apply cons_new_inv; auto. apply K. }
    2:{ cbn [cons_new ci_rows it_end it_i]. rewrite (t_len_ok _ _ _ K). lia. }
    cbn [bind cons_new ci_rows it_end it_i]. destruct (nth_error_lt_Some (t_cols t) k) as [c' Ec].
    { rewrite (cols_len_eq _ _ _ K). eapply nth_error_Some_lt; eauto. }
    destruct (join_rows_total t k c' (live_rows (t_free t) 0 (length rows)) Ec) with (remove := ids) as [l El].
    { intros i Hi. unfold live_rows in Hi. apply filter_In in Hi. destruct Hi as [Hi _]. apply in_seq in Hi.
      destruct (nth_error_lt_Some rows i) as [r Hr]; [lia|].
      destruct (col_index_row _ _ _ _ _ _ _ K Hb Hr) as (c2 & v & E1 & E2 & _). rewrite Ec in E1. inv E1. eauto. }
    rewrite El. cbn [bind]. eauto.
  - destruct Hk as [Kd [bt ->]].
    destruct (select_indexed_ok pr umax t k bt ids S) as (l & El & _); eauto. destruct Kd; congruence.
Qed.

Definition same_but_log (u : universe) : Prop := u_tabs u = u_tabs u0 /\ u_trk u = u_trk u0 /\ u_hdl u = u_hdl u0.

Lemma do_flush_quiet n : forall p u h a b sel, rank p < n -> same_but_log u -> Forall (fun l => rank p <= rank (fst l)) h -> a && b = false ->
  exists u' sel', do_flush pr umax n u h p ev a b sel = Ok (u', sel') /\ same_but_log u'.
Proof.
  induction n as [|n IH]; intros p u h a b sel Rn (S1 & S2 & S3) Fh AB; [lia|].
  cbn [do_flush]. rewrite AB, NI. cbn [orb negb assert_ bind]. unfold handlers_get. rewrite S3, HN. cbn [bind].
  replace (u_trackers u p) with (u_trackers u0 p) by (unfold u_trackers; congruence).
  assert (G : forall l u sel b, same_but_log u -> (forall x, In x l -> In (snd x) (u_trackers u0 p)) ->
    exists s', fold_res (tracker_turn pr umax (do_flush pr umax n) HNull h p ev) l (u, sel, b) = Ok s' /\ same_but_log (fst (fst s'))).
  { clear u sel S1 S2 S3 b AB. induction l as [|[m tr] l IHl]; intros u sel b S Hl; cbn [fold_res]; [eexists; split; [reflexivity|]; auto|].
    assert (Htr : In tr (u_trackers u0 p)) by (apply (Hl (m, tr)); left; auto).
    assert (Hl' : forall x, In x l -> In (snd x) (u_trackers u0 p)) by (intros; apply Hl; right; auto).
    unfold tracker_turn at 1. cbn [fst snd]. destruct (tracker_considers tr ev); [|cbn [bind]; auto].
    match goal with |- context [u_say u ?n] => set (nt := n) end.
    assert (T : exists u1, match tr with
        | TAuto c k key => auto_handle pr umax (do_flush pr umax n) HNull (u_say u nt) h c k key ev (if negb b && tracker_sorts u tr then sel_sort sel else sel)
        | TUser _ _ => Ok (u_say u nt) end = Ok u1 /\ same_but_log u1).
    { destruct tr as [c k key|srt cons].
      - destruct L0 as [L _]. destruct (L _ _ _ _ Htr) as (Rk & t & bb & E0 & _).
        destruct (can_write_rank rank _ _ _ Rk Fh) as [_ CR]. unfold auto_handle. rewrite CR. cbn [lock_ok bind].
        destruct S as (S1 & S2 & S3). unfold u_get. cbn [u_say u_tabs]. rewrite S1, E0. cbn [bind].
        destruct (select_total p c k key t (if negb b && tracker_sorts u (TAuto c k key) then sel_sort sel else sel) Htr E0) as [sel' ->].
        cbn [bind]. unfold run_with, u_get. cbn [u_say u_tabs]. rewrite S1, E0. cbn [bind handle_with]. rewrite CR. cbn [lock_ok bind].
        destruct (IH c (u_say u nt) ((c, false) :: h) (ev_creation ev) (ev_removal ev) sel') as (u1 & s1 & Q & Q'); auto.
        + lia.
        + split; auto.
        + constructor; auto. eapply Forall_impl; [|exact Fh]. simpl. intros. lia.
        + rewrite andb_comm. auto.
        + change (Uni (u_tabs u) (u_trk u) (u_hdl u) (u_log u ++ [nt])) with (u_say u nt). rewrite Q. cbn [bind fst]. eauto.
      - exists (u_say u nt). split; auto. }
    destruct T as (u1 & Q & S'). rewrite Q. cbn [bind]. apply IHl; auto. }
  destruct (G (combine (seq 0 (length (u_trackers u0 p))) (u_trackers u0 p)) u sel (match sel with SAll => true | _ => false end)) as (s' & Q & S').
  { split; auto. }
  { intros [x y] Hx. apply in_combine_r in Hx. auto. }
  rewrite Q. cbn [bind]. destruct s' as [[u' sel'] b']. cbn [fst] in *. eauto.
Qed.

Lemma flush_quiet fuel p w : rank p < fuel -> nth_error (u_tabs u0) p = Some (w_tab w) -> ev_removal ev = false ->
  w_pushed w && w_delete w = false -> sel_empty (w_changes w) = false ->
  exists u', flush pr umax fuel u0 [] p w ev = Ok u' /\ u_tabs u' = u_tabs u0 /\ u_trk u' = u_trk u0 /\ u_hdl u' = u_hdl u0.
Proof.
  intros Rn Hp Nr PD Ne. unfold flush, flush_with. rewrite Ne.
  replace (u_put u0 p (w_tab w)) with u0 by (unfold u_put; rewrite upd_same by auto; destruct u0; reflexivity).
  destruct (do_flush_quiet fuel p u0 [] (w_pushed w) (w_delete w) (w_changes w) Rn) as (u' & sel & Q & S); auto.
  { split; auto. }
  rewrite Q. cbn [bind fst snd]. rewrite Nr. cbn [andb]. exists u'. split; auto.
Qed.
End Quiet.
