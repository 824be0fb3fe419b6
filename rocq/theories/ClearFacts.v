(** Proofs about programs that clear tables. *)
From Coq Require Import List Arith Bool Lia.
From Verif Require Import Base BaseFacts Column ColumnFacts Order RowRange RowRangeFacts Table TableFacts SortedTab BagTab TableSpec Hist HistFacts TableProps RowProps
  Events Cascade CascadeSpec CascadeFacts CascadeClear CascadeCalls CascadeProps Extract ExtractSpec ExtractFacts RestoreFacts InvalidFacts IntegritySpec IntegrityFacts MirrorSpec MirrorFacts
  BackupSpec ImportSpec LifeSpec LifeFacts LiveFacts ClearSpec.
Import ListNotations.

(** ** The lock *)
Lemma sweep_op pr umax w o w' its : t_kind (w_tab w) = Consistent -> avail Consistent o = true -> through_lock o = true -> sweeping o = true ->
  write_op pr umax w [] o = Ok (w', its) ->
  w_tab w' = w_tab w /\ w_pushed w' = w_pushed w /\ (w_changes w = SAll \/ o = OClear \/ o = OSelectAll -> w_changes w' = SAll).
Proof.
  intros K A TL Sw H.
  assert (RD : ~ (o = OClear \/ o = OSelectAll) -> (let* _ := read_op pr umax (w_tab w) o in Ok (w, [])) = Ok (w', its) ->
    w_tab w' = w_tab w /\ w_pushed w' = w_pushed w /\ (w_changes w = SAll \/ o = OClear \/ o = OSelectAll -> w_changes w' = SAll)).
  { intros No H'. bindn H' u Hu. injection H' as <- _. split; [reflexivity|]. split; [reflexivity|]. tauto. }
  destruct o; try discriminate A; try discriminate TL; try discriminate Sw; cbn [write_op] in H; try (apply RD; [intros [X|X]; discriminate X|exact H]); clear RD.
  - bindn H n H1. injection H as <- _. split; [reflexivity|]. split; [reflexivity|]. intros [X|[X|X]]; [exact X|discriminate X|discriminate X].
  - bindn H n H1. bindn H n1 H2. bindn H n2 H3. injection H as <- _. split; [reflexivity|]. split; [reflexivity|]. intros [X|[X|X]]; [exact X|discriminate X|discriminate X].
  - bindn H w1 H1. injection H as <- _. unfold delete in H1. rewrite K in H1. bindn H1 x Hx. injection H1 as <-. unfold event_del. rewrite K.
    split; [reflexivity|]. split; [reflexivity|]. cbn [w_changes]. intros [X|[X|X]]; [rewrite X; reflexivity|discriminate X|discriminate X].
  - injection H as <- _. split; [reflexivity|]. split; [reflexivity|]. cbn [w_changes]. intros [X|[X|X]]; [unfold w_select; cbn; rewrite X; reflexivity|discriminate X|discriminate X].
  - injection H as <- _. split; [reflexivity|]. split; reflexivity.
  - injection H as <- _. unfold clear, event_cleared. rewrite K. split; [reflexivity|]. split; reflexivity.
Qed.
Lemma wipe_lock pr umax t es w : t_kind t = Consistent -> wipes es -> do_edits pr umax (w_new t) es = Ok w ->
  w_tab w = t /\ w_changes w = SAll /\ w_pushed w = false.
Proof.
  intros K [F X] H. unfold do_edits in H. bindn H q Hq. destruct q as [w1 its]. cbn [snd fst] in H. destruct its; [|discriminate]. injection H as <-.
  enough (G : forall w0 its, t_kind (w_tab w0) = Consistent -> fold_res (do_edit pr umax) es (w0, []) = Ok (w1, its) ->
    w_tab w1 = w_tab w0 /\ w_pushed w1 = w_pushed w0 /\ (w_changes w0 = SAll \/ Exists (fun o => o = OClear \/ o = OSelectAll) es -> w_changes w1 = SAll)).
  { destruct (G (w_new t) [] K Hq) as (A & B & C). split; [exact A|]. split; [exact (C (or_intror X))|exact B]. }
  clear - F. induction es as [|o es IH]; intros w0 its K H; cbn [fold_res] in H.
  - injection H as <- _. split; [reflexivity|]. split; [reflexivity|]. intros [X|X]; [exact X|inversion X].
  - inv F. bindn H q1 Hq1. destruct (edit_step _ _ _ _ _ Hq1) as (T & A & W & _). cbn [fst snd] in *. rewrite K in A. destruct q1 as [w2 its2].
    rewrite (its_nil _ _ _ _ _ _ A W) in *. destruct (sweep_op _ _ _ _ _ _ K A T ltac:(assumption) W) as (S1 & S2 & S3).
    destruct (IH ltac:(assumption) w2 its) as (R1 & R2 & R3); [congruence|exact H|]. split; [congruence|]. split; [congruence|].
    intros [X|X]; [tauto|]. inversion X; subst; tauto.
Qed.

(** ** Which trackers are called *)
Lemma downstream_first u p c : downstream u p c -> exists c1 k key, In (TAuto c1 k key) (u_trackers u p) /\ (c = c1 \/ downstream u c1 c).
Proof.
  induction 1 as [c k key H|q c k key H (c1 & k1 & key1 & I & D) Hc]; [eauto 6|]. exists c1, k1, key1. split; [exact I|]. right.
  destruct D as [->|D]; [eapply downstream_one; eauto|eapply downstream_more; eauto].
Qed.
Lemma downstream_join u p c d k key : In (TAuto c k key) (u_trackers u p) -> d = c \/ downstream u c d -> downstream u p d.
Proof. intros I [->|D]; [eapply downstream_one; eauto|]. induction D; eapply downstream_more; eauto. eapply downstream_one; eauto. Qed.
Lemma listener_in u p ev m tr : In (m, tr) (listeners u p ev) -> In tr (u_trackers u p).
Proof. unfold listeners. intro H. apply filter_In in H. destruct H as [H _]. eapply in_combine_r; eauto. Qed.
Lemma auto_listens u p ev c k key : In (TAuto c k key) (u_trackers u p) -> exists m, In (m, TAuto c k key) (listeners u p ev).
Proof. intro H. destruct (in_numbered 0 _ _ H) as [m Hm]. exists m. unfold listeners. apply filter_In. split; [exact Hm|reflexivity]. Qed.
Lemma calls_only n tw u ev : forall p c m, In (c, m) (calls n tw u ev p) -> c = p \/ downstream u p c.
Proof.
  induction n as [|n IH]; intros p c m H; [destruct H|]. cbn [calls] in H. apply in_flat_map in H. destruct H as ([m1 tr] & L & H). apply listener_in in L. cbn [fst snd] in H.
  destruct H as [H|H]; [injection H as <- _; left; reflexivity|]. destruct tr as [c1 k key|]; [|destruct H]. right. eapply downstream_join; [exact L|].
  apply in_app_or in H. destruct H as [H|H]; [|exact (IH _ _ _ H)]. destruct (_ && _); [exact (IH _ _ _ H)|destruct H].
Qed.
Lemma calls_all rank n tw u ev : acyclic rank u -> forall p c m tr, rank p < n -> c = p \/ downstream u p c -> In (m, tr) (listeners u c ev) -> In (c, m) (calls n tw u ev p).
Proof.
  intros A. induction n as [|n IH]; intros p c m tr R D L; [lia|]. cbn [calls]. apply in_flat_map. destruct D as [->|D].
  - exists (m, tr). split; [exact L|]. left. reflexivity.
  - destruct (downstream_first _ _ _ D) as (c1 & k & key & I & D1). destruct (auto_listens _ _ ev _ _ _ I) as [m1 L1]. exists (m1, TAuto c1 k key). split; [exact L1|].
    cbn [fst snd]. right. apply in_or_app. right. apply (IH c1 c m tr); [pose proof (A _ _ _ _ I); lia|exact D1|exact L].
Qed.
(** A book after calls for all rows. *)
Lemma book_all q m ev notes : ev_removal ev = true -> Forall (fun n => n_event n = ev /\ n_rows n = SAll) notes ->
  forall b, fold_left (jot q m) notes b = if existsb (fun n => (n_table n =? q) && (n_pos n =? m)) notes then [] else b.
Proof.
  intros R F. induction F as [|n l [E N] F IH]; intro b; [reflexivity|]. cbn [fold_left existsb]. rewrite IH. unfold jot. rewrite E, N, R.
  destruct ((n_table n =? q) && (n_pos n =? m)); cbn [orb]; [|reflexivity]. destruct (existsb _ l); reflexivity.
Qed.

(** ** Clearing *)
Lemma sane_emptied pr umax t : sane pr umax (t_sch t) (Free t) -> all_present t -> sane pr umax (t_sch t) (Free (emptied t)).
Proof.
  intros Hs P. eapply (sane_step _ _ _ (Locked (clear_raw (w_new t)) []) OClose); [|exact I|intros X; discriminate X|].
  - eapply (sane_step _ _ _ (Locked (w_new t) []) OClearRaw); [|exact I|intros _; split; [exact P|exact I]|].
    + eapply (sane_step _ _ _ (Free t) OLock); [exact Hs|exact I|intros X; discriminate X|]. unfold step. cbn [st_tab]. destruct (t_kind t); reflexivity.
    + unfold step. cbn [st_tab w_tab w_new]. destruct (t_kind t); reflexivity.
  - unfold step. cbn [st_tab]. replace (avail _ OClose) with true by (destruct (t_kind _); reflexivity). unfold w_drop. cbn [w_changes clear_raw with_tab w_new sel_empty negb].
    rewrite andb_false_r. reflexivity.
Qed.
Lemma tg_ncols s t : tg false s t -> t_cols t <> [].
Proof. intros (E & live & rows & K & _) H. pose proof (ok_cols _ _ _ K) as C. rewrite H in C. apply (ok_ncols _ _ _ K). destruct (s_cols (t_sch t)); [reflexivity|destruct C]. Qed.
Section Sweep.
Variables (pr : profile) (umax fuel : nat) (rank : nat -> nat) (null : nat -> nat -> Prop) (order : nat -> row -> row -> comparison).
Hypothesis Or : forall c, total_preorder (order c).
Notation inv := (inv pr umax rank null order).
Lemma inv_removable u : inv u -> acyclic rank u /\ removable u.
Proof.
  intro V. destruct (i_wired _ _ _ _ _ _ V) as (W1 & W2 & W3). split.
  - intros p c k key H. apply (W1 _ _ _ _ H).
  - intros p c k key H. destruct (W1 _ _ _ _ H) as (_ & t & b & Ht & _ & Q). exists t. split; [exact Ht|].
    assert (K : t_kind t = Consistent \/ t_kind t = Sorted) by (destruct key; tauto). destruct K as [K|K]; [left; exact K|]. right. split; [exact K|]. apply (W2 _ _ Ht). congruence.
Qed.
Definition swept (u : universe) (p : nat) (u' : universe) : Prop :=
  forall c t, nth_error (u_tabs u) c = Some t -> exists t', nth_error (u_tabs u') c = Some t' /\
    ((c = p \/ downstream u p c) /\ t' = emptied t \/ ~ (c = p \/ downstream u p c) /\ t' = t).
Lemma clear_flush u p t es w ev : inv u -> rank p < fuel -> nth_error (u_tabs u) p = Some t -> t_kind t = Consistent -> wipes es -> plain_removal ev ->
  nth_error (u_hdl u) (ev_id ev) = Some HDelete -> do_edits pr umax (w_new t) es = Ok w ->
  exists u', flush pr umax fuel u [] p w ev = Ok u' /\ u_trk u' = u_trk u /\ u_hdl u' = u_hdl u /\ length (u_tabs u') = length (u_tabs u) /\ swept u p u'.
Proof.
  intros V R Hp Kc Wi PE HD He. destruct (inv_removable u V) as [A Rm]. destruct (wipe_lock _ _ _ _ _ Kc Wi He) as (Wt & Wc & Wp).
  apply (flush_all_cascade pr umax rank u ev A Rm PE HD fuel p w R); [congruence|exact Wc|]. rewrite Wp. reflexivity.
Qed.
Lemma clear_inv u p u' : inv u -> none_deleted u p -> u_trk u' = u_trk u -> u_hdl u' = u_hdl u -> length (u_tabs u') = length (u_tabs u) -> swept u p u' -> inv u'.
Proof.
  intros V Nd Et Eh El Sw. pose proof V as [(W1 & W2 & W3) T Sn O I].
  assert (Ut : forall q, u_trackers u' q = u_trackers u q) by (intro q; unfold u_trackers; congruence).
  assert (Back : forall c x, nth_error (u_tabs u') c = Some x -> exists t, nth_error (u_tabs u) c = Some t /\
    ((c = p \/ downstream u p c) /\ x = emptied t \/ ~ (c = p \/ downstream u p c) /\ x = t)).
  { intros c x H. destruct (nth_error (u_tabs u) c) as [t|] eqn:E; [|apply nth_error_None in E; assert (c < length (u_tabs u')) by (apply nth_error_Some; congruence); lia].
    exists t. split; [reflexivity|]. destruct (Sw c t E) as (t' & H' & Q). rewrite H in H'. injection H' as ->. exact Q. }
  assert (Sch : forall t, t_sch (emptied t) = t_sch t) by reflexivity.
  assert (Tg : forall t, tg false (t_sch t) t -> tg false (t_sch t) (emptied t)).
  { intros t G. change (emptied t) with (w_tab (clear_raw (w_new t))). apply tg_clear_raw; [discriminate|exact G]. }
  constructor.
  - split; [|split; [|congruence]].
    + intros q c k key H. rewrite Ut in H. destruct (W1 _ _ _ _ H) as (R & t & b & Ht & Hb & Q). split; [exact R|]. destruct (Sw _ _ Ht) as (t' & Ht' & D). exists t', b.
      assert (E : t_sch t' = t_sch t) by (destruct D as [[_ ->]|[_ ->]]; reflexivity). split; [exact Ht'|]. unfold t_kind in *. rewrite E. split; [exact Hb|exact Q].
    + intros q x H K. rewrite Ut. destruct (Back _ _ H) as (t & Ht & D). apply (W2 _ _ Ht). destruct D as [[_ ->]|[_ ->]]; exact K.
  - intros c x H. destruct (Back _ _ H) as (t & Ht & [[_ ->]|[_ ->]]); [rewrite Sch; apply Tg|]; exact (T _ _ Ht).
  - intros c x H Wk. destruct (Back _ _ H) as (t & Ht & [[D ->]|[D ->]]); [|exact (Sn _ _ Ht Wk)]. rewrite Sch. destruct (Sn _ _ Ht Wk) as [S1 S2].
    split; [apply sane_emptied; [exact S1|exact (Nd _ _ D Ht)]|]. rewrite emptied_len; [apply Nat.le_0_l|]. exact (tg_ncols _ _ (T _ _ Ht)).
  - intros c x H Ks. destruct (Back _ _ H) as (t & Ht & [[D ->]|[D ->]]); [|exact (O _ _ Ht Ks)]. rewrite Sch. exact (ordered_clear (t_sch t) (order c) (w_new t) (O _ _ Ht Ks)).
  - intros q c k key t j i H Ht (tc & r & Hc & Hr & Hk). rewrite Ut in H. destruct (Back _ _ Hc) as (t1 & H1 & [[D ->]|[D ->]]).
    { exfalso. eapply emptied_rows; [|exact Hr]. exact (tg_ncols _ _ (T _ _ H1)). }
    destruct (Back _ _ Ht) as (t2 & H2 & [[D2 ->]|[D2 ->]]).
    { exfalso. apply D. right. destruct D2 as [->|D2]; [eapply downstream_one; eauto|eapply downstream_more; eauto]. }
    apply (I q c k key t2 j i H H2). exists t1, r. auto.
Qed.
Lemma clear_follows u p t es w ev u' : inv u -> rank p < fuel -> nth_error (u_tabs u) p = Some t -> t_kind t = Consistent -> wipes es -> plain_removal ev ->
  nth_error (u_hdl u) (ev_id ev) = Some HDelete -> do_edits pr umax (w_new t) es = Ok w -> flush pr umax fuel u [] p w ev = Ok u' -> follows u u'.
Proof.
  intros V R Hp Kc Wi PE HD He H. destruct (clear_flush u p t es w ev V R Hp Kc Wi PE HD He) as (u1 & H1 & Et & Eh & El & Sw). rewrite H in H1. injection H1 as <-.
  destruct (inv_removable u V) as [A _]. destruct (wipe_lock _ _ _ _ _ Kc Wi He) as (Wt & Wc & Wp).
  destruct (flush_calls pr umax fuel u [] p w ev HDelete u') as (notes & En & Fn & Cn); auto; [congruence|].
  rewrite Wc in Cn. cbn [sel_empty] in Cn.
  exists notes. split; [exact En|]. intros q m b M srt f x Hq Ha Hx i. assert (Ut : u_trackers u' q = u_trackers u q) by (unfold u_trackers; congruence). rewrite Ut in Hq.
  destruct (nth_error (u_tabs u) q) as [tq|] eqn:Eq; [|apply nth_error_None in Eq; assert (q < length (u_tabs u')) by (apply nth_error_Some; congruence); lia].
  destruct (Sw _ _ Eq) as (t' & H' & D). rewrite Hx in H'. injection H' as ->.
  rewrite (book_all q m ev); [|apply PE|eapply Forall_impl; [|exact Fn]; cbn; intros n [X1 X2]; split; [exact X1|apply X2; exact Wc]].
  assert (Ls : In (m, TUser srt f) (listeners u q ev)) by (eapply listens; eauto).
  assert (Eb : existsb (fun n => (n_table n =? q) && (n_pos n =? m)) notes = true <-> In (q, m) (map (fun n => (n_table n, n_pos n)) notes)).
  { rewrite existsb_exists, in_map_iff. split; intros (n & X & Y); exists n.
    - apply andb_true_iff in Y. destruct Y as [Y1 Y2]. apply Nat.eqb_eq in Y1, Y2. split; [congruence|exact X].
    - injection X as -> ->. rewrite !Nat.eqb_refl. auto. }
  rewrite Cn in Eb. destruct D as [[D ->]|[D ->]].
  - rewrite (proj2 Eb (calls_all rank _ _ _ _ A _ _ _ _ R D Ls)). split; [intros []|]. intros [r Hr]. eapply emptied_rows; [|exact Hr].
    exact (tg_ncols _ _ (i_tg _ _ _ _ _ _ V _ _ Eq)).
  - replace (existsb _ notes) with false; [exact (M _ _ _ Hq Ha Eq i)|]. symmetry. apply not_true_iff_false. rewrite Eb. intro X. apply D. exact (calls_only _ _ _ _ _ _ _ X).
Qed.
Lemma clear_mirror u p t es w ev u' : inv u -> mirrored u -> rank p < fuel -> nth_error (u_tabs u) p = Some t -> t_kind t = Consistent -> wipes es -> plain_removal ev ->
  nth_error (u_hdl u) (ev_id ev) = Some HDelete -> do_edits pr umax (w_new t) es = Ok w -> flush pr umax fuel u [] p w ev = Ok u' -> mirrored u'.
Proof. intros V M R Hp Kc Wi PE HD He H. eapply follows_mirror; [|exact M]. eapply clear_follows; eauto. Qed.

Lemma session_inv u p t es w ev u' : rank p < fuel -> inv u -> careful null order u p es ev -> nth_error (u_tabs u) p = Some t -> do_edits pr umax (w_new t) es = Ok w ->
  t_len (w_tab w) <= t_imax (w_tab w) -> flush pr umax fuel u [] p w ev = Ok u' -> inv u'.
Proof.
  intros Hf IH Ca Hp He Le H. destruct (t_kind t) eqn:Kd.
  - eapply session_other; eauto. unfold watched_kind. rewrite Kd. intros [?|?]; discriminate.
  - eapply session_cons; eauto.
  - eapply session_other; eauto. unfold watched_kind. rewrite Kd. intros [?|?]; discriminate.
  - eapply session_other; eauto. unfold watched_kind. rewrite Kd. intros [?|?]; discriminate.
  - eapply session_sorted; eauto.
Qed.
Theorem sweeps_inv fussy u0 u : (forall p, rank p < fuel) -> wired rank order u0 -> all_new u0 -> sweeps fussy pr umax fuel null order u0 u -> inv u.
Proof.
  intros Hf W N. induction 1 as [|u p t es w ev u' L IH Ca Hp He Le Ty H|u p t es w ev u' L IH Hp Kc Wi Nd PE HD He H]; [apply inv_new; auto| |].
  - eapply session_inv; eauto.
  - destruct (clear_flush u p t es w ev IH (Hf p) Hp Kc Wi PE HD He) as (u1 & H1 & Et & Eh & El & Sw). rewrite H in H1. injection H1 as <-. eapply clear_inv; eauto.
Qed.
Theorem sweeps_mirror u0 u : (forall p, rank p < fuel) -> wired rank order u0 -> all_new u0 -> u_log u0 = [] -> sweeps true pr umax fuel null order u0 u -> mirrored u.
Proof.
  intros Hf W N L0 T. induction T as [|u p t es w ev u' T IH Ca Hp He Le Ty H|u p t es w ev u' T IH Hp Kc Wi Nd PE HD He H].
  - exact (tended_mirror pr umax fuel rank null order Or u0 u0 Hf W N L0 (tended_start _ _ _ _ _ _)).
  - eapply (session_mirror pr umax fuel rank null order Or u p t es w ev u'); eauto. eapply sweeps_inv; eauto.
  - eapply clear_mirror; eauto. eapply sweeps_inv; eauto.
Qed.
Theorem clears_done fussy u0 u p t es w ev : (forall p, rank p < fuel) -> wired rank order u0 -> all_new u0 -> sweeps fussy pr umax fuel null order u0 u ->
  nth_error (u_tabs u) p = Some t -> t_kind t = Consistent -> none_deleted u p -> plain_removal ev -> nth_error (u_hdl u) (ev_id ev) = Some HDelete ->
  wipes es -> do_edits pr umax (w_new t) es = Ok w ->
  exists u', flush pr umax fuel u [] p w ev = Ok u' /\ sweeps fussy pr umax fuel null order u0 u' /\
    forall c tc, nth_error (u_tabs u) c = Some tc -> exists tc', nth_error (u_tabs u') c = Some tc' /\
      (c = p \/ downstream u p c -> t_len tc' = 0 /\ forall i r, t_get_row tc' i <> Ok r) /\ (~ (c = p \/ downstream u p c) -> tc' = tc).
Proof.
  intros Hf W N L Hp Kc Nd PE HD Wi He. pose proof (sweeps_inv fussy u0 u Hf W N L) as V.
  destruct (clear_flush u p t es w ev V (Hf p) Hp Kc Wi PE HD He) as (u' & H & Et & Eh & El & Sw). exists u'. split; [exact H|]. split; [eapply sweeps_clear; eauto|].
  intros c tc Hc. destruct (Sw c tc Hc) as (tc' & Hc' & D). exists tc'. split; [exact Hc'|]. pose proof (tg_ncols _ _ (i_tg _ _ _ _ _ _ V _ _ Hc)) as Nc.
  destruct D as [[D ->]|[D ->]]; split; try tauto. intros _. split; [exact (emptied_len tc Nc)|]. intros i r. exact (emptied_rows tc i r Nc).
Qed.
End Sweep.
