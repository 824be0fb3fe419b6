(** Lemmas behind PropsLimits.v. *)
From Coq Require Import List Arith Bool Lia Sorting.Sorted Sorting.Permutation.
From Verif Require Import Base BaseFacts Column ColumnFacts RowRange RowRangeFacts Table Visit SortedTab BagTab
  TableSpec TableFacts Hist HistFacts TableProps RaceFacts Order Events Cascade CascadeSpec CascadeFacts CascadeProps Extract
  IntegritySpec IntegrityFacts LimitsSpec.
Import ListNotations.

(** [x] succeeds if [P], and panics otherwise. *)
Definition sharp {A} (x : res A) (P : Prop) : Prop := (exists a, x = Ok a) /\ P \/ (exists c, x = panic c) /\ ~ P.
Lemma sharp_iff {A} (x : res A) P Q : (P <-> Q) -> sharp x P -> sharp x Q.
Proof. intros H [[E S]|[E S]]; [left|right]; (split; [exact E|]); tauto. Qed.
Lemma sharp_ok {A} (x : res A) a (P : Prop) : x = Ok a -> P -> sharp x P.
Proof. intros. left. eauto. Qed.
Lemma sharp_no {A} (x : res A) c (P : Prop) : x = panic c -> ~ P -> sharp x P.
Proof. intros. right. eauto. Qed.
Lemma sharp_bind {A B} (x : res A) (f : A -> res B) P : sharp x P -> (forall a, x = Ok a -> exists b, f a = Ok b) -> sharp (bind x f) P.
Proof.
  intros [[[a ->] S]|[[c ->] S]] H.
  - left. split; auto. cbn [bind]. apply (H a eq_refl).
  - right. split; auto. exists c. reflexivity.
Qed.
Lemma sharp_then {A B} (x : res A) (f : A -> res B) P Q : sharp x P -> (forall a, x = Ok a -> sharp (f a) Q) -> sharp (bind x f) (P /\ Q).
Proof.
  intros [[[a ->] S]|[[c ->] S]] H.
  - cbn [bind]. eapply sharp_iff; [|apply (H a eq_refl)]. tauto.
  - right. split; [|tauto]. exists c. reflexivity.
Qed.
Lemma sharp_assert b c : sharp (assert_ b c) (b = true).
Proof. destruct b; [left|right]; (split; [eexists; reflexivity|]); congruence. Qed.
Lemma sharp_rid imax i : sharp (rid_from_usize imax i) (i <= imax).
Proof. unfold rid_from_usize. destruct (Nat.leb_spec i imax); [left|right]; (split; [eexists; reflexivity|]); lia. Qed.

Section L.
Variables (pr : profile) (umax : nat).

(** ** reads *)
Section R.
Variables (t : table) (live : nat -> bool) (rows : list row).
Hypothesis K : t_ok t live rows.

Lemma sharp_check i : sharp (t_check t i) (t_contains t i = true).
Proof.
  destruct (t_contains t i) eqn:C.
  - apply (contains_iff _ _ _ K) in C. eapply sharp_ok; [|reflexivity]. apply (t_check_ok _ _ _ K); [tauto|].
    rewrite (t_deleted_iff _ _ _ K). tauto.
  - destruct (t_check t i) as [x|e] eqn:E.
    + apply (t_check_inv _ _ _ K) in E. destruct E as (_ & L & D). rewrite (t_deleted_iff _ _ _ K) in D.
      assert (t_contains t i = true) by (apply (contains_iff _ _ _ K); auto). congruence.
    + destruct (t_check_err t i _ E) as [c ->]. eapply sharp_no; [reflexivity|discriminate].
Qed.
Lemma sharp_get i : sharp (t_get_row t i) (t_contains t i = true).
Proof.
  destruct (t_contains t i) eqn:C.
  - apply (contains_get _ _ _ K) in C. destruct C as [r E]. eapply sharp_ok; eauto.
  - apply (contains_false_get _ _ _ K) in C. destruct C as [c E]. eapply sharp_no; eauto.
Qed.
Lemma sharp_read k i : sharp (t_read t k i) (k < length (s_cols (t_sch t)) /\ i < t_len t).
Proof.
  unfold t_read. rewrite (t_len_ok _ _ _ K). pose proof (cols_len_eq _ _ _ K) as CL.
  destruct (nth_error (t_cols t) k) as [c|] eqn:Ec.
  - pose proof (nth_error_Some_lt _ _ _ Ec) as Lk. rewrite CL in Lk.
    destruct (nth_error_lt_Some _ _ Lk) as [ct Ek]. destruct (cols_nth _ _ _ _ _ _ _ _ (ok_cols _ _ _ K) Ec Ek) as [W D].
    destruct (Nat.lt_ge_cases i (length rows)) as [L|L].
    + destruct (nth_error_lt_Some _ _ L) as [r Hr]. eapply sharp_ok; [|auto].
      eapply c_get_ok; [exact W|]. rewrite D, nth_error_map, Hr. reflexivity.
    + unfold c_get. rewrite c_len_data, D, map_length. destruct (Nat.leb_spec (length rows) i); [|lia].
      eapply sharp_no; [reflexivity|lia].
  - apply nth_error_None in Ec. eapply sharp_no; [reflexivity|lia].
Qed.
Lemma sharp_find k v : sharp (t_find t k v) (exists b, nth_error (s_cols (t_sch t)) k = Some (Indexed b)).
Proof.
  unfold t_find. pose proof (cols_len_eq _ _ _ K) as CL. destruct (nth_error (t_cols t) k) as [c|] eqn:Ec.
  - pose proof (nth_error_Some_lt _ _ _ Ec) as Lk. rewrite CL in Lk.
    destruct (nth_error_lt_Some _ _ Lk) as [ct Ek]. destruct (cols_nth _ _ _ _ _ _ _ _ (ok_cols _ _ _ K) Ec Ek) as [W D].
    rewrite Ek. destruct ct as [b|b].
    + destruct c; [|destruct W]. eapply sharp_no; [reflexivity|]. intros [b' Q]. discriminate.
    + rewrite (c_find_ok _ _ _ _ _ W). eapply sharp_ok; eauto.
  - apply nth_error_None in Ec. eapply sharp_no; [reflexivity|]. intros [b Q]. apply nth_error_Some_lt in Q. lia.
Qed.
Lemma last_ok : exists a, t_last t = Ok a.
Proof.
  rewrite (t_last_eq _ _ _ K). destruct rows as [|r l] eqn:E; [eauto|]. pose proof (ok_len _ _ _ K) as L.
  destruct (Nat.leb_spec (length (r :: l) - 1) (t_imax t)); [eauto|]. simpl length in *. lia.
Qed.
Lemma sharp_rows : sharp (t_row_range t) (t_len t <= t_imax t).
Proof. unfold t_row_range. apply sharp_bind; [apply sharp_rid|eauto]. Qed.
Lemma sharp_range r : sharp (t_range t r) ((r_start r < t_len t \/ r_start r = r_end r) /\ r_end r <= t_len t).
Proof.
  unfold t_range. apply sharp_bind; [|eauto]. unfold ci_from.
  eapply sharp_iff; [|apply sharp_then with (P := r_start r < t_len t \/ r_start r = r_end r) (Q := r_end r <= t_len t)]; [reflexivity| |].
  - eapply sharp_iff; [|apply sharp_assert]. rewrite orb_true_iff, Nat.ltb_lt, Nat.eqb_eq. reflexivity.
  - intros _ _. apply sharp_bind; [|eauto]. eapply sharp_iff; [|apply sharp_assert]. apply Nat.leb_le.
Qed.
(** A run of [next] yields rows present. *)
Lemma nexts_ok ops : Forall (fun x => x = ItNext) ops -> forall c, cons_inv (t_imax t) (t_free t) c -> it_end (ci_rows c) <= length rows ->
  exists l, cons_run pr (t_imax t) umax ops c = Ok l /\ Forall (fun o : option nat => forall x, o = Some x -> t_contains t x = true) l.
Proof.
  induction 1 as [|o ops -> Ho IH]; intros c I L; cbn [cons_run].
  - exists []. auto.
  - destruct (cons_next_ok pr (t_imax t) (t_free t) c I) as (c' & E & I' & En & R). rewrite E. cbn [bind fst snd].
    destruct (IH c' I') as (l & El & Hl); [lia|]. rewrite El. cbn [bind]. eexists. split; [reflexivity|].
    constructor; auto. intros x Ex.
    pose proof (first_live_filter (t_free t) (it_end (ci_rows c) - it_i (ci_rows c)) (it_i (ci_rows c))) as F.
    rewrite Ex in F, R. assert (X : In x (filter (fun i => negb (mem i (t_free t))) (seq (it_i (ci_rows c)) (it_end (ci_rows c) - it_i (ci_rows c))))).
    { rewrite F. left. reflexivity. }
    apply filter_In in X. destruct X as [X1 X2]. apply (contains_iff _ _ _ K). apply in_seq in X1. split; [lia|].
    apply negb_true_iff in X2. auto.
Qed.
Lemma checked_ok l : Forall (fun o : option nat => forall x, o = Some x -> t_contains t x = true) l -> exists u, read_checked t l = Ok u.
Proof.
  intro H. unfold read_checked.
  assert (X : exists rs, map_res (fun o : option nat => match o with Some i => t_get_row_checked t i | None => Ok [] end) l = Ok rs).
  { induction H as [|o l Ho Hl [rs IH]]; cbn [map_res]; [eauto|]. destruct o as [i|]; cbn [bind].
    - specialize (Ho i eq_refl). apply (contains_iff _ _ _ K) in Ho. destruct Ho as [Li _].
      destruct (nth_error_lt_Some _ _ Li) as [r Hr].
      assert (Q : t_get_row_checked t i = Ok r) by (unfold t_get_row_checked, t_check_checked; cbn [bind]; apply (t_get_row_raw_ok _ _ _ K i r Hr)).
      rewrite Q. cbn [bind].
      rewrite IH. cbn [bind]. eauto.
    - rewrite IH. cbn [bind]. eauto. }
  destruct X as [rs ->]. cbn [bind]. eauto.
Qed.
Lemma plain_ok l : Forall (fun o : option nat => forall x, o = Some x -> t_contains t x = true) l -> exists u, read_plain t l = Ok u.
Proof.
  intro H. unfold read_plain.
  assert (X : exists rs, map_res (fun o : option nat => match o with Some i => t_get_row t i | None => Ok [] end) l = Ok rs).
  { induction H as [|o l Ho Hl [rs IH]]; cbn [map_res]; [eauto|]. destruct o as [i|]; cbn [bind].
    - specialize (Ho i eq_refl). apply (contains_get _ _ _ K) in Ho. destruct Ho as [r ->]. cbn [bind].
      rewrite IH. cbn [bind]. eauto.
    - rewrite IH. cbn [bind]. eauto. }
  destruct X as [rs ->]. cbn [bind]. eauto.
Qed.
Lemma sharp_assign k i v : (forall ct, nth_error (s_cols (t_sch t)) k = Some ct -> v_ty (ct_base ct) v) ->
  sharp (t_assign t k i v) ((exists b, nth_error (s_cols (t_sch t)) k = Some (Plain b)) /\ i < t_len t).
Proof.
  intro T. unfold t_assign. rewrite (t_len_ok _ _ _ K). pose proof (cols_len_eq _ _ _ K) as CL.
  destruct (nth_error (t_cols t) k) as [c|] eqn:Ec.
  - pose proof (nth_error_Some_lt _ _ _ Ec) as Lk. rewrite CL in Lk.
    destruct (nth_error_lt_Some _ _ Lk) as [ct Ek]. pose proof (cols_nth _ _ _ _ _ _ _ _ (ok_cols _ _ _ K) Ec Ek) as [W D].
    destruct c as [b|b ix]; destruct ct as [ct|ct]; try (destruct W; fail).
    + apply sharp_bind; [|eauto]. destruct (Nat.lt_ge_cases i (length rows)) as [L|L].
      * destruct (nth_error_lt_Some _ _ L) as [r Hr].
        destruct (cols_assign_ok _ _ _ k i _ _ r v b ct (ok_cols _ _ _ K) Ec Ek) as (c & Q & _); auto; [apply (T _ Ek)|].
        eapply sharp_ok with (a := c); [|eauto]. unfold c_set. rewrite c_len_data, D, map_length.
        destruct (Nat.leb_spec (length rows) i); [lia|]. exact Q.
      * unfold c_set. rewrite c_len_data, D, map_length. destruct (Nat.leb_spec (length rows) i); [|lia].
        eapply sharp_no; [reflexivity|lia].
    + eapply sharp_no; [reflexivity|]. rewrite Ek. intros [[b' Q] _]. discriminate.
  - apply nth_error_None in Ec. eapply sharp_no; [reflexivity|]. intros [[b Q] _]. apply nth_error_Some_lt in Q. lia.
Qed.
End R.

(** ** pushing *)
Lemma ss_nodup l : StronglySorted lt l -> NoDup l.
Proof.
  induction 1 as [|x l S IH H]; constructor; auto. intro I. rewrite Forall_forall in H. apply H in I. lia.
Qed.
Lemma room_free s t : tg true s t -> s_kind s = Consistent -> room t = length (t_free t) + (S (t_imax t) - t_len t).
Proof.
  intros G Kc. pose proof (tg_kind _ _ _ G) as Kt. destruct G as (E & live & rows & K & X). destruct (X eq_refl) as [_ F].
  unfold room. f_equal. apply Permutation_length. apply NoDup_Permutation.
  - apply NoDup_filter, seq_NoDup.
  - apply ss_nodup, (ok_free_sorted _ _ _ K).
  - intro i. rewrite filter_In, in_seq, (t_deleted_iff _ _ _ K), mem_In, (t_len_ok _ _ _ K). rewrite Forall_forall in F.
    split; [tauto|]. intro I. split; auto. specialize (F i I). lia.
Qed.
Lemma set_remove_head x l : StronglySorted lt (x :: l) -> set_remove x (x :: l) = l.
Proof.
  intro S. inversion S as [|? ? _ F]; subst. unfold set_remove. cbn [filter]. rewrite Nat.eqb_refl. cbn [negb].
  rewrite Forall_forall in F. clear S. induction l as [|y l IH]; auto. cbn [filter].
  pose proof (F y (or_introl eq_refl)). destruct (Nat.eqb_spec x y); [lia|]. cbn [negb]. f_equal. apply IH. intros z Hz. apply F. right. auto.
Qed.
Variable sch : schema.
Hypothesis Kc : s_kind sch = Consistent.

Lemma push_room w r : sane pr umax sch (Locked w []) -> row_ty (s_cols sch) r ->
  (exists w' i, push w r = Ok (w', i) /\ sane pr umax sch (Locked w' []) /\ S (room (w_tab w')) = room (w_tab w)) \/
  (exists c, push w r = panic c) /\ room (w_tab w) = 0.
Proof.
  intros Sa T. pose proof (sane_tg _ _ _ _ Sa) as G. cbn [st_tab] in G. rewrite (room_free _ _ G Kc).
  pose proof G as (E & live & rows & K & X). destruct (X eq_refl) as [_ F].
  pose proof (push_exact w live rows r K) as P. rewrite E in P. specialize (P T).
  pose proof (tg_kind _ _ _ G) as Kt.
  assert (Sn : forall w' i, push w r = Ok (w', i) -> sane pr umax sch (Locked w' [])).
  { intros w' i Q. eapply sane_step with (o := OPush r); [exact Sa|exact T|intro; discriminate|].
    unfold step. cbn [st_tab]. rewrite Kt, Kc. cbn [avail write_op]. rewrite Q. reflexivity. }
  destruct (t_free (w_tab w)) as [|old f] eqn:Fr.
  - destruct (Nat.leb_spec (length rows) (t_imax (w_tab w))) as [L|L].
    + destruct P as (w' & Q & K' & F' & E'). left. exists w', (length rows). split; auto. split; [eauto|].
      pose proof (sane_tg _ _ _ _ (Sn _ _ Q)) as G'. cbn [st_tab] in G'. rewrite (room_free _ _ G' Kc), F'.
      rewrite (t_len_ok _ _ _ K), (t_len_ok _ _ _ K'), app_length. unfold t_imax in *. rewrite E'. rewrite E in L |- *. simpl length. lia.
    + right. split; [eauto|]. rewrite (t_len_ok _ _ _ K). simpl length. lia.
  - assert (Lo : old < length rows) by (inversion F; auto). apply Nat.ltb_lt in Lo. rewrite Lo in P.
    destruct P as (w' & Q & K' & F' & E'). left. exists w', old. split; auto. split; [eauto|].
    pose proof (sane_tg _ _ _ _ (Sn _ _ Q)) as G'. cbn [st_tab] in G'. rewrite (room_free _ _ G' Kc), F', set_remove_head.
    + rewrite (t_len_ok _ _ _ K), (t_len_ok _ _ _ K'), upd_length. unfold t_imax. rewrite E', E. reflexivity.
    + pose proof (ok_free_sorted _ _ _ K) as Ss. rewrite Fr in Ss. exact Ss.
Qed.
Lemma sharp_push_all rs : forall w, sane pr umax sch (Locked w []) -> Forall (row_ty (s_cols sch)) rs ->
  sharp (push_all w rs) (length rs <= room (w_tab w)).
Proof.
  induction rs as [|r rs IH]; intros w Sa T; unfold push_all; cbn [fold_res].
  - eapply sharp_ok; [reflexivity|]. simpl. lia.
  - inversion T as [|? ? T1 T2]; subst. destruct (push_room w r Sa T1) as [(w' & i & Q & Sa' & R)|[[c Q] R]]; rewrite Q; cbn [bind fst].
    + eapply sharp_iff; [|apply (IH w' Sa' T2)]. simpl. lia.
    + eapply sharp_no; [reflexivity|]. simpl. lia.
Qed.
Lemma push_ends_full rs : forall w i live rows, t_ok (w_tab w) live rows -> Forall (row_ty (s_cols (t_sch (w_tab w)))) rs ->
  S (t_imax (w_tab w)) < length rows + length rs ->
  exists c, fold_res (fun s r => push_end_unchecked (fst s) r) rs (w, i) = panic c.
Proof.
  induction rs as [|r rs IH]; intros w i live rows K T L; cbn [fold_res].
  - pose proof (ok_len _ _ _ K). simpl in L. lia.
  - inversion T as [|? ? T1 T2]; subst. cbn [fst]. destruct (Nat.le_gt_cases (length rows) (t_imax (w_tab w))) as [Li|Li].
    + destruct (push_end_exact w live rows r K T1 Li) as (w1 & Q & K1 & F1 & E1). rewrite Q. cbn [bind].
      apply (IH w1 (length rows) _ _ K1); [rewrite E1; auto|]. unfold t_imax in *. rewrite E1, app_length. simpl length in *. lia.
    + rewrite (push_end_full w live rows r K T1 Li). cbn [bind]. eexists. reflexivity.
Qed.
Lemma sharp_push_array w rs live rows : t_ok (w_tab w) live rows -> Forall (row_ty (s_cols (t_sch (w_tab w)))) rs ->
  sharp (push_array pr w rs) (rs = [] \/ t_len (w_tab w) + length rs <= match pr with Debug => t_imax (w_tab w) | Release => S (t_imax (w_tab w)) end).
Proof.
  intros K T. rewrite (t_len_ok _ _ _ K). destruct rs as [|r rs]; [eapply sharp_ok; [reflexivity|auto]|].
  inversion T as [|? ? T1 T2]; subst. unfold push_array. simpl length.
  destruct (Nat.le_gt_cases (length rows) (t_imax (w_tab w))) as [Li|Li].
  - destruct (push_end_exact w live rows r K T1 Li) as (w1 & Q & K1 & F1 & E1). rewrite Q. cbn [bind fst snd].
    assert (I1 : t_imax (w_tab w1) = t_imax (w_tab w)) by (unfold t_imax; congruence).
    assert (T3 : Forall (row_ty (s_cols (t_sch (w_tab w1)))) rs) by (rewrite E1; auto).
    destruct (Nat.le_gt_cases (length rows + S (length rs)) (S (t_imax (w_tab w)))) as [L|L].
    + destruct (push_ends_exact rs w1 (length rows) _ _ K1) as (w' & live' & Q' & _); auto.
      { rewrite app_length, I1. simpl. lia. } { rewrite app_length. simpl. lia. }
      rewrite Q'. cbn [bind fst snd]. unfold rid_next.
      destruct (Nat.ltb_spec (length rows + length rs) (t_imax (w_tab w))) as [L2|L2]; cbn [bind].
      * eapply sharp_ok; [reflexivity|]. right. destruct pr; lia.
      * destruct pr; cbn [bind]; [eapply sharp_no; [reflexivity|]|eapply sharp_ok; [reflexivity|]].
        -- intros [X|X]; [discriminate|lia].
        -- right. lia.
    + destruct (push_ends_full rs w1 (length rows) _ _ K1) as [c Q']; auto.
      { rewrite app_length, I1. simpl. lia. }
      rewrite Q'. cbn [bind]. eapply sharp_no; [reflexivity|]. intros [X|X]; [discriminate|destruct pr; lia].
  - rewrite (push_end_full w live rows r K T1 Li). cbn [bind]. eapply sharp_no; [reflexivity|].
    intros [X|X]; [discriminate|destruct pr; lia].
Qed.

(** ** flushing *)
Lemma sharp_check_flush p d ev : sharp (flush_check p d ev) (p && d = false /\ ev_removal ev && ev_creation ev = false /\ ev_id ev < max_event_types).
Proof.
  unfold flush_check. eapply sharp_iff; [|apply sharp_then with (P := p && d = false /\ ev_removal ev && ev_creation ev = false)
    (Q := ev_id ev < max_event_types)]; [tauto| |].
  - eapply sharp_iff; [|apply sharp_assert]. rewrite negb_true_iff, orb_false_iff. reflexivity.
  - intros _ _. eapply sharp_iff; [|apply sharp_assert]. apply Nat.ltb_lt.
Qed.
Lemma sharp_removals rows w live ids : t_ok (w_tab w) live rows -> t_kind (w_tab w) = Consistent ->
  sharp (fold_res (fun w i => let* _ := assert_ (i <? length rows) PRemoveRange in delete_raw pr umax w i) ids w) (Forall (fun i => i < length rows) ids).
Proof.
  intros K Kw. destruct (Forall_dec (fun i => i < length rows) (fun i => lt_dec i (length rows)) ids) as [F|F].
  - destruct (delete_raws_exact pr umax rows ids w live K Kw F) as (w' & Q & _). eapply sharp_ok; eauto.
  - assert (X : Exists (fun i => ~ i < length rows) ids) by (apply neg_Forall_Exists_neg; [intro; apply lt_dec|exact F]).
    apply Exists_exists in X. destruct X as (i & Hi & Hl).
    eapply sharp_no; [|exact F]. eapply removal_panics; eauto. lia.
Qed.
Lemma sharp_apply w live rows ev ch : t_ok (w_tab w) live rows -> t_kind (w_tab w) = Consistent ->
  sharp (flush_apply pr umax w ev ch) (ev_removal ev = true -> match ch with SAll => True | SThese ids => Forall (fun i => i < length rows) ids end).
Proof.
  intros K Kw. unfold flush_apply. destruct (ev_removal ev); cbn [andb].
  - destruct ch as [|ids]; cbn [sel_empty negb]; [eapply sharp_ok; [reflexivity|auto]|].
    destruct ids as [|i ids]; cbn [negb]; [eapply sharp_ok; [reflexivity|auto]|]. rewrite (t_len_ok _ _ _ K).
    eapply sharp_iff; [|apply (sharp_removals rows w live _ K Kw)]. tauto.
  - eapply sharp_ok; [reflexivity|discriminate].
Qed.
Lemma apply_changes w ev ch w' : flush_apply pr umax w ev ch = Ok w' -> t_kind (w_tab w) = Consistent ->
  w_changes w' = w_changes w /\ t_kind (w_tab w') = Consistent.
Proof.
  unfold flush_apply. destruct (_ && _); [|intro Q; injection Q as <-; auto].
  destruct ch as [|ids]; [intro Q; injection Q as <-; auto|].
  generalize (t_len (w_tab w)) as n. revert w. induction ids as [|i ids IH]; intros w n H Kw; cbn [fold_res] in H.
  - injection H as <-. auto.
  - bindn H w1 H1. bindn H1 u1 H2. unfold delete_raw in H1. rewrite Kw in H1. bindn H1 cs H3. bindn H1 j H4. injection H1 as <-.
    destruct (IH _ _ H) as [A B]; [exact Kw|]. split; auto.
Qed.
Definition sel_fits (c : select) (len : nat) : Prop := match c with SAll => True | SThese ids => Forall (fun i => i < len) ids end.
Lemma sort_fits (srt : bool) c n : sel_fits (if srt then sel_sort c else c) n <-> sel_fits c n.
Proof.
  destruct srt; [|reflexivity]. destruct c as [|ids]; [reflexivity|]. simpl. rewrite !Forall_forall.
  split; intros H x Hx; apply H; apply sort_ids_In; exact Hx.
Qed.
Definition can_flush (w : wlock) (ev : event) : Prop :=
  w_pushed w && w_delete w = false /\ ev_removal ev && ev_creation ev = false /\ ev_id ev < max_event_types /\
  (ev_removal ev = true -> sel_fits (w_changes w) (t_len (w_tab w))).
Lemma sharp_flush srt w live rows ev : t_ok (w_tab w) live rows -> t_kind (w_tab w) = Consistent ->
  sharp (w_flush pr umax srt w ev) (sel_empty (w_changes w) = true \/ can_flush w ev).
Proof.
  intros K Kw. unfold w_flush, can_flush. destruct (sel_empty (w_changes w)) eqn:Em.
  - eapply sharp_ok with (a := w_tab w); [|auto]. unfold w_drop. rewrite Em, andb_false_r. reflexivity.
  - rewrite (t_len_ok _ _ _ K).
    eapply sharp_iff; [|apply sharp_then with (P := w_pushed w && w_delete w = false /\ ev_removal ev && ev_creation ev = false /\ ev_id ev < max_event_types)
      (Q := ev_removal ev = true -> sel_fits (w_changes w) (length rows)); [apply sharp_check_flush|]]; [intuition discriminate|].
    intros _ _. apply sharp_bind.
    + eapply sharp_iff; [|apply (sharp_apply (w_new (w_tab w)) live rows ev _ K Kw)]. cbn beta.
      rewrite <- (sort_fits srt). reflexivity.
    + intros w' Q. destruct (apply_changes _ _ _ _ Q Kw) as [C' K']. rewrite C'. cbn [w_new w_changes sel_empty assert_ bind].
      unfold w_drop. rewrite C'. cbn [w_new w_changes sel_empty negb]. rewrite andb_false_r. eauto.
Qed.
Lemma sharp_live_flush srt w live rows ev : t_ok (w_tab w) live rows -> t_kind (w_tab w) = Consistent ->
  sharp (w_live_flush pr umax srt w ev) (sel_empty (w_changes w) = true \/ can_flush w ev).
Proof.
  intros K Kw. unfold w_live_flush, can_flush. destruct (sel_empty (w_changes w)) eqn:Em.
  - eapply sharp_ok; [reflexivity|auto].
  - rewrite (t_len_ok _ _ _ K).
    eapply sharp_iff; [|apply sharp_then with (P := w_pushed w && w_delete w = false /\ ev_removal ev && ev_creation ev = false /\ ev_id ev < max_event_types)
      (Q := ev_removal ev = true -> sel_fits (w_changes w) (length rows)); [apply sharp_check_flush|]]; [intuition discriminate|].
    intros _ _. apply sharp_bind.
    + eapply sharp_iff; [|apply (sharp_apply (W (w_tab w) (SThese []) (w_pushed w) (w_delete w)) live rows ev _ K Kw)]. cbn beta.
      rewrite <- (sort_fits srt). reflexivity.
    + intros w' Q. destruct (apply_changes _ _ _ _ Q Kw) as [C' K']. rewrite C'. cbn [w_changes sel_empty assert_ bind]. eauto.
Qed.

(** ** all calls *)
Lemma comes_sane ops : forall st, s_cols sch <> [] -> comes_to pr umax sch ops st -> sane pr umax sch st.
Proof.
  induction ops as [|o ops IH] using rev_ind; intros st N (T & R & S).
  - injection R as <-. apply sane_new. auto.
  - apply Forall_app in T. destruct T as [T1 T2]. inversion T2 as [|? ? To _]; subst.
    unfold run in R. rewrite fold_res_app in R. bindn R st1 R1. cbn [fold_res] in R. bindn R st2 R2. injection R as <-.
    apply sane_step with (st := st1) (o := o); auto.
    + apply IH; auto. split; auto. split; auto. intros b x a st3 -> Rb. apply (S b x (a ++ [o])); auto.
      rewrite <- app_assoc. reflexivity.
    + apply (S ops o []); auto.
Qed.
Lemma comes_unshared st : sane pr umax sch st -> match st with Locked _ its => its = [] | Free _ => True end.
Proof.
  induction 1 as [N|st o st' Sa IH T So H]; [exact I|].
  pose proof (tg_kind _ _ _ (sane_tg _ _ _ _ Sa)) as Kt. unfold step in H. rewrite Kt, Kc in H.
  destruct (avail Consistent o) eqn:A; [|discriminate]. destruct st as [t|w its].
  - destruct o; try discriminate; try (bindn H u Hu; injection H as <-; exact I); injection H as <-; reflexivity.
  - subst its. assert (W : (let* p := write_op pr umax w [] o in Ok (Locked (fst p) (snd p))) = Ok st' -> match st' with Locked _ its => its = [] | Free _ => True end).
    { intro H'. bindn H' p Hp. injection H' as <-. destruct p as [w' its]. apply (its_nil pr umax w o w' its A Hp). }
    destruct o; try discriminate; try (apply W; exact H); clear W; cbn [st_tab] in Kt; rewrite ?Kt, ?Kc in H;
      bindn H x Hx; injection H as <-; exact I.
Qed.

Lemma sharp_reads t live rows o : t_ok t live rows -> t_kind t = Consistent -> by_next (t_imax t) o ->
  match o with
  | OGet i => sharp (read_op pr umax t o) (t_contains t i = true)
  | OCell k i => sharp (read_op pr umax t o) (k < length (s_cols (t_sch t)) /\ i < t_len t)
  | OFind k v => sharp (read_op pr umax t o) (exists b, nth_error (s_cols (t_sch t)) k = Some (Indexed b))
  | OLast => sharp (read_op pr umax t o) True
  | OIter _ => sharp (read_op pr umax t o) (t_len t <= t_imax t)
  | ORange r _ => sharp (read_op pr umax t o) ((r_start r < t_len t \/ r_start r = r_end r) /\ r_end r <= t_len t)
  | ODump => True
  | _ => read_op pr umax t o = panic PRustType
  end.
Proof.
  intros K Kt B. destruct o; try reflexivity; try exact I; cbn [read_op by_next] in *.
  - apply sharp_bind; [apply (sharp_get _ _ _ K)|eauto].
  - apply sharp_bind; [apply (sharp_read _ _ _ K)|eauto].
  - apply sharp_bind; [apply (sharp_find _ _ _ K)|eauto].
  - destruct (last_ok _ _ _ K) as [a Q]. rewrite Q. eapply sharp_ok; [reflexivity|exact I].
  - destruct B as [Bi Bn]. apply sharp_bind; [apply sharp_range|]. intros it Q.
    destruct (t_range_spec _ _ _ K r) as [[H1 H2]|[[c H1] _]]; rewrite H1 in Q; [injection Q as <-|discriminate].
    destruct (nexts_ok _ _ _ K ops Bn (cons_new (RI (r_start r) (r_end r)) (t_free t))) as (l & El & Hl).
    { apply cons_new_inv; [apply (ok_free_sorted _ _ _ K)|exact Bi]. } { exact H2. }
    rewrite El. cbn [bind]. apply (checked_ok _ _ _ K l Hl).
  - destruct (Nat.le_gt_cases (t_len t) (t_imax t)) as [L|L].
    + rewrite (t_len_ok _ _ _ K) in L. rewrite (t_iter_ok _ _ _ K L). cbn [bind].
      destruct (nexts_ok _ _ _ K ops B (cons_new (RI 0 (length rows)) (t_free t))) as (l & El & Hl).
      { apply cons_new_inv; [apply (ok_free_sorted _ _ _ K)|exact L]. } { apply le_n. }
      rewrite El. cbn [bind]. destruct (checked_ok _ _ _ K l Hl) as [u Q]. eapply sharp_ok; [exact Q|]. rewrite (t_len_ok _ _ _ K). exact L.
    + unfold t_iter, t_row_range, rid_from_usize. destruct (Nat.leb_spec (t_len t) (t_imax t)); [lia|].
      eapply sharp_no; [reflexivity|lia].
Qed.

Lemma cleared w : t_kind (w_tab w) = Consistent -> clear (clear_raw w) = W (w_tab (clear_raw w)) SAll (w_pushed w) true.
Proof. intro Kw. unfold clear, event_cleared. change (t_kind (w_tab (clear_raw w))) with (t_kind (w_tab w)). rewrite Kw. reflexivity. Qed.
Theorem call_sharp ops st o : s_cols sch <> [] -> comes_to pr umax sch ops st -> op_ty (s_cols sch) o -> by_next (s_imax sch) o ->
  sharp (step pr umax st o) (succeeds pr ops st o).
Proof.
  intros N Co T B. pose proof (comes_sane ops st N Co) as Sa. pose proof (comes_unshared st Sa) as Un.
  pose proof (sane_tg _ _ _ _ Sa) as G. pose proof (tg_kind _ _ _ G) as Kt. destruct Co as (Ts & R & _).
  pose proof (run_log _ _ _ _ Kc N Ts _ R) as (LP & LD & LI). clear R.
  pose proof G as (E & live & rows & K & X). rewrite Kc in Kt. unfold step. rewrite Kt.
  assert (B' : by_next (t_imax (st_tab st)) o) by (unfold t_imax; rewrite E; exact B). clear B. rename B' into B.
  destruct (avail Consistent o) eqn:A; [|destruct o; try discriminate; (eapply sharp_no; [reflexivity|exact (fun f => f)])].
  pose proof (sharp_reads _ _ _ _ K Kt B) as RD.
  destruct st as [t|w its]; cbn [st_tab] in *.
  - assert (Pf : since is_push ops = false) by (destruct (since is_push ops); auto; specialize (LP eq_refl); congruence).
    destruct o; try discriminate; cbn [succeeds lock_of st_tab]; cbn beta iota;
      try (rewrite RD; eapply sharp_no; [reflexivity|]; first [intros [Y _]; apply Y; reflexivity|intro Y; apply Y; reflexivity|intros (? & Y & _); discriminate]);
      try (apply sharp_bind; [exact RD|eauto]).
    + eapply sharp_ok; reflexivity.
    + rewrite Kt. apply sharp_bind; [|eauto]. unfold w_remove_rows. destruct rows0 as [|ids].
      * cbn [bind]. rewrite (cleared (w_new t) Kt). eapply sharp_iff; [|eapply sharp_flush; [exact (clear_raw_ok (w_new t) live rows (fun _ => true) K)|exact Kt]].
        unfold can_flush. cbn [w_changes w_pushed w_delete sel_empty sel_fits w_new]. rewrite ?Pf, ?Lp, ?andb_true_r. cbn [andb]. intuition (try discriminate; auto).
      * cbn [w_new w_tab]. rewrite (t_len_ok _ _ _ K). apply sharp_then; [apply (sharp_removals rows (w_new t) live ids K Kt)|].
        intros w' Q. assert (F : Forall (fun i => i < length rows) ids).
        { destruct (sharp_removals rows (w_new t) live ids K Kt) as [[_ F]|[[c Q'] _]]; [exact F|rewrite Q in Q'; discriminate]. }
        destruct (delete_raws_exact pr umax rows ids (w_new t) live K Kt F) as (w2 & Q2 & K2 & E2 & _ & C2 & _).
        rewrite Q in Q2. injection Q2 as <-. eapply sharp_iff; [|eapply sharp_flush; [exact K2|]].
        -- rewrite C2. cbn. tauto.
        -- unfold t_kind in *. rewrite E2. exact Kt.
  - subst its. destruct LI as (Lp & Ld & Lc).
    assert (FL : forall ev, sel_empty (w_changes w) = true \/ can_flush w ev <-> flushes ops w (t_len (w_tab w)) ev).
    { intro ev. unfold can_flush, flushes, log_fits. fold (sel_fits (w_changes w) (t_len (w_tab w))). rewrite Lp, Ld, Lc, negb_true_iff. reflexivity. }
    assert (LK : lock_of (Locked w []) <> None) by discriminate.
    assert (WR : forall P, sharp (write_op pr umax w [] o) P -> sharp (let* p := write_op pr umax w [] o in Ok (Locked (fst p) (snd p))) P).
    { intros P H. apply sharp_bind; [exact H|eauto]. }
    assert (WL : forall P (x : res wlock), sharp x P -> sharp (let* w := x in Ok (w, @nil bag_pos)) (lock_of (Locked w []) <> None /\ P)).
    { intros P x H. eapply sharp_iff; [|apply sharp_bind; [exact H|eauto]]. tauto. }
    destruct o; try discriminate; cbn [succeeds lock_of st_tab]; cbn beta iota;
      try (apply WR; cbn [write_op]; apply sharp_bind; [exact RD|eauto]; fail).
    + eapply sharp_no; [reflexivity|discriminate].
    + apply sharp_bind; [|eauto]. unfold w_drop, t_consistent. rewrite Kt, Lc. cbn [kind_eqb andb]. rewrite negb_involutive.
      destruct (since is_change ops); [eapply sharp_no; [reflexivity|]; intros [_ Y]; discriminate|eapply sharp_ok; [reflexivity|auto]].
    + apply sharp_bind; [|eauto]. eapply sharp_iff; [|apply (sharp_flush srt w live rows ev K Kt)]. rewrite FL.
      split; [intro Y; exists w; auto|]. intros (w1 & Q & Y). injection Q as <-. exact Y.
    + apply WR. cbn [write_op]. apply sharp_bind; [|eauto]. eapply sharp_iff; [|apply (sharp_live_flush srt w live rows ev K Kt)]. rewrite FL.
      split; [intro Y; exists w; auto|]. intros (w1 & Q & Y). injection Q as <-. exact Y.
    + apply WR. cbn [write_op]. apply sharp_bind; [|eauto]. unfold next_pushed. eapply sharp_iff; [|apply sharp_bind; [apply sharp_rid|eauto]]. tauto.
    + apply WR. cbn [write_op by_next] in *. destruct (Nat.le_gt_cases (t_len (w_tab w)) (t_imax (w_tab w))) as [L|L].
      * rewrite (t_len_ok _ _ _ K) in L. rewrite (t_editing_ok _ _ _ K L). cbn [bind].
        destruct (nexts_ok _ _ _ K ops0 B (cons_new (RI 0 (length rows)) (t_free (w_tab w)))) as (l & El & Hl).
        { apply cons_new_inv; [apply (ok_free_sorted _ _ _ K)|exact L]. } { apply le_n. }
        rewrite El. cbn [bind]. destruct (plain_ok _ _ _ K l Hl) as [u Q]. rewrite Q. eapply sharp_ok; [reflexivity|]. rewrite (t_len_ok _ _ _ K). auto.
      * unfold t_editing, t_row_range, rid_from_usize. destruct (Nat.leb_spec (t_len (w_tab w)) (t_imax (w_tab w))); [lia|].
        eapply sharp_no; [reflexivity|lia].
    + apply WR. cbn [write_op]. apply WL. apply sharp_bind; [|eauto]. apply (sharp_assign _ _ _ K). intros ct Hct. rewrite E in Hct. apply (T ct Hct).
    + apply WR. cbn [write_op]. apply WL. apply sharp_bind; [|eauto].
      destruct (push_room w r Sa T) as [(w' & i & Q & _ & Rm)|[[c Q] Rm]]; [eapply sharp_ok; [exact Q|lia]|eapply sharp_no; [exact Q|lia]].
    + apply WR. cbn [write_op]. apply WL. apply (sharp_push_all rs w Sa T).
    + apply WR. cbn [write_op]. apply WL. apply sharp_bind; [|eauto]. eapply sharp_push_array; [exact K|]. rewrite E. exact T.
    + apply WR. cbn [write_op]. apply WL. unfold delete. rewrite Kt. apply sharp_bind; [apply (sharp_check _ _ _ K)|eauto].
    + eapply sharp_ok; [reflexivity|exact LK].
    + eapply sharp_ok; [reflexivity|exact LK].
    + eapply sharp_ok; [reflexivity|exact LK].
    + eapply sharp_ok; [reflexivity|exact LK].
    + rewrite Kt. apply sharp_bind; [|eauto]. unfold w_remove_rows. destruct rows0 as [|ids].
      * cbn [bind]. rewrite (cleared w Kt). eapply sharp_iff; [|eapply sharp_flush; [exact (clear_raw_ok w live rows (fun _ => true) K)|exact Kt]].
        unfold can_flush. cbn [w_changes w_pushed w_delete sel_empty sel_fits w_new]. rewrite ?Pf, ?Lp, ?andb_true_r. cbn [andb]. intuition (try discriminate; auto).
      * rewrite (t_len_ok _ _ _ K) in *. apply sharp_then; [apply (sharp_removals rows w live ids K Kt)|].
        intros w' Q. assert (F : Forall (fun i => i < length rows) ids).
        { destruct (sharp_removals rows w live ids K Kt) as [[_ F]|[[c Q'] _]]; [exact F|rewrite Q in Q'; discriminate]. }
        destruct (delete_raws_exact pr umax rows ids w live K Kt F) as (w2 & Q2 & K2 & E2 & _ & C2 & P2 & D2).
        rewrite Q in Q2. injection Q2 as <-. eapply sharp_iff; [|eapply sharp_flush; [exact K2|]].
        -- rewrite <- FL. unfold can_flush. rewrite C2, P2, D2, (t_len_ok _ _ _ K2), (t_len_ok _ _ _ K). reflexivity.
        -- unfold t_kind in *. rewrite E2. exact Kt.
Qed.
End L.

(** ** Flushes of careful programs *)
Section S.
Variables (pr : profile) (umax fuel : nat) (rank : nat -> nat) (null : nat -> nat -> Prop) (order : nat -> row -> row -> comparison).
Hypothesis Or : forall c, total_preorder (order c).

Lemma edits_log s es : forall w w', s_kind s = Consistent -> tg false s (w_tab w) -> Forall (op_ty (s_cols s)) es ->
  log_of w false false false -> do_edits pr umax w es = Ok w' ->
  log_of w' (existsb is_push es) (existsb is_del es) (existsb is_change es).
Proof.
  intros w w' Ks G T L H. unfold do_edits in H. bindn H q Hq. destruct q as [w1 its]. cbn [snd fst] in H. destruct its; [|discriminate]. injection H as <-.
  assert (Gen : forall es w p d c, (p = true -> c = true) -> (d = true -> c = true) -> tg false s (w_tab w) -> Forall (op_ty (s_cols s)) es ->
    log_of w p d c -> fold_res (do_edit pr umax) es (w, []) = Ok (w1, []) ->
    log_of w1 (p || existsb is_push es) (d || existsb is_del es) (c || existsb is_change es)).
  2:{ apply (Gen es w false false false); auto. }
  clear - Ks. induction es as [|o es IH]; intros w p d c Hp Hd G T L H; cbn [fold_res existsb] in *.
  - injection H as <-. rewrite !orb_false_r. exact L.
  - inversion T as [|? ? T1 T2]; subst. bindn H q Hq. destruct q as [w2 its]. destruct (edit_step _ _ _ _ _ Hq) as (TL & A & W & Sp). cbn [fst snd] in *.
    rewrite (tg_kind _ _ _ G), Ks in A. pose proof (its_nil _ _ _ _ _ _ A W) as ->.
    pose proof (write_log pr umax w [] o w2 [] p d c) as X. rewrite (tg_kind _ _ _ G) in X. specialize (X Ks A L Hp Hd W).
    assert (Rs : resets o = false) by (destruct o; try reflexivity; discriminate TL). rewrite Rs in X.
    rewrite !orb_assoc. apply (IH w2); auto.
    + unfold is_change. rewrite !orb_true_iff. tauto.
    + unfold is_change. rewrite !orb_true_iff. tauto.
    + eapply (write_tg pr umax s Ks); eauto.
Qed.
Theorem session_sharp u0 u p t es w ev : (forall p, rank p < fuel) -> wired rank order u0 -> all_new u0 -> lives pr umax fuel null order u0 u ->
  careful null order u p es ev -> nth_error (u_tabs u) p = Some t -> t_kind t = Consistent ->
  do_edits pr umax (w_new t) es = Ok w -> t_len (w_tab w) <= t_imax (w_tab w) ->
  sharp (flush pr umax fuel u [] p w ev)
    (existsb is_change es = false \/ existsb is_push es && existsb is_del es = false /\ ev_removal ev && ev_creation ev = false /\ ev_id ev < max_event_types).
Proof.
  intros Hf Wi N Li Ca Hp Kd He Le. pose proof (lives_inv pr umax fuel rank null order Or _ _ Hf Wi N Li) as V.
  specialize (Ca t Hp). rewrite Kd in Ca. destruct Ca as [F Ca].
  destruct (edits_cons pr umax rank null order u p t es w V Hp Kd F He) as (Sn & Fi & Hs). assert (Ks : s_kind (t_sch t) = Consistent) by exact Kd.
  pose proof (sane_tg _ _ _ _ Sn) as G. cbn [st_tab] in G. assert (Es : t_sch (w_tab w) = t_sch t) by apply G.
  pose proof (tg_weak _ _ _ G) as G0. assert (Kw : t_kind (w_tab w) = Consistent) by (unfold t_kind; congruence).
  assert (Fw : Forall (op_ty (s_cols (t_sch t))) es /\ Forall (fun o => wholesale o = false) es).
  { split; (eapply Forall_impl; [|exact F]; cbv beta; tauto). }
  destruct (edits_log (t_sch t) es (w_new t) w Ks (i_tg _ _ _ _ _ _ V _ _ Hp) (proj1 Fw)) as (Lp & Ld & Lc); [repeat split|exact He|].
  destruct (existsb is_change es) eqn:Ch.
  2:{ eapply sharp_ok; [|left; reflexivity]. unfold flush, flush_with. rewrite Lc. cbn [negb]. unfold w_drop. rewrite Lc. cbn [negb]. rewrite andb_false_r. reflexivity. }
  cbn [negb] in Lc.
  destruct (existsb is_push es && existsb is_del es) eqn:PD.
  { eapply sharp_no; [|intros [?|[? _]]; discriminate]. unfold flush, flush_with. rewrite Lc.
    specialize (Hf p). destruct fuel as [|n]; [inversion Hf|]. cbn [do_flush]. rewrite Lp, Ld, PD. reflexivity. }
  assert (PDw : w_pushed w && w_delete w = false) by (rewrite Lp, Ld; exact PD).
  destruct (ev_removal ev && ev_creation ev) eqn:RC.
  { eapply sharp_no; [|intros [?|[_ [? _]]]; discriminate]. unfold flush, flush_with. rewrite Lc.
    specialize (Hf p). destruct fuel as [|n]; [inversion Hf|]. cbn [do_flush]. rewrite PDw, RC. reflexivity. }
  assert (Hl : length (u_hdl u) = max_event_types) by apply (i_wired _ _ _ _ _ _ V).
  destruct (Nat.lt_ge_cases (ev_id ev) max_event_types) as [Li'|Li'].
  2:{ eapply sharp_no with (c := PEventId); [|intros [?|[_ [_ ?]]]; [discriminate|lia]]. unfold flush, flush_with. rewrite Lc.
      specialize (Hf p). destruct fuel as [|n]; [inversion Hf|]. cbn [do_flush]. rewrite PDw, RC. cbn [orb negb assert_ bind].
      unfold handlers_get. cbn [u_put u_hdl]. rewrite (proj2 (nth_error_None _ _)) by lia. reflexivity. }
  set (u1 := u_put u p (w_tab w)).
  assert (H1 : nth_error (u_tabs u1) p = Some (w_tab w)) by (apply nth_error_upd_eq; eapply nth_error_Some_lt; eauto).
  assert (Sf : sane pr umax (t_sch t) (Free (w_tab w))) by (apply sane_free; [congruence|exact Sn|right; exact PDw]).
  assert (V1 : inv pr umax rank null order u1).
  { eapply (inv_put pr umax rank null order u u1 p t (w_tab w)); auto.
    - intros K. congruence.
    - intros _ i Hi. destruct (i_tg _ _ _ _ _ _ V _ _ Hp) as (_ & live & rows & K & _). apply (get_has t live rows i K) in Hi. apply Hs in Hi.
      destruct G0 as (_ & live' & rows' & K' & _). apply (get_has _ live' rows' i K'). exact Hi. }
  assert (H' : flush pr umax fuel u1 [] p w ev = flush pr umax fuel u [] p w ev).
  { unfold flush, flush_with, u1. rewrite !put_put. rewrite Lc. reflexivity. }
  rewrite <- H'. clear H'.
  enough (X : exists u', flush pr umax fuel u1 [] p w ev = Ok u') by (destruct X as [u' X]; eapply sharp_ok; [exact X|right; auto]).
  destruct Ca as [[Nr Hd]|(PE & HD & Do & NR)].
  - destruct Hd as [Hd|Hd].
    + destruct (flush_quiet pr umax rank u1 ev (inv_linked _ _ _ _ _ _ V1)) with (fuel := fuel) (p := p) (w := w) as (u2 & E2 & _); auto.
      eauto.
    + unfold flush, flush_with. rewrite Lc. specialize (Hf p). destruct fuel as [|n]; [inversion Hf|]. cbn [do_flush]. rewrite PDw, RC. cbn [orb negb assert_ bind].
      unfold handlers_get. cbn [u_put u_hdl u1]. destruct (nth_error (u_hdl u) (ev_id ev)) eqn:Eh; [|apply nth_error_None in Eh; lia]. cbn [bind].
      replace (u_trackers (u_put u1 p (w_tab w)) p) with (@nil tracker) by (unfold u_trackers in *; cbn; congruence).
      cbn [length seq combine fold_res bind fst snd]. rewrite Nr. cbn [andb]. eauto.
  - destruct (edits_marks pr umax (t_sch t) es (w_new t) w Ks (i_tg _ _ _ _ _ _ V _ _ Hp) eq_refl eq_refl (proj1 Fw) (proj2 Fw) Do He) as (Chg & Pu & Lt).
    assert (NR1 : no_repeats u1 (deleted es)).
    { destruct NR as [NR|NR]; [left; exact NR|right]. intros q c k tc Htr Hc. destruct (Nat.eq_dec c p) as [->|Nq].
      - rewrite H1 in Hc. injection Hc as <-. congruence.
      - apply (NR q c k tc Htr). unfold u1 in Hc. cbn [u_put u_tabs] in Hc. rewrite nth_error_upd_ne in Hc by auto. exact Hc. }
    assert (Sn1 : sane pr umax (t_sch (w_tab w)) (Locked w [])) by (rewrite Es; exact Sn).
    assert (HD1 : nth_error (u_hdl u1) (ev_id ev) = Some HDelete) by exact HD.
    destruct (flush_cascade pr umax rank u1 p w (deleted es) ev (inv_linked _ _ _ _ _ _ V1) PE HD1 H1 Sn1 Kw Chg PDw Lt NR1 fuel (Hf p)) as (u2 & E2 & _).
    eauto.
Qed.
End S.

(** ** In the form of the property theorems *)
Lemma sharp_exact {A} (x : res A) P : sharp x P -> ((exists a, x = Ok a) <-> P) /\ (~ P -> exists c, x = panic c).
Proof.
  intros [[[a ->] H]|[[c ->] H]]; (split; [split|]); eauto; try tauto.
  intros [a Q]. discriminate.
Qed.
Lemma calls_exact pr umax sch : s_kind sch = Consistent -> s_cols sch <> [] ->
  forall ops st o, comes_to pr umax sch ops st -> op_ty (s_cols sch) o -> by_next (s_imax sch) o ->
  ((exists st', step pr umax st o = Ok st') <-> succeeds pr ops st o) /\
  (~ succeeds pr ops st o -> exists c, step pr umax st o = panic c).
Proof. intros Kc N ops st o Co T B. apply sharp_exact. apply call_sharp with (sch := sch); auto. Qed.
Lemma program_done pr umax sch : s_kind sch = Consistent -> s_cols sch <> [] ->
  forall ops, Forall (fun o => op_ty (s_cols sch) o /\ by_next (s_imax sch) o) ops ->
  (forall before o after st, ops = before ++ o :: after -> comes_to pr umax sch before st -> sane_op st o /\ succeeds pr before st o) ->
  exists st, comes_to pr umax sch ops st.
Proof.
  intros Kc N. induction ops as [|o ops IH] using rev_ind; intros T H.
  - eexists. split; [constructor|]. split; [reflexivity|]. intros b o a st E. destruct b; discriminate.
  - apply Forall_app in T. destruct T as [T1 T2]. apply Forall_cons_iff in T2. destruct T2 as [[To Bo] _].
    destruct IH as [st Co]; auto.
    { intros b x a st -> Cb. apply (H b x (a ++ [o])); auto. rewrite <- app_assoc. reflexivity. }
    destruct (H ops o [] st eq_refl Co) as [So Su].
    destruct (calls_exact pr umax sch Kc N ops st o Co To Bo) as [[_ X] _]. destruct (X Su) as [st' E].
    exists st'. destruct Co as (Ty & R & S). split; [apply Forall_app; auto|]. split.
    + unfold run in *. rewrite fold_res_app, R. cbn [bind fold_res]. rewrite E. reflexivity.
    + intros b x a st1 Eb Rb. destruct a as [|y a] using rev_ind.
      * apply app_inj_tail in Eb. destruct Eb as [<- <-]. rewrite R in Rb. injection Rb as <-. exact So.
      * rewrite app_comm_cons, app_assoc in Eb. apply app_inj_tail in Eb. destruct Eb as [-> _]. apply (S b x a); auto.
Qed.
Lemma session_exact pr umax fuel rank null order : (forall c, total_preorder (order c)) ->
  forall u0 u p t es w ev, (forall p, rank p < fuel) -> wired rank order u0 -> all_new u0 -> lives pr umax fuel null order u0 u ->
  careful null order u p es ev -> nth_error (u_tabs u) p = Some t -> t_kind t = Consistent ->
  do_edits pr umax (w_new t) es = Ok w -> t_len (w_tab w) <= t_imax (w_tab w) ->
  let fine := existsb is_change es = false \/
    existsb is_push es && existsb is_del es = false /\ ev_removal ev && ev_creation ev = false /\ ev_id ev < max_event_types in
  ((exists u', flush pr umax fuel u [] p w ev = Ok u') <-> fine) /\
  (~ fine -> exists c, flush pr umax fuel u [] p w ev = panic c).
Proof. intros Or u0 u p t es w ev Hf Wi N Li Ca Hp Kd He Le fine. apply sharp_exact. eapply session_sharp; eauto. Qed.
