(** Lemmas behind PropsDb.v. *)
From Coq Require Import List Arith Bool Lia Sorting.Sorted.
From Verif Require Import Base BaseFacts Column ColumnFacts Order RowRange RowRangeFacts Table TableFacts SortedTab Events Cascade CascadeFacts
  TableSpec Hist HistFacts TableProps RowProps Answers PlainSpec PlainFacts DbHist DbSpec.
From Verif Require LimitsFacts.
Import ListNotations.

Lemma tab_inv x p e : tab x p = Fine e -> nth_error (b_tabs x) p = Some e.
Proof. unfold tab. destruct (nth_error _ p); congruence. Qed.
Lemma on_tab {A B} (Q : B -> A -> Prop) x p f r : (forall e, nth_error (b_tabs x) p = Some e -> fits Q (f e) r) -> fits Q (after (tab x p) f) r.
Proof. intro H. unfold tab. destruct (nth_error (b_tabs x) p) as [e|]; cbn [after]; [apply H; reflexivity|exact I]. Qed.
Lemma Forall2_upd {A B} (R : A -> B -> Prop) l l' i x y : Forall2 R l l' -> R x y -> Forall2 R (upd l i x) (upd l' i y).
Proof. intros F H. revert i. induction F; intros [|i]; cbn [upd]; constructor; auto. Qed.
Lemma Forall2_nth {A B} (R : A -> B -> Prop) l l' i x : Forall2 R l l' -> nth_error l i = Some x -> exists y, nth_error l' i = Some y /\ R x y.
Proof. intro F. revert i. induction F; intros [|i] H'; try discriminate; cbn [nth_error] in *; [injection H' as <-; eauto|auto]. Qed.
Lemma is_consistent sch : kind_eqb (s_kind sch) Consistent = true -> s_kind sch = Consistent.
Proof. destruct (s_kind sch); simpl; congruence. Qed.
Lemma is_sorted_eq sch : is_sorted sch = true -> s_kind sch = Sorted.
Proof. unfold is_sorted. destruct (s_kind sch); simpl; congruence. Qed.

(** ** The universes that [x] describes *)
Definition ru (x : plains) (u : universe) : Prop :=
  b_trk x = u_trk u /\ b_hdl x = u_hdl u /\ b_told x = u_log u /\ Forall2 (fun e t => rt (fst e) (snd e) t) (b_tabs x) (u_tabs u).
(** What calls of trackers leave alone. *)
Definition shape (x : plains) : list (schema * option (select * bool * bool)) := map (fun e => (fst e, p_lock (snd e))) (b_tabs x).
Definition rh (x : plains) (rd : list nat) (h : locks) : Prop :=
  (forall p, can_write h p = negb (locked x p || mem p rd)) /\ (forall p, can_read h p = negb (locked x p)).

Lemma ru_tab x u p e : ru x u -> nth_error (b_tabs x) p = Some e -> exists t, nth_error (u_tabs u) p = Some t /\ rt (fst e) (snd e) t.
Proof. intros (_ & _ & _ & F) H. apply (Forall2_nth _ _ _ _ _ F H). Qed.
Lemma ru_get x u p e : ru x u -> nth_error (b_tabs x) p = Some e -> exists t, u_get u p = Ok t /\ rt (fst e) (snd e) t.
Proof. intros R H. destruct (ru_tab _ _ _ _ R H) as (t & E & Rt). exists t. unfold u_get. rewrite E. auto. Qed.
Lemma ru_put x u p sch a t : ru x u -> rt sch a t -> ru (put_tab x p sch a) (u_put u p t).
Proof. intros (A & B & C & F) R. split; [exact A|split; [exact B|split; [exact C|]]]. apply Forall2_upd; auto. Qed.
Lemma shape_put x p sch a a0 : nth_error (b_tabs x) p = Some (sch, a0) -> p_lock a = p_lock a0 -> shape (put_tab x p sch a) = shape x.
Proof.
  intros H L. unfold shape, put_tab. cbn [b_tabs]. rewrite upd_map. cbn [fst snd]. rewrite L. apply upd_same.
  rewrite nth_error_map, H. reflexivity.
Qed.
Lemma lock_shape x p : lock_of x p = match nth_error (shape x) p with Some e => snd e | None => None end.
Proof. unfold lock_of, shape. rewrite nth_error_map. destruct (nth_error (b_tabs x) p); reflexivity. Qed.
Lemma locked_shape x x' p : shape x' = shape x -> locked x' p = locked x p.
Proof. intro H. unfold locked. rewrite !lock_shape, H. reflexivity. Qed.
Lemma rh_shape x x' rd h : shape x' = shape x -> rh x rd h -> rh x' rd h.
Proof. intros H [A B]. split; intro p; rewrite (locked_shape x x' p H); auto. Qed.
Lemma rh_read x rd h c : rh x rd h -> rh x (c :: rd) ((c, false) :: h).
Proof.
  intros [A B]. split; intro p; unfold can_write, can_read in *; cbn [forallb fst snd].
  - rewrite A. unfold mem. cbn [existsb]. rewrite (Nat.eqb_sym c p). destruct (p =? c), (locked x p); reflexivity.
  - rewrite andb_false_r. cbn [negb andb]. apply B.
Qed.
Lemma shape_tab x x' p e : shape x' = shape x -> nth_error (b_tabs x) p = Some e -> exists a, nth_error (b_tabs x') p = Some (fst e, a) /\ p_lock a = p_lock (snd e).
Proof.
  intros H E. assert (Q : nth_error (shape x') p = Some (fst e, p_lock (snd e))) by (rewrite H; unfold shape; rewrite nth_error_map, E; reflexivity).
  unfold shape in Q. rewrite nth_error_map in Q. destruct (nth_error (b_tabs x') p) as [[sch a]|]; [|discriminate]. injection Q as -> L. eauto.
Qed.

Section D.
Variables (pr : profile) (umax : nat).

(** ** Referring rows *)
Lemma ascends_ss l : ascends l = true -> StronglySorted (fun v w => val_cmp v w <> Gt) l.
Proof.
  induction l as [|x [|y l] IH]; intro H; [constructor|repeat constructor|].
  change (ascends (x :: y :: l)) with (match val_cmp x y with Gt => false | _ => true end && ascends (y :: l)) in H.
  apply andb_true_iff in H. destruct H as [H1 H2]. specialize (IH H2). constructor; [exact IH|].
  assert (Hxy : val_cmp x y <> Gt) by (destruct (val_cmp x y); congruence).
  inversion IH as [|? ? S F]; subst. constructor; [exact Hxy|]. eapply Forall_impl; [|exact F]. intros z Hz. cbn beta in Hz.
  intro Q. destruct (val_cmp x y) eqn:E1; [apply val_cmp_eq in E1; congruence| |congruence].
  destruct (val_cmp y z) eqn:E2; [apply val_cmp_eq in E2; congruence| |congruence].
  pose proof (val_lt_trans _ _ _ E1 E2). congruence.
Qed.
Lemma ascending_ss l : ascending l = true -> StronglySorted le l.
Proof.
  induction l as [|x [|y l] IH]; intro H; [constructor|repeat constructor|].
  change (ascending (x :: y :: l)) with ((x <=? y) && ascending (y :: l)) in H.
  apply andb_true_iff in H. destruct H as [H1 H2]. apply Nat.leb_le in H1. specialize (IH H2). constructor; [exact IH|].
  inversion IH as [|? ? S F]; subst. constructor; [exact H1|]. eapply Forall_impl; [|exact F]. intros z Hz. cbn beta in Hz. lia.
Qed.
Lemma ss_map {A B} (f : A -> B) (R : B -> B -> Prop) l : StronglySorted R (map f l) -> StronglySorted (fun x y => R (f x) (f y)) l.
Proof.
  induction l as [|x l IH]; cbn [map]; intro H; [constructor|]. inversion H as [|? ? S F]; subst. constructor; [auto|].
  apply Forall_forall. intros y Hy. rewrite Forall_forall in F. apply F. apply in_map. exact Hy.
Qed.
Lemma map_res_map {A B} (f : A -> res B) (g : A -> B) l : (forall x, In x l -> f x = Ok (g x)) -> map_res f l = Ok (map g l).
Proof.
  induction l as [|x l IH]; intro H; [reflexivity|]. cbn [map_res map]. rewrite (H x) by (left; reflexivity). cbn [bind].
  rewrite IH by (intros; apply H; right; assumption). reflexivity.
Qed.
Lemma referring_ok sch a t k key s : rt sch a t ->
  fits (fun s s' => s' = s) (referring sch a k key s) (if key then select_sorted pr t k s else select_indexed t k s).
Proof.
  intro R. unfold referring. destruct s as [|ids]; [destruct key; exists SAll; split; reflexivity|].
  destruct key.
  - destruct (nth_error (s_cols sch) k) as [ct|] eqn:Hk; [|exact I]. unfold select_sorted.
    destruct (Nat.leb_spec (len a) (s_imax sch)) as [L|L].
    + pose proof (rt_ok sch a t R) as K.
      rewrite (t_iter_ok _ _ _ K) by (rewrite (rt_imax sch a t R); exact L). cbn [bind].
      rewrite (cons_collect_ok pr (t_imax t) (t_free t)).
      2:{ apply cons_new_inv; [apply K|]. rewrite (rt_imax sch a t R). exact L. }
      2:{ cbn [cons_new ci_rows it_end it_i]. rewrite (rt_len sch a t R). unfold len. lia. }
      cbn [cons_new ci_rows it_end it_i bind]. unfold live_rows. rewrite Nat.sub_0_r. fold (len a).
      set (here := filter (there a) (seq 0 (len a))).
      assert (Eh : filter (fun i => negb (mem i (t_free t))) (seq 0 (len a)) = here).
      { apply filter_ext_in. intros i Hi. apply in_seq in Hi. unfold there. destruct R as (_ & _ & F & _). rewrite F.
        destruct (Nat.ltb_spec i (len a)); [reflexivity|lia]. }
      rewrite Eh. destruct (ascends _ && ascending ids) eqn:As; [|exact I]. apply andb_true_iff in As. destruct As as [A1 A2].
      destruct (rt_col sch a t R k ct Hk) as (c & Ec & Wc & D).
      erewrite (join_rows_ok t k c (fun i => nth k (row_at a i) (VBool false)) Ec here ids).
      * cbn [bind]. eexists. split; [reflexivity|]. reflexivity.
      * intros i Hi. apply filter_In in Hi. destruct Hi as [Hi _]. apply in_seq in Hi. eapply c_index_ok; [exact Wc|].
        rewrite D, nth_error_map, (rt_row a i) by lia. reflexivity.
      * apply ascends_ss in A1. apply ss_map in A1. exact A1.
      * apply ascending_ss. exact A2.
    + destruct (t_iter_full sch a t R L) as [[e Q] _]. rewrite Q. exists e. reflexivity.
  - destruct (nth_error (s_cols sch) k) as [[b|b]|] eqn:Hk; try exact I. unfold select_indexed.
    pose proof (rt_col sch a t R k _ Hk) as (c & Ec & Wc & D).
    erewrite map_res_map.
    2:{ intros i _. unfold t_find. rewrite Ec, (rt_imax sch a t R), (c_find_ok _ _ _ _ _ Wc). reflexivity. }
    cbn [bind]. eexists. split; [reflexivity|]. f_equal. rewrite <- flat_map_concat_map.
    rewrite !flat_map_concat_map. f_equal. apply map_ext. intro id. rewrite D, map_length. fold (len a). apply filter_ext_in. intros i Hi. apply in_seq in Hi.
    f_equal. unfold val_at. rewrite nth_error_map, (rt_row a i) by lia. reflexivity.
Qed.

(** ** Telling *)
Definition told_rel (x : plains) (q : plains * select) (r : universe * select) : Prop :=
  ru (fst q) (fst r) /\ snd r = snd q /\ shape (fst q) = shape x.
Definition left_rel (x : plains) (y : plains) (u : universe) : Prop := ru y u /\ shape y = shape x.

Section Calls.
Variable tl : plains -> list nat -> nat -> event -> bool -> bool -> select -> outcome (plains * select).
Variable fl : universe -> locks -> nat -> event -> bool -> bool -> select -> res (universe * select).
Hypothesis Tell : forall x u rd h p ev b1 b2 s, ru x u -> rh x rd h -> fits (told_rel x) (tl x rd p ev b1 b2 s) (fl u h p ev b1 b2 s).

Lemma apply_removed sch a t s ev : rt sch a t -> ev_removal ev = true -> nothing_to_tell s = false ->
  fits (fun a' t' => rt sch a' t' /\ p_lock a' = p_lock a) (removed pr sch a s)
    (let* w := flush_apply pr umax (w_new t) ev s in let* _ := assert_ (sel_empty (w_changes w)) PNotFlushed in w_drop w).
Proof.
  intros R Er N. rewrite tell_empty in N. pose proof (apply_plain pr umax sch a (w_new t) false ev s R N) as P. rewrite Er in P.
  replace (match s with SAll => SAll | SThese ids => SThese ids end) with s in P by (destruct s; reflexivity).
  destruct (removed pr sch a s) as [a'| |]; [|destruct P as [e Q]; rewrite Q; exists e; reflexivity|exact I].
  destruct P as (w' & Q & R' & L & Sl). rewrite Q. cbn [bind]. injection Sl as S1 S2 S3. rewrite S1. cbn [sel_empty assert_ bind w_new w_changes].
  unfold w_drop. rewrite S1. cbn [w_new w_changes sel_empty negb]. rewrite andb_false_r. eexists. split; [reflexivity|]. split; assumption.
Qed.
Lemma flushes_ok x u rd h p w ev : ru x (u_put u p (w_tab w)) -> rh x rd h ->
  fits (left_rel x) (flushes pr tl x rd p (w_changes w, w_pushed w, w_delete w) ev) (flush_with pr umax fl u h p w ev).
Proof.
  intros R H. unfold flushes, flush_with. rewrite tell_empty. destruct (sel_empty (w_changes w)) eqn:Se.
  - unfold w_drop. rewrite Se, andb_false_r. cbn [bind]. eexists. split; [reflexivity|]. split; [exact R|reflexivity].
  - eapply fits_after; [apply Tell; eassumption|]. intros [x1 s1] [u1 s1'] _ _ (R1 & E1 & Sh). cbn [fst snd] in *. subst s1'.
    rewrite tell_empty. destruct (ev_removal ev) eqn:Er; cbn [andb]; [|eexists; split; [reflexivity|split; assumption]].
    destruct (sel_empty s1) eqn:Se1; cbn [negb]; [eexists; split; [reflexivity|split; assumption]|].
    pose proof (rh_shape _ _ _ _ Sh H) as [H1 _]. rewrite (H1 p). destruct (locked x1 p || mem p rd); [exact I|]. cbn [negb lock_ok bind].
    apply on_tab. intros [sch a] Tb. cbn [fst snd].
    destruct (ru_get _ _ _ _ R1 Tb) as (t & -> & Rt). cbn [bind fst snd] in *.
    assert (N : nothing_to_tell s1 = false) by (rewrite tell_empty; exact Se1).
    pose proof (apply_removed sch a t s1 ev Rt Er N) as P.
    destruct (removed pr sch a s1) as [a'| |]; cbn [after].
    + destruct P as (t' & Q & R' & L). destruct (flush_apply _ _ _ _ _) as [w'|]; [|discriminate]. cbn [bind] in *.
      destruct (assert_ _ _); [|discriminate]. cbn [bind] in *. rewrite Q. cbn [bind]. eexists. split; [reflexivity|].
      split; [apply ru_put; assumption|]. rewrite (shape_put x1 p sch a' a Tb L). exact Sh.
    + destruct P as [e Q]. exists e. destruct (flush_apply _ _ _ _ _) as [w'|]; [|inversion Q; reflexivity]. cbn [bind] in *.
      destruct (assert_ _ _); [|inversion Q; reflexivity]. cbn [bind] in *. rewrite Q. reflexivity.
    + exact I.
Qed.

Lemma takes_out_ok x u rd h c ev s : ru x u -> rh x rd h -> fits (left_rel x) (takes_out pr tl x rd c ev s) (remove_rows_with pr umax fl u h c ev s).
Proof.
  intros R H. unfold takes_out, remove_rows_with. apply on_tab. intros [sch a] Tb. destruct (ru_get _ _ _ _ R Tb) as (t & -> & Rt). cbn [bind fst snd] in *.
  rewrite (rt_kind sch a t Rt). rewrite (proj1 H c).
  pose proof Rt as Rw. change t with (w_tab (w_new t)) in Rw.
  assert (Put : forall a' t', rt sch a' t' -> p_lock a' = p_lock a -> rh (put_tab x c sch a') rd h /\ ru (put_tab x c sch a') (u_put u c t') /\ shape (put_tab x c sch a') = shape x).
  { intros a' t' R' L. pose proof (shape_put x c sch a' a Tb L) as Sh. split; [eapply rh_shape; [exact Sh|exact H]|]. split; [apply ru_put; assumption|exact Sh]. }
  assert (Em : rt sch (emptied a) (w_tab (clear_raw (w_new t)))) by (apply emptied_rt; exact Rw).
  unfold is_sorted. destruct (s_kind sch) eqn:Kd; cbn [kind_eqb orb]; try (eexists; reflexivity); (destruct (locked x c || mem c rd); [exact I|]); cbn [negb lock_ok bind].
  - destruct s as [|ids].
    + rewrite LimitsFacts.cleared by (cbn; rewrite (rt_kind sch a t Rt); exact Kd). cbn [bind].
      destruct (Put (emptied a) (w_tab (clear_raw (w_new t))) Em eq_refl) as (P1 & P2 & P3).
      pose proof (flushes_ok (put_tab x c sch (emptied a)) u rd h c (W (w_tab (clear_raw (w_new t))) SAll (w_pushed (w_new t)) true) ev P2 P1) as F.
      cbn [w_changes w_pushed w_delete w_new] in F. unfold left_rel in *. rewrite P3 in F. exact F.
    + pose proof (removed_plain pr umax sch a (w_new t) ids Rw) as P. cbn zeta in P. cbn zeta. unfold removed in P. rewrite Kd in P.
      destruct (all_below (len a) ids); [|destruct P as [e Q]; rewrite Q; exists e; reflexivity].
      destruct P as (w' & Q & R' & L & Sl). rewrite Q. cbn [bind]. injection Sl as S1 S2 S3.
      destruct (Put (freed a ids) (w_tab w') R' L) as (P1 & P2 & P3).
      pose proof (flushes_ok (put_tab x c sch (freed a ids)) u rd h c w' ev P2 P1) as F. rewrite S1 in F.
      unfold flushes in F. cbn [nothing_to_tell w_new w_changes] in F. unfold left_rel in *. rewrite P3 in F. exact F.
  - destruct s as [|ids].
    + assert (Ec : clear (clear_raw (w_new t)) = clear_raw (w_new t)).
      { unfold clear. cbn [clear_raw w_new w_tab with_tab]. unfold event_cleared. cbn. unfold t_kind in *. cbn. fold (t_kind t). rewrite (rt_kind sch a t Rt), Kd. reflexivity. }
      rewrite Ec. cbn [bind]. destruct (Put (emptied a) (w_tab (clear_raw (w_new t))) Em eq_refl) as (P1 & P2 & P3).
      pose proof (flushes_ok (put_tab x c sch (emptied a)) u rd h c (clear_raw (w_new t)) ev P2 P1) as F.
      unfold left_rel in *. rewrite P3 in F. exact F.
    + pose proof (remove_sorted_plain sch a (w_new t) ids Rw ltac:(rewrite Kd; discriminate)) as P.
      destruct (rising ids && all_below (len a) ids); [|destruct P as [e Q]; rewrite Q; exists e; reflexivity].
      destruct P as (w' & Q & R' & L & Sl). rewrite Q. cbn [bind]. injection Sl as S1 S2 S3.
      destruct (Put _ (w_tab w') R' L) as (P1 & P2 & P3).
      pose proof (flushes_ok _ u rd h c w' ev P2 P1) as F. rewrite S1 in F.
      unfold flushes in F. cbn [nothing_to_tell w_new w_changes] in F. unfold left_rel in *. rewrite P3 in F. exact F.
Qed.
Lemma sorted_eq s : sorted s = sel_sort s.
Proof. reflexivity. Qed.
Lemma passes_on_ok hd x u rd h c k key ev s : ru x u -> rh x rd h ->
  fits (left_rel x) (passes_on pr tl hd x rd c k key ev s) (auto_handle pr umax fl hd u h c k key ev s).
Proof.
  intros R H. unfold passes_on, auto_handle. rewrite (proj2 H c). destruct (locked x c) eqn:Lk; [exact I|]. cbn [negb lock_ok bind].
  apply on_tab. intros [sch a] Tb. destruct (ru_get _ _ _ _ R Tb) as (t & Eg & Rt). rewrite Eg. cbn [bind fst snd] in *.
  eapply fits_after; [apply referring_ok; exact Rt|]. intros s1 s1' _ _ ->. unfold run_with. rewrite Eg. cbn [bind]. rewrite (rt_kind sch a t Rt).
  fold (is_sorted sch). cbn zeta. change (sel_sort s1) with (sorted s1).
  set (s2 := match hd with HDelete => if is_sorted sch then sorted s1 else s1 | _ => s1 end).
  assert (Hd : fits (left_rel x) (match hd with HNull => Fine x | HPanic => Fails | HDelete => takes_out pr tl x rd c ev s2 end)
    (handle_with pr umax fl hd u h c ev s2)).
  { destruct hd; cbn [handle_with].
    - apply takes_out_ok; assumption.
    - eexists. split; [reflexivity|]. split; [exact R|reflexivity].
    - eexists. reflexivity. }
  eapply fits_after; [exact Hd|]. intros x1 u1 _ _ [R1 Sh]. pose proof (rh_shape _ _ _ _ Sh H) as H1.
  rewrite (proj2 H c), Lk. cbn [negb lock_ok bind].
  eapply fits_after; [apply Tell; [exact R1|apply rh_read; exact H1]|]. intros [x2 s3] [u2 s3'] _ _ (R2 & _ & Sh2). cbn [fst snd] in *.
  eexists. split; [reflexivity|]. split; [exact R2|congruence].
Qed.
Definition turn_rel (x : plains) (q : plains * select * bool) (r : universe * select * bool) : Prop :=
  ru (fst (fst q)) (fst (fst r)) /\ snd (fst r) = snd (fst q) /\ snd r = snd q /\ shape (fst (fst q)) = shape x.
Lemma ru_say x u n : ru x u -> ru (say x n) (u_say u n).
Proof. intros (A & B & C & D). split; [exact A|split; [exact B|split; [|exact D]]]. cbn [say u_say b_told u_log]. congruence. Qed.
Lemma tells_ok hd x u rd h p ev n tr s d : ru x u -> rh x rd h ->
  fits (turn_rel x) (tells pr tl hd rd p ev n tr x s d) (tracker_turn pr umax fl hd h p ev (u, s, d) (n, tr)).
Proof.
  intros R H. unfold tells, tracker_turn. cbn [fst snd]. destruct tr as [c k key|srt considers]; cbn [tracker_considers tracker_sorts].
  - apply on_tab. intros [sch a] Tb. destruct (ru_tab _ _ _ _ R Tb) as (t & Et & Rt). rewrite Et. cbn [fst snd] in *. rewrite (rt_kind sch a t Rt).
    fold (is_sorted sch). rewrite (andb_comm (is_sorted sch)). change (sel_sort s) with (sorted s).
    set (s1 := if negb d && is_sorted sch then sorted s else s). cbn zeta.
    eapply fits_after; [apply (passes_on_ok hd (say x (Note p n ev s1)) (u_say u (Note p n ev s1)) rd h); [apply ru_say; exact R|exact H]|].
    intros x1 u1 _ _ [R1 Sh]. eexists. split; [reflexivity|]. split; [exact R1|]. split; [reflexivity|]. split; [|exact Sh]. cbn [snd].
    destruct d, (is_sorted sch); reflexivity.
  - destruct (considers ev).
    + rewrite (andb_comm srt). change (sel_sort s) with (sorted s). set (s1 := if negb d && srt then sorted s else s). cbn zeta. cbn [bind].
      eexists. split; [reflexivity|]. split; [apply ru_say; exact R|]. split; [reflexivity|]. split; [|reflexivity]. cbn [snd]. destruct d, srt; reflexivity.
    + eexists. split; [reflexivity|]. split; [exact R|]. split; [reflexivity|]. split; reflexivity.
Qed.
Lemma tells_all_ok hd rd h p ev trs : forall n x u s d, ru x u -> rh x rd h ->
  fits (told_rel x) (tells_all pr tl hd rd p ev n trs x s d)
    (let* q := fold_res (tracker_turn pr umax fl hd h p ev) (combine (seq n (length trs)) trs) (u, s, d) in Ok (fst q)).
Proof.
  induction trs as [|tr trs IH]; intros n x u s d R H; cbn [tells_all length seq combine fold_res].
  - eexists. split; [reflexivity|]. split; [exact R|split; reflexivity].
  - assert (E : forall {A B C} (r : res A) (f : A -> res B) (g : B -> res C), (let* q := (let* a := r in f a) in g q) = (let* a := r in let* q := f a in g q)).
    { intros A B C [a|e] f g; reflexivity. }
    rewrite E. eapply fits_after; [apply tells_ok; eassumption|].
    intros [[x1 s1] d1] [[u1 s1'] d1'] _ _ (R1 & Es & Ed & Sh). cbn [fst snd] in *. subst s1' d1'.
    pose proof (IH (S n) x1 u1 s1 d1 R1 (rh_shape _ _ _ _ Sh H)) as T. unfold told_rel in *. rewrite Sh in T. exact T.
Qed.
End Calls.

Lemma tell_ok fuel : forall x u rd h p ev b1 b2 s, ru x u -> rh x rd h ->
  fits (told_rel x) (tell pr fuel x rd p ev b1 b2 s) (do_flush pr umax fuel u h p ev b1 b2 s).
Proof.
  induction fuel as [|n IH]; intros x u rd h p ev b1 b2 s R H; [exact I|]. cbn [tell do_flush].
  destruct ((b1 && b2) || (ev_removal ev && ev_creation ev)); cbn [negb assert_ bind]; [eexists; reflexivity|].
  pose proof R as (Et & Eh & El & _). unfold handlers_get. rewrite Eh. destruct (nth_error (u_hdl u) (ev_id ev)) as [hd|]; cbn [bind]; [|eexists; reflexivity].
  rewrite Et. apply (tells_all_ok (tell pr n) (do_flush pr umax n) IH hd rd h p ev (u_trackers u p) 0 x u s _ R H).
Qed.

(** ** Programs *)
Definition rdb (schs : list schema) (x : plains) (d : db) : Prop :=
  ru x (d_u d) /\ (forall p, d_lock d p = lock_of x p) /\ length (d_l d) = length (b_tabs x) /\ map fst (b_tabs x) = schs.
Lemma held_iff d p b : In (p, b) (d_held d) <-> b = true /\ d_lock d p <> None.
Proof.
  unfold d_held. rewrite in_flat_map. split.
  - intros (q & _ & H). destruct (d_lock d q) eqn:E; [|destruct H]. destruct H as [H|[]]. injection H as <- <-. rewrite E. split; [reflexivity|discriminate].
  - intros [-> N]. exists p. split; [|destruct (d_lock d p); [left; reflexivity|congruence]].
    apply in_seq. split; [lia|]. cbn. destruct (Nat.lt_ge_cases p (length (d_l d))) as [L|L]; [exact L|]. elim N. unfold d_lock. apply nth_overflow. exact L.
Qed.
Lemma held_write d p : can_write (d_held d) p = match d_lock d p with Some _ => false | None => true end.
Proof.
  apply eq_true_iff_eq. unfold can_write. rewrite forallb_forall. split.
  - intro H. destruct (d_lock d p) eqn:E; [|reflexivity]. assert (I : In (p, true) (d_held d)) by (apply held_iff; rewrite E; split; [reflexivity|discriminate]).
    specialize (H _ I). cbn [fst] in H. rewrite Nat.eqb_refl in H. discriminate.
  - intros N [q b] I. apply held_iff in I. cbn [fst]. apply negb_true_iff, Nat.eqb_neq. intros ->. destruct I as [_ I]. destruct (d_lock d p); congruence.
Qed.
Lemma held_read d p : can_read (d_held d) p = match d_lock d p with Some _ => false | None => true end.
Proof.
  apply eq_true_iff_eq. unfold can_read. rewrite forallb_forall. split.
  - intro H. destruct (d_lock d p) eqn:E; [|reflexivity]. assert (I : In (p, true) (d_held d)) by (apply held_iff; rewrite E; split; [reflexivity|discriminate]).
    specialize (H _ I). cbn [fst snd] in H. rewrite Nat.eqb_refl in H. discriminate.
  - intros N [q b] I. apply held_iff in I. cbn [fst snd]. destruct (Nat.eqb_spec q p) as [->|Ne]; [|reflexivity]. destruct I as [_ I]. destruct (d_lock d p); congruence.
Qed.
Lemma rh_held x d : (forall p, d_lock d p = lock_of x p) -> rh x [] (d_held d).
Proof.
  intro L. split; intro p; [rewrite held_write|rewrite held_read]; rewrite L; unfold locked; destruct (lock_of x p); reflexivity.
Qed.
Lemma lock_upd d u p q v : p < length (d_l d) -> d_lock (Db u (upd (d_l d) p v)) q = if q =? p then v else d_lock d q.
Proof.
  intro L. unfold d_lock. cbn [d_l]. destruct (Nat.eqb_spec q p) as [->|N].
  - apply nth_error_nth. apply nth_error_upd_eq. exact L.
  - destruct (nth_error (d_l d) q) as [y|] eqn:E.
    + rewrite (nth_error_nth (d_l d) q None E). apply nth_error_nth. rewrite nth_error_upd_ne by exact N. exact E.
    + rewrite !nth_overflow; [reflexivity| |]; rewrite ?upd_length; apply nth_error_None; exact E.
Qed.
Lemma lock_put x p sch a q : p < length (b_tabs x) -> lock_of (put_tab x p sch a) q = if q =? p then p_lock a else lock_of x q.
Proof.
  intro L. unfold lock_of, put_tab. cbn [b_tabs]. destruct (Nat.eqb_spec q p) as [->|N].
  - rewrite nth_error_upd_eq by exact L. reflexivity.
  - rewrite nth_error_upd_ne by exact N. reflexivity.
Qed.
Lemma fst_put x p sch a a0 : nth_error (b_tabs x) p = Some (sch, a0) -> map fst (b_tabs (put_tab x p sch a)) = map fst (b_tabs x).
Proof. intro H. unfold put_tab. cbn [b_tabs]. rewrite upd_map. apply upd_same. rewrite nth_error_map, H. reflexivity. Qed.
Lemma rdb_store schs x d p sch a a0 t : rdb schs x d -> nth_error (b_tabs x) p = Some (sch, a0) -> rt sch a t ->
  rdb schs (put_tab x p sch a) (Db (u_put (d_u d) p t) (upd (d_l d) p (p_lock a))).
Proof.
  intros (R & L & N & M) Tb Rt. pose proof (nth_error_Some_lt _ _ _ Tb) as Lp. split; [apply ru_put; assumption|]. split; [|split].
  - intro q. rewrite lock_upd by lia. rewrite lock_put by lia. rewrite L. reflexivity.
  - cbn [d_l]. unfold put_tab. cbn [b_tabs]. rewrite !upd_length. exact N.
  - rewrite (fst_put x p sch a a0 Tb). exact M.
Qed.
Lemma shape_fst x y : shape y = shape x -> map fst (b_tabs y) = map fst (b_tabs x) /\ length (b_tabs y) = length (b_tabs x) /\ (forall p, lock_of y p = lock_of x p).
Proof.
  intro H. split; [|split].
  - apply (f_equal (map fst)) in H. unfold shape in H. rewrite !map_map in H. cbn [fst] in H. exact H.
  - apply (f_equal (@length _)) in H. unfold shape in H. rewrite !map_length in H. exact H.
  - intro p. rewrite !lock_shape, H. reflexivity.
Qed.
Lemma rdb_left schs x y u l : (forall q, nth q l None = lock_of x q) -> length l = length (b_tabs x) -> map fst (b_tabs x) = schs ->
  ru y u -> shape y = shape x -> rdb schs y (Db u l).
Proof.
  intros L N M R Sh. destruct (shape_fst _ _ Sh) as (A & B & C). split; [exact R|]. split; [intro q; rewrite C; apply L|]. split; [cbn [d_l]; congruence|congruence].
Qed.
Definition flushing (c : call) : bool := match c with Do (OFlush _ _ | OLiveFlush _ _ | ORemoveRows _ _ _) => true | _ => false end.
Definition db_sim schs (q : plains * answer) (r : db * answer) : Prop := rdb schs (fst q) (fst r) /\ snd r = snd q.
Lemma fits_map {A B C D} (P : B -> A -> Prop) (Q : D -> C -> Prop) o r (f : B -> D) (g : A -> C) : fits P o r -> (forall b a, P b a -> Q (f b) (g a)) ->
  fits Q (after o (fun b => Fine (f b))) (let* a := r in Ok (g a)).
Proof. intros H F. eapply fits_after; [exact H|]. intros b a _ _ Hp. eexists. split; [reflexivity|auto]. Qed.
Lemma locked_table_ok schs x d p e l : rdb schs x d -> nth_error (b_tabs x) p = Some e -> p_lock (snd e) = Some l ->
  exists t, nth_error (u_tabs (d_u d)) p = Some t /\ rt (fst e) (snd e) t /\
    locked_table d p = Ok (W t (fst (fst l)) (snd (fst l)) (snd l)) /\ d_lock d p = Some l.
Proof.
  intros (R & L & _ & _) Tb Lk. destruct (ru_tab _ _ _ _ R Tb) as (t & Et & Rt). exists t. split; [exact Et|]. split; [exact Rt|].
  assert (D : d_lock d p = Some l) by (rewrite L; unfold lock_of; rewrite Tb; exact Lk). split; [|exact D].
  unfold locked_table, d_state, u_get. rewrite Et. cbn [bind]. rewrite D. destruct l as [[s b1] b2]. reflexivity.
Qed.
Lemma u_put_twice u p t t' : u_put (u_put u p t) p t' = u_put u p t'.
Proof. unfold u_put. cbn. f_equal. generalize (u_tabs u). intro l. revert p. induction l as [|h l IH]; intros [|p]; cbn [upd]; try reflexivity. f_equal. apply IH. Qed.

Lemma db_acts_ok fuel schs x d c : rdb schs x d -> db_ty schs c -> fits (db_sim schs) (db_acts pr umax fuel x c) (db_step pr umax fuel d c).
Proof.
  intros R T. pose proof R as (Ru & Lk & Ln & Sc).
  (* flushing a lock on [p] after [a'] was written *)
  assert (Fl : forall p sch a0 a' w ev, nth_error (b_tabs x) p = Some (sch, a0) -> rt sch a' (w_tab w) -> p_lock a' = None ->
    fits (db_sim schs) (quietly (flushes pr (tell pr fuel) (put_tab x p sch a') [] p (w_changes w, w_pushed w, w_delete w) ev))
      (let* u := flush pr umax fuel (d_u (d_release d p)) (d_held (d_release d p)) p w ev in Ok (Db u (d_l (d_release d p)), ANothing))).
  { intros p sch a0 a' w ev Tb Rt L0. pose proof (rdb_store schs x d p sch a' a0 (w_tab w) R Tb Rt) as R1. rewrite L0 in R1. destruct R1 as (Ru1 & Lk1 & Ln1 & Sc1).
    cbn [d_u d_l] in *. eapply fits_map.
    - apply (flushes_ok _ _ (tell_ok fuel) (put_tab x p sch a') (d_u (d_release d p)) [] (d_held (d_release d p)) p w ev); [exact Ru1|].
      apply rh_held. exact Lk1.
    - intros y u [Ry Sh]. split; [|reflexivity]. cbn [fst]. apply (rdb_left schs (put_tab x p sch a')); assumption. }
  pose proof (rh_held x d Lk) as H.
  destruct c as [p c|p ev|p ev|p ev s|p ev s|p ev s|p tr|ev hd].
  - (* On *)
    destruct (flushing c) eqn:Fc; [destruct c as [o|? ? ?|? ? ?|? ?]; try discriminate; destruct o; try discriminate; exact I|].
    assert (E1 : db_step pr umax fuel d (On p c) = let* st := d_state d p in let* q := both pr umax st c in Ok (d_store d p (fst q), snd q)).
    { transitivity (let* st := d_state d p in let* st' := step pr umax st (op_of c) in let* a := answer_of pr umax st c in Ok (d_store d p st', a)).
      - destruct c as [o|? ? ?|? ? ?|? ?]; try reflexivity. destruct o; reflexivity || discriminate.
      - destruct (d_state d p) as [st|]; [|reflexivity]. cbn [bind]. unfold both. destruct (step pr umax st (op_of c)); [|reflexivity]. cbn [bind].
        destruct (answer_of pr umax st c); reflexivity. }
    assert (E2 : db_acts pr umax fuel x (On p c) =
      after (tab x p) (fun e => after (acts pr umax (fst e) (snd e) c) (fun q => Fine (put_tab x p (fst e) (fst q), snd q)))).
    { destruct c as [o|? ? ?|? ? ?|? ?]; try reflexivity. destruct o; reflexivity || discriminate. }
    rewrite E1, E2. apply on_tab. intros [sch a] Tb. destruct (ru_get _ _ _ _ Ru Tb) as (t & Eg & Rt). unfold d_state. rewrite Eg. cbn [bind fst snd] in *.
    assert (Dl : d_lock d p = p_lock a) by (rewrite Lk; unfold lock_of; rewrite Tb; reflexivity).
    assert (Rl : rel sch a (match d_lock d p with Some (s, b1, b2) => Locked (W t s b1 b2) [] | None => Free t end)).
    { rewrite Dl. unfold rel. destruct (p_lock a) as [[[s b1] b2]|]; [split; [exact Rt|reflexivity]|exact Rt]. }
    assert (Ty : call_ty (s_cols sch) c).
    { apply T. rewrite <- Sc, nth_error_map, Tb. reflexivity. }
    eapply fits_map; [apply acts_ok; [exact Rl|exact Ty]|]. intros [a' y] [st' y'] [Rl' Ey]. cbn [fst snd] in *. subst y'. split; [|reflexivity]. cbn [fst snd].
    unfold d_store. destruct st' as [t'|w' [|b bs]]; unfold rel in Rl'; [| |destruct (p_lock a'); contradiction].
    + destruct (p_lock a') eqn:La; [contradiction|]. pose proof (rdb_store schs x d p sch a' a t' R Tb Rl') as R1. rewrite La in R1. exact R1.
    + destruct (p_lock a') as [l'|] eqn:La; [|contradiction]. destruct Rl' as [Rl' ->]. pose proof (rdb_store schs x d p sch a' a (w_tab w') R Tb Rl') as R1. rewrite La in R1. exact R1.
  - (* Flush *)
    cbn [db_acts db_step]. apply on_tab. intros [sch a] Tb. cbn [fst snd]. destruct (p_lock a) as [[[s b1] b2]|] eqn:La; [|exact I].
    destruct (locked_table_ok schs x d p _ _ R Tb La) as (t & _ & Rt & -> & _). cbn [bind fst snd] in *. cbn zeta.
    apply (Fl p sch a (with_lock a None) (W t s b1 b2) ev Tb Rt eq_refl).
  - (* LiveFlush *)
    cbn [db_acts db_step]. apply on_tab. intros [sch a] Tb. cbn [fst snd]. destruct (p_lock a) as [[[s b1] b2]|] eqn:La; [|exact I].
    destruct (locked_table_ok schs x d p _ _ R Tb La) as (t & Et & Rt & -> & Dl). cbn [bind fst snd] in *.
    pose proof (nth_error_Some_lt _ _ _ Tb) as Lp.
    unfold live_flush, live_flush_with. cbn [w_changes w_tab w_pushed w_delete]. rewrite tell_empty.
    assert (Eu : u_put (d_u d) p t = d_u d).
    { unfold u_put. rewrite upd_same by exact Et. destruct (d_u d); reflexivity. }
    rewrite Eu. destruct (sel_empty s) eqn:Se.
    + cbn [bind fst snd]. eexists. split; [reflexivity|]. split; [|reflexivity]. cbn [fst d_store w_tab w_changes w_pushed w_delete d_u d_l]. rewrite Eu.
      assert (El : upd (d_l d) p (Some (s, b1, b2)) = d_l d).
      { apply upd_same. rewrite <- Dl. unfold d_lock. rewrite nth_error_nth' with (d := None) by lia. reflexivity. }
      rewrite El. destruct d; exact R.
    + assert (H1 : rh x [] ((p, true) :: d_held (d_release d p))).
      { assert (Q : forall q, d_lock (d_release d p) q = if q =? p then None else d_lock d q) by (intro q; apply lock_upd; lia).
        split; intro q; unfold can_write, can_read; cbn [forallb fst snd].
        - change (forallb (fun l => negb (fst l =? q)) (d_held (d_release d p))) with (can_write (d_held (d_release d p)) q).
          rewrite held_write, Q, (Nat.eqb_sym p q). unfold locked. rewrite <- Lk. destruct (Nat.eqb_spec q p) as [->|Nq]; [rewrite Dl; reflexivity|].
          destruct (d_lock d q); reflexivity.
        - change (forallb (fun l => negb ((fst l =? q) && snd l)) (d_held (d_release d p))) with (can_read (d_held (d_release d p)) q).
          rewrite held_read, Q, (Nat.eqb_sym p q). unfold locked. rewrite <- Lk. destruct (Nat.eqb_spec q p) as [->|Nq]; [rewrite Dl; reflexivity|].
          destruct (d_lock d q); reflexivity. }
      assert (As : forall {A B C} (r : res A) (f : A -> res B) (g : B -> res C), (let* q := (let* a := r in f a) in g q) = (let* a := r in let* q := f a in g q)).
      { intros A B C [y|e] f g; reflexivity. }
      rewrite As. unfold quietly. assert (Aa : forall {A B C} (o : outcome A) (f : A -> outcome B) (g : B -> outcome C), after (after o f) g = after o (fun a => after (f a) g)).
      { intros A B C [y| |] f g; reflexivity. }
      rewrite Aa. eapply fits_after; [apply tell_ok; [exact Ru|exact H1]|]. intros [x1 s1] [u1 s1'] _ _ (R1 & Es & Sh). cbn [fst snd] in *. subst s1'.
      rewrite Aa. apply on_tab. intros [sch1 a1] Tb1. cbn [fst snd]. destruct (ru_tab _ _ _ _ R1 Tb1) as (t1 & Et1 & Rt1). cbn [fst snd] in *.
      unfold u_get. rewrite Et1. cbn [bind].
      destruct (shape_tab x x1 p _ Sh Tb) as (a1' & Q1 & L1). rewrite Tb1 in Q1. injection Q1 as -> ->. cbn [fst snd] in *.
      assert (Ap : fits (rmv sch a1' (W t1 (SThese []) b1 b2)) (if ev_removal ev && negb (nothing_to_tell s1) then removed pr sch a1' s1 else Fine a1')
        (flush_apply pr umax (W t1 (SThese []) b1 b2) ev s1)).
      { rewrite tell_empty. destruct (sel_empty s1) eqn:Se1.
        - unfold flush_apply. rewrite Se1. rewrite andb_false_r. exists (W t1 (SThese []) b1 b2). split; [reflexivity|]. split; [exact Rt1|split; reflexivity].
        - cbn [negb]. rewrite andb_true_r. pose proof (apply_plain pr umax sch a1' (W t1 (SThese []) b1 b2) false ev s1 Rt1 Se1) as P.
          destruct s1; exact P. }
      rewrite Aa, As. eapply fits_after; [exact Ap|]. intros a2 w2 _ _ (R2 & L2 & Sl). unfold same_log in Sl. injection Sl as S1 S2 S3.
      rewrite S1. cbn [w_changes sel_empty assert_ bind after fst snd].
      eexists. split; [reflexivity|]. split; [|reflexivity]. cbn [fst]. unfold d_store. cbn [d_u d_l w_tab w_changes w_pushed w_delete]. rewrite u_put_twice.
      assert (R0 : rdb schs x1 (Db u1 (d_l d))) by (apply (rdb_left schs x); assumption).
      apply (rdb_store schs x1 (Db u1 (d_l d)) p sch (with_lock a2 (Some (SThese [], false, false))) a1' (w_tab w2) R0 Tb1 R2).
  - (* RemoveRows *)
    cbn [db_acts db_step]. eapply fits_map; [apply (takes_out_ok _ _ (tell_ok fuel)); [exact Ru|exact H]|]. intros y u [Ry Sh].
    split; [|reflexivity]. cbn [fst]. apply (rdb_left schs x); assumption.
  - (* WRemove *)
    cbn [db_acts db_step]. apply on_tab. intros [sch a] Tb. cbn [fst snd]. destruct (p_lock a) as [[[l b1] b2]|] eqn:La; [|exact I].
    destruct (kind_eqb (s_kind sch) Consistent) eqn:Kc; [|exact I].
    destruct (locked_table_ok schs x d p _ _ R Tb La) as (t & Et & Rt & -> & Dl). cbn [bind fst snd w_tab] in *.
    apply is_consistent in Kc. unfold t_consistent. rewrite (rt_kind sch a t Rt), Kc. cbn [kind_eqb assert_ bind].
    destruct s as [|ids].
    + rewrite LimitsFacts.cleared by (cbn; rewrite (rt_kind sch a t Rt); exact Kc). cbn [bind].
      apply (Fl p sch a (with_lock (emptied a) None) (W (w_tab (clear_raw (W t l b1 b2))) SAll b1 true) ev Tb); [|reflexivity].
      apply (emptied_rt sch a (W t l b1 b2) Rt).
    + pose proof (removed_plain pr umax sch a (W t l b1 b2) ids Rt) as P. cbn zeta in P. cbn zeta. unfold removed in P. rewrite Kc in P. cbn [w_tab] in P.
      destruct (all_below (len a) ids); [|destruct P as [e Q]; rewrite Q; exists e; reflexivity].
      destruct P as (w' & Q & R' & L & Sl). rewrite Q. cbn [bind]. injection Sl as S1 S2 S3. cbn [w_changes w_pushed w_delete] in *.
      rewrite <- S1, <- S2, <- S3. apply (Fl p sch a (with_lock (freed a ids) None) w' ev Tb); [exact R'|reflexivity].
  - (* Select *)
    cbn [db_acts db_step]. rewrite (proj2 H p). destruct (locked x p); [exact I|]. cbn [negb lock_ok bind]. unfold read_select.
    eapply fits_map; [eapply fits_map; [apply tell_ok; [exact Ru|exact H]|]|].
    + intros [y s1] [u s1'] (Ry & _ & Sh). cbn [fst]. apply (conj Ry Sh : left_rel x y u).
    + intros y u [Ry Sh]. split; [|reflexivity]. cbn [fst]. apply (rdb_left schs x); assumption.
  - (* Track *)
    cbn [db_acts db_step]. apply on_tab. intros [sch a] Tb. cbn [fst snd]. destruct (ru_tab _ _ _ _ Ru Tb) as (t & Et & Rt). cbn [fst snd] in *.
    cbv zeta. unfold u_get. rewrite Et. cbn [bind]. rewrite (proj1 H p). cbn [existsb]. destruct (locked x p); [exact I|]. cbn [negb lock_ok bind].
    unfold t_consistent. rewrite (rt_kind sch a t Rt). destruct (kind_eqb (s_kind sch) Consistent); [|eexists; reflexivity]. cbn [assert_ bind].
    eexists. split; [reflexivity|]. split; [|reflexivity]. split; [|split; [exact Lk|split; [exact Ln|exact Sc]]].
    destruct Ru as (A & B & C & F). split; [|split; [exact B|split; [exact C|exact F]]]. cbn [fst b_trk d_u u_trk]. unfold u_trackers. rewrite A. reflexivity.
  - (* Handle *)
    cbn [db_acts db_step]. unfold handlers_add, event_eqb, invalid_event. cbn [ev_id ev_removal ev_creation].
    destruct Ru as (A & B & C & F). rewrite B.
    replace (eqb (ev_removal ev) false) with (negb (ev_removal ev)) by (destruct (ev_removal ev); reflexivity).
    replace (eqb (ev_creation ev) false) with (negb (ev_creation ev)) by (destruct (ev_creation ev); reflexivity).
    destruct ((ev_id ev =? 0) && negb (ev_removal ev) && negb (ev_creation ev)); [eexists; reflexivity|].
    destruct (Nat.ltb_spec (ev_id ev) (length (u_hdl (d_u d)))) as [L|L].
    + destruct (nth_error_lt_Some _ _ L) as [old E]. rewrite E. cbn [bind fst]. eexists. split; [reflexivity|]. split; [|reflexivity].
      split; [|split; [exact Lk|split; [exact Ln|exact Sc]]]. split; [exact A|]. split; [reflexivity|]. split; [exact C|exact F].
    + assert (E : nth_error (u_hdl (d_u d)) (ev_id ev) = None) by (apply nth_error_None; exact L). rewrite E. eexists. reflexivity.
Qed.
Lemma db_plays_ok fuel schs cs : forall x d, rdb schs x d -> Forall (db_ty schs) cs ->
  fits (fun l r => r = l) (db_plays pr umax fuel x cs) (db_talks pr umax fuel d cs).
Proof.
  induction cs as [|c cs IH]; intros x d R T; cbn [db_plays db_talks]; [eexists; split; reflexivity|].
  inversion T as [|? ? T1 T2]; subst. eapply fits_after; [apply db_acts_ok; eassumption|]. intros [x' y] [d' y'] _ _ [R' Ey]. cbn [fst snd] in *. subst y'.
  eapply fits_map; [apply IH; eassumption|]. intros l r ->. destruct R as ((_ & _ & E & _) & _). destruct R' as ((_ & _ & E' & _) & _). rewrite E, E'. reflexivity.
Qed.
Lemma db_new_ok schs : Forall (fun s => s_cols s <> []) schs -> rdb schs (pls_new schs) (db_new schs).
Proof.
  intro N. split; [|split; [|split]].
  - split; [reflexivity|]. split; [reflexivity|]. split; [reflexivity|]. cbn [pls_new b_tabs db_new d_u u_tabs]. induction N as [|s l Hs _ IH]; cbn [map]; constructor; [|exact IH].
    exact (new_rel s Hs).
  - intro p. unfold d_lock, lock_of. cbn [db_new d_l pls_new b_tabs]. rewrite nth_error_map.
    transitivity (nth p (map (fun _ : schema => @None (select * bool * bool)) schs) None); [reflexivity|].
    assert (Z : forall (l : list schema) q, nth q (map (fun _ => @None (select * bool * bool)) l) None = None) by (induction l as [|z l IHl]; intros [|q]; cbn; auto).
    rewrite Z. destruct (nth_error schs p); reflexivity.
  - cbn [db_new d_l pls_new b_tabs]. rewrite !map_length. reflexivity.
  - cbn [pls_new b_tabs]. rewrite map_map. cbn [fst]. apply map_id.
Qed.
End D.
