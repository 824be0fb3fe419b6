(** Proofs for C88. *)
From Coq Require Import List Arith Bool Lia Sorted.
From Verif Require Import Base BaseFacts RowRange RowRangeFacts Column Table TableSpec Hist TableFacts HistFacts TableProps SkipSpec.
Import ListNotations.

Lemma filter_filter {A} (p q : A -> bool) l : filter p (filter q l) = filter (fun x => q x && p x) l.
Proof. induction l as [|x l IH]; simpl; auto. destruct (q x); simpl; rewrite IH; auto. Qed.
Lemma forallb_filter_id {A} (p : A -> bool) l : forallb p l = true -> filter p l = l.
Proof. induction l as [|x l IH]; simpl; auto. intro H. apply andb_true_iff in H. destruct H as [-> H]. rewrite IH; auto. Qed.
Lemma join_drops row del : StronglySorted lt del ->
  snd (join Nat.compare row del) = filter (fun x => row <=? x) del /\
  match fst (join Nat.compare row del) with JMatch _ => In row del | _ => ~ In row del end.
Proof.
  induction 1 as [|d ds Sd IH Fd]; simpl; auto. rewrite Forall_forall in Fd.
  assert (All : forall b, b <= d -> filter (fun x => b <=? x) ds = ds).
  { intros b Hb. apply forallb_filter_id. apply forallb_forall. intros x Hx. apply Fd in Hx. apply Nat.leb_le. lia. }
  destruct (Nat.compare_spec row d) as [->|L|L]; simpl.
  - rewrite Nat.leb_refl, All; auto.
  - destruct (Nat.leb_spec row d); [|lia]. rewrite All by lia. split; auto. intros [->|H']; [lia|]. apply Fd in H'. lia.
  - destruct (Nat.leb_spec row d); [lia|]. destruct IH as [IH1 IH2]. split; auto. destruct (fst _); auto; intros [->|]; auto; lia.
Qed.

Section S.
Variables (pr : profile) (imax umax : nat) (free : list nat).
Hypothesis Sf : StronglySorted lt free.
Definition left_of (m : nat) : list nat := filter (fun x => m <=? x) free.
Definition shownb (m x : nat) : bool := negb (mem x free) || (x <? m).
Lemma left_sorted m : StronglySorted lt (left_of m).
Proof. apply filter_sorted; auto. Qed.
Lemma left_left m row : filter (fun x => row <=? x) (left_of m) = left_of (Nat.max m row).
Proof.
  unfold left_of. rewrite filter_filter. apply filter_ext. intro x.
  destruct (Nat.leb_spec m x), (Nat.leb_spec row x), (Nat.leb_spec (Nat.max m row) x); simpl; auto; lia.
Qed.
Lemma left_shown m x : In x (left_of m) <-> shownb m x = false.
Proof.
  unfold left_of, shownb. rewrite filter_In, orb_false_iff, negb_false_iff, mem_In, Nat.leb_le, Nat.ltb_ge. tauto.
Qed.
Lemma loop_wander n : forall a e m fuel, e <= imax -> e - a = n -> n < fuel ->
  cons_loop pr imax fuel (CI (RI a e) (left_of m)) =
    match filter (shownb m) (seq a n) with
    | [] => Ok (CI (RI (Nat.max a e) e) (left_of (if a <? e then Nat.max m (e - 1) else m)), None)
    | x :: _ => Ok (CI (RI (S x) e) (left_of (Nat.max m x)), Some x)
    end.
Proof.
  induction n as [|n IH]; intros a e m fuel B En Hf; destruct fuel as [|f]; try lia; cbn [cons_loop seq filter ci_rows ci_del].
  - rewrite it_next_none by (cbn; lia). cbn. destruct (Nat.ltb_spec a e); [lia|]. f_equal. f_equal. f_equal. f_equal. lia.
  - rewrite it_next_some by (cbn; auto; lia). cbn [bind fst snd it_i it_end].
    destruct (join_drops a (left_of m) (left_sorted m)) as [J1 J2]. rewrite J1, left_left.
    destruct (shownb m a) eqn:Es.
    + destruct (fst (join _ _ _)); [reflexivity|reflexivity|]. apply left_shown in J2. congruence.
    + apply left_shown in Es. destruct (fst (join _ _ _)); [contradiction|contradiction|].
      rewrite (IH (S a) e (Nat.max m a) f) by lia.
      assert (F : filter (shownb (Nat.max m a)) (seq (S a) n) = filter (shownb m) (seq (S a) n)).
      { apply filter_ext_in. intros x Hx. apply in_seq in Hx. unfold shownb. f_equal.
        destruct (Nat.ltb_spec x m), (Nat.ltb_spec x (Nat.max m a)); auto; lia. }
      rewrite F. destruct (filter (shownb m) (seq (S a) n)) as [|x l] eqn:Ef.
      * destruct (Nat.ltb_spec a e); [|lia]. replace (Nat.max (S a) e) with (Nat.max a e) by lia.
        replace (if S a <? e then Nat.max (Nat.max m a) (e - 1) else Nat.max m a) with (Nat.max m (e - 1)); auto.
        destruct (Nat.ltb_spec (S a) e); lia.
      * assert (Hx : In x (x :: l)) by (left; auto). rewrite <- Ef in Hx. apply filter_In in Hx. destruct Hx as [Hx _]. apply in_seq in Hx.
        replace (Nat.max (Nat.max m a) x) with (Nat.max m x) by lia. reflexivity.
Qed.
Lemma run_wander present ops : forall a e m, a <= imax -> e <= imax -> imax <= umax -> skips_usize umax ops ->
  (forall x, x < e -> present x = negb (mem x free)) ->
  match wander pr imax umax present ops a m e with
  | Some l => cons_run pr imax umax ops (CI (RI a e) (left_of m)) = Ok l
  | None => exists p, cons_run pr imax umax ops (CI (RI a e) (left_of m)) = panic p
  end.
Proof.
  induction ops as [|[|n] ops IH]; intros a e m La Le Lu Us Pr; cbn [wander cons_run]; auto.
  - assert (Us' : skips_usize umax ops) by (intros k Hk; apply Us; right; auto).
    unfold cons_next. rewrite (loop_wander (e - a)) by (cbn; lia).
    assert (F : filter (fun x => present x || (x <? m)) (seq a (e - a)) = filter (shownb m) (seq a (e - a))).
    { apply filter_ext_in. intros x Hx. apply in_seq in Hx. unfold shownb. rewrite Pr by lia. reflexivity. }
    rewrite F. destruct (filter (shownb m) (seq a (e - a))) as [|x l] eqn:Ef; cbn [bind fst snd].
    + specialize (IH (Nat.max a e) e (if a <? e then Nat.max m (e - 1) else m)).
      destruct (wander _ _ _ _ _ _ _ _); cbn [option_map].
      * rewrite IH by (auto; lia). reflexivity.
      * destruct IH as [p ->]; auto; try lia. exists p. reflexivity.
    + assert (Hx : In x (x :: l)) by (left; auto). rewrite <- Ef in Hx. apply filter_In in Hx. destruct Hx as [Hx _]. apply in_seq in Hx.
      specialize (IH (S x) e (Nat.max m x)).
      destruct (wander _ _ _ _ _ _ _ _); cbn [option_map].
      * rewrite IH by (auto; lia). reflexivity.
      * destruct IH as [p ->]; auto; try lia. exists p. reflexivity.
  - assert (Us' : skips_usize umax ops) by (intros k Hk; apply Us; right; auto).
    assert (Un : n <= umax) by (apply Us; left; auto).
    unfold cons_skip_fast, it_skip_fast, uadd. cbn [ci_rows it_i it_end ci_del].
    destruct (Nat.leb_spec (a + n) umax); cbn [bind].
    + unfold rid_from_usize. destruct (Nat.leb_spec (a + n) imax); cbn [bind]; [|eexists; reflexivity].
      apply IH; auto.
    + destruct pr; cbn [bind]; [eexists; reflexivity|]. unfold rid_from_usize.
      destruct (Nat.leb_spec (a + n - S umax) imax); [|lia]. cbn [bind]. apply IH; auto.
Qed.
End S.

(** Without going back: the rows present, ascending. *)
Lemma wander_up pr imax umax present ops : forall a m e l, m <= a -> pr = Debug \/ Nat.max a e + skipped ops <= umax ->
  wander pr imax umax present ops a m e = Some l ->
  StronglySorted lt (somes l) /\ Forall (fun x => a <= x /\ present x = true) (somes l).
Proof.
  induction ops as [|[|n] ops IH]; intros a m e l L U; cbn [wander].
  - intros [= <-]. split; constructor.
  - change (skipped (ItNext :: ops)) with (skipped ops) in U.
    assert (F : filter (fun x => present x || (x <? m)) (seq a (e - a)) = filter present (seq a (e - a))).
    { apply filter_ext_in. intros x Hx. apply in_seq in Hx. destruct (Nat.ltb_spec x m); [lia|]. apply orb_false_r. }
    rewrite F. destruct (filter present (seq a (e - a))) as [|x k] eqn:Ef.
    + destruct (wander _ _ _ _ _ (Nat.max a e) _ _) as [l'|] eqn:E; [|discriminate]. intros [= <-].
      destruct (IH (Nat.max a e) (if a <? e then Nat.max m (e - 1) else m) e l') as [S P]; auto.
      { destruct (Nat.ltb_spec a e); lia. } { destruct U; auto. right. lia. }
      cbn [somes flat_map app]. split; auto. eapply Forall_impl; [|exact P]. cbn. intros y [H1 H2]. split; auto. lia.
    + destruct (wander _ _ _ _ _ (S x) _ _) as [l'|] eqn:E; [|discriminate]. intros [= <-].
      assert (Hx : In x (x :: k)) by (left; auto). rewrite <- Ef in Hx. apply filter_In in Hx. destruct Hx as [Hx Hp]. apply in_seq in Hx.
      destruct (IH (S x) (Nat.max m x) e l') as [S P]; auto; try lia. { destruct U; auto. right. lia. }
      cbn [somes flat_map app]. split.
      * constructor; auto. eapply Forall_impl; [|exact P]. cbn. intros y [H1 _]. lia.
      * constructor; [split; auto; lia|]. eapply Forall_impl; [|exact P]. cbn. intros y [H1 H2]. split; auto. lia.
  - change (skipped (ItSkip n :: ops)) with (n + skipped ops) in U. destruct (Nat.leb_spec (a + n) umax).
    + destruct (a + n <=? imax); [|discriminate]. intro E.
      destruct (IH (a + n) m e l) as [S P]; auto; try lia. { destruct U; auto. right. lia. }
      split; auto. eapply Forall_impl; [|exact P]. cbn. intros y [H1 H2]. split; auto. lia.
    + destruct pr; [discriminate|]. destruct U as [U|U]; [discriminate|lia].
Qed.

Section R.
Variables (pr : profile) (umax : nat) (sch : schema) (st : state).
Hypothesis R : reachable pr umax sch st.
Notation t := (st_tab st).
Hypothesis L : t_len t <= t_imax t.
Hypothesis U : t_imax t <= umax.
Lemma range_wander r it ops : r_start r <= r_end r -> t_range t r = Ok it -> skips_usize umax ops ->
  match wander pr (t_imax t) umax (t_contains t) ops (r_start r) 0 (r_end r) with
  | Some l => cons_run pr (t_imax t) umax ops it = Ok l
  | None => exists p, cons_run pr (t_imax t) umax ops it = panic p
  end.
Proof.
  intros Hr E Us. destruct (reachable_tg _ _ _ _ R) as (Es & live & rows & K & _).
  rewrite (t_len_ok _ _ _ K) in L. destruct (t_range_spec _ _ _ K r) as [[H1 H2]|[[c H1] _]]; [|rewrite H1 in E; discriminate].
  rewrite H1 in E. injection E as <-. unfold cons_new.
  assert (Sf : StronglySorted lt (t_free t)) by apply K.
  assert (Z : t_free t = left_of (t_free t) 0).
  { unfold left_of. symmetry. apply forallb_filter_id. apply forallb_forall. auto. }
  rewrite Z. apply run_wander; auto; try lia.
  intros x Hx. apply eq_true_iff_eq. rewrite (contains_iff _ _ _ K), negb_true_iff. split; [tauto|]. split; auto. lia.
Qed.
Lemma edit_wander it ops : t_editing t = Ok it -> skips_usize umax ops ->
  match wander pr (t_imax t) umax (t_contains t) ops 0 0 (t_len t) with
  | Some l => cons_run pr (t_imax t) umax ops it = Ok l
  | None => exists p, cons_run pr (t_imax t) umax ops it = panic p
  end.
Proof.
  intros E Us. destruct (reachable_tg _ _ _ _ R) as (Es & live & rows & K & _).
  assert (L' := L). rewrite (t_len_ok _ _ _ K) in L'. pose proof (t_iter_ok _ _ _ K L') as I. rewrite (t_editing_ok _ _ _ K L') in E. injection E as <-.
  apply (range_wander (RR 0 (t_len t))); auto; [cbn; lia|]. rewrite <- I. unfold t_iter, t_row_range, rid_from_usize.
  destruct (Nat.leb_spec (t_len t) (t_imax t)); [|lia]. reflexivity.
Qed.
Lemma range_up r it ops outs : r_start r <= r_end r -> t_range t r = Ok it -> skips_usize umax ops ->
  cons_run pr (t_imax t) umax ops it = Ok outs -> pr = Debug \/ r_end r + skipped ops <= umax ->
  StronglySorted lt (somes outs) /\ Forall (fun x => t_contains t x = true) (somes outs).
Proof.
  intros Hr E Us C N. pose proof (range_wander r it ops Hr E Us) as W. destruct (wander _ _ _ _ _ _ _ _) as [l|] eqn:Ew.
  - assert (l = outs) as -> by congruence. destruct (wander_up pr (t_imax t) umax (t_contains t) ops (r_start r) 0 (r_end r) outs) as [S P]; auto; try lia.
    { destruct N; auto. right. lia. } split; auto. eapply Forall_impl; [|exact P]. cbn. tauto.
  - destruct W as [p W]. rewrite W in C. discriminate.
Qed.
End R.
