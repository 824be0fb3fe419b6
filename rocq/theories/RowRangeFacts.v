(** Lemmas about RowRange.v. *)
From Coq Require Import List Arith Bool Lia Sorted ZifyBool ZifyNat.
From Verif Require Import Base BaseFacts Order RowRange ColumnFacts.
Import ListNotations.

(** ** Orders *)
Section OrderFacts.
Context {K : Type} (c : K -> K -> comparison) (T : total_preorder c).
Lemma tp_refl x : c x x = Eq.
Proof. pose proof (tp_anti c T x x) as H. destruct (c x x); simpl in H; congruence. Qed.
Lemma tp_eq_sym x y : c x y = Eq -> c y x = Eq.
Proof. intro H. rewrite (tp_anti c T x y), H. reflexivity. Qed.
Lemma tp_gt_lt x y : c x y = Gt <-> c y x = Lt.
Proof. rewrite (tp_anti c T x y). destruct (c x y); simpl; split; congruence. Qed.
Lemma tp_lt_le x y z : c x y = Lt -> c y z <> Gt -> c x z = Lt.
Proof.
  intros H1 H2. destruct (c x z) eqn:E; auto; exfalso.
  - apply tp_eq_sym in E. assert (H3 : c y x <> Gt) by (apply (tp_trans c T y z x); congruence).
    apply H3. apply tp_gt_lt; auto.
  - apply (tp_trans c T x y z); congruence.
Qed.
Lemma tp_le_lt x y z : c x y <> Gt -> c y z = Lt -> c x z = Lt.
Proof.
  intros H1 H2. destruct (c x z) eqn:E; auto; exfalso.
  - apply tp_eq_sym in E. assert (H3 : c z y <> Gt) by (apply (tp_trans c T z x y); congruence).
    apply H3. apply tp_gt_lt; auto.
  - apply (tp_trans c T x y z); congruence.
Qed.
Lemma tp_eq_l x y z : c x y = Eq -> c x z = c y z.
Proof.
  intro H. pose proof (tp_eq_sym _ _ H) as H'. destruct (c y z) eqn:E.
  - pose proof (tp_eq_sym _ _ E). destruct (c x z) eqn:E'; auto; exfalso.
    + apply tp_gt_lt in E'. apply (tp_trans c T z y x); congruence.
    + apply (tp_trans c T x y z); congruence.
  - apply (tp_le_lt x y z); congruence.
  - apply tp_gt_lt. apply tp_gt_lt in E. apply (tp_lt_le z y x); congruence.
Qed.
Lemma tp_eq_r x y z : c x y = Eq -> c z x = c z y.
Proof. intro H. rewrite (tp_anti c T x z), (tp_anti c T y z), (tp_eq_l x y z H). auto. Qed.
End OrderFacts.

Lemma nat_tp : total_preorder Nat.compare.
Proof.
  split; [intros; apply Nat.compare_antisym|].
  intros x y z. rewrite !Nat.compare_gt_iff. lia.
Qed.

(** ** Range iteration *)
Section It.
Variable pr : profile.
Variables imax umax : nat.

Lemma rid_next_ok i : i < imax -> rid_next pr imax i = Ok (S i).
Proof. intro H. unfold rid_next. destruct (Nat.ltb_spec i imax); [auto|lia]. Qed.
Lemma it_next_some it : it_i it < it_end it -> it_end it <= imax ->
  it_next pr imax it = Ok (RI (S (it_i it)) (it_end it), Some (it_i it)).
Proof.
  intros L B. unfold it_next. destruct (Nat.leb_spec (it_end it) (it_i it)); [lia|].
  rewrite rid_next_ok by lia. reflexivity.
Qed.
Lemma it_next_none it : it_end it <= it_i it -> it_next pr imax it = Ok (it, None).
Proof. intro L. unfold it_next. destruct (Nat.leb_spec (it_end it) (it_i it)); [auto|lia]. Qed.
Lemma it_collect_ok fuel : forall it, it_end it <= imax -> it_end it - it_i it < fuel ->
  it_collect pr imax fuel it = Ok (seq (it_i it) (it_end it - it_i it)).
Proof.
  induction fuel as [|f IH]; intros it B L; [lia|]. cbn [it_collect].
  destruct (Nat.le_gt_cases (it_end it) (it_i it)) as [H|H].
  - rewrite it_next_none by auto. cbn. replace (it_end it - it_i it) with 0 by lia. reflexivity.
  - rewrite it_next_some by auto. cbn [bind fst snd]. rewrite IH; cbn [it_i it_end]; [|lia|lia].
    cbn [bind]. replace (it_end it - it_i it) with (S (it_end it - S (it_i it))) by lia. reflexivity.
Qed.

Lemma rr_contains_iff r o : rr_contains r o = true <-> r_start r <= o < r_end r.
Proof. unfold rr_contains. rewrite andb_true_iff, Nat.leb_le, Nat.ltb_lt. tauto. Qed.
Lemma nth_error_seq a n k : nth_error (seq a n) k = if k <? n then Some (a + k) else None.
Proof.
  revert a k. induction n as [|n IH]; intros a k; simpl.
  - destruct k; auto.
  - destruct k; simpl. + f_equal; lia. + rewrite IH.
    destruct (Nat.ltb_spec k n), (Nat.ltb_spec (S k) (S n)); try lia; auto. f_equal; lia.
Qed.
Lemma rr_spec r : r_start r <= r_end r -> r_end r <= imax ->
  exists l, (forall fuel, r_end r - r_start r < fuel -> it_collect pr imax fuel (rr_iter_slow r) = Ok l) /\
    StronglySorted lt l /\
    (forall o, In o l <-> rr_contains r o = true) /\
    rr_len pr umax r = Ok (length l) /\
    (forall o k, rr_inner_index r o = Some k <-> nth_error l k = Some o).
Proof.
  intros H B. exists (seq (r_start r) (r_end r - r_start r)). repeat split.
  - intros f Hf. apply it_collect_ok; auto.
  - apply seq_ss.
  - intro Hi. apply in_seq in Hi. apply rr_contains_iff. lia.
  - intro Hi. apply rr_contains_iff in Hi. apply in_seq. lia.
  - unfold rr_len, usub. destruct (Nat.leb_spec (r_start r) (r_end r)); [|lia]. rewrite seq_length. auto.
  - unfold rr_inner_index. destruct (rr_contains r o) eqn:E; [|discriminate]. intros [= <-].
    apply rr_contains_iff in E. rewrite nth_error_seq.
    destruct (Nat.ltb_spec (o - r_start r) (r_end r - r_start r)); [f_equal; lia|lia].
  - rewrite nth_error_seq. destruct (Nat.ltb_spec k (r_end r - r_start r)); [|discriminate].
    intros [= <-]. unfold rr_inner_index.
    destruct (rr_contains r (r_start r + k)) eqn:E; [f_equal; lia|].
    assert (rr_contains r (r_start r + k) = true) by (apply rr_contains_iff; lia). congruence.
Qed.

Lemma rr_offset_spec r n x : r_start r <= r_end r -> r_end r <= imax ->
  (rr_offset imax r n = Some x <->
    (rr_contains r x = true /\ rr_inner_index r x = Some n) \/ (rr_len pr umax r = Ok n /\ x = r_end r)).
Proof.
  intros H B. unfold rr_offset, rr_len, usub, rr_inner_index.
  destruct (Nat.leb_spec (r_start r) (r_end r)); [|lia].
  destruct (Nat.leb_spec (r_start r + n) imax).
  - destruct (Nat.ltb_spec (r_end r) (r_start r + n)).
    + split; [discriminate|]. intros [[C E]|[[= E] ->]]; [|lia].
      rewrite C in E. inv E. apply rr_contains_iff in C. lia.
    + split.
      * intros [= <-]. destruct (Nat.eq_dec (r_start r + n) (r_end r)).
        -- right. split; auto. f_equal; lia.
        -- left. assert (C : rr_contains r (r_start r + n) = true) by (apply rr_contains_iff; lia).
           rewrite C. split; auto. f_equal; lia.
      * intros [[C E]|[[= E] ->]].
        -- rewrite C in E. inv E. apply rr_contains_iff in C. f_equal; lia.
        -- f_equal; lia.
  - split; [discriminate|]. intros [[C E]|[[= E] ->]]; [|lia].
    rewrite C in E. inv E. apply rr_contains_iff in C. lia.
Qed.

Lemma rr_intersects_spec a b : r_start a <= r_end a -> r_start b <= r_end b ->
  rr_intersects pr a b = Ok ((r_start a <? r_end b) && (r_start b <? r_end a)).
Proof.
  intros Ha Hb. unfold rr_intersects.
  assert (E : match pr with
    | Debug => let* _ := assert_ (r_start a <=? r_end a) PRangeOrder in
               assert_ (r_start b <=? r_end b) PRangeOrder
    | Release => Ok tt end = Ok tt).
  { destruct pr; auto. destruct (Nat.leb_spec (r_start a) (r_end a)); [|lia].
    destruct (Nat.leb_spec (r_start b) (r_end b)); [auto|lia]. }
  rewrite E. simpl. f_equal. lia.
Qed.
Lemma rr_intersects_iff a b : r_start a < r_end a -> r_start b < r_end b ->
  (rr_intersects pr a b = Ok true <-> exists o, rr_contains a o = true /\ rr_contains b o = true) /\
  (rr_intersects pr a b = Ok false <-> ~ exists o, rr_contains a o = true /\ rr_contains b o = true).
Proof.
  intros Ha Hb. rewrite rr_intersects_spec by lia.
  assert (X : (exists o, rr_contains a o = true /\ rr_contains b o = true) <->
              (r_start a <? r_end b) && (r_start b <? r_end a) = true).
  { rewrite andb_true_iff, !Nat.ltb_lt. split.
    - intros (o & C1 & C2). apply rr_contains_iff in C1, C2. lia.
    - intros [L1 L2]. exists (Nat.max (r_start a) (r_start b)). rewrite !rr_contains_iff. lia. }
  rewrite X. destruct ((r_start a <? r_end b) && (r_start b <? r_end a)); split; split; congruence.
Qed.

(** ** CheckedIter *)
Lemma it_run_bounded ops : forall len it l, it_end it <= len ->
  it_run pr imax umax ops it = Ok l -> forall x, In (Some x) l -> x < len.
Proof.
  induction ops as [|o os IH]; intros len it l B E x Hx; simpl in E.
  - inv E. destruct Hx.
  - destruct o as [|n].
    + bindn E v E0. destruct v as [it' o]. bindn E v2 E2. inv E. cbn [fst snd] in *.
      assert (H1 : it_end it' = it_end it /\ forall y, o = Some y -> y < it_end it).
      { unfold it_next in E0. destruct (Nat.leb_spec (it_end it) (it_i it)); [inv E0; split; auto; discriminate|].
        bindn E0 v E1. inv E0. split; auto. intros y [= <-]. auto. }
      destruct H1 as [H1 H2]. destruct Hx as [->|Hx].
      * specialize (H2 x eq_refl). lia.
      * eapply (IH len it'); eauto. lia.
    + bindn E v E0. unfold it_skip_fast in E0. bindn E0 v0 E1. bindn E0 v1 E2. inv E0.
      eapply (IH len (RI v1 (it_end it))); eauto.
Qed.
Lemma ci_from_ok len r it : ci_from len r = Ok it -> it = RI (r_start r) (r_end r) /\ r_end r <= len.
Proof.
  unfold ci_from. intro E. bindn E u1 E0. bindn E u2 E1. inv E. split; auto.
  unfold assert_ in E1. destruct (Nat.leb_spec (r_end r) len); [auto|discriminate].
Qed.
Lemma ci_from_iff len r : r_start r <= r_end r ->
  ((exists it, ci_from len r = Ok it) <-> r_end r <= len).
Proof.
  intro H. split.
  - intros [it E]. apply ci_from_ok in E. tauto.
  - intro L. unfold ci_from.
    assert (E1 : (r_start r <? len) || (r_start r =? r_end r) = true) by lia.
    rewrite E1. destruct (Nat.leb_spec (r_end r) len); [simpl; eauto|lia].
Qed.
End It.

(** ** Merge joins *)
Section JoinFacts.
Context {K A B : Type} (c : K -> K -> comparison) (T : total_preorder c) (ka : A -> K) (kb : B -> K).
Let cab (a : A) (b : B) := c (ka a) (kb b).

(** What [join] should answer for [l], whatever was joined before. *)
Definition join_spec (right : list B) (l : A) : join_out B :=
  match find (fun r => match cab l r with Gt => false | _ => true end) right with
  | None => JStop
  | Some r => match cab l r with Eq => JMatch r | _ => JNext end
  end.
Fixpoint drop_lt (l : A) (right : list B) : list B :=
  match right with
  | [] => []
  | r :: rs => match cab l r with Gt => drop_lt l rs | _ => right end
  end.
Lemma join_eq l right : join cab l right = (join_spec right l, drop_lt l right).
Proof.
  induction right as [|r rs IH]; simpl; auto. unfold join_spec; simpl.
  destruct (cab l r) eqn:E; simpl; rewrite ?E; auto.
Qed.
Lemma cab_gt_le l l' r : c (ka l) (ka l') <> Gt -> cab l r = Gt -> cab l' r = Gt.
Proof.
  unfold cab. intros H E. apply (tp_gt_lt c T). apply (tp_gt_lt c T) in E.
  exact (tp_lt_le c T _ _ _ E H).
Qed.
Lemma drop_lt_le l l' right : c (ka l) (ka l') <> Gt -> drop_lt l' (drop_lt l right) = drop_lt l' right.
Proof.
  intro H. induction right as [|r rs IH]; simpl; auto.
  destruct (cab l r) eqn:E; simpl; auto. rewrite IH.
  assert (E' : cab l' r = Gt).
  { eapply cab_gt_le; eauto. }
  rewrite E'. reflexivity.
Qed.
Lemma join_spec_drop l l' right : c (ka l) (ka l') <> Gt -> join_spec (drop_lt l right) l' = join_spec right l'.
Proof.
  intro H. change (fst (join_spec (drop_lt l right) l', drop_lt l' (drop_lt l right)) = fst (join_spec right l', drop_lt l' right)).
  induction right as [|r rs IH]; simpl; auto.
  destruct (cab l r) eqn:E; auto.
  assert (E' : cab l' r = Gt).
  { eapply cab_gt_le; eauto. }
  unfold join_spec at 2; simpl. rewrite E'. exact IH.
Qed.
Lemma join_run_ok left : forall right, ascending c (map ka left) ->
  join_run (join cab) left right = map (join_spec right) left.
Proof.
  induction left as [|l ls IH]; intros right S; simpl; auto.
  inv S. rewrite join_eq. simpl. f_equal. rewrite IH by auto. apply map_ext_in. intros l' Hl'.
  apply join_spec_drop. rewrite Forall_forall in H2. apply H2. apply in_map; auto.
Qed.
(** With an ascending right side, Match / Next / Stop mean what they say. *)
Lemma join_spec_sorted right l : ascending c (map kb right) ->
  match join_spec right l with
  | JMatch r => exists pre post, right = pre ++ r :: post /\ cab l r = Eq /\ (forall q, In q pre -> cab l q = Gt)
  | JNext => (forall r, In r right -> cab l r <> Eq) /\ (exists r, In r right /\ cab l r = Lt)
  | JStop => forall r, In r right -> cab l r = Gt
  end.
Proof.
  unfold join_spec. induction right as [|r rs IH]; intro S; simpl; [intros ? []|].
  inv S. destruct (cab l r) eqn:E.
  - rewrite E. exists [], rs. split; auto. split; auto. intros ? [].
  - rewrite E. split; [|exists r; auto]. intros q [->|Hq]; [congruence|].
    intro Eq. rewrite Forall_forall in H2. specialize (H2 (kb q) (in_map _ _ _ Hq)).
    assert (cab l q = Lt) by exact (tp_lt_le c T _ _ _ E H2). congruence.
  - specialize (IH H1). destruct (find _ rs) as [q|].
    + destruct (cab l q) eqn:Eq.
      * destruct IH as (pre & post & -> & Ec & Hp). exists (r :: pre), post. split; auto. split; auto.
        intros q' [<-|]; auto.
      * destruct IH as [N (w & Hw & El)]. split.
        -- intros q' [<-|]; [congruence|auto]. -- exists w. auto.
      * destruct IH as [N (w & Hw & El)]. split.
        -- intros q' [<-|]; [congruence|auto]. -- exists w. auto.
    + intros q [<-|]; auto.
Qed.

(** [join_next] *)
Definition is_eq (k : K) (x : K) : bool := match c k x with Eq => true | _ => false end.
Definition is_lt (k : K) (x : K) : bool := match c k x with Lt => true | _ => false end.
Definition jn_spec (right : list B) (earlier : list A) (l : A) : join_out B :=
  match nth_error (filter (fun r => is_eq (ka l) (kb r)) right)
                  (length (filter (fun a => is_eq (ka l) (ka a)) earlier)) with
  | Some r => JMatch r
  | None => if existsb (fun r => is_lt (ka l) (kb r)) right then JNext else JStop
  end.
Fixpoint jn_outs (right : list B) (earlier : list A) (left : list A) : list (join_out B) :=
  match left with
  | [] => []
  | l :: ls => jn_spec right earlier l :: jn_outs right (earlier ++ [l]) ls
  end.

(** Remaining right side [R] after the lefts [P]. *)
Definition jn_inv (right R : list B) (P : list A) : Prop :=
  ascending c (map kb R) /\
  forall x, (forall p, In p P -> c (ka p) x <> Gt) ->
    filter (fun r => is_eq x (kb r)) R =
      skipn (length (filter (fun a => is_eq x (ka a)) P)) (filter (fun r => is_eq x (kb r)) right) /\
    filter (fun r => is_lt x (kb r)) R = filter (fun r => is_lt x (kb r)) right.

Lemma filter_none {X} f (l : list X) : (forall x, In x l -> f x = false) -> filter f l = [].
Proof.
  induction l as [|x l IH]; simpl; intro H; auto. rewrite H by auto. apply IH. auto.
Qed.
Lemma skipn_S_cons {X} n (l : list X) x r : skipn n l = x :: r -> skipn (S n) l = r.
Proof. revert l. induction n; intros [|y l]; simpl; try discriminate; try congruence. apply IHn. Qed.
Lemma skipn_nth0 {X} n (l : list X) : nth_error l n = hd_error (skipn n l).
Proof. revert l. induction n; intros [|y l]; simpl; auto. Qed.

(** One call of [join_next]. *)
Lemma jn_step_drop l R : ascending c (map kb R) ->
  exists out R', join_next cab l R = (out, R') /\ ascending c (map kb R') /\
  match filter (fun r => is_eq (ka l) (kb r)) R with
  | r :: _ => out = JMatch r
  | [] => out = if existsb (fun r => is_lt (ka l) (kb r)) R then JNext else JStop
  end /\
  (forall x, c (ka l) x = Lt ->
     filter (fun r => is_eq x (kb r)) R' = filter (fun r => is_eq x (kb r)) R) /\
  (forall x, c (ka l) x <> Gt ->
     filter (fun r => is_lt x (kb r)) R' = filter (fun r => is_lt x (kb r)) R) /\
  filter (fun r => is_eq (ka l) (kb r)) R' = tl (filter (fun r => is_eq (ka l) (kb r)) R).
Proof.
  induction R as [|r rs IH]; intro S; simpl.
  - exists JStop, []. repeat split; auto.
  - inv S. destruct (cab l r) eqn:E.
    + exists (JMatch r), rs. split; auto. split; auto.
      assert (Eq : is_eq (ka l) (kb r) = true) by (unfold is_eq, cab in *; rewrite E; auto).
      rewrite Eq. split; auto. split; [|split]; auto.
      * intros x Hx. unfold is_eq at 2.
        assert (Ex : c x (kb r) = Gt).
        { apply (tp_gt_lt c T). unfold cab in E. rewrite <- (tp_eq_l c T _ _ x E). auto. }
        rewrite Ex. auto.
      * intros x Hx. unfold is_lt at 2.
        assert (Ex : c x (kb r) <> Lt).
        { intro Ex. assert (c (ka l) (kb r) = Lt) by exact (tp_le_lt c T _ _ _ Hx Ex). unfold cab in E. congruence. }
        destruct (c x (kb r)); congruence.
    + exists JNext, (r :: rs). split; auto. split; [constructor; auto|].
      assert (N : filter (fun r => is_eq (ka l) (kb r)) (r :: rs) = []).
      { apply filter_none. intros q Hq. unfold is_eq.
        assert (Lq : c (ka l) (kb q) = Lt).
        { destruct Hq as [<-|Hq]; auto. rewrite Forall_forall in H2.
          apply (tp_lt_le c T _ (kb r)); auto. apply H2. apply in_map; auto. }
        rewrite Lq. auto. }
      simpl in N. rewrite N. simpl. split.
      * unfold is_lt at 1. unfold cab in E. rewrite E. auto.
      * split; [|split]; auto.
    + assert (Gr : forall x, c (ka l) x <> Gt -> c x (kb r) = Gt).
      { intros x Hx. apply (tp_gt_lt c T). apply (tp_gt_lt c T) in E. exact (tp_lt_le c T _ _ _ E Hx). }
      assert (Gl : c (ka l) (kb r) = Gt) by exact E.
      destruct (IH H1) as (out & R' & E1 & S' & O & F1 & F2 & F3).
      exists out, R'. split; auto. split; auto.
      unfold is_eq at 1, is_lt at 1. rewrite Gl. split; [exact O|]. split; [|split].
      * intros x Hx. rewrite F1 by auto. unfold is_eq at 2. rewrite Gr by congruence. auto.
      * intros x Hx. rewrite F2 by auto. unfold is_lt at 2. rewrite Gr by auto. auto.
      * rewrite F3. unfold is_eq at 2. rewrite Gl. auto.
Qed.

Lemma existsb_filter {X} f (l : list X) : existsb f l = match filter f l with [] => false | _ => true end.
Proof. induction l as [|x l IH]; simpl; auto. destruct (f x); simpl; auto. Qed.

Lemma jn_run_inv left : forall right R P,
  ascending c (map ka (P ++ left)) -> jn_inv right R P ->
  join_run (join_next cab) left R = jn_outs right P left.
Proof.
  induction left as [|l ls IH]; intros right R P S [SR I]; simpl; auto.
  assert (Hle : forall p, In p P -> c (ka p) (ka l) <> Gt).
  { clear - S. unfold ascending in S. induction P as [|p P IHP]; simpl in *; [intros ? []|].
    inv S. intros q [<-|Hq].
    - rewrite Forall_forall in H2. apply H2. apply in_map. apply in_or_app. right. left. auto.
    - apply IHP; auto. }
  destruct (I (ka l) Hle) as [I1 I2].
  destruct (jn_step_drop l R SR) as (out & R' & E & SR' & O & F1 & F2 & F3).
  rewrite E. simpl. f_equal.
  - unfold jn_spec. rewrite skipn_nth0, <- I1.
    destruct (filter (fun r => is_eq (ka l) (kb r)) R) as [|r q]; simpl; auto.
    rewrite existsb_filter, I2, <- existsb_filter in O. exact O.
  - apply IH.
    + rewrite <- app_assoc. exact S.
    + split; auto. intros x Hx.
      assert (HxP : forall p, In p P -> c (ka p) x <> Gt) by (intros p Hp; apply Hx; apply in_or_app; auto).
      assert (Hl : c (ka l) x <> Gt) by (apply Hx; apply in_or_app; simpl; auto).
      destruct (I x HxP) as [J1 J2]. split.
      * rewrite filter_app, app_length. simpl. destruct (is_eq x (ka l)) eqn:Ex; simpl.
        -- unfold is_eq in Ex. destruct (c x (ka l)) eqn:Ec; try discriminate.
           assert (Eqf : forall L : list B, filter (fun r => is_eq x (kb r)) L = filter (fun r => is_eq (ka l) (kb r)) L).
           { intro L. apply filter_ext. intro r. unfold is_eq. rewrite (tp_eq_l c T _ _ _ Ec). auto. }
           rewrite (Eqf R'), F3, <- (Eqf R), J1.
           destruct (skipn _ (filter (fun r => is_eq x (kb r)) right)) as [|y ys] eqn:Es; simpl.
           ++ rewrite skipn_all2; auto. apply (f_equal (@length B)) in Es.
              rewrite skipn_length in Es. simpl in Es. lia.
           ++ rewrite Nat.add_1_r. symmetry. eapply skipn_S_cons; eauto.
        -- assert (Hlt : c (ka l) x = Lt).
           { unfold is_eq in Ex. rewrite (tp_anti c T x (ka l)) in *.
             destruct (c x (ka l)); simpl in *; congruence. }
           rewrite Nat.add_0_r, F1 by auto. exact J1.
      * rewrite F2 by auto. exact J2.
Qed.
Lemma jn_run_ok left right : ascending c (map ka left) -> ascending c (map kb right) ->
  join_run (join_next cab) left right = jn_outs right [] left.
Proof.
  intros SL SR. apply jn_run_inv; auto. split; auto.
Qed.
End JoinFacts.

(** ** Iterators skipping deleted rows *)
Section Cons.
Variable pr : profile.
Variables imax umax : nat.

Definition freeb (free : list nat) (i : nat) : bool := mem i free.

(** The deleted keys still to come are those not below the position. *)
Definition cons_inv (free : list nat) (c : cons_iter) : Prop :=
  it_end (ci_rows c) <= imax /\
  StronglySorted lt (ci_del c) /\
  forall x, it_i (ci_rows c) <= x -> (In x (ci_del c) <-> In x free).

Lemma join_nat_spec row del : StronglySorted lt del ->
  exists out del', join Nat.compare row del = (out, del') /\
    StronglySorted lt del' /\ (forall x, row < x -> (In x del' <-> In x del)) /\
    match out with JMatch _ => In row del | _ => ~ In row del end.
Proof.
  induction 1 as [|d ds Sd IH Fd]; simpl.
  - exists JStop, []. repeat split; auto; try constructor; intros; tauto.
  - rewrite Forall_forall in Fd. destruct (Nat.compare_spec row d) as [->|L|L].
    + eexists; eexists. split; [reflexivity|]. split; [constructor; auto; apply Forall_forall; auto|].
      split; [intros; simpl; reflexivity|]. simpl; auto.
    + eexists; eexists. split; [reflexivity|]. split; [constructor; auto; apply Forall_forall; auto|].
      split; [intros; simpl; reflexivity|]. intros [->|H]; [lia|]. apply Fd in H. lia.
    + destruct IH as (out & del' & E & S' & M & O). exists out, del'. split; auto. split; auto. split.
      * intros x Hx. rewrite M by auto. simpl. split; auto. intros [->|]; [lia|auto].
      * destruct out; auto; intros [->|]; auto; lia.
Qed.

(** The first row in [a, e) that is not free. *)
Fixpoint first_live (free : list nat) (n a : nat) : option nat :=
  match n with 0 => None | S n => if mem a free then first_live free n (S a) else Some a end.

Lemma cons_loop_ok free n : forall c fuel, cons_inv free c ->
  it_end (ci_rows c) - it_i (ci_rows c) = n -> n < fuel ->
  exists c', cons_loop pr imax fuel c = Ok (c', first_live free n (it_i (ci_rows c))) /\ cons_inv free c' /\
    it_end (ci_rows c') = it_end (ci_rows c) /\
    match first_live free n (it_i (ci_rows c)) with
    | Some x => it_i (ci_rows c') = S x /\ it_i (ci_rows c) <= x < it_end (ci_rows c)
    | None => it_i (ci_rows c') = Nat.max (it_i (ci_rows c)) (it_end (ci_rows c))
    end.
Proof.
  induction n as [|n IH]; intros c fuel I En Hf; destruct fuel as [|f]; try lia; cbn [cons_loop first_live].
  - rewrite it_next_none by lia. cbn. destruct I as (B & S & M).
    eexists. split; [reflexivity|]. split; [split; auto|]. cbn. split; auto. lia.
  - destruct I as (B & S & M). rewrite it_next_some by (auto; lia). cbn [bind fst snd].
    destruct (join_nat_spec (it_i (ci_rows c)) (ci_del c) S) as (out & del' & E & S' & M' & O).
    rewrite E. cbn [fst snd].
    set (c' := CI _ del').
    assert (I' : cons_inv free c').
    { unfold c'; split; [|split]; cbn; auto. intros x Hx. rewrite M' by lia. apply M. lia. }
    assert (Hm : In (it_i (ci_rows c)) free <-> In (it_i (ci_rows c)) (ci_del c)).
    { symmetry. apply M. lia. }
    destruct (mem (it_i (ci_rows c)) free) eqn:Em.
    + apply mem_In in Em. apply Hm in Em.
      destruct out; try contradiction.
      destruct (IH c' f I') as (c'' & E2 & I2 & En2 & R2); [cbn; lia|lia|].
      unfold c' in E2, En2, R2; cbn [ci_rows it_i it_end] in E2, En2, R2. exists c''. unfold c'. rewrite E2. split; auto. split; auto.
      split; auto. destruct (first_live free n (Datatypes.S (it_i (ci_rows c)))); lia.
    + assert (N : ~ In (it_i (ci_rows c)) (ci_del c)).
      { intro H. apply Hm in H. apply mem_In in H. congruence. }
      destruct out; try contradiction; (exists c'; split; [reflexivity|]; split; auto; split; auto; cbn; lia).
Qed.
Lemma cons_next_ok free c : cons_inv free c ->
  let n := it_end (ci_rows c) - it_i (ci_rows c) in
  exists c', cons_next pr imax c = Ok (c', first_live free n (it_i (ci_rows c))) /\ cons_inv free c' /\
    it_end (ci_rows c') = it_end (ci_rows c) /\
    match first_live free n (it_i (ci_rows c)) with
    | Some x => it_i (ci_rows c') = S x /\ it_i (ci_rows c) <= x < it_end (ci_rows c)
    | None => it_i (ci_rows c') = Nat.max (it_i (ci_rows c)) (it_end (ci_rows c))
    end.
Proof. intros I n. unfold cons_next. apply (cons_loop_ok free n c); auto. Qed.

Definition live_rows (free : list nat) (a e : nat) : list nat :=
  filter (fun i => negb (mem i free)) (seq a (e - a)).

Lemma first_live_filter free n : forall a,
  match first_live free n a with
  | Some x => filter (fun i => negb (mem i free)) (seq a n) = x :: filter (fun i => negb (mem i free)) (seq (S x) (a + n - S x))
  | None => filter (fun i => negb (mem i free)) (seq a n) = []
  end.
Proof.
  induction n as [|n IH]; intro a; simpl; auto.
  destruct (mem a free) eqn:E; simpl.
  - specialize (IH (S a)). destruct (first_live free n (S a)) as [x|]; auto.
    rewrite IH. replace (S a + n - S x) with (a + S n - S x) by lia. reflexivity.
  - replace (a + S n - S a) with n by lia. reflexivity.
Qed.

Lemma cons_collect_ok free fuel : forall c, cons_inv free c ->
  it_end (ci_rows c) - it_i (ci_rows c) < fuel ->
  cons_collect pr imax fuel c = Ok (live_rows free (it_i (ci_rows c)) (it_end (ci_rows c))).
Proof.
  induction fuel as [|f IH]; intros c I L; [lia|]. cbn [cons_collect].
  destruct (cons_next_ok free c I) as (c' & E & I' & En & R). rewrite E. cbn [bind fst snd].
  pose proof (first_live_filter free (it_end (ci_rows c) - it_i (ci_rows c)) (it_i (ci_rows c))) as F.
  unfold live_rows.
  destruct (first_live free _ _) as [x|].
  - destruct R as [R1 R2]. rewrite IH by (auto; lia). cbn [bind]. rewrite F. unfold live_rows.
    rewrite R1, En. repeat f_equal. lia.
  - rewrite F. reflexivity.
Qed.

Lemma cons_new_inv free r : StronglySorted lt free -> it_end r <= imax -> cons_inv free (cons_new r free).
Proof. intros S B. split; [|split]; auto. simpl. tauto. Qed.

(** Programs mixing [next] and [skip_fast]: the list of live rows not below the position. *)
Fixpoint cons_spec (free : list nat) (ops : list it_op) (a e : nat) : option (list (option nat)) :=
  match ops with
  | [] => Some []
  | ItNext :: os =>
      match live_rows free a e with
      | [] => option_map (cons None) (cons_spec free os (Nat.max a e) e)
      | x :: _ => option_map (cons (Some x)) (cons_spec free os (S x) e)
      end
  | ItSkip n :: os => if (a + n <=? imax) && (a + n <=? umax) then cons_spec free os (a + n) e else None
  end.
End Cons.

Lemma cons_skip_ok imax umax free c n : cons_inv imax free c ->
  match cons_skip_fast Debug imax umax c n with
  | Ok c' => it_i (ci_rows c) + n <= imax /\ it_i (ci_rows c) + n <= umax /\ cons_inv imax free c' /\
             it_i (ci_rows c') = it_i (ci_rows c) + n /\ it_end (ci_rows c') = it_end (ci_rows c)
  | Err e => (imax < it_i (ci_rows c) + n \/ umax < it_i (ci_rows c) + n) /\ exists p, e = EPanic p
  end.
Proof.
  intros (B & S & M). unfold cons_skip_fast, it_skip_fast, uadd.
  destruct (Nat.leb_spec (it_i (ci_rows c) + n) umax); simpl; [|unfold panic; eauto].
  unfold rid_from_usize. destruct (Nat.leb_spec (it_i (ci_rows c) + n) imax); simpl; [|unfold panic; eauto].
  split; [auto|]. split; [auto|]. split; [|split; reflexivity].
  split; [auto|]. split; [auto|]. cbn [ci_rows ci_del it_i]. intros x Hx. apply M. lia.
Qed.
Lemma cons_run_ok imax umax free ops : forall c, cons_inv imax free c ->
  match cons_spec imax umax free ops (it_i (ci_rows c)) (it_end (ci_rows c)) with
  | Some l => cons_run Debug imax umax ops c = Ok l
  | None => exists p, cons_run Debug imax umax ops c = Err (EPanic p)
  end.
Proof.
  induction ops as [|o os IH]; intros c I; simpl; auto.
  destruct o as [|n].
  - destruct (cons_next_ok Debug imax free c I) as (c' & E & I' & En & R). rewrite E. cbn [bind fst snd].
    pose proof (first_live_filter free (it_end (ci_rows c) - it_i (ci_rows c)) (it_i (ci_rows c))) as F.
    unfold live_rows. specialize (IH c' I'). rewrite En in IH.
    destruct (first_live free _ _) as [x|]; rewrite F.
    + destruct R as [R1 R2]. rewrite R1 in IH.
      destruct (cons_spec imax umax free os (S x) (it_end (ci_rows c))); simpl.
      * rewrite IH. reflexivity. * destruct IH as [p IH]. rewrite IH. simpl. eauto.
    + rewrite R in IH.
      destruct (cons_spec imax umax free os (Nat.max _ _) (it_end (ci_rows c))); simpl.
      * rewrite IH. reflexivity. * destruct IH as [p IH]. rewrite IH. simpl. eauto.
  - pose proof (cons_skip_ok imax umax free c n I) as S.
    destruct (cons_skip_fast Debug imax umax c n) as [c'|e]; simpl.
    + destruct S as (L1 & L2 & I' & Ei & En).
      destruct (Nat.leb_spec (it_i (ci_rows c) + n) imax); [|lia].
      destruct (Nat.leb_spec (it_i (ci_rows c) + n) umax); [|lia]. simpl.
      specialize (IH c' I'). rewrite Ei, En in IH. exact IH.
    + destruct S as (L & p & ->).
      destruct (Nat.leb_spec (it_i (ci_rows c) + n) imax); simpl; eauto.
      destruct (Nat.leb_spec (it_i (ci_rows c) + n) umax); simpl; eauto. lia.
Qed.

(** ** Statements used by the property files *)
Lemma checked_iter_exact pr imax umax len r :
  r_end r <= imax ->
  (r_start r <= r_end r -> ((exists it, ci_from len r = Ok it) <-> r_end r <= len)) /\
  forall it, ci_from len r = Ok it ->
    exists l, (forall fuel, r_end r - r_start r < fuel -> it_collect pr imax fuel it = Ok l) /\
      StronglySorted lt l /\ (forall i, In i l <-> rr_contains r i = true) /\
      (forall i, In i l -> i < len) /\
      (forall ops outs i, it_run pr imax umax ops it = Ok outs -> In (Some i) outs -> i < len).
Proof.
  intro B. split; [apply ci_from_iff|]. intros it E. destruct (ci_from_ok len r it E) as [-> L].
  exists (seq (r_start r) (r_end r - r_start r)). split; [intros f Hf; apply it_collect_ok; auto|].
  split; [apply seq_ss|]. split.
  - intro i. rewrite in_seq, rr_contains_iff. lia.
  - split.
    + intros i Hi. apply in_seq in Hi. lia.
    + intros ops outs i Er Hi. eapply it_run_bounded; eauto. exact L.
Qed.

Lemma join_run_length {A B} (step : A -> list B -> join_out B * list B) left : forall right,
  length (join_run step left right) = length left.
Proof. induction left; simpl; auto. Qed.

Lemma join_correct {K A B} (c : K -> K -> comparison) (ka : A -> K) (kb : B -> K) left right :
  total_preorder c -> ascending c (map ka left) -> ascending c (map kb right) ->
  let outs := join_run (join (fun a b => c (ka a) (kb b))) left right in
  length outs = length left /\
  forall n l o, nth_error left n = Some l -> nth_error outs n = Some o ->
  match o with
  | JMatch r => exists pre post, right = pre ++ r :: post /\ c (ka l) (kb r) = Eq /\
                                 (forall q, In q pre -> c (ka l) (kb q) = Gt)
  | JNext => forall r, In r right -> c (ka l) (kb r) <> Eq
  | JStop => forall m l' r, n <= m -> nth_error left m = Some l' -> In r right -> c (ka l') (kb r) = Gt
  end.
Proof.
  intros T SL SR outs. split; [apply join_run_length|].
  intros n l o Nl No. unfold outs in No. rewrite (join_run_ok c T ka kb) in No by auto.
  rewrite nth_error_map, Nl in No. simpl in No. inv No.
  pose proof (join_spec_sorted c T ka kb right l SR) as H.
  destruct (join_spec c ka kb right l); [tauto| |exact H].
  intros m l' r Hm Nm Hr. specialize (H r Hr).
  assert (Hle : c (ka l) (ka l') <> Gt).
  { clear - T SL Nl Nm Hm. unfold ascending in SL. revert n m Nl Nm Hm.
    induction left as [|a ls IH]; intros n m Nl Nm Hm; [destruct n; discriminate|].
    simpl in SL. inv SL. destruct n, m; simpl in *; try lia.
    - inv Nl. inv Nm. rewrite tp_refl by auto. discriminate.
    - inv Nl. rewrite Forall_forall in H2. apply H2. apply in_map. eapply nth_error_In; eauto.
    - eapply IH; eauto. lia. }
  exact (cab_gt_le c T ka kb l l' r Hle H).
Qed.

Lemma jn_outs_nth {K A B} (c : K -> K -> comparison) (ka : A -> K) (kb : B -> K) right left :
  forall P n l, nth_error left n = Some l ->
  nth_error (jn_outs c ka kb right P left) n = Some (jn_spec c ka kb right (P ++ firstn n left) l).
Proof.
  induction left as [|a ls IH]; intros P n l N; [destruct n; discriminate|].
  destruct n; simpl in *.
  - inv N. rewrite app_nil_r. reflexivity.
  - rewrite (IH _ _ _ N), <- app_assoc. reflexivity.
Qed.
Lemma join_next_correct {K A B} (c : K -> K -> comparison) (ka : A -> K) (kb : B -> K) left right :
  total_preorder c -> ascending c (map ka left) -> ascending c (map kb right) ->
  let outs := join_run (join_next (fun a b => c (ka a) (kb b))) left right in
  let eqb x y := match c x y with Eq => true | _ => false end in
  length outs = length left /\
  forall n l o, nth_error left n = Some l -> nth_error outs n = Some o ->
  (* the right items equal to l, and how many earlier left items were equal to l *)
  let partners := filter (fun r => eqb (ka l) (kb r)) right in
  let used := length (filter (fun a => eqb (ka l) (ka a)) (firstn n left)) in
  match o with
  | JMatch r => nth_error partners used = Some r
  | JNext => length partners <= used /\ exists r, In r right /\ c (ka l) (kb r) = Lt
  | JStop => length partners <= used /\ forall r, In r right -> c (ka l) (kb r) <> Lt
  end.
Proof.
  intros T SL SR outs eqb. split; [apply join_run_length|].
  intros n l o Nl No partners used. unfold outs in No. rewrite (jn_run_ok c T ka kb) in No by auto.
  rewrite (jn_outs_nth c ka kb right left [] n l Nl) in No. cbn [app] in No. inv No.
  unfold jn_spec. fold (eqb). change (is_eq c) with eqb. fold partners used.
  destruct (nth_error partners used) eqn:E; auto.
  apply nth_error_None in E. destruct (existsb _ right) eqn:X.
  - split; auto. apply existsb_exists in X. destruct X as (r & Hr & Hx). exists r. split; auto.
    unfold is_lt in Hx. destruct (c (ka l) (kb r)); congruence.
  - split; auto. intros r Hr Hlt. assert (existsb (fun r => is_lt c (ka l) (kb r)) right = true).
    { apply existsb_exists. exists r. split; auto. unfold is_lt. rewrite Hlt. auto. }
    congruence.
Qed.
