(** Proofs: when exactly a call has undefined behaviour. *)
From Coq Require Import List Arith Bool Lia Permutation Sorted.
From Verif Require Import Base BaseFacts Column ColumnFacts RowRange Table Visit SortedTab BagTab TableSpec TableFacts Hist HistFacts UndefSpec.
Import ListNotations.

Lemma bind_EUB {A B} (x : res A) (f : A -> res B) : bind x f = Err EUB <-> x = Err EUB \/ exists a, x = Ok a /\ f a = Err EUB.
Proof.
  destruct x as [a|e]; cbn; split.
  - intro H. right. eauto.
  - intros [H|(a' & H & H')]; [discriminate|]. inv H. exact H'.
  - intro H. left. congruence.
  - intros [H|(a0 & H & _)]; congruence.
Qed.
Lemma assert_EUB b c : assert_ b c <> Err EUB.
Proof. unfold assert_. destruct b; discriminate. Qed.
Lemma sorted_firstn_lt n l : StronglySorted le l ->
  (n < length l /\ forall k, k <= n -> nth k l n < n) <-> n < length (filter (fun i => i <? n) l).
Proof.
  intro So.
  assert (K : forall m, (m < length l /\ forall k, k <= m -> nth k l n < n) <-> m < length (filter (fun i => i <? n) l)).
  { induction So as [|x l So IH F]; intro m; [cbn; lia|]. cbn [filter length].
    destruct (Nat.ltb_spec x n) as [L|L].
    - destruct m as [|m]; [cbn [length]; split; [lia|]; intros _; split; [lia|]; intros k Hk; replace k with 0 by lia; exact L|].
      cbn [length]. specialize (IH m). split.
      + intros [H1 H2]. enough (m < length (filter (fun i => i <? n) l)) by lia. apply IH. split; [lia|]. intros k Hk. apply (H2 (S k)). lia.
      + intro H. destruct (proj2 IH) as [H1 H2]; [lia|]. split; [lia|]. intros [|k] Hk; [exact L|]. apply H2. lia.
    - split.
      + intros [H1 H2]. specialize (H2 0 (Nat.le_0_l _)). cbn in H2. lia.
      + intro H. exfalso. assert (E : filter (fun i => i <? n) l = []).
        { clear - F L. induction F as [|y l Hy F IH]; [reflexivity|]. cbn. destruct (Nat.ltb_spec y n); [lia|exact IH]. }
        rewrite E in H. cbn in H. lia. }
  exact (K n).
Qed.
Lemma filter_perm {A} (f : A -> bool) l l' : Permutation l l' -> length (filter f l) = length (filter f l').
Proof. intro P. induction P; cbn; repeat match goal with |- context [if ?b then _ else _] => destruct b end; cbn; congruence. Qed.
Lemma overdrawn_sort srt n l : overdrawn srt n l <-> overdrawn false n (if srt then sort_ids l else l).
Proof.
  destruct srt; [|reflexivity]. unfold overdrawn. rewrite (sorted_firstn_lt n _ (sort_ids_sorted l)).
  rewrite (filter_perm _ _ _ (sort_ids_perm l)). reflexivity.
Qed.

Section UD.
Variables (umax : nat) (s : schema).
Hypothesis Kb : s_kind s = Bag.
Lemma delete_raw_empty w i : w_good s w -> t_len (w_tab w) = 0 -> i < umax ->
  (delete_raw Release umax w i = Err EUB <-> unguarded s) /\ forall w', delete_raw Release umax w i <> Ok w'.
Proof.
  intros (E & live & rows & K) L Hi. rewrite (t_len_ok _ _ _ K) in L. destruct rows; [|discriminate].
  assert (Kt : t_kind (w_tab w) = Bag) by (unfold t_kind; rewrite E; exact Kb).
  unfold delete_raw. rewrite Kt, (t_len_ok _ _ _ K). cbn [length usub]. unfold usub. change (1 <=? 0) with false. cbn [bind].
  set (j := S umax + 0 - 1). assert (Hj : (i <? j) = true) by (apply Nat.ltb_lt; unfold j; lia). rewrite Hj.
  pose proof (ok_ncols _ _ _ K) as N. pose proof (ok_cols _ _ _ K) as C. rewrite E in N, C.
  unfold unguarded. destruct (s_cols s) as [|ct cts]; [congruence|]. destruct (t_cols (w_tab w)) as [|c l]; [destruct C|].
  cbn [cols_ok] in C. destruct C as (_ & W & D & _). cbn [map] in D.
  cbn [map_res]. clearbody j.
  assert (Sw : (c_swap (t_imax (w_tab w)) c i j = Err EUB <-> ct_base ct = TVec) /\ forall c', c_swap (t_imax (w_tab w)) c i j <> Ok c').
  { split; [|intros c' Q; eapply c_swap_empty; [|exact Q]; rewrite c_len_data, D; reflexivity].
    pose proof (c_wf_base _ _ _ _ W) as Wb. unfold c_data in D.
    destruct (ct_base ct), c as [b|b ix]; cbn [c_base] in *; destruct b as [v|bb]; try contradiction; cbn in D; subst; cbn [c_swap b_swap b_index].
    - replace (nth_error (@nil val) i) with (@None val) by (destruct i; reflexivity). cbn. tauto.
    - replace (nth_error (@nil val) i) with (@None val) by (destruct i; reflexivity). cbn. tauto.
    - split; [|discriminate]. rewrite !bind_EUB. intros [[H|(a & _ & H)]|(a & _ & H)]; try discriminate H.
      unfold bc_swap in H. destruct (nth_error (bc_data (bc_flush bb)) i), (nth_error (bc_data (bc_flush bb)) j); discriminate H.
    - split; [|discriminate]. unfold bc_index, native, bc_swap, panic.
      repeat match goal with
             | |- context [match ?x with _ => _ end] => destruct x; cbn
             | |- context [if ?b then _ else _] => destruct b; cbn
             end; discriminate. }
  destruct Sw as [Sw1 Sw2]. split.
  - rewrite bind_EUB, bind_EUB. split.
    + intros [[H|(a & H & _)]|(a & H & _)].
      * exists ct, cts. split; [reflexivity|]. apply Sw1. exact H.
      * exfalso. exact (Sw2 _ H).
      * exfalso. apply bind_Ok in H. destruct H as (b & H & _). exact (Sw2 _ H).
    + intros (c0 & cs0 & H & V). inv H. left. left. apply Sw1. exact V.
  - intros w' H. apply bind_Ok in H. destruct H as (a & H & _). apply bind_Ok in H. destruct H as (b & H & _). exact (Sw2 _ H).
Qed.
Definition one (n : nat) (w : wlock) (i : nat) : res wlock := let* _ := assert_ (i <? n) PRemoveRange in delete_raw Release umax w i.
Lemma fold_undefined n : n <= umax -> forall l w, w_good s w -> t_len (w_tab w) <= n ->
  (fold_res (one n) l w = Err EUB <->
   unguarded s /\ t_len (w_tab w) < length l /\ forall k, k <= t_len (w_tab w) -> nth k l n < n).
Proof.
  intros Hn l. induction l as [|i l IH]; intros w G L; [cbn; split; [discriminate|lia]|].
  cbn [fold_res]. unfold one at 1. unfold assert_. destruct (Nat.ltb_spec i n) as [Hi|Hi]; cbn [bind].
  - destruct (t_len (w_tab w)) as [|m] eqn:Lw.
    + destruct (delete_raw_empty w i G Lw) as [D1 D2]; [lia|]. rewrite bind_EUB. split.
      * intros [H|(a & H & _)]; [|exfalso; exact (D2 _ H)]. split; [apply D1; exact H|]. split; [cbn; lia|].
        intros k Hk. replace k with 0 by lia. exact Hi.
      * intros (U & _). left. apply D1. exact U.
    + pose proof G as (E & live & rows & K).
      assert (Kt : t_kind (w_tab w) = Bag) by (unfold t_kind; rewrite E; exact Kb).
      assert (Nr : rows <> []). { intros ->. rewrite (t_len_ok _ _ _ K) in Lw. discriminate. }
      destruct (delete_raw_bag_ok Release umax w live rows i K Kt Nr) as (cs & Q & K').
      rewrite Q. cbn [bind]. set (w1 := with_tab w _) in *.
      assert (G1 : w_good s w1) by (split; [exact E|]; exists (fun _ => true), (swap_remove rows i); exact K').
      assert (L1 : t_len (w_tab w1) = m).
      { change (w_tab w1) with (with_cols (w_tab w) cs). rewrite (t_len_ok _ _ _ K'). rewrite (t_len_ok _ _ _ K) in Lw. unfold swap_remove. rewrite firstn_length. destruct (i <? _); rewrite ?list_swap_length; lia. }
      rewrite IH by (auto; lia). rewrite L1. cbn [length]. split.
      * intros (U & H1 & H2). split; [exact U|]. split; [lia|]. intros [|k] Hk; [exact Hi|]. apply H2. lia.
      * intros (U & H1 & H2). split; [exact U|]. split; [lia|]. intros k Hk. apply (H2 (S k)). lia.
  - split; [discriminate|]. intros (_ & _ & H). specialize (H 0 (Nat.le_0_l _)). cbn in H. lia.
Qed.
End UD.

Lemma flush_undefined umax s w ev l : s_kind s = Bag -> w_good s w -> t_len (w_tab w) <= umax ->
  (flush_apply Release umax w ev (SThese l) = Err EUB <->
   ev_removal ev = true /\ unguarded s /\ overdrawn false (t_len (w_tab w)) l).
Proof.
  intros Kb G L. unfold flush_apply. destruct (ev_removal ev); cbn [andb]; [|split; [discriminate|intros (H & _); discriminate]].
  destruct l as [|i l]; cbn [sel_empty negb].
  - split; [discriminate|]. intros (_ & _ & H). cbn in H. lia.
  - change (fold_res _ (i :: l) w) with (fold_res (one umax (t_len (w_tab w))) (i :: l) w).
    rewrite (fold_undefined umax s Kb (t_len (w_tab w)) L (i :: l) w G (le_n _)). unfold overdrawn. tauto.
Qed.
Lemma flush_check_Ok p d ev : flush_check p d ev = Ok tt <->
  (p = false \/ d = false) /\ (ev_removal ev = false \/ ev_creation ev = false) /\ ev_id ev < max_event_types.
Proof.
  unfold flush_check, assert_. rewrite <- Nat.ltb_lt.
  destruct p, d, (ev_removal ev), (ev_creation ev), (_ <? _); cbn; unfold panic; intuition discriminate.
Qed.
Lemma flush_check_EUB p d ev : flush_check p d ev <> Err EUB.
Proof. unfold flush_check, assert_. destruct (negb _), (_ <? _); discriminate. Qed.

Definition undef (s : schema) (w : wlock) (srt : bool) (ev : event) : Prop :=
  unguarded s /\ exists l, deletes w ev l /\ overdrawn srt (t_len (w_tab w)) l.
Section FL.
Variables (umax : nat) (s : schema) (w : wlock) (srt : bool) (ev : event).
Hypothesis Kb : s_kind s = Bag.
Hypothesis G : w_good s w.
Hypothesis L : t_len (w_tab w) <= umax.
Lemma apply_undefined ch p d : sel_empty (w_changes w) = false ->
  (flush_check (w_pushed w) (w_delete w) ev = Ok tt /\
   flush_apply Release umax (W (w_tab w) ch p d) ev (if srt then sel_sort (w_changes w) else w_changes w) = Err EUB) <-> undef s w srt ev.
Proof.
  intro E. unfold undef, deletes. rewrite flush_check_Ok. destruct (w_changes w) as [|l] eqn:C.
  - replace (if srt then sel_sort SAll else SAll) with SAll by (destruct srt; reflexivity). unfold flush_apply. split.
    + intros [_ H]. destruct (_ && _); discriminate H.
    + intros (_ & l & (_ & _ & _ & _ & H) & _). discriminate H.
  - replace (if srt then sel_sort (SThese l) else SThese l) with (SThese (if srt then sort_ids l else l)) by (destruct srt; reflexivity).
    rewrite (flush_undefined umax s (W (w_tab w) ch p d) ev _ Kb G L). cbn [w_tab]. rewrite <- overdrawn_sort. split.
    + intros ((P & Q & I) & R & U & O). split; [exact U|]. exists l. split; [|exact O]. split; [exact R|].
      split; [destruct Q; congruence|]. auto.
    + intros (U & l' & (R & Q & I & P & H) & O). inv H. auto 10.
Qed.
Lemma w_flush_undefined : w_flush Release umax srt w ev = Err EUB <-> undef s w srt ev.
Proof.
  unfold w_flush. destruct (sel_empty (w_changes w)) eqn:E.
  - split.
    + unfold w_drop. destruct (_ && _); discriminate.
    + intros (_ & l & (_ & _ & _ & _ & H) & O). rewrite H in E. destruct l; [|discriminate]. destruct srt; cbn in O; lia.
  - rewrite <- (apply_undefined (SThese []) false false E). unfold w_new. rewrite !bind_EUB. split.
    + intros [H|([] & H & H1)]; [destruct (flush_check_EUB _ _ _ H)|]. split; [exact H|]. rewrite !bind_EUB in H1.
      destruct H1 as [H1|(w' & _ & H1)]; [exact H1|]. rewrite bind_EUB in H1. destruct H1 as [H1|(x & _ & H1)]; [destruct (assert_EUB _ _ H1)|].
      unfold w_drop in H1. destruct (_ && _); discriminate H1.
    + intros [H H1]. right. exists tt. split; [exact H|]. rewrite bind_EUB. left. exact H1.
Qed.
Lemma w_live_flush_undefined : w_live_flush Release umax srt w ev = Err EUB <-> undef s w srt ev.
Proof.
  unfold w_live_flush. destruct (sel_empty (w_changes w)) eqn:E.
  - split; [discriminate|].
    intros (_ & l & (_ & _ & _ & _ & H) & O). rewrite H in E. destruct l; [|discriminate]. destruct srt; cbn in O; lia.
  - rewrite <- (apply_undefined (SThese []) (w_pushed w) (w_delete w) E). rewrite !bind_EUB. split.
    + intros [H|([] & H & H1)]; [destruct (flush_check_EUB _ _ _ H)|]. split; [exact H|]. rewrite !bind_EUB in H1.
      destruct H1 as [H1|(w' & _ & H1)]; [exact H1|]. rewrite bind_EUB in H1. destruct H1 as [H1|(x & _ & H1)]; [destruct (assert_EUB _ _ H1)|].
      discriminate H1.
    + intros [H H1]. right. exists tt. split; [exact H|]. rewrite bind_EUB. left. exact H1.
Qed.
End FL.

Theorem undefined_exactly pr umax sch st o : reachable pr umax sch st -> op_ty (s_cols sch) o -> t_len (st_tab st) <= umax ->
  (step pr umax st o = Err EUB <->
   pr = Release /\ s_kind sch = Bag /\ unguarded sch /\
   exists w its srt ev l, st = Locked w its /\ (o = OFlush srt ev /\ its = [] \/ o = OLiveFlush srt ev) /\
     deletes w ev l /\ overdrawn srt (t_len (w_tab w)) l).
Proof.
  intros R T L. pose proof (reachable_tg _ _ _ _ R) as G.
  assert (D : (pr = Release /\ s_kind sch = Bag /\ removal_flush o = true) \/ (pr = Release -> s_kind sch = Bag -> removal_flush o = false)).
  { destruct pr; [right; discriminate|]. destruct (removal_flush o); [|right; auto].
    destruct (s_kind sch); try (right; intros; discriminate). left. auto. }
  destruct D as [(-> & Kb & F)|D].
  2: { split.
    - intro H. pose proof (good_step pr umax false sch st o G T D) as X. rewrite H in X. exfalso. apply X. discriminate.
    - intros (P & K & _ & w & its & srt & ev & l & _ & O & (Re & _) & _). specialize (D P K).
      destruct O as [[-> _]| ->]; cbn in D; congruence. }
  unfold step. rewrite (tg_kind _ _ _ G), Kb.
  destruct o; try discriminate F; cbn [avail]; destruct st as [t|w its].
  - split; [discriminate|]. intros (_ & _ & _ & w & its & s1 & e1 & l & H & _). discriminate.
  - pose proof (w_flush_undefined umax sch w srt ev Kb (tg_good _ _ _ G) L) as X. destruct its as [|b its].
    + rewrite bind_EUB, X. split.
      * intros [(U & l & H1 & H2)|(a & _ & H)]; [|discriminate]. split; [reflexivity|]. split; [reflexivity|]. split; [exact U|].
        exists w, [], srt, ev, l. auto 10.
      * intros (_ & _ & U & w1 & its1 & s1 & e1 & l & H & O & H1 & H2). inv H. destruct O as [[O _]|O]; [|discriminate]. inv O.
        left. split; [exact U|]. eauto.
    + split; [discriminate|]. intros (_ & _ & _ & w1 & its1 & s1 & e1 & l & H & O & _). inv H. destruct O as [[_ O]|O]; discriminate.
  - split; [discriminate|]. intros (_ & _ & _ & w & its & s1 & e1 & l & H & _). discriminate.
  - pose proof (w_live_flush_undefined umax sch w srt ev Kb (tg_good _ _ _ G) L) as X.
    assert (Y : (let* p := write_op Release umax w its (OLiveFlush srt ev) in Ok (Locked (fst p) (snd p))) = Err EUB <->
      Release = Release /\ Bag = Bag /\ unguarded sch /\ exists w1 its1 s1 e1 l, Locked w its = Locked w1 its1 /\
       (OLiveFlush srt ev = OFlush s1 e1 /\ its1 = [] \/ OLiveFlush srt ev = OLiveFlush s1 e1) /\ deletes w1 e1 l /\ overdrawn s1 (t_len (w_tab w1)) l).
    { cbn [write_op]. rewrite !bind_EUB, X. split.
      - intros [[(U & l & H1 & H2)|(a & _ & H)]|(a & _ & H)]; try discriminate. split; [reflexivity|]. split; [reflexivity|]. split; [exact U|].
        exists w, its, srt, ev, l. auto 10.
      - intros (_ & _ & U & w1 & its1 & s1 & e1 & l & H & O & H1 & H2). inv H. destruct O as [[O _]|O]; [discriminate|]. inv O.
        left. left. split; [exact U|]. eauto. }
    destruct its; exact Y.
Qed.
Lemma run_undefined pr umax sch ops : s_cols sch <> [] -> Forall (op_ty (s_cols sch)) ops -> run pr umax (Free (t_new sch)) ops = Err EUB ->
  exists before o after st, ops = before ++ o :: after /\ run pr umax (Free (t_new sch)) before = Ok st /\ reachable pr umax sch st /\
    op_ty (s_cols sch) o /\ step pr umax st o = Err EUB.
Proof.
  intros N T R.
  assert (G : forall ops st, run pr umax st ops = Err EUB ->
    exists before o after st', ops = before ++ o :: after /\ run pr umax st before = Ok st' /\ step pr umax st' o = Err EUB).
  { clear. induction ops as [|o ops IH]; intros st H; [discriminate|]. unfold run in H. cbn [fold_res] in H. apply bind_EUB in H.
    destruct H as [H|(st1 & E & H)]; [exists [], o, ops, st; auto|]. destruct (IH _ H) as (b & o' & a & st' & -> & R & S1).
    exists (o :: b), o', a, st'. split; [reflexivity|]. split; [|exact S1]. unfold run. cbn [fold_res]. rewrite E. exact R. }
  destruct (G _ _ R) as (b & o & a & st & -> & R1 & S1). apply Forall_app in T. destruct T as [T1 T2]. inv T2.
  exists b, o, a, st. split; [reflexivity|]. split; [exact R1|]. split; [split; [exact N|]; exists b; auto|]. auto.
Qed.
