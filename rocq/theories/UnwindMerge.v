(** The rows a caught panic leaves: [merge]. *)
From Coq Require Import List Arith Bool Lia Sorted Permutation.
From Verif Require Import Base BaseFacts Order Column ColumnFacts RowRange RowRangeFacts Table Visit SortedTab BagTab TableSpec TableFacts
  VisitFacts SortedFacts BagFacts Hist HistFacts TableProps RowProps Unwind UnwindSpec UnwindFacts UnwindAgree UnwindRows.
Import ListNotations.
Local Open Scope nat_scope.

Section M.
Variable pr : profile.
Variable ucmp : row -> row -> option comparison.
Variable cmp : row -> row -> comparison.
Hypothesis Cm : forall a b x, ucmp a b = Some x -> cmp a b = x.
Context {A : Type}.
Variable log : A -> wlock -> nat -> option A.
Notation all_live := (fun _ : nat => true).

Lemma u_take_ok rug iter stop x : u_take ucmp rug iter stop = Ok x -> x = take cmp rug iter.
Proof.
  unfold u_take, take, choose. destruct rug as [|r rug], iter as [|i iter]; try (destruct stop; intro Q; inv Q; reflexivity).
  destruct (ucmp r i) as [y|] eqn:E; [|discriminate]. rewrite (Cm _ _ _ E). destruct y; intro Q; inv Q; reflexivity.
Qed.
Lemma u_take_err rug iter stop e : u_take ucmp rug iter stop = Err e -> e = EPanic PUser.
Proof.
  unfold u_take. destruct rug as [|r rug], iter as [|i iter]; try (destruct stop; intro Q; inv Q; reflexivity); try discriminate.
  destruct (ucmp r i) as [[]|]; intro Q; inv Q; reflexivity.
Qed.
Lemma u_skip_ok n : forall t first c, match u_merge_skip pr ucmp n t first c with
  | Ok x => merge_skip pr cmp n t first c = Ok x
  | Err e => e = EPanic PUser \/ merge_skip pr cmp n t first c = Err e end.
Proof.
  induction n as [|n IH]; intros t first c; cbn [u_merge_skip merge_skip]; destruct (c <? t_len t); cbn; auto.
  destruct (t_get_row t c) as [r|e]; cbn; auto. destruct (ucmp r first) as [y|] eqn:E; cbn; auto. rewrite (Cm _ _ _ E). destruct y; auto.
  destruct (rid_next pr (t_imax t) c) as [d|e]; cbn; auto. apply IH.
Qed.

Lemma u_shift_ok w0 n stop k : t_kind (w_tab w0) <> Consistent ->
  forall c s w rug iter cur, vok w0 w n cur -> c + k = n ->
  rug <> [] \/ k = 0 \/ iter <> [] /\ k <> 0 ->
  Forall (row_ty (s_cols (t_sch (w_tab w0)))) (rug ++ iter) ->
  let M := if (length rug =? 0) && negb (k =? 0)
           then match iter with y :: iter' => (true, y) :: m2 cmp (skipn c cur) iter' | [] => [] end
           else m2 cmp (rug ++ skipn c cur) iter in
  exists w' r, u_merge_shift no_panics ucmp log (seq c k) s w rug iter stop = (w', r) /\
    match r with
    | Ok (s', rug', iter') => exists cur', vok w0 w' n cur' /\ firstn c cur' = firstn c cur /\ skipn c cur' = map snd (firstn k M) /\
        m2 cmp rug' iter' = skipn k M /\ Forall (row_ty (s_cols (t_sch (w_tab w0)))) (rug' ++ iter')
    | Err e => e = EPanic PUser /\ exists j cur', j <= k /\ vok w0 w' n cur' /\ firstn c cur' = firstn c cur /\
        skipn c cur' = map snd (firstn j M) ++ skipn (c + j) cur
    end.
Proof.
  intro Nc. induction k as [|k IH]; intros c s w rug iter cur V Ec Hr T M.
  - cbn [seq u_merge_shift]. exists w, (Ok (s, rug, iter)). split; auto. exists cur.
    assert (EM : M = m2 cmp rug iter).
    { unfold M. rewrite andb_false_r. rewrite skipn_all2, app_nil_r; auto. destruct V as (_ & _ & ->). lia. }
    rewrite EM. split; auto. split; auto. split; [|split; auto].
    simpl. apply skipn_all2. destruct V as (_ & _ & ->). lia.
  - cbn [seq u_merge_shift].
    destruct (u_take ucmp rug iter stop) as [x|e] eqn:Ut.
    2:{ apply u_take_err in Ut. subst e. exists w, (panic PUser). split; auto. split; auto. exists 0, cur. split; [lia|]. split; auto. split; auto.
        rewrite Nat.add_0_r. reflexivity. }
    apply u_take_ok in Ut. subst x.
    destruct V as (F & K & Lc).
    assert (Nw : t_kind (w_tab w) <> Consistent) by (rewrite (frame_kind _ _ F); auto).
    destruct (nth_error_lt_Some cur c) as [x X]; [lia|].
    pose proof (take_spec cmp rug iter) as TS.
    destruct (take cmp rug iter) as [[[[sd v] rug1] iter1]|].
    2:{ destruct TS as [-> ->]. exfalso. destruct Hr as [|[|[]]]; congruence. }
    destruct TS as [TS1 TS2].
    assert (Tv : row_ty (s_cols (t_sch (w_tab w0))) v /\ Forall (row_ty (s_cols (t_sch (w_tab w0)))) (rug1 ++ iter1)).
    { destruct sd; simpl in TS2; destruct TS2; subst.
      - inv T. auto.
      - apply Forall_app in T. destruct T as [T1 T2]. inv T2. split; auto. apply Forall_app; auto. }
    destruct Tv as [Tv T1].
    destruct (swap_out_row_ok w _ _ K c v x) with (live' := fun _ : nat => true) as (cs & Q & H1); auto.
    { destruct F as (-> & _). auto. } { eapply t_not_deleted; eauto. }
    rewrite (swap_out_row_agr no_panics calm_boom _ _ _ _ Q). unfold thn. cbn [fst snd].
    set (w1 := with_tab w (with_cols (w_tab w) cs)) in *.
    assert (F1 : frame w0 w1) by (eapply frame_trans; [exact F|apply frame_cols]).
    assert (Tx : row_ty (s_cols (t_sch (w_tab w0))) x).
    { destruct F as (<- & _). pose proof (t_rows_ty _ _ _ K) as TT. rewrite Forall_forall in TT.
      apply TT. eapply nth_error_In; eauto. }
    assert (V1 : vok w0 w1 n (upd cur c v)) by (split; [exact F1|]; split; [exact H1|]; rewrite upd_length; auto).
    set (M1 := m2 cmp ((rug1 ++ [x]) ++ skipn (Datatypes.S c) (upd cur c v)) iter1) in *.
    assert (EM : M = (is_iter sd, v) :: M1).
    { unfold M1. rewrite skipn_upd_lt by lia. rewrite <- app_assoc, <- app_comm_cons, app_nil_l.
      assert (Es : skipn c cur = x :: skipn (Datatypes.S c) cur) by (apply skipn_nth_error; auto).
      rewrite <- Es. unfold M. change (Datatypes.S k =? 0) with false. rewrite andb_true_r.
      destruct rug as [|r rug].
      - simpl length. change (0 =? 0) with true. cbv iota.
        destruct iter as [|y iter]; [exfalso; destruct Hr as [|[|[]]]; congruence|].
        unfold take, choose in *. destruct sd; simpl in TS2; destruct TS2 as [Z1 Z2]; [discriminate|].
        inv Z2. reflexivity.
      - simpl length. change (Datatypes.S (length rug) =? 0) with false. cbv iota. apply TS1. left; discriminate. }
    assert (Bc : forall cur', firstn (Datatypes.S c) cur' = firstn (Datatypes.S c) (upd cur c v) ->
      firstn c cur' = firstn c cur /\ nth_error cur' c = Some v).
    { intros cur' A1. split.
      - assert (firstn c (firstn (Datatypes.S c) cur') = firstn c (firstn (Datatypes.S c) (upd cur c v))) as Z by congruence.
        rewrite !firstn_firstn, Nat.min_l in Z by lia. rewrite Z. apply upd_firstn_same; auto.
      - rewrite (nth_of_firstn _ _ _ c A1) by lia. apply nth_error_upd_eq. lia. }
    destruct (u_log log s sd w1 c) as [s1|e] eqn:El.
    + destruct (IH (Datatypes.S c) s1 w1 (rug1 ++ [x]) iter1 (upd cur c v)) as (w' & r & E & Rr); auto. { lia. }
      { left. intro Z. apply app_eq_nil in Z. destruct Z; discriminate. }
      { rewrite <- app_assoc. apply Forall_app in T1. destruct T1. apply Forall_app. split; auto. simpl. auto. }
      rewrite app_length in Rr. simpl length in Rr.
      replace (length rug1 + 1 =? 0) with false in * by (symmetry; apply Nat.eqb_neq; lia). cbn [andb] in Rr. fold M1 in Rr.
      exists w', r. split; [exact E|]. rewrite EM. cbn [firstn skipn]. destruct r as [[[s' rug'] iter']|e].
      * destruct Rr as (cur' & V' & A1 & A2 & A3 & A4). destruct (Bc cur' A1) as [B1 B2]. exists cur'. split; auto. split; auto. split; [|auto].
        rewrite (skipn_nth_error _ _ _ B2), A2. reflexivity.
      * destruct Rr as (-> & j & cur' & Lj & V' & A1 & A2). split; auto. destruct (Bc cur' A1) as [B1 B2].
        exists (Datatypes.S j), cur'. split; [lia|]. split; auto. split; auto.
        rewrite (skipn_nth_error _ _ _ B2), A2. cbn [firstn map snd]. rewrite <- app_comm_cons.
        replace (c + Datatypes.S j) with (Datatypes.S c + j) by lia. rewrite skipn_upd_lt by lia. reflexivity.
    + assert (e = EPanic PUser) as ->.
      { unfold u_log in El. destruct sd; [discriminate|]. destruct (log s w1 c); inv El. reflexivity. }
      exists w1, (panic PUser). split; auto. split; auto. destruct (Bc (upd cur c v) eq_refl) as [B1 B2].
      exists 1, (upd cur c v). split; [lia|]. split; auto. split; auto. rewrite EM. cbn [firstn map snd].
      rewrite (skipn_nth_error _ _ _ B2). replace (c + 1) with (Datatypes.S c) by lia. rewrite skipn_upd_lt by lia. reflexivity.
Qed.

Lemma u_tail_ok stop n : forall s w rug iter cur w' r,
  t_kind (w_tab w) <> Consistent -> t_ok (w_tab w) all_live cur ->
  Forall (row_ty (s_cols (t_sch (w_tab w)))) (rug ++ iter) ->
  u_merge_tail no_panics ucmp log n s w rug iter stop = (w', r) -> r = panic PUser ->
  exists j, frame w w' /\ t_ok (w_tab w') all_live (cur ++ map snd (firstn j (m2 cmp rug iter))).
Proof.
  induction n as [|n IH]; intros s w rug iter cur w' r Nc K T E Er; cbn [u_merge_tail] in E; [inv E; discriminate|].
  destruct (u_take ucmp rug iter stop) as [x|e] eqn:Ut.
  2:{ inv E. exists 0. split; [apply frame_refl|]. cbn. rewrite app_nil_r. auto. }
  apply u_take_ok in Ut. subst x. pose proof (take_spec cmp rug iter) as TS.
  destruct (take cmp rug iter) as [[[[sd v] rug1] iter1]|]; [|inv E; discriminate].
  destruct TS as [TS1 TS2]. specialize (TS1 [] (or_intror eq_refl)). rewrite !app_nil_r in TS1.
  assert (Tv : row_ty (s_cols (t_sch (w_tab w))) v /\ Forall (row_ty (s_cols (t_sch (w_tab w)))) (rug1 ++ iter1)).
  { destruct sd; simpl in TS2; destruct TS2; subst.
    - inv T. auto.
    - apply Forall_app in T. destruct T as [T1 T2]. inv T2. split; auto. apply Forall_app; auto. }
  destruct Tv as [Tv T1]. rewrite TS1.
  destruct (Nat.lt_ge_cases (t_imax (w_tab w)) (length cur)) as [L|L].
  - pose proof (push_end_err _ _ _ (push_end_full w _ cur v K Tv L)) as P. unfold thn in E.
    destruct (u_push_end no_panics w v) as [w1 r1]. cbn in P. subst r1. cbn in E. inv E. discriminate.
  - destruct (push_end_ok w _ cur v K Tv L all_live) as (cs & Ep & H); auto.
    rewrite (push_end_agr no_panics calm_boom _ _ _ Ep) in E. unfold thn in E. cbn [fst snd] in E.
    rewrite event_add_other in E by (simpl; auto). set (w1 := with_tab w (with_cols (w_tab w) cs)) in *.
    assert (F1 : frame w w1) by apply frame_cols. destruct (u_log log s sd w1 (length cur)) as [s1|e] eqn:El.
    + destruct (IH s1 w1 rug1 iter1 (cur ++ [v]) w' r Nc H T1 E Er) as (j & F' & K').
      exists (Datatypes.S j). split; [exact (frame_trans _ _ _ F1 F')|]. cbn [firstn map snd]. rewrite <- app_assoc in K'. exact K'.
    + inv E. exists 1. split; auto.
Qed.

Lemma u_merge_ok stop s w rows new w' :
  t_kind (w_tab w) <> Consistent -> t_ok (w_tab w) all_live rows -> length rows <= t_imax (w_tab w) ->
  Forall (row_ty (s_cols (t_sch (w_tab w)))) new ->
  u_merge pr no_panics ucmp log s w new stop = (w', panic PUser) ->
  exists c, frame w w' /\ t_ok (w_tab w') all_live (firstn c (merge_order cmp rows new) ++ skipn c rows).
Proof.
  intros Nc K Lm T E. destruct new as [|first rest].
  { unfold u_merge, stop_res in E. destruct stop; inv E. exists 0. split; [apply frame_refl|auto]. }
  unfold u_merge in E. rewrite (t_len_ok _ _ _ K) in E. pose proof (u_skip_ok (length rows) (w_tab w) first 0) as Us.
  rewrite (merge_skip_ok pr cmp _ _ _ first K Nc Lm) in Us by lia.
  destruct (u_merge_skip _ _ _ _ _ _) as [c0|e].
  2:{ cbn in E. inv E. exists 0. split; [apply frame_refl|auto]. }
  inv Us. cbn [bind] in E. cbn [skipn Nat.add] in E.
  set (p := is_lt cmp first) in *. set (c := length (take_while p rows)) in *.
  assert (Lc : c <= length rows) by apply take_while_le.
  unfold rid_from_usize in E. destruct (Nat.leb_spec (length rows) (t_imax (w_tab w))); [|lia]. cbn [bind] in E.
  rewrite it_collect_ok in E by (simpl; lia). unfold rr_iter_slow in E. cbn [it_i it_end r_start r_end] in E.
  set (k := length rows - c) in *. set (M := (true, first) :: m2 cmp (drop_while p rows) rest).
  destruct (u_shift_ok w (length rows) stop k Nc c s w [] (first :: rest) rows) as (w1 & r & Es & Rr); auto.
  { split; [apply frame_refl|split; auto]. } { lia. }
  { destruct k; auto. right. right. split; discriminate. }
  assert (EM : (if (length (@nil row) =? 0) && negb (k =? 0) then (true, first) :: m2 cmp (skipn c rows) rest else m2 cmp ([] ++ skipn c rows) (first :: rest)) = M).
  { unfold M. simpl length. change (0 =? 0) with true. rewrite andb_true_l. subst c. rewrite skipn_take.
    destruct (Nat.eqb_spec k 0) as [Z|Z]; simpl negb; cbv iota; auto.
    assert (drop_while p rows = []) as ->.
    { rewrite <- skipn_take. apply skipn_all2. unfold k in Z. lia. }
    simpl app. rewrite !m2_nil_l. reflexivity. }
  rewrite EM in Rr. clear EM. rewrite Es in E. unfold thn in E. cbn [fst snd] in E.
  assert (MO : merge_order cmp rows (first :: rest) = firstn c rows ++ map snd M).
  { unfold M, merge_order. cbn [map snd]. rewrite m2_snd. unfold c. rewrite firstn_take. reflexivity. }
  assert (LM : length M = length rows - c + Datatypes.S (length rest)).
  { unfold M. simpl. rewrite m2_length. rewrite <- skipn_take, skipn_length. fold c. lia. }
  assert (Lfc : length (firstn c rows) = c) by (rewrite firstn_length; lia).
  assert (Cut : forall j, firstn (c + j) (merge_order cmp rows (first :: rest)) = firstn c rows ++ map snd (firstn j M)).
  { intro j. rewrite MO, firstn_app, Lfc. rewrite firstn_all2 by (rewrite Lfc; lia). replace (c + j - c) with j by lia.
    rewrite firstn_map. reflexivity. }
  destruct r as [[[s' rug'] iter']|e].
  - destruct Rr as (cur' & (F1 & K1 & L1) & B1 & B2 & B3 & B4). cbn [fst snd] in E.
    destruct (u_tail_ok stop _ s' w1 rug' iter' cur' w' _ ltac:(rewrite (frame_kind _ _ F1); auto) K1 ltac:(destruct F1 as (-> & _); auto) E eq_refl) as (j & F2 & K2).
    exists (c + (k + j)). split; [exact (frame_trans _ _ _ F1 F2)|].
    rewrite Cut. rewrite skipn_all2 by (unfold k; lia). rewrite app_nil_r.
    rewrite <- (firstn_skipn c cur'), B1, B2, B3, <- app_assoc, <- map_app in K2.
    replace (firstn (k + j) M) with (firstn k M ++ firstn j (skipn k M)); auto.
    rewrite <- (firstn_skipn k M) at 3. rewrite firstn_app, firstn_firstn, Nat.min_r by lia. f_equal.
    f_equal. rewrite firstn_length, LM. unfold k. lia.
  - destruct Rr as (-> & j & cur' & Lj & (F1 & K1 & L1) & B1 & B2). inv E. exists (c + j). split; auto.
    rewrite Cut, <- app_assoc, <- B2, <- B1, firstn_skipn. exact K1.
Qed.
End M.

(** ** The order survives *)
Section O.
Context {A : Type}.
Variable cmp : A -> A -> comparison.
Lemma stable_later l : forall r j y, nth_error l j = Some y -> exists p, j <= p /\ nth_error (stable_merge cmp l r) p = Some y.
Proof.
  induction l as [|x l IH]; intros r j y E; [destruct j; discriminate|].
  induction r as [|z r IHr]; [exists j; split; auto|].
  change (stable_merge cmp (x :: l) (z :: r)) with
    (match cmp x z with Gt => z :: stable_merge cmp (x :: l) r | _ => x :: stable_merge cmp l (z :: r) end).
  assert (D : exists p, j <= p /\ nth_error (x :: stable_merge cmp l (z :: r)) p = Some y).
  { destruct j as [|j]; [exists 0; auto|]. cbn in E. destruct (IH (z :: r) j y E) as (p & L & P). exists (S p). split; [lia|auto]. }
  destruct (cmp x z); auto. destruct IHr as (p & L & P). exists (S p). split; [lia|auto].
Qed.
Lemma take_drop' (p : A -> bool) l : take_while p l ++ drop_while p l = l.
Proof. induction l as [|x l IH]; simpl; auto. destruct (p x); simpl; congruence. Qed.
Lemma order_later rows new j y : nth_error rows j = Some y -> exists p, j <= p /\ nth_error (merge_order cmp rows new) p = Some y.
Proof.
  destruct new as [|first rest]; cbn; [intro; exists j; auto|]. set (p := is_lt cmp first). intro E.
  rewrite <- (take_drop' p rows) in E. destruct (Nat.lt_ge_cases j (length (take_while p rows))) as [L|L].
  - exists j. split; auto. rewrite nth_error_app1 in * by auto. auto.
  - rewrite nth_error_app2 in E by auto. destruct (stable_later _ rest _ _ E) as (q & Lq & Q).
    exists (length (take_while p rows) + S q). split; [lia|]. rewrite nth_error_app2 by lia.
    replace (length (take_while p rows) + S q - length (take_while p rows)) with (S q) by lia. auto.
Qed.
Lemma sorted_nth (P : A -> A -> Prop) l : StronglySorted P l <-> forall i j x y, i < j -> nth_error l i = Some x -> nth_error l j = Some y -> P x y.
Proof.
  split.
  - induction 1 as [|a l S IH F]; intros i j x y L X Y; [destruct i; discriminate|].
    destruct j as [|j]; [lia|]. destruct i as [|i]; cbn in *.
    + inv X. rewrite Forall_forall in F. apply F. eapply nth_error_In; eauto.
    + apply (IH i j); auto. lia.
  - induction l as [|a l IH]; intro H; [constructor|]. constructor.
    + apply IH. intros i j x y L X Y. apply (H (S i) (S j)); auto. lia.
    + apply Forall_forall. intros y Y. apply In_nth_error in Y. destruct Y as [j Y]. apply (H 0 (S j)); auto. lia.
Qed.
Lemma cut_asc rows new c : ascending cmp rows -> ascending cmp (merge_order cmp rows new) ->
  ascending cmp (firstn c (merge_order cmp rows new) ++ skipn c rows).
Proof.
  intros Hr Hm. set (M := merge_order cmp rows new) in *. unfold ascending in *. rewrite sorted_nth in *.
  intros i j x y L X Y. destruct (Nat.lt_ge_cases i (length (firstn c M))) as [Li|Li].
  - rewrite nth_error_app1, nth_error_firstn in X by auto. rewrite firstn_length in Li. destruct (Nat.ltb_spec i c); [|lia].
    destruct (Nat.lt_ge_cases j (length (firstn c M))) as [Lj|Lj].
    + rewrite nth_error_app1, nth_error_firstn in Y by auto. rewrite firstn_length in Lj. destruct (Nat.ltb_spec j c); [|lia]. exact (Hm i j _ _ L X Y).
    + rewrite nth_error_app2, nth_error_skipn in Y by auto. destruct (order_later rows new _ _ Y) as (q & Lq & Q). fold M in Q. refine (Hm i q _ _ _ X Q). lia.
  - rewrite nth_error_app2, nth_error_skipn in X, Y by lia. eapply Hr; [|exact X|exact Y]. lia.
Qed.
End O.

Lemma merge_interrupted pr umax sch w its A (ucmp : row -> row -> option comparison) (cmp : row -> row -> comparison)
  (log : A -> wlock -> nat -> option A) s rows new stop w' :
  reachable pr umax sch (Locked w its) -> s_kind sch = Sorted -> holds (w_tab w) rows -> length rows <= s_imax sch ->
  (forall a b x, ucmp a b = Some x -> cmp a b = x) ->
  Forall (row_ty (s_cols sch)) new ->
  u_merge pr no_panics ucmp log s w new stop = (w', panic PUser) ->
  exists c, holds (w_tab w') (firstn c (merge_order cmp rows new) ++ skipn c rows) /\ finds_right (w_tab w') /\
    (total_preorder cmp -> ascending cmp rows -> ascending cmp new -> ascending cmp (firstn c (merge_order cmp rows new) ++ skipn c rows)).
Proof.
  intros R Ks H L Cm T E. destruct (merge_base _ _ _ _ _ _ R Ks H) as (Es & Nk & K).
  assert (Ei : t_imax (w_tab w) = s_imax sch) by (unfold t_imax; congruence).
  destruct (u_merge_ok pr ucmp cmp Cm log stop s w rows new w' Nk K) as (c & F & K'); auto; try (rewrite ?Ei, ?Es; auto; fail).
  assert (Nk' : t_kind (w_tab w') <> Consistent) by (rewrite (frame_kind _ _ F); auto).
  exists c. split; [eapply holds_of; eauto|]. split; [eapply finds_of; eauto|].
  intros P Ar An. apply cut_asc; auto. apply merge_order_asc; auto.
Qed.
