(** [retain], [visit] and [merge] on a table that uses all row ids. *)
From Coq Require Import List Arith Bool Lia.
From Verif Require Import Base BaseFacts Column ColumnFacts RowRange RowRangeFacts Table TableFacts Visit VisitFacts SortedTab TableSpec Hist Answers PlainSpec.
Import ListNotations.

Definition ends_iter (rug : list rug_item) : Prop := exists X l, rug = X ++ [RIter l].
Definition ends_row (rug : list rug_item) : Prop := exists X r, rug = X ++ [RRow r].
Lemma pull_iter rug r rug' : ends_iter rug -> pull_rug rug = Some (r, rug') -> ends_iter rug'.
Proof.
  intros (X & l & ->). revert r rug'. induction X as [|[x|[|x xs]] X IH]; intros r rug'; cbn [app pull_rug].
  - destruct l as [|y l]; [discriminate|]. intros [= <- <-]. exists [], l. reflexivity.
  - intros [= <- <-]. exists X, l. reflexivity.
  - apply IH.
  - intros [= <- <-]. exists (RIter xs :: X), l. reflexivity.
Qed.
Lemma pull_row rug r rug' : ends_row rug -> pull_rug rug = Some (r, rug') -> rug' = [] \/ ends_row rug'.
Proof.
  intros (X & x0 & ->). revert r rug'. induction X as [|[x|[|x xs]] X IH]; intros r rug'; cbn [app pull_rug].
  - intros [= <- <-]. auto.
  - intros [= <- <-]. right. exists X, x0. reflexivity.
  - apply IH.
  - intros [= <- <-]. right. exists (RIter xs :: X), x0. reflexivity.
Qed.
Lemma fill_iter pr m : forall w rug front back w' rug' front', fill_rug pr m w rug front back = Ok (w', rug', front') -> ends_iter rug ->
  ends_iter rug' \/ rug' = [] /\ front' < back.
Proof.
  induction m as [|m IH]; intros w rug front back w' rug' front' H E; cbn [fill_rug] in H.
  - inv H. auto.
  - destruct (Nat.ltb_spec front back); [|inv H; auto]. destruct (pull_rug rug) as [[r rug1]|] eqn:P.
    + bindn H p Hp. bindn H j Hj. eapply IH; eauto. eapply pull_iter; eauto.
    + inv H. auto.
Qed.
Lemma fill_row pr m : forall w rug front back w' rug' front', fill_rug pr m w rug front back = Ok (w', rug', front') ->
  rug = [] \/ ends_row rug -> rug' = [] \/ ends_row rug'.
Proof.
  induction m as [|m IH]; intros w rug front back w' rug' front' H E; cbn [fill_rug] in H.
  - inv H. auto.
  - destruct (Nat.ltb_spec front back); [|inv H; auto]. destruct (pull_rug rug) as [[r rug1]|] eqn:P.
    + bindn H p Hp. bindn H j Hj. eapply IH; eauto. destruct E as [->|E]; [discriminate|]. eapply pull_row; eauto.
    + inv H. auto.
Qed.
Lemma rows_ends_row rug : ends_row rug -> rug_rows rug <> [].
Proof. intros (X & r & ->). rewrite rug_rows_app. destruct (rug_rows X); discriminate. Qed.

Section F.
Variable pr : profile.
Notation all_live := (fun _ : nat => true).

(** As [fill_rug_ok], but the table may be full. *)
Lemma fill_rug_ok' m : forall w0 w rug front back n cur,
  t_kind (w_tab w0) <> Consistent -> back <= t_imax (w_tab w0) ->
  vok w0 w n cur -> front <= back -> back <= n -> back - front = m ->
  Forall (row_ty (s_cols (t_sch (w_tab w0)))) (rug_rows rug) ->
  exists w' rug' front' cur', fill_rug pr m w rug front back = Ok (w', rug', front') /\
    vok w0 w' n cur' /\ skipn back cur' = skipn back cur /\
    firstn front' cur' ++ rug_rows rug' = firstn front cur ++ rug_rows rug /\
    front <= front' <= back /\ (front' = back \/ rug' = []) /\
    Forall (row_ty (s_cols (t_sch (w_tab w0)))) (rug_rows rug').
Proof.
  induction m as [|m IH]; intros w0 w rug front back n cur Nc Ln V L1 L2 Em T; cbn [fill_rug].
  - exists w, rug, front, cur. repeat split; auto; try apply V; try lia.
  - destruct (Nat.ltb_spec front back); [|lia].
    pose proof (pull_rug_spec rug) as P. destruct (pull_rug rug) as [[r rug1]|].
    + destruct V as (F & K & Lc). rewrite P in T. inv T.
      assert (Nw : t_kind (w_tab w) <> Consistent) by (rewrite (frame_kind _ _ F); auto).
      destruct (nth_error_lt_Some cur front) as [old X]; [lia|].
      destruct (swap_out_row_ok w _ _ K front r old) with (live' := fun _ : nat => true) as (cs & Q & H1); auto.
      { destruct F as (-> & _). auto. } { eapply t_not_deleted; eauto. }
      rewrite Q. cbn [bind fst snd]. unfold rid_next. rewrite (frame_imax _ _ F).
      destruct (Nat.ltb_spec front (t_imax (w_tab w0))); [|lia]. cbn [bind].
      destruct (IH w0 (with_tab w (with_cols (w_tab w) cs)) rug1 (S front) back (length cur) (upd cur front r))
        as (w' & rug' & front' & cur' & E & V' & S' & R' & B' & O' & T'); auto; try lia.
      { split; [eapply frame_trans; [exact F|apply frame_cols]|]. split; [exact H1|]. rewrite upd_length; auto. }
      exists w', rug', front', cur'. split; auto. split; auto. split; [|split; [|repeat split; auto; lia]].
      * rewrite S', skipn_upd_lt; auto.
      * rewrite R', P, firstn_S_upd by lia. rewrite <- app_assoc. reflexivity.
    + exists w, [], front, cur. split; auto. split; auto. split; auto. rewrite P. simpl. rewrite !app_nil_r.
      repeat split; auto.
Qed.

(** ** [visit] *)
Section G.
Context {A : Type}.
Variables (g : A -> row -> A * action) (w0 : wlock) (rows : list row).
Notation imax := (t_imax (w_tab w0)).
Notation ty := (row_ty (s_cols (t_sch (w_tab w0)))).
Notation F := (fun s w i => g s (shown w i)).
Hypothesis Nc : t_kind (w_tab w0) <> Consistent.
Hypothesis Full : length rows = S imax.
Hypothesis Tg : forall s r s' rm add, g s r = (s', Continue rm add) -> Forall ty add.

Lemma next_full i : i < imax -> rid_next pr imax i = Ok (S i).
Proof. intro L. unfold rid_next. destruct (Nat.ltb_spec i imax); [reflexivity|lia]. Qed.

(** What a turn has at hand. *)
Lemma turn w back cur : vok w0 w (length rows) cur -> skipn back cur = skipn back rows -> back <= imax ->
  exists r, skipn back rows = r :: skipn (S back) rows /\ t_get_row (w_tab w) back = Ok r /\ shown w back = r /\ ty r /\
    t_len (w_tab w) = length rows /\ t_imax (w_tab w) = imax /\ skipn (S back) cur = skipn (S back) rows /\ nth_error cur back = Some r.
Proof.
  intros (Fr & K & Lc) Sk Lb.
  assert (Nw : t_kind (w_tab w) <> Consistent) by (rewrite (frame_kind _ _ Fr); auto).
  destruct (nth_error_lt_Some rows back) as [r Er]; [lia|]. exists r.
  assert (Ec : nth_error cur back = Some r).
  { rewrite <- (Nat.add_0_r back), <- nth_error_skipn, Sk, nth_error_skipn, Nat.add_0_r. auto. }
  assert (Eg : t_get_row (w_tab w) back = Ok r) by (eapply t_get_row_ok; eauto; eapply t_not_deleted; eauto).
  assert (Sks : skipn back rows = r :: skipn (S back) rows) by (apply skipn_nth_error; auto).
  split; [exact Sks|]. split; [exact Eg|]. split; [unfold shown; rewrite Eg; reflexivity|]. split.
  { destruct Fr as (<- & _). pose proof (t_rows_ty _ _ _ K) as TT. rewrite Forall_forall in TT. apply TT. eapply nth_error_In; eauto. }
  split; [rewrite (t_len_ok _ _ _ K); exact Lc|]. split; [apply frame_imax; exact Fr|]. split; [|exact Ec].
  apply skipn_nth_error in Ec. rewrite Ec, Sks in Sk. congruence.
Qed.

(** Once stopped, with more or fewer rows than there is room for, the loop runs into the last id. *)
Lemma stopped_full fuel : forall s w rug front back cur,
  vok w0 w (length rows) cur -> skipn back cur = skipn back rows -> front <= back -> back <= imax -> length rows - back <= fuel ->
  (front = back \/ rug = []) -> front + length (rug_rows rug) <> back -> Forall ty (rug_rows rug) -> pr = Debug ->
  exists c, rug_loop pr F fuel s w rug front back true = panic c.
Proof.
  induction fuel as [|fuel IH]; intros s w rug front back cur V Sk L1 L2 Lf Fr Ne T D; [lia|].
  cbn [rug_loop]. destruct (turn w back cur V Sk L2) as (r & Sks & Eg & _ & Tr & El & Ei & SkS & _).
  rewrite El. destruct (Nat.ltb_spec back (length rows)) as [_|?]; [|lia]. cbn [fst snd].
  assert (Eb : (front =? back) && match rug with [] => true | _ => false end = false).
  { destruct (Nat.eqb_spec front back); [|reflexivity]. destruct rug; [|reflexivity]. cbn in Ne. lia. }
  rewrite Eb, Eg. cbn [bind]. rewrite Ei. destruct (Nat.lt_ge_cases back imax) as [L|L].
  - rewrite next_full by exact L. cbn [bind].
    destruct (fill_rug_ok' (S back - front) w0 w (rug ++ [RRow r]) front (S back) (length rows) cur)
      as (w' & rug' & front' & cur' & E & V' & S' & R' & B' & O' & T'); auto; try lia.
    { rewrite rug_rows_app. apply Forall_app. split; auto. cbn. auto. }
    rewrite E. cbn [bind fst snd]. apply (IH s w' rug' front' (S back) cur'); auto; try lia; [congruence|].
    apply (f_equal (@length row)) in R'. rewrite rug_rows_app, !app_length, !firstn_length in R'. cbn [rug_rows length] in R'.
    destruct V as (_ & _ & Lc). destruct V' as (_ & _ & Lc'). lia.
  - unfold rid_next. destruct (Nat.ltb_spec back imax); [lia|]. rewrite D. eexists. reflexivity.
Qed.

Lemma visit_full fuel : forall s w rug front back cur,
  vok w0 w (length rows) cur -> skipn back cur = skipn back rows -> front <= back -> back <= imax -> length rows - back <= fuel ->
  (front = back \/ rug = []) -> (back = 0 /\ rug = [] \/ 0 < back /\ ~ (front = back /\ rug = [])) -> Forall ty (rug_rows rug) ->
  match broke g s (skipn back rows) back (front + length (rug_rows rug)) with
  | Some (i, n) =>
      if (n =? i) && ((i =? 0) || (i <? imax)) then
        exists s' w', rug_loop pr F fuel s w rug front back false = Ok (s', w', None) /\ frame w0 w' /\
    t_ok (w_tab w') all_live (firstn front cur ++ rug_rows rug ++ visited_rows g s (skipn back rows))
      else pr = Debug -> exists c, rug_loop pr F fuel s w rug front back false = panic c
  | None => pr = Debug -> exists c, rug_loop pr F fuel s w rug front back false = panic c
  end.
Proof.
  induction fuel as [|fuel IH]; intros s w rug front back cur V Sk L1 L2 Lf Fr B0 T; [lia|].
  cbn [rug_loop]. destruct (turn w back cur V Sk L2) as (r & Sks & Eg & Es & Tr & El & Ei & SkS & Ec).
  rewrite El. destruct (Nat.ltb_spec back (length rows)) as [_|?]; [|lia]. rewrite Es, Sks. cbn [broke visited_rows].
  destruct (g s r) as [s1 [rm add|]] eqn:Gs; cbn [fst snd].
  - (* Continue *)
    rewrite Eg. cbn [bind]. rewrite Ei.
    set (rug1 := (if rm then rug else rug ++ [RRow r]) ++ [RIter add]).
    assert (R1 : rug_rows rug1 = rug_rows rug ++ (if rm then [] else [r]) ++ add).
    { unfold rug1. rewrite rug_rows_app. destruct rm; simpl; rewrite app_nil_r; auto. rewrite rug_rows_app, <- app_assoc. reflexivity. }
    destruct (Nat.lt_ge_cases back imax) as [L|L].
    + rewrite next_full by exact L. cbn [bind].
      destruct (fill_rug_ok' (S back - front) w0 w rug1 front (S back) (length rows) cur)
        as (w' & rug' & front' & cur' & E & V' & S' & R' & B' & O' & T'); auto; try lia.
      { rewrite R1, !Forall_app. split; auto. split; [destruct rm; auto|]. eapply Tg; eauto. }
      rewrite E. cbn [bind fst snd].
      assert (X := IH s1 w' rug' front' (S back) cur').
      assert (Ln : front' + length (rug_rows rug') = front + length (rug_rows rug) + (if rm then 0 else 1) + length add).
      { apply (f_equal (@length row)) in R'. rewrite R1, !app_length, !firstn_length in R'.
        destruct V as (_ & _ & Lc). destruct V' as (_ & _ & Lc'). destruct rm; cbn [length] in R'; lia. }
      rewrite Ln in X.
      assert (Rw : firstn front' cur' ++ rug_rows rug' ++ visited_rows g s1 (skipn (S back) rows) =
        firstn front cur ++ rug_rows rug ++ (if rm then [] else [r]) ++ add ++ visited_rows g s1 (skipn (S back) rows)).
      { rewrite app_assoc, R', R1, <- !app_assoc. reflexivity. }
      rewrite Rw in X. apply X; auto; try lia; [congruence|]. right. split; [lia|]. intros [-> ->].
      destruct (fill_iter pr _ _ _ _ _ _ _ _ E) as [(Y & l & Q)|[_ Q]]; [|destruct Y; discriminate|lia].
      unfold rug1. eexists _, _. reflexivity.
    + assert (N0 : skipn (S back) rows = []) by (apply skipn_all2; lia). rewrite N0. cbn [broke]. intro D.
      unfold rid_next. destruct (Nat.ltb_spec back imax); [lia|]. rewrite D. eexists. reflexivity.
  - (* Break *)
    destruct ((front =? back) && match rug with [] => true | _ => false end) eqn:Eb.
    + apply andb_prop in Eb. destruct Eb as [E1 E2]. apply Nat.eqb_eq in E1. destruct rug; [|discriminate]. subst front.
      destruct B0 as [[-> _]|[_ B0]]; [|elim B0; auto]. cbn [rug_rows length Nat.add Nat.eqb andb orb].
      exists s1, w. split; [reflexivity|]. split; [apply V|]. cbn [firstn app rug_rows]. cbn [skipn] in *.
      destruct V as (_ & K & _). rewrite Sk, Sks in K. exact K.
    + destruct B0 as [[-> ->]|[B0 B1]]. { assert (front = 0) as -> by lia. discriminate Eb. }
      destruct (Nat.eqb_spec back 0) as [?|_]; [lia|]. cbn [orb].
      rewrite Eg. cbn [bind]. rewrite Ei. destruct (Nat.ltb_spec back imax) as [L|L].
      * rewrite andb_true_r, next_full by exact L. cbn [bind].
        destruct (fill_rug_ok' (S back - front) w0 w (rug ++ [RRow r]) front (S back) (length rows) cur)
          as (w' & rug' & front' & cur' & E & V' & S' & R' & B' & O' & T'); auto; try lia.
        { rewrite rug_rows_app. apply Forall_app. split; auto. cbn. auto. }
        rewrite E. cbn [bind fst snd].
        assert (Ln : front' + length (rug_rows rug') = S (front + length (rug_rows rug))).
        { apply (f_equal (@length row)) in R'. rewrite rug_rows_app, !app_length, !firstn_length in R'. cbn [rug_rows length] in R'.
          destruct V as (_ & _ & Lc). destruct V' as (_ & _ & Lc'). lia. }
        destruct (Nat.eqb_spec (front + length (rug_rows rug)) back) as [En|En].
        -- assert (Er : rug' = [] /\ front' = S back).
           { destruct (fill_row pr _ _ _ _ _ _ _ _ E) as [->|Q]; [right; eexists _, _; reflexivity|cbn [rug_rows length] in Ln; split; [reflexivity|lia]|].
             exfalso. apply rows_ends_row in Q. destruct O' as [->| ->]; [|apply Q; reflexivity].
             destruct (rug_rows rug'); [apply Q; reflexivity|cbn [length] in Ln; lia]. }
           destruct Er as [-> ->]. destruct fuel as [|fuel]; [lia|]. cbn [rug_loop].
           destruct (turn w' (S back) cur') as (r2 & Sks2 & _ & _ & _ & El2 & _ & _ & _); auto; [congruence|].
           rewrite El2. destruct (Nat.ltb_spec (S back) (length rows)) as [_|?]; [|lia]. cbn [fst snd]. rewrite Nat.eqb_refl. cbn [andb].
           exists s1, w'. split; [reflexivity|]. split; [apply V'|]. destruct V' as (_ & K' & _).
           cbn [rug_rows] in R'. rewrite app_nil_r in R'. rewrite rug_rows_app in R'. cbn [rug_rows] in R'.
           replace (firstn front cur ++ rug_rows rug ++ r :: skipn (S back) rows) with cur'; [exact K'|].
           rewrite <- (firstn_skipn (S back) cur') at 1. rewrite R', S', SkS, <- !app_assoc. reflexivity.
        -- intro D. apply (stopped_full fuel s1 w' rug' front' (S back) cur'); auto; try lia. congruence.
      * rewrite andb_false_r. intro D. unfold rid_next. destruct (Nat.ltb_spec back imax); [lia|]. rewrite D. eexists. reflexivity.
Qed.
Lemma merge0_full s : t_ok (w_tab w0) all_live rows ->
  if stops_early (t_sch (w_tab w0)) g s rows then exists s' w', merge0 pr F s w0 = Ok (s', w') /\ frame w0 w' /\ t_ok (w_tab w') all_live (visited_rows g s rows)
  else pr = Debug -> exists c, merge0 pr F s w0 = panic c.
Proof.
  intro K. unfold stops_early, merge0. change (s_imax (t_sch (w_tab w0))) with imax. rewrite (t_len_ok _ _ _ K).
  assert (X := visit_full (length rows) s w0 [] 0 0 rows). cbn [skipn firstn rug_rows app length Nat.add] in X.
  assert (Y : vok w0 w0 (length rows) rows) by (split; [apply frame_refl|split; auto]).
  specialize (X Y eq_refl (le_n _) (Nat.le_0_l _)). rewrite Nat.sub_0_r in X. specialize (X (le_n _) (or_introl eq_refl) (or_introl (conj eq_refl eq_refl)) (Forall_nil _)).
  destruct (broke g s rows 0 0) as [[i n]|].
  - destruct ((n =? i) && ((i =? 0) || (i <? imax))).
    + destruct X as (s' & w' & E & Fr & K'). rewrite E. exists s', w'. auto.
    + intro D. destruct (X D) as [c E]. rewrite E. exists c. reflexivity.
  - intro D. destruct (X D) as [c E]. rewrite E. exists c. reflexivity.
Qed.
End G.
End F.

(** ** For ever *)
Section E.
Variables (w0 : wlock).
Notation imax := (t_imax (w_tab w0)).
Notation ty := (row_ty (s_cols (t_sch (w_tab w0)))).
Hypothesis Nc : t_kind (w_tab w0) <> Consistent.
Definition still (w : wlock) : Prop := exists cur, vok w0 w (S imax) cur.

Lemma next_wraps i : i <= imax -> exists j, rid_next Release imax i = Ok j /\ j <= imax.
Proof. intro L. unfold rid_next. destruct (Nat.ltb_spec i imax); eexists; split; try reflexivity; lia. Qed.
Lemma fill_wraps m : forall w rug front back, still w -> front <= imax -> Forall ty (rug_rows rug) ->
  exists w' rug' front', fill_rug Release m w rug front back = Ok (w', rug', front') /\ still w' /\ front' <= imax /\ Forall ty (rug_rows rug').
Proof.
  induction m as [|m IH]; intros w rug front back V L T; cbn [fill_rug].
  - exists w, rug, front. auto.
  - destruct (front <? back); [|exists w, rug, front; auto].
    pose proof (pull_rug_spec rug) as P. destruct (pull_rug rug) as [[r rug1]|].
    + destruct V as (cur & Fr & K & Lc). rewrite P in T. inv T.
      assert (Nw : t_kind (w_tab w) <> Consistent) by (rewrite (frame_kind _ _ Fr); auto).
      destruct (nth_error_lt_Some cur front) as [old X]; [lia|].
      destruct (swap_out_row_ok w _ _ K front r old) with (live' := fun _ : nat => true) as (cs & Q & K1); auto.
      { destruct Fr as (-> & _). auto. } { eapply t_not_deleted; eauto. }
      rewrite Q. cbn [bind fst snd]. rewrite (frame_imax _ _ Fr). destruct (next_wraps front L) as (j & Ej & Lj). rewrite Ej. cbn [bind].
      apply IH; auto. exists (upd cur front r). split; [eapply frame_trans; [exact Fr|apply frame_cols]|]. split; [exact K1|]. rewrite upd_length; auto.
    + exists w, [], front. repeat split; auto. constructor.
Qed.
Lemma goes_on {A} (f : A -> wlock -> nat -> A * action) :
  (forall s w i, exists rm add, snd (f s w i) = Continue rm add /\ Forall ty add) ->
  forall fuel s w rug front back, still w -> front <= imax -> back <= imax -> Forall ty (rug_rows rug) ->
  rug_loop Release f fuel s w rug front back false = Err EFuel.
Proof.
  intro Hf. induction fuel as [|fuel IH]; intros s w rug front back V L1 L2 T; cbn [rug_loop].
  - destruct V as (cur & _ & K & Lc). rewrite (t_len_ok _ _ _ K), Lc. destruct (Nat.ltb_spec back (S imax)); [reflexivity|lia].
  - pose proof V as (cur & Fr & K & Lc). rewrite (t_len_ok _ _ _ K), Lc. destruct (Nat.ltb_spec back (S imax)); [|lia].
    destruct (Hf s w back) as (rm & add & E & Ta). rewrite E.
    assert (Nw : t_kind (w_tab w) <> Consistent) by (rewrite (frame_kind _ _ Fr); auto).
    destruct (nth_error_lt_Some cur back) as [r Er]; [lia|].
    rewrite (t_get_row_ok _ _ _ K back r Er) by (eapply t_not_deleted; eauto). cbn [bind]. rewrite (frame_imax _ _ Fr).
    destruct (next_wraps back L2) as (j & Ej & Lj). rewrite Ej. cbn [bind].
    destruct (fill_wraps (j - front) w ((if rm then rug else rug ++ [RRow r]) ++ [RIter add]) front j V L1) as (w' & rug' & front' & E' & V' & L' & T').
    { assert (Tr : ty r).
      { destruct Fr as (<- & _). pose proof (t_rows_ty _ _ _ K) as TT. rewrite Forall_forall in TT. apply TT. eapply nth_error_In; eauto. }
      rewrite rug_rows_app. apply Forall_app. split; [|cbn; rewrite app_nil_r; auto].
      destruct rm; auto. rewrite rug_rows_app. apply Forall_app. split; auto. cbn. auto. }
    rewrite E'. cbn [bind fst snd]. apply IH; auto.
Qed.
End E.

Lemma skip_goes_on cmp t rows first : t_kind t <> Consistent -> t_ok t (fun _ => true) rows -> length rows = S (t_imax t) ->
  (forall r, In r rows -> cmp r first = Lt) -> forall n cursor, cursor <= t_imax t -> merge_skip Release cmp n t first cursor = Err EFuel.
Proof.
  intros N K Lr H. induction n as [|n IH]; intros cursor Lc; cbn [merge_skip]; rewrite (t_len_ok _ _ _ K), Lr.
  - destruct (Nat.ltb_spec cursor (S (t_imax t))); [reflexivity|lia].
  - destruct (Nat.ltb_spec cursor (S (t_imax t))); [|lia]. destruct (nth_error_lt_Some rows cursor) as [r Er]; [lia|].
    rewrite (t_get_row_ok _ _ _ K cursor r Er) by (eapply t_not_deleted; eauto). cbn [bind]. rewrite (H r) by (eapply nth_error_In; eauto).
    unfold rid_next. destruct (Nat.ltb_spec cursor (t_imax t)); cbn [bind]; apply IH; lia.
Qed.
(** Otherwise [merge] on a full table panics. *)
Lemma skip_panics pr cmp t rows first : t_kind t <> Consistent -> t_ok t (fun _ => true) rows -> length rows = S (t_imax t) ->
  pr = Debug \/ (exists r, In r rows /\ cmp r first <> Lt) ->
  forall n cursor, cursor <= t_imax t -> length rows - cursor <= n -> pr = Debug \/ (exists r, In r (skipn cursor rows) /\ cmp r first <> Lt) ->
  (exists c, merge_skip pr cmp n t first cursor = Ok c) \/ exists c, merge_skip pr cmp n t first cursor = panic c.
Proof.
  intros N K Lr H0. induction n as [|n IH]; intros cursor Lc Ln H; [lia|]. cbn [merge_skip]. rewrite (t_len_ok _ _ _ K), Lr.
  destruct (Nat.ltb_spec cursor (S (t_imax t))); [|lia]. destruct (nth_error_lt_Some rows cursor) as [r Er]; [lia|].
  rewrite (t_get_row_ok _ _ _ K cursor r Er) by (eapply t_not_deleted; eauto). cbn [bind].
  destruct (cmp r first) eqn:Er1; try (left; eexists; reflexivity).
  unfold rid_next. destruct (Nat.ltb_spec cursor (t_imax t)) as [L|L]; cbn [bind].
  - apply IH; try lia. destruct H as [H|(x & Hx & Hc)]; [left; exact H|right]. rewrite (skipn_nth_error _ _ _ Er) in Hx.
    destruct Hx as [<-|Hx]; [congruence|]. exists x. auto.
  - destruct H as [->|(x & Hx & Hc)]; [right; eexists; reflexivity|]. rewrite (skipn_nth_error _ _ _ Er) in Hx.
    rewrite skipn_all2 in Hx by lia. destruct Hx as [<-|[]]. congruence.
Qed.
Lemma merge_full pr {A} cmp (log : A -> wlock -> nat -> A) s w rows first rest : t_kind (w_tab w) <> Consistent ->
  t_ok (w_tab w) (fun _ => true) rows -> length rows = S (t_imax (w_tab w)) ->
  pr = Debug \/ (exists r, In r rows /\ cmp r first <> Lt) -> exists c, merge_logged pr cmp log s w (first :: rest) = panic c.
Proof.
  intros N K Lr H. unfold merge_logged.
  destruct (skip_panics pr cmp (w_tab w) rows first N K Lr H (t_len (w_tab w)) 0) as [[c E]|[c E]]; auto; try lia.
  - rewrite (t_len_ok _ _ _ K). lia.
  - rewrite E. cbn [bind]. unfold rid_from_usize. rewrite (t_len_ok _ _ _ K). destruct (Nat.leb_spec (length rows) (t_imax (w_tab w))); [lia|].
    eexists. reflexivity.
  - rewrite E. exists c. reflexivity.
Qed.
