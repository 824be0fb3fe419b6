From Coq Require Import List Arith Bool Lia Sorting.Sorted Sorting.Permutation.
From Verif Require Import Base BaseFacts Column ColumnFacts RowRange RowRangeFacts Table TableFacts Visit TableSpec.
Import ListNotations.

(** Everything of the lock but the columns. *)
Definition frame (w w' : wlock) : Prop :=
  t_sch (w_tab w') = t_sch (w_tab w) /\ w_changes w' = w_changes w /\
  w_pushed w' = w_pushed w /\ w_delete w' = w_delete w.
Lemma frame_refl w : frame w w.
Proof. repeat split. Qed.
Lemma frame_trans a b c : frame a b -> frame b c -> frame a c.
Proof. intros (A1 & A2 & A3 & A4) (B1 & B2 & B3 & B4). repeat split; congruence. Qed.
Lemma frame_cols w cs : frame w (with_tab w (with_cols (w_tab w) cs)).
Proof. repeat split. Qed.
Lemma frame_kind w w' : frame w w' -> t_kind (w_tab w') = t_kind (w_tab w).
Proof. intros (A & _). unfold t_kind. congruence. Qed.
Lemma frame_imax w w' : frame w w' -> t_imax (w_tab w') = t_imax (w_tab w).
Proof. intros (A & _). unfold t_imax. congruence. Qed.

Lemma visit_spec_nil rows : visit_spec rows [] = rows.
Proof. destruct rows; reflexivity. Qed.
Lemma pull_rug_spec rug : match pull_rug rug with
  | Some (r, rug') => rug_rows rug = r :: rug_rows rug'
  | None => rug_rows rug = [] end.
Proof.
  induction rug as [|[r|[|x l]] rug IH]; simpl; auto.
Qed.
Lemma rug_rows_app a b : rug_rows (a ++ b) = rug_rows a ++ rug_rows b.
Proof. induction a as [|[r|l] a IH]; simpl; auto; rewrite IH; auto. rewrite app_assoc; auto. Qed.

Lemma t_not_deleted t live rows i : t_ok t live rows -> t_kind t <> Consistent -> t_is_deleted t i = false.
Proof. intros K N. rewrite (t_deleted_iff _ _ _ K), (ok_free_kind _ _ _ K N). reflexivity. Qed.

Lemma skipn_upd_lt {A} (l : list A) i x n : i < n -> skipn n (upd l i x) = skipn n l.
Proof.
  intro H. apply list_ext. intro j. rewrite !nth_error_skipn, nth_error_upd_ne; auto. lia.
Qed.
Lemma firstn_S_upd {A} (l : list A) i x : i < length l -> firstn (S i) (upd l i x) = firstn i l ++ [x].
Proof.
  intro H. rewrite (firstn_S_nth _ i x) by (apply nth_error_upd_eq; auto). f_equal.
  apply list_ext. intro j. rewrite !nth_error_firstn. destruct (Nat.ltb_spec j i); auto.
  rewrite nth_error_upd_ne; auto. lia.
Qed.

Section V.
Variable pr : profile.
Variable imax : nat.
Variable ts : list ctype.
Notation all_live := (fun _ : nat => true).

Definition vok (w0 w : wlock) (n : nat) (cur : list row) : Prop :=
  frame w0 w /\ t_ok (w_tab w) all_live cur /\ length cur = n.

Lemma fill_rug_ok m : forall w0 w rug front back n cur,
  t_kind (w_tab w0) <> Consistent -> n <= t_imax (w_tab w0) ->
  vok w0 w n cur -> front <= back -> back <= n -> back - front = m ->
  Forall (row_ty (s_cols (t_sch (w_tab w0)))) (rug_rows rug) ->
  exists w' rug' front' cur', fill_rug pr m w rug front back = Ok (w', rug', front') /\
    vok w0 w' n cur' /\ skipn back cur' = skipn back cur /\
    firstn front' cur' ++ rug_rows rug' = firstn front cur ++ rug_rows rug /\
    front <= front' <= back /\ (front' = back \/ rug' = []) /\
    Forall (row_ty (s_cols (t_sch (w_tab w0)))) (rug_rows rug').
Proof.
  induction m as [|m IH]; intros w0 w rug front back n cur Nc Ln V L1 L2 Em T; cbn [fill_rug].
  - exists w, rug, front, cur. repeat split; auto; try apply V; try lia.
  - destruct (Nat.ltb_spec front back); [|lia].
    pose proof (pull_rug_spec rug) as P. destruct (pull_rug rug) as [[r rug1]|].
    + destruct V as (F & K & Lc). rewrite P in T. inv T.
      assert (Nw : t_kind (w_tab w) <> Consistent) by (rewrite (frame_kind _ _ F); auto).
      destruct (nth_error_lt_Some cur front) as [old X]; [lia|].
      destruct (swap_out_row_ok w _ _ K front r old) with (live' := fun _ : nat => true) as (cs & Q & H1); auto.
      { destruct F as (-> & _). auto. } { eapply t_not_deleted; eauto. }
      rewrite Q. cbn [bind fst snd]. unfold rid_next. rewrite (frame_imax _ _ F).
      destruct (Nat.ltb_spec front (t_imax (w_tab w0))); [|lia]. cbn [bind].
      destruct (IH w0 (with_tab w (with_cols (w_tab w) cs)) rug1 (S front) back (length cur) (upd cur front r))
        as (w' & rug' & front' & cur' & E & V' & S' & R' & B' & O' & T'); auto; try lia.
      { split; [eapply frame_trans; [exact F|apply frame_cols]|]. split; [exact H1|]. rewrite upd_length; auto. }
      exists w', rug', front', cur'. split; auto. split; auto. split; [|split; [|repeat split; auto; lia]].
      * rewrite S', skipn_upd_lt; auto.
      * rewrite R', P, firstn_S_upd by lia. rewrite <- app_assoc. reflexivity.
    + exists w, [], front, cur. split; auto. split; auto. split; auto. rewrite P. simpl. rewrite !app_nil_r.
      repeat split; auto.
Qed.

Context {S : Type}.
Variable f : S -> wlock -> nat -> S * action.

(** [tr] lists the calls made from closure state [s] to [s']. *)
Fixpoint calls (s : S) (tr : list (nat * wlock * action)) (s' : S) : Prop :=
  match tr with
  | [] => s' = s
  | (i, w, a) :: tr => exists s1, f s w i = (s1, a) /\ calls s1 tr s'
  end.

Definition tr_act (c : nat * wlock * action) : action := snd c.

Definition seen_ok (w0 : wlock) (rows : list row) (back k : nat) (c : nat * wlock * action) : Prop :=
  fst (fst c) = back + k /\ exists cur, vok w0 (snd (fst c)) (length rows) cur /\
    skipn (back + k) cur = skipn (back + k) rows.

Lemma rug_loop_ok w0 rows :
  t_kind (w_tab w0) <> Consistent -> length rows <= t_imax (w_tab w0) ->
  (forall s w i s' rm add, f s w i = (s', Continue rm add) -> Forall (row_ty (s_cols (t_sch (w_tab w0)))) add) ->
  forall fuel s w rug front back stopped cur,
  vok w0 w (length rows) cur -> skipn back cur = skipn back rows ->
  front <= back -> back <= length rows -> length rows - back <= fuel -> (front = back \/ rug = []) ->
  Forall (row_ty (s_cols (t_sch (w_tab w0)))) (rug_rows rug) ->
  exists s' w' o tr, rug_loop pr f fuel s w rug front back stopped = Ok (s', w', o) /\
    calls s tr s' /\
    (forall k c, nth_error tr k = Some c -> seen_ok w0 rows back k c) /\
    (if stopped then tr = [] else acts_complete (length rows - back) (map tr_act tr)) /\
    frame w0 w' /\
    let out := firstn front cur ++ rug_rows rug ++ visit_spec (skipn back rows) (map tr_act tr) in
    match o with
    | None => t_ok (w_tab w') all_live out
    | Some (rug', front') => exists cur', vok w0 w' (length rows) cur' /\ front' <= length rows /\
        Forall (row_ty (s_cols (t_sch (w_tab w0)))) (rug_rows rug') /\
        firstn front' cur' ++ rug_rows rug' = out
    end.
Proof.
  intros Nc Ln Tf. induction fuel as [|fuel IH]; intros s w rug front back stopped cur V Sk L1 L2 Lf Fr T.
  - assert (back = length rows) by lia. subst back. cbn [rug_loop].
    rewrite (t_len_ok _ _ _ (proj1 (proj2 V))), (proj2 (proj2 V)).
    destruct (Nat.ltb_spec (length rows) (length rows)); [lia|].
    exists s, w, (Some (rug, front)), []. split; auto. split; [simpl; auto|].
    split; [intros [|k] c E; discriminate|]. split; [rewrite Nat.sub_diag; destruct stopped; simpl; auto|].
    split; [apply V|]. exists cur. split; auto. split; [lia|]. split; auto.
    rewrite skipn_all. simpl. rewrite app_nil_r. reflexivity.
  - cbn [rug_loop]. rewrite (t_len_ok _ _ _ (proj1 (proj2 V))), (proj2 (proj2 V)).
    destruct (Nat.ltb_spec back (length rows)) as [Hb|Hb].
    2:{ assert (back = length rows) by lia. subst back. exists s, w, (Some (rug, front)), []. split; auto. split; [simpl; auto|].
        split; [intros [|k] c E; discriminate|]. split; [rewrite Nat.sub_diag; destruct stopped; simpl; auto|].
        split; [apply V|]. exists cur. split; auto. split; [lia|]. split; auto.
        rewrite skipn_all. simpl. rewrite app_nil_r. reflexivity. }
    destruct V as (F & K & Lc).
    assert (Nw : t_kind (w_tab w) <> Consistent) by (rewrite (frame_kind _ _ F); auto).
    destruct (nth_error_lt_Some rows back Hb) as [r Er].
    assert (Ec : nth_error cur back = Some r).
    { rewrite <- (Nat.add_0_r back), <- nth_error_skipn, Sk, nth_error_skipn, Nat.add_0_r. auto. }
    assert (Tr : row_ty (s_cols (t_sch (w_tab w0))) r).
    { destruct F as (<- & _). pose proof (t_rows_ty _ _ _ K) as TT. rewrite Forall_forall in TT.
      apply TT. eapply nth_error_In; eauto. }
    assert (Eg : t_get_row (w_tab w) back = Ok r) by (eapply t_get_row_ok; eauto; eapply t_not_deleted; eauto).
    assert (En : rid_next pr (t_imax (w_tab w)) back = Ok (Datatypes.S back)).
    { unfold rid_next. rewrite (frame_imax _ _ F). destruct (Nat.ltb_spec back (t_imax (w_tab w0))); [auto|lia]. }
    assert (Sks : skipn back rows = r :: skipn (Datatypes.S back) rows) by (apply skipn_nth_error; auto).
    assert (SkS : skipn (Datatypes.S back) cur = skipn (Datatypes.S back) rows).
    { apply skipn_nth_error in Ec. rewrite Ec, Sks in Sk. congruence. }
    (* the row is put in the rug, with or without rows after it *)
    assert (STEP : forall s1 stopped' rug1,
      Forall (row_ty (s_cols (t_sch (w_tab w0)))) (rug_rows rug1) ->
      exists s' w' o tr,
       (let* q := fill_rug pr (Datatypes.S back - front) w rug1 front (Datatypes.S back) in
        rug_loop pr f fuel s1 (fst (fst q)) (snd (fst q)) (snd q) (Datatypes.S back) stopped') = Ok (s', w', o) /\
       calls s1 tr s' /\
       (forall k c, nth_error tr k = Some c -> seen_ok w0 rows (Datatypes.S back) k c) /\
       (if stopped' then tr = [] else acts_complete (length rows - Datatypes.S back) (map tr_act tr)) /\
       frame w0 w' /\
       let out := firstn front cur ++ rug_rows rug1 ++ visit_spec (skipn (Datatypes.S back) rows) (map tr_act tr) in
       match o with
       | None => t_ok (w_tab w') all_live out
       | Some (rug', front') => exists cur', vok w0 w' (length rows) cur' /\ front' <= length rows /\
           Forall (row_ty (s_cols (t_sch (w_tab w0)))) (rug_rows rug') /\
           firstn front' cur' ++ rug_rows rug' = out
       end).
    { intros s1 stopped' rug1 T1.
      destruct (fill_rug_ok (Datatypes.S back - front) w0 w rug1 front (Datatypes.S back) (length rows) cur)
        as (w' & rug' & front' & cur' & E & V' & S' & R' & B' & O' & T'); auto; try lia.
      { split; auto. }
      rewrite E. cbn [bind fst snd].
      destruct (IH s1 w' rug' front' (Datatypes.S back) stopped' cur') as (s2 & w2 & o & tr & E2 & C2 & N2 & A2 & F2 & O2); auto;
        try lia; [congruence|].
      exists s2, w2, o, tr. split; auto. split; auto. split; auto. split; auto. split; auto.
      cbn zeta in *. rewrite app_assoc in O2. rewrite R' in O2. rewrite <- app_assoc in O2. exact O2. }
    destruct stopped; [|destruct (f s w back) as [s1 [rm add|]] eqn:Ef]; cbn [fst snd].
    + (* already stopped *)
      destruct ((front =? back) && match rug with [] => true | _ => false end) eqn:Eb.
      * apply andb_prop in Eb. destruct Eb as [E1 E2]. apply Nat.eqb_eq in E1. destruct rug; [|discriminate]. subst front.
        exists s, w, None, []. split; auto. split; [simpl; auto|]. split; [intros [|k] c E; discriminate|].
        split; auto. split; auto. cbn zeta. simpl. replace (firstn back cur ++ _) with cur; auto.
        rewrite <- (firstn_skipn back cur) at 1. rewrite Sk, Sks. reflexivity.
      * rewrite Eg. cbn [bind]. rewrite En. cbn [bind].
        destruct (STEP s true (rug ++ [RRow r])) as (s2 & w2 & o & tr & E2 & C2 & N2 & A2 & F2 & O2).
        { rewrite rug_rows_app. apply Forall_app; split; auto. simpl. auto. }
        subst tr. exists s2, w2, o, []. split; auto. split; auto. split; [intros [|k] c E; discriminate|].
        split; auto. split; auto. cbn zeta in *. rewrite rug_rows_app in O2. cbn [map tr_act snd rug_rows] in *.
        rewrite visit_spec_nil in O2. rewrite <- app_assoc in O2. rewrite Sks. exact O2.
    + (* Continue *)
      rewrite Eg. cbn [bind]. rewrite En. cbn [bind].
      set (rug1 := (if rm then rug else rug ++ [RRow r]) ++ [RIter add]).
      assert (R1 : rug_rows rug1 = rug_rows rug ++ (if rm then [] else [r]) ++ add).
      { unfold rug1. rewrite rug_rows_app. destruct rm; simpl; rewrite app_nil_r; auto.
        rewrite rug_rows_app, <- app_assoc. reflexivity. }
      destruct (STEP s1 false rug1) as (s2 & w2 & o & tr & E2 & C2 & N2 & A2 & F2 & O2).
      { rewrite R1, !Forall_app. split; auto. split; [destruct rm; auto|]. eapply Tf; eauto. }
      exists s2, w2, o, ((back, w, Continue rm add) :: tr). split; auto.
      split; [simpl; eauto|]. split.
      { intros [|k] c E; simpl in E.
        - inv E. split; simpl; [lia|]. exists cur. rewrite Nat.add_0_r. split; [split; auto|auto].
        - apply N2 in E. destruct E as (E1 & cur1 & E3 & E4). split; [lia|]. exists cur1.
          replace (back + Datatypes.S k) with (Datatypes.S back + k) by lia. auto. }
      split; [replace (length rows - back) with (Datatypes.S (length rows - Datatypes.S back)) by lia; simpl; auto|].
      split; auto. cbn zeta in *. rewrite R1 in O2. rewrite Sks. simpl map. cbn [tr_act snd visit_spec].
      rewrite <- !app_assoc in O2. exact O2.
    + (* Break *)
      destruct ((front =? back) && match rug with [] => true | _ => false end) eqn:Eb.
      * apply andb_prop in Eb. destruct Eb as [E1 E2]. apply Nat.eqb_eq in E1. destruct rug; [|discriminate]. subst front.
        exists s1, w, None, [(back, w, Break)]. split; auto. split; [simpl; eauto|].
        split.
        { intros [|k] c E; simpl in E; [|destruct k; discriminate]. inv E. split; simpl; [lia|]. exists cur.
          rewrite Nat.add_0_r. split; [split; auto|auto]. }
        split; [replace (length rows - back) with (Datatypes.S (length rows - Datatypes.S back)) by lia; simpl; auto|].
        split; auto. cbn zeta. rewrite Sks. simpl. replace (firstn back cur ++ _) with cur; auto.
        rewrite <- (firstn_skipn back cur) at 1. rewrite Sk, Sks. reflexivity.
      * rewrite Eg. cbn [bind]. rewrite En. cbn [bind].
        destruct (STEP s1 true (rug ++ [RRow r])) as (s2 & w2 & o & tr & E2 & C2 & N2 & A2 & F2 & O2).
        { rewrite rug_rows_app. apply Forall_app; split; auto. simpl. auto. }
        subst tr. exists s2, w2, o, [(back, w, Break)]. split; auto. simpl in C2. split; [simpl; eauto|]. split.
        { intros [|k] c E; simpl in E; [|destruct k; discriminate]. inv E. split; simpl; [lia|]. exists cur.
          rewrite Nat.add_0_r. split; [split; auto|auto]. }
        split; [replace (length rows - back) with (Datatypes.S (length rows - Datatypes.S back)) by lia; simpl; auto|].
        split; auto. cbn zeta in *. rewrite rug_rows_app in O2. cbn [map tr_act snd rug_rows] in *.
        rewrite visit_spec_nil in O2. rewrite <- app_assoc in O2. rewrite Sks. exact O2.
Qed.
End V.

Lemma push_rest_ok l : forall w cur, t_kind (w_tab w) <> Consistent -> t_ok (w_tab w) (fun _ => true) cur ->
  Forall (row_ty (s_cols (t_sch (w_tab w)))) l ->
  let go := fold_res (fun w r => let* p := push_end_unchecked w r in Ok (fst p)) l w in
  if length (cur ++ l) <=? S (t_imax (w_tab w)) then
    exists w', go = Ok w' /\ frame w w' /\ t_ok (w_tab w') (fun _ => true) (cur ++ l)
  else go = panic PRowIdRange.
Proof.
  induction l as [|r l IH]; intros w cur Nc K T; cbn [fold_res].
  - rewrite app_nil_r. pose proof (ok_len _ _ _ K). destruct (Nat.leb_spec (length cur) (S (t_imax (w_tab w)))); [|lia].
    exists w. split; auto. split; auto. apply frame_refl.
  - inv T. cbn zeta. destruct (Nat.lt_ge_cases (t_imax (w_tab w)) (length cur)) as [L|L].
    + rewrite (push_end_full w _ cur r K) by auto. cbn [bind]. rewrite app_length. simpl length.
      destruct (Nat.leb_spec (length cur + S (length l)) (S (t_imax (w_tab w)))); [lia|]. reflexivity.
    + destruct (push_end_ok w _ cur r K H1 L (fun _ => true)) as (cs & E & H); auto. rewrite E. cbn [bind fst].
      rewrite event_add_other by (simpl; auto).
      specialize (IH (with_tab w (with_cols (w_tab w) cs)) (cur ++ [r])). cbn zeta in IH.
      rewrite <- app_assoc in IH. simpl app in IH.
      change (t_imax (w_tab (with_tab w (with_cols (w_tab w) cs)))) with (t_imax (w_tab w)) in IH.
      specialize (IH Nc H H2).
      destruct (length (cur ++ r :: l) <=? S (t_imax (w_tab w))); auto.
Qed.

Section V2.
Variable pr : profile.
Context {S : Type}.
Variable f : S -> wlock -> nat -> S * action.
Notation all_live := (fun _ : nat => true).

Lemma merge0_ok w rows s :
  t_kind (w_tab w) <> Consistent -> t_ok (w_tab w) all_live rows -> length rows <= t_imax (w_tab w) ->
  (forall s w1 i s' rm add, f s w1 i = (s', Continue rm add) -> Forall (row_ty (s_cols (t_sch (w_tab w)))) add) ->
  exists s' tr, calls f s tr s' /\
    (forall k c, nth_error tr k = Some c -> seen_ok w rows 0 k c) /\
    acts_complete (length rows) (map tr_act tr) /\
    let out := visit_spec rows (map tr_act tr) in
    if length out <=? Datatypes.S (t_imax (w_tab w)) then
      exists w', merge0 pr f s w = Ok (s', w') /\ frame w w' /\ t_ok (w_tab w') all_live out
    else merge0 pr f s w = panic PRowIdRange.
Proof.
  intros Nc K Ln Tf. unfold merge0. rewrite (t_len_ok _ _ _ K).
  destruct (rug_loop_ok pr f w rows Nc Ln Tf (length rows) s w [] 0 0 false rows)
    as (s' & w' & o & tr & E & C & N & A & F & O); auto; try lia.
  { split; [apply frame_refl|split; auto]. } { simpl; auto. }
  exists s', tr. split; auto. split; auto. rewrite Nat.sub_0_r in A. split; auto.
  cbn zeta in *. rewrite E. cbn [bind fst snd]. simpl firstn in O. simpl skipn in O. simpl app in O.
  destruct o as [[rug front]|].
  - destruct O as (cur & (F' & K' & L') & Lf & T & R).
    destruct (truncate_ok w' _ _ K' front) as (cs & Et & Kt). rewrite Et. cbn [bind].
    set (w2 := with_tab w' (with_cols (w_tab w') cs)) in *.
    assert (F2 : frame w w2) by (eapply frame_trans; [exact F|apply frame_cols]).
    pose proof (push_rest_ok (rug_rows rug) w2 (firstn front cur)) as P. cbn zeta in P.
    rewrite R, (frame_imax _ _ F2) in P.
    destruct (length (visit_spec rows (map tr_act tr)) <=? _).
    + destruct P as (w3 & E3 & F3 & K3).
      { rewrite (frame_kind _ _ F2); auto. } { exact Kt. } { destruct F2 as (-> & _). auto. }
      rewrite E3. cbn [bind]. exists w3. split; auto. split; auto. eapply frame_trans; eauto.
    + rewrite P; auto. { rewrite (frame_kind _ _ F2); auto. } { destruct F2 as (-> & _). auto. }
  - pose proof (ok_len _ _ _ O) as L. rewrite (frame_imax _ _ F) in L.
    destruct (Nat.leb_spec (length (visit_spec rows (map tr_act tr))) (Datatypes.S (t_imax (w_tab w)))); [|lia].
    exists w'. repeat (split; auto).
Qed.

(** Whatever the table: no undefined behaviour. *)
Lemma good_fill sc m : forall n w rug front back, w_good_n sc n w -> Forall (row_ty (s_cols sc)) (rug_rows rug) ->
  good pr (fun q => w_good_n sc n (fst (fst q)) /\ Forall (row_ty (s_cols sc)) (rug_rows (snd (fst q))))
    (fill_rug pr m w rug front back).
Proof.
  induction m as [|m IH]; intros n w rug front back G T; cbn [fill_rug]; [simpl; auto|].
  destruct (front <? back); [|simpl; auto].
  pose proof (pull_rug_spec rug) as P. destruct (pull_rug rug) as [[r rug']|]; [|simpl; auto].
  rewrite P in T. inv T.
  eapply good_bind; [apply (good_swap_out pr sc n w front r); auto|]. intros p [G' _].
  eapply good_bind; [apply good_rid_next|]. intros j _. apply IH; auto.
Qed.

Lemma good_rug_loop sc : (forall s w i s' rm add, f s w i = (s', Continue rm add) -> Forall (row_ty (s_cols sc)) add) ->
  forall fuel n s w rug front back stopped, w_good_n sc n w -> Forall (row_ty (s_cols sc)) (rug_rows rug) ->
  (pr = Debug -> n - back <= fuel) ->
  good pr (fun q => w_good sc (snd (fst q)) /\
    match snd q with None => True | Some (rug, _) => Forall (row_ty (s_cols sc)) (rug_rows rug) end)
    (rug_loop pr f fuel s w rug front back stopped).
Proof.
  intros Tf. induction fuel as [|fuel IH]; intros n s w rug front back stopped G T Lf; cbn [rug_loop].
  - destruct G as (Es & live & rows & K & L). rewrite (t_len_ok _ _ _ K).
    destruct (Nat.ltb_spec back (length rows)).
    + simpl. destruct pr; auto. specialize (Lf eq_refl). lia.
    + simpl. split; auto. split; eauto.
  - destruct (back <? t_len (w_tab w)) eqn:Eb.
    2:{ simpl. split; auto. eapply w_good_n_good; eauto. }
    assert (STEP : forall s1 rug1 stopped' back', Forall (row_ty (s_cols sc)) (rug_rows rug1) ->
       back' <= t_imax (w_tab w) /\ (pr = Debug -> back' = Datatypes.S back) ->
       good pr (fun q => w_good sc (snd (fst q)) /\
         match snd q with None => True | Some (rug, _) => Forall (row_ty (s_cols sc)) (rug_rows rug) end)
         (let* q := fill_rug pr (back' - front) w rug1 front back' in
          rug_loop pr f fuel s1 (fst (fst q)) (snd (fst q)) (snd q) back' stopped')).
    { intros s1 rug1 stopped' back' T1 [_ B]. eapply good_bind; [apply good_fill; eauto|].
      intros q [G' T']. apply (IH n); auto. intro D. rewrite B by auto. specialize (Lf D). lia. }
    assert (G1 : w_good sc w) by (eapply w_good_n_good; eauto).
    destruct (if stopped then (s, Break) else f s w back) as [s1 [rm add|]] eqn:Ef; cbn [fst snd].
    + eapply good_bind; [apply (good_get_row pr sc); auto|]. intros r Tr.
      eapply good_bind; [apply good_rid_next|]. intros back' B. apply STEP; auto.
      rewrite rug_rows_app. apply Forall_app. split.
      * destruct rm; auto. rewrite rug_rows_app. apply Forall_app; split; simpl; auto.
      * simpl. rewrite app_nil_r. destruct stopped; [discriminate|]. eapply Tf; eauto.
    + destruct ((front =? back) && _); [simpl; auto|].
      eapply good_bind; [apply (good_get_row pr sc); auto|]. intros r Tr.
      eapply good_bind; [apply good_rid_next|]. intros back' B. apply STEP; auto.
      rewrite rug_rows_app. apply Forall_app; split; simpl; auto.
Qed.

Lemma good_merge0 sc w s : w_good sc w ->
  (forall s w i s' rm add, f s w i = (s', Continue rm add) -> Forall (row_ty (s_cols sc)) add) ->
  good pr (fun q => w_good sc (snd q)) (merge0 pr f s w).
Proof.
  intros G Tf. unfold merge0. eapply good_bind.
  - apply (good_rug_loop sc Tf (t_len (w_tab w)) (t_len (w_tab w))).
    + destruct G as (E & live & rows & K). split; auto. exists live, rows. split; auto. symmetry. eapply t_len_ok; eauto.
    + constructor.
    + lia.
  - intros [[s1 w1] o] [G1 T1]. cbn [fst snd] in *. destruct o as [[rug front]|]; [|simpl; auto].
    eapply good_bind; [apply (good_truncate pr sc); auto|]. intros w2 G2.
    eapply good_bind; [|intros w3 G3; simpl; exact G3].
    apply good_fold; auto. intros w3 r Hr G3. rewrite Forall_forall in T1.
    eapply good_bind; [apply (good_push_end pr sc); auto|]. intros p [Gp _]. simpl. auto.
Qed.
End V2.
