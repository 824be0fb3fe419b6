(** The rows a caught panic leaves: [visit] and [retain]. *)
From Coq Require Import List Arith Bool Lia.
From Verif Require Import Base BaseFacts Column ColumnFacts RowRange RowRangeFacts Table Visit SortedTab BagTab TableSpec TableFacts
  VisitFacts SortedFacts BagFacts Hist HistFacts TableProps RowProps Unwind UnwindSpec UnwindFacts UnwindAgree.
Import ListNotations.
Local Open Scope nat_scope.

Lemma calm_boom k m : no_panics k m = false.
Proof. reflexivity. Qed.

(** ** Errors agree too *)
Lemma push_err imax c v e : c_push imax c v = Err e -> snd (uc_push imax no_panics c v) = Err e.
Proof.
  destruct c as [b|b ix]; cbn; intro H; destruct (b_push b v) as [b'|e'] eqn:E; cbn in *; try discriminate; try (inv H; reflexivity).
  destruct (native imax (b_len b)); cbn in *; try discriminate. inv H. reflexivity.
Qed.
Lemma ucols_push_err imax : forall cs r e, length cs = length r -> map_res (fun p => c_push imax (fst p) (snd p)) (combine cs r) = Err e ->
  snd (ucols (uc_push imax no_panics) cs r) = Err e.
Proof.
  induction cs as [|c cs IH]; intros [|v r] e L H; try discriminate; cbn in *.
  destruct (c_push imax c v) as [c'|e'] eqn:E; cbn in H.
  - rewrite (push_agr imax no_panics calm_boom _ _ _ E). destruct (map_res _ _) as [cs'|e'] eqn:E2; cbn in H; [discriminate|]. inv H.
    cbn. rewrite (IH r e) by (auto; lia). reflexivity.
  - pose proof (push_err _ _ _ _ E) as P. destruct (uc_push imax no_panics c v) as [c' r']. cbn in P. subst. inv H. reflexivity.
Qed.
Lemma push_end_err w r e : push_end_unchecked w r = Err e -> snd (u_push_end no_panics w r) = Err e.
Proof.
  unfold push_end_unchecked, u_push_end, push_only_unchecked, u_push_only, cols_push. intro H.
  destruct (length (t_cols (w_tab w)) =? length r) eqn:L; [|cbn in *; inv H; reflexivity]. apply Nat.eqb_eq in L.
  destruct (map_res _ _) as [cs|e'] eqn:E.
  - destruct (ucols_agr1 _ _ (push_agr (t_imax (w_tab w)) no_panics calm_boom) _ _ _ L E) as [u U]. rewrite U. unfold cols_left, thn. cbn in *.
    destruct (t_last _) as [[l|]|]; cbn in *; try discriminate; auto; inv H; reflexivity.
  - pose proof (ucols_push_err _ _ _ _ L E) as P. destruct (ucols _ _ _) as [cs r']. cbn in P. subst r'. cbn in *. inv H. reflexivity.
Qed.

(** ** The rug *)
Fixpoint ugiven (rug : list urug) : list row :=
  match rug with [] => [] | URow r :: g => r :: ugiven g | UIter l stop :: g => l ++ (if stop then [] else ugiven g) end.
Definition ustop (x : urug) : bool := match x with URow _ => false | UIter _ stop => stop end.
Notation ustops := (existsb ustop).
Lemma u_pull_spec rug : match u_pull rug with
  | UPulled r rug' => ugiven rug = r :: ugiven rug' /\ ustops rug' = ustops rug
  | UEmpty => ugiven rug = [] /\ ustops rug = false
  | UStopped => ugiven rug = [] /\ ustops rug = true
  end.
Proof. induction rug as [|[r|[|x l] []] rug IH]; cbn; auto. Qed.
Lemma ugiven_app a b : ugiven (a ++ b) = ugiven a ++ (if ustops a then [] else ugiven b).
Proof.
  induction a as [|[r|l []] a IH]; cbn; auto; rewrite ?app_nil_r, ?IH; auto. rewrite app_assoc. auto.
Qed.

Lemma skipn_more {A} a b (l l' : list A) : skipn a l = skipn a l' -> a <= b -> skipn b l = skipn b l'.
Proof.
  intros H L. apply list_ext. intro i. rewrite !nth_error_skipn. replace (b + i) with (a + (b - a + i)) by lia.
  rewrite <- !(nth_error_skipn _ a). congruence.
Qed.

Lemma asked_nil rows : asked_for rows [] = rows.
Proof. destruct rows; reflexivity. Qed.
Section V.
Variable pr : profile.
Variables (w0 : wlock) (rows : list row).
Hypothesis Nc : t_kind (w_tab w0) <> Consistent.
Hypothesis Ln : length rows <= t_imax (w_tab w0).
Notation ty := (Forall (row_ty (s_cols (t_sch (w_tab w0))))).

(** [cur] begins with [out] and goes on as [rows]. *)
Definition over (out cur : list row) : Prop := cur = out ++ skipn (length out) rows.

Lemma u_fill_ok m : forall w rug front back cur,
  vok w0 w (length rows) cur -> skipn front cur = skipn front rows -> front <= back -> back <= length rows -> back - front = m -> ty (ugiven rug) ->
  exists w' r cur', u_fill pr no_panics m w rug front back = (w', r) /\ vok w0 w' (length rows) cur' /\
    match r with
    | Ok (rug', front') => skipn front' cur' = skipn front' rows /\ firstn front' cur' ++ ugiven rug' = firstn front cur ++ ugiven rug /\
        ustops rug' = ustops rug /\ front <= front' <= back /\ (front' = back \/ rug' = []) /\ ty (ugiven rug')
    | Err e => e = EPanic PUser /\ ustops rug = true /\ over (firstn front cur ++ ugiven rug) cur'
    end.
Proof.
  induction m as [|m IH]; intros w rug front back cur V Sk L1 L2 Em T; cbn [u_fill].
  - exists w, (Ok (rug, front)), cur. split; auto. split; auto. split; auto. split; auto. split; auto. split; [lia|]. split; [left; lia|auto].
  - destruct (Nat.ltb_spec front back); [|lia]. pose proof (u_pull_spec rug) as P. destruct (u_pull rug) as [r rug'| |].
    + destruct P as [P1 P2]. destruct V as (F & K & Lc). rewrite P1 in T. inv T.
      assert (Nw : t_kind (w_tab w) <> Consistent) by (rewrite (frame_kind _ _ F); auto).
      destruct (nth_error_lt_Some cur front) as [old X]; [lia|].
      destruct (swap_out_row_ok w _ _ K front r old) with (live' := fun _ : nat => true) as (cs & Q & H1); auto.
      { destruct F as (-> & _). auto. } { eapply t_not_deleted; eauto. }
      rewrite (swap_out_row_agr no_panics calm_boom _ _ _ _ Q). unfold thn. cbn [fst snd]. unfold rid_next.
      change (t_imax (w_tab (with_tab w (with_cols (w_tab w) cs)))) with (t_imax (w_tab w)). rewrite (frame_imax _ _ F).
      destruct (Nat.ltb_spec front (t_imax (w_tab w0))); [|lia].
      destruct (IH (with_tab w (with_cols (w_tab w) cs)) rug' (Datatypes.S front) back (upd cur front r)) as (w' & rr & cur' & E & V' & O); auto; try lia.
      { split; [eapply frame_trans; [exact F|apply frame_cols]|]. split; [exact H1|]. rewrite upd_length; auto. }
      { rewrite skipn_upd_lt by lia. apply skipn_nth_error in X. rewrite X in Sk. destruct (nth_error_lt_Some rows front) as [o2 X2]; [lia|].
        apply skipn_nth_error in X2. rewrite X2 in Sk. congruence. }
      exists w', rr, cur'. split; auto. split; auto.
      assert (EQ : firstn (Datatypes.S front) (upd cur front r) ++ ugiven rug' = firstn front cur ++ ugiven rug).
      { rewrite P1, firstn_S_upd by lia. rewrite <- app_assoc. reflexivity. }
      rewrite EQ, P2 in O. destruct rr as [[rug'' front']|e]; auto. destruct O as (O1 & O2 & O3 & O4 & O5). split; auto. split; auto. split; auto. split; auto. lia.
    + destruct P as [P1 P2]. exists w, (Ok ([], front)), cur. split; auto. split; auto. rewrite P1, P2. split; auto. split; auto. split; auto. split; [lia|]. split; auto. constructor.
    + destruct P as [P1 P2]. exists w, (panic PUser), cur. split; auto. split; auto. split; auto. split; auto. unfold over. rewrite P1, app_nil_r.
      destruct V as (_ & _ & Lc). rewrite firstn_length_le by lia. rewrite <- Sk, firstn_skipn. reflexivity.
Qed.

Lemma u_pour_ok n : forall w rug cur w', frame w0 w -> t_ok (w_tab w) (fun _ => true) cur -> ty (ugiven rug) ->
  u_pour no_panics n w rug = (w', panic PUser) -> ustops rug = true /\ frame w0 w' /\ t_ok (w_tab w') (fun _ => true) (cur ++ ugiven rug).
Proof.
  induction n as [|n IH]; intros w rug cur w' F K T H; cbn [u_pour] in H; [discriminate|].
  pose proof (u_pull_spec rug) as P. destruct (u_pull rug) as [r rug'| |]; [|discriminate|].
  - destruct P as [P1 P2]. rewrite P1 in T. inv T. assert (Nw : t_kind (w_tab w) <> Consistent) by (rewrite (frame_kind _ _ F); auto).
    assert (Tr : row_ty (s_cols (t_sch (w_tab w))) r) by (destruct F as (-> & _); auto).
    destruct (Nat.lt_ge_cases (t_imax (w_tab w)) (length cur)) as [L|L].
    + pose proof (push_end_err _ _ _ (push_end_full w _ cur r K Tr L)) as X. destruct (u_push_end no_panics w r) as [w1 r1]. cbn in X. subst r1. inv H.
    + destruct (push_end_ok w _ cur r K Tr L (fun _ => true)) as (cs & E & H0); auto. rewrite (push_end_agr no_panics calm_boom _ _ _ E) in H. unfold thn in H. cbn [fst snd] in H.
      rewrite event_add_other in H by (simpl; auto). apply IH with (cur := cur ++ [r]) in H; auto.
      rewrite P1, <- P2. rewrite <- app_assoc in H. exact H.
  - destruct P as [P1 P2]. inv H. rewrite P1, app_nil_r. auto.
Qed.

Context {A : Type}.
Variable f : A -> wlock -> nat -> A * uaction.
Hypothesis Tf : forall s w i s' rm add stop, f s w i = (s', UContinue rm add stop) -> ty add.

Definition vshown (back : nat) (seen : list wlock) : Prop := length seen <= length rows - back /\
  forall k w1, nth_error seen k = Some w1 -> exists cur, vok w0 w1 (length rows) cur /\ skipn (back + k) cur = skipn (back + k) rows.
Lemma vshown_nil back : vshown back [].
Proof. split; [cbn; lia|]. intros [|k] w1 H; discriminate. Qed.
Lemma vshown_cons back w seen cur : back < length rows -> vok w0 w (length rows) cur -> skipn back cur = skipn back rows ->
  vshown (Datatypes.S back) seen -> vshown back (w :: seen).
Proof.
  intros L V Sk [L1 N]. split; [cbn; lia|]. intros [|k] w1 H; cbn in H.
  - inv H. exists cur. rewrite Nat.add_0_r. auto.
  - replace (back + Datatypes.S k) with (Datatypes.S back + k) by lia. auto.
Qed.

(** Answers so far: [Continue]s, perhaps followed by a [Break]. *)
Definition only_last (acts : list uaction) : Prop := Forall (fun a => match a with UContinue _ _ _ => True | _ => False end) (removelast acts).
Lemma only_last_cons rm add stop acts : only_last acts -> only_last (UContinue rm add stop :: acts).
Proof. unfold only_last. destruct acts as [|a acts]; cbn; intro H; constructor; auto. Qed.
Lemma last_cons rm add stop acts : acts <> [] -> last (UContinue rm add stop :: acts) UBreak = last acts UBreak.
Proof. destruct acts; [contradiction|reflexivity]. Qed.

Definition cut_out (pre : list row) (stops : bool) (back : nat) (acts : list uaction) : list row :=
  pre ++ (if stops then [] else asked_for (skipn back rows) acts).

Lemma u_loop_ok fuel : forall s w rug front back stopped cur,
  vok w0 w (length rows) cur -> skipn front cur = skipn front rows -> front <= back -> back <= length rows -> length rows - back <= fuel ->
  (front = back \/ rug = []) -> ty (ugiven rug) ->
  exists w' r seen, u_loop pr no_panics f fuel s w rug front back stopped = (w', r) /\ vshown back seen /\
    let acts := answers f s back seen in
    let out := cut_out (firstn front cur ++ ugiven rug) (ustops rug) back acts in
    only_last acts /\ (stopped = true -> seen = []) /\
    match r with
    | Ok None => True
    | Ok (Some (rug', front')) => last acts UBreak <> UPanic /\
        exists cur', vok w0 w' (length rows) cur' /\ firstn front' cur' ++ ugiven rug' = out /\ ustops rug' = ustops rug || existsb stopping acts /\
          (front' = length rows \/ rug' = []) /\ front' <= length rows /\ ty (ugiven rug')
    | Err (EPanic PUser) =>
        exists cur', vok w0 w' (length rows) cur' /\
          (last acts UBreak = UPanic /\ over (firstn (Nat.min (back + length acts - 1) (length out)) out) cur' \/
           last acts UBreak <> UPanic /\ ustops rug || existsb stopping acts = true /\ over out cur')
    | Err _ => False
    end.
Proof.
  induction fuel as [|fuel IH]; intros s w rug front back stopped cur V Sk L1 L2 Lf Fr T.
  - assert (back = length rows) by lia. subst back. cbn [u_loop].
    rewrite (t_len_ok _ _ _ (proj1 (proj2 V))), (proj2 (proj2 V)). destruct (Nat.ltb_spec (length rows) (length rows)); [lia|].
    exists w, (Ok (Some (rug, front))), []. split; auto. split; [apply vshown_nil|]. cbn zeta. cbn [answers]. split; [constructor|]. split; auto.
    split; [discriminate|]. exists cur. split; auto. split; [unfold cut_out; rewrite skipn_all; cbn; destruct (ustops rug); rewrite app_nil_r; auto|].
    split; [cbn; rewrite orb_false_r; auto|]. split; auto.
  - cbn [u_loop]. rewrite (t_len_ok _ _ _ (proj1 (proj2 V))), (proj2 (proj2 V)).
    destruct (Nat.ltb_spec back (length rows)) as [Hb|Hb].
    2:{ assert (back = length rows) by lia. subst back. exists w, (Ok (Some (rug, front))), []. split; auto. split; [apply vshown_nil|]. cbn zeta. cbn [answers].
        split; [constructor|]. split; auto.
        split; [discriminate|]. exists cur. split; auto. split; [unfold cut_out; rewrite skipn_all; cbn; destruct (ustops rug); rewrite app_nil_r; auto|].
        split; [cbn; rewrite orb_false_r; auto|]. split; auto. }
    pose proof V as (F & K & Lc).
    assert (Nw : t_kind (w_tab w) <> Consistent) by (rewrite (frame_kind _ _ F); auto).
    assert (Skb : skipn back cur = skipn back rows).
    { apply (skipn_more front); auto. }
    destruct (nth_error_lt_Some rows back Hb) as [r Er].
    assert (Ec : nth_error cur back = Some r).
    { rewrite <- (Nat.add_0_r back), <- nth_error_skipn, Skb, nth_error_skipn, Nat.add_0_r. auto. }
    assert (Tr : row_ty (s_cols (t_sch (w_tab w0))) r).
    { destruct F as (<- & _). pose proof (t_rows_ty _ _ _ K) as TT. rewrite Forall_forall in TT. apply TT. eapply nth_error_In; eauto. }
    assert (Eg : t_get_row (w_tab w) back = Ok r) by (eapply t_get_row_ok; eauto; eapply t_not_deleted; eauto).
    assert (En : rid_next pr (t_imax (w_tab w)) back = Ok (Datatypes.S back)).
    { unfold rid_next. rewrite (frame_imax _ _ F). destruct (Nat.ltb_spec back (t_imax (w_tab w0))); [auto|lia]. }
    assert (Sks : skipn back rows = r :: skipn (Datatypes.S back) rows) by (apply skipn_nth_error; auto).
    assert (Fo : front = Nat.min back (length (firstn front cur ++ ugiven rug))).
    { rewrite app_length, firstn_length_le by lia. destruct Fr as [->| ->]; cbn; lia. }
    (* one more row *)
    assert (STEP : forall s1 stopped' rug1, ty (ugiven rug1) ->
      exists w' r seen,
       thn (u_fill pr no_panics (Datatypes.S back - front) w rug1 front (Datatypes.S back))
         (fun w q => u_loop pr no_panics f fuel s1 w (fst q) (snd q) (Datatypes.S back) stopped') = (w', r) /\
       vshown (Datatypes.S back) seen /\
       let acts := answers f s1 (Datatypes.S back) seen in
       let out := cut_out (firstn front cur ++ ugiven rug1) (ustops rug1) (Datatypes.S back) acts in
       only_last acts /\ (stopped' = true -> seen = []) /\
       match r with
       | Ok None => True
       | Ok (Some (rug', front')) => last acts UBreak <> UPanic /\
           exists cur', vok w0 w' (length rows) cur' /\ firstn front' cur' ++ ugiven rug' = out /\ ustops rug' = ustops rug1 || existsb stopping acts /\
             (front' = length rows \/ rug' = []) /\ front' <= length rows /\ ty (ugiven rug')
       | Err (EPanic PUser) =>
           exists cur', vok w0 w' (length rows) cur' /\
             (last acts UBreak = UPanic /\ over (firstn (Nat.min (Datatypes.S back + length acts - 1) (length out)) out) cur' \/
              last acts UBreak <> UPanic /\ ustops rug1 || existsb stopping acts = true /\ over out cur')
       | Err _ => False
       end).
    { intros s1 stopped' rug1 T1.
      destruct (u_fill_ok (Datatypes.S back - front) w rug1 front (Datatypes.S back) cur) as (w' & rr & cur' & E & V' & O); auto; try lia.
      rewrite E. unfold thn. cbn [fst snd]. destruct rr as [[rug' front']|e]; cbn [fst snd].
      - destruct O as (O1 & O2 & O3 & O4 & O5 & O6).
        destruct (IH s1 w' rug' front' (Datatypes.S back) stopped' cur') as (w2 & r2 & seen & E2 & S2 & X); auto; try lia.
        exists w2, r2, seen. split; auto. split; auto. cbn zeta in *. rewrite O2, O3 in X. exact X.
      - destruct O as (-> & O2 & O3). exists w', (panic PUser), []. split; auto. split; [apply vshown_nil|]. cbn zeta. cbn [answers].
        split; [constructor|]. split; auto. exists cur'. split; auto. right. split; [discriminate|]. rewrite O2. split; auto.
        unfold cut_out. rewrite app_nil_r. auto. }
    assert (BREAK : forall s1, exists w' r seen,
       (if (front =? back) && match rug with [] => true | _ => false end then (w, Ok None)
        else match t_get_row (w_tab w) back with
             | Err e => (w, Err e)
             | Ok r => match rid_next pr (t_imax (w_tab w)) back with
                       | Err e => (w, Err e)
                       | Ok back => thn (u_fill pr no_panics (back - front) w (rug ++ [URow r]) front back)
                                      (fun w q => u_loop pr no_panics f fuel s1 w (fst q) (snd q) back true)
                       end
             end) = (w', r) /\ seen = @nil wlock /\
       match r with
       | Ok None => True
       | Ok (Some (rug', front')) =>
           exists cur', vok w0 w' (length rows) cur' /\ firstn front' cur' ++ ugiven rug' = cut_out (firstn front cur ++ ugiven rug) (ustops rug) back [] /\
             ustops rug' = ustops rug /\ (front' = length rows \/ rug' = []) /\ front' <= length rows /\ ty (ugiven rug')
       | Err (EPanic PUser) =>
           exists cur', vok w0 w' (length rows) cur' /\ ustops rug = true /\ over (cut_out (firstn front cur ++ ugiven rug) (ustops rug) back []) cur'
       | Err _ => False
       end).
    { intro s1. destruct ((front =? back) && _); [exists w, (Ok None), []; auto|]. rewrite Eg, En.
      destruct (STEP s1 true (rug ++ [URow r])) as (w2 & r2 & seen & E2 & S2 & X).
      { rewrite ugiven_app. apply Forall_app. split; auto. destruct (ustops rug); cbn; auto. }
      cbn zeta in X. destruct X as (X1 & X2 & X3). specialize (X2 eq_refl). subst seen.
      exists w2, r2, []. split; [exact E2|]. split; auto.
      assert (OE : cut_out (firstn front cur ++ ugiven (rug ++ [URow r])) (ustops (rug ++ [URow r])) (Datatypes.S back) [] =
                   cut_out (firstn front cur ++ ugiven rug) (ustops rug) back []).
      { unfold cut_out. rewrite ugiven_app, existsb_app. cbn [existsb ustop ugiven]. rewrite orb_false_r. destruct (ustops rug); rewrite ?app_nil_r; auto.
        rewrite Sks, !asked_nil, <- !app_assoc. reflexivity. }
      cbn [answers] in X3. rewrite OE in X3. rewrite existsb_app in X3. cbn [existsb ustop] in X3. rewrite !orb_false_r in X3.
      destruct r2 as [[[rug' front']|]|[c| | |]]; auto; try contradiction.
      - destruct X3 as (_ & X3). exact X3.
      - destruct c; try contradiction. destruct X3 as (cur' & V' & [[Y _]|(_ & Y1 & Y2)]); [discriminate|]. exists cur'. auto. }
    destruct stopped; [|destruct (f s w back) as [s1 [rm add stop| |]] eqn:Ef]; cbn [fst snd].
    + destruct (BREAK s) as (w' & rr & seen & E & -> & X). exists w', rr, []. split; [exact E|]. split; [apply vshown_nil|]. cbn zeta. cbn [answers].
      split; [constructor|]. split; auto. cbn [existsb last length]. rewrite orb_false_r.
      destruct rr as [[[rug' front']|]|[c| | |]]; auto; [split; [discriminate|exact X]|]. destruct c; auto.
      destruct X as (cur' & X1 & X2 & X3). exists cur'. split; auto. right. split; [discriminate|]. auto.
    + set (rug1 := (if rm then rug else rug ++ [URow r]) ++ [UIter add stop]).
      assert (U1 : ustops rug1 = ustops rug || stop).
      { unfold rug1. rewrite existsb_app. cbn. rewrite orb_false_r. destruct rm; auto. rewrite existsb_app. cbn. rewrite !orb_false_r. auto. }
      assert (R1 : ugiven rug1 = ugiven rug ++ (if ustops rug then [] else (if rm then [] else [r]) ++ add)).
      { unfold rug1. rewrite ugiven_app. cbn [ugiven]. destruct rm.
        - destruct (ustops rug), stop; rewrite ?app_nil_r; auto.
        - rewrite ugiven_app, existsb_app. cbn [existsb ustop ugiven]. rewrite !orb_false_r. destruct (ustops rug), stop; rewrite <- ?app_assoc; cbn; rewrite ?app_nil_r; auto. }
      assert (Ta : ty add) by (eapply Tf; eauto).
      destruct (STEP s1 false rug1) as (w2 & r2 & seen & E2 & S2 & X).
      { rewrite R1, Forall_app. split; auto. destruct (ustops rug), rm; cbn; auto. }
      exists w2, r2, (w :: seen). split.
      { rewrite Eg, En. unfold rug1 in E2. destruct rm; exact E2. }
      split; [eapply vshown_cons; eauto|]. cbn zeta in *. cbn [answers]. rewrite Ef. cbn [fst snd].
      destruct X as (X1 & X2 & X3). split; [apply only_last_cons; auto|]. split; [discriminate|].
      set (acts := answers f s1 (Datatypes.S back) seen) in *.
      assert (OE : cut_out (firstn front cur ++ ugiven rug1) (ustops rug1) (Datatypes.S back) acts =
                   cut_out (firstn front cur ++ ugiven rug) (ustops rug) back (UContinue rm add stop :: acts)).
      { unfold cut_out. rewrite U1, R1, Sks. cbn [asked_for]. destruct (ustops rug), stop; cbn [orb]; rewrite ?app_nil_r, <- ?app_assoc; auto. }
      rewrite OE, U1 in X3. cbn [existsb stopping]. rewrite orb_assoc.
      assert (LE : last (UContinue rm add stop :: acts) UBreak = UPanic <-> last acts UBreak = UPanic).
      { destruct acts; [split; discriminate|reflexivity]. }
      destruct r2 as [[[rug' front']|]|[c| | |]]; auto.
      * destruct X3 as (Y1 & Y2). split; [rewrite LE; auto|exact Y2].
      * destruct c; auto. destruct X3 as (cur' & V' & Y). exists cur'. split; auto. destruct Y as [[Y1 Y2]|(Y1 & Y2 & Y3)].
        -- left. split; [apply LE; auto|]. cbn [length]. replace (back + Datatypes.S (length acts) - 1) with (Datatypes.S back + length acts - 1) by lia. exact Y2.
        -- right. split; [rewrite LE; auto|]. auto.
    + destruct (BREAK s1) as (w' & rr & seen & E & -> & X). exists w', rr, [w]. split; [exact E|]. split; [eapply vshown_cons; eauto; apply vshown_nil|].
      cbn zeta. cbn [answers]. rewrite Ef. cbn [fst snd]. split; [constructor|]. split; [discriminate|]. cbn [existsb stopping last length]. rewrite orb_false_r.
      assert (OE : cut_out (firstn front cur ++ ugiven rug) (ustops rug) back [UBreak] = cut_out (firstn front cur ++ ugiven rug) (ustops rug) back []).
      { unfold cut_out. destruct (ustops rug); auto. destruct (skipn back rows); reflexivity. }
      rewrite OE. destruct rr as [[[rug' front']|]|[c| | |]]; auto; [split; [discriminate|exact X]|]. destruct c; auto.
      destruct X as (cur' & X1 & X2 & X3). exists cur'. split; auto. right. split; [discriminate|]. auto.
    + exists w, (panic PUser), [w]. split; auto. split; [eapply vshown_cons; eauto; apply vshown_nil|].
      cbn zeta. cbn [answers]. rewrite Ef. cbn [fst snd]. split; [constructor|]. split; [discriminate|]. exists cur. split; auto. left. split; auto.
      assert (OE : cut_out (firstn front cur ++ ugiven rug) (ustops rug) back [UPanic] = firstn front cur ++ ugiven rug).
      { unfold cut_out. destruct (ustops rug); rewrite ?app_nil_r; auto. rewrite Sks. cbn. rewrite app_nil_r. auto. }
      rewrite OE. cbn [length]. replace (back + 1 - 1) with back by lia. rewrite <- Fo. unfold over.
      rewrite firstn_app, firstn_length_le, Nat.sub_diag, firstn_O, app_nil_r, firstn_firstn, Nat.min_id, firstn_length_le, <- Sk, firstn_skipn by lia. reflexivity.
Qed.

Lemma u_visit_cut s w' : t_ok (w_tab w0) (fun _ => true) rows -> u_visit pr no_panics f s w0 = (w', panic PUser) ->
  exists seen, vshown 0 seen /\ cut_short (answers f s 0 seen) /\ frame w0 w' /\ t_ok (w_tab w') (fun _ => true) (left_over rows (answers f s 0 seen)).
Proof.
  intros K H. unfold u_visit in H. rewrite (t_len_ok _ _ _ K) in H.
  destruct (u_loop_ok (length rows) s w0 [] 0 0 false rows) as (w1 & r & seen & E & Sh & X); auto; try lia.
  { split; [apply frame_refl|split; auto]. } { constructor. }
  rewrite E in H. cbn zeta in X. set (acts := answers f s 0 seen) in *. destruct X as (X1 & _ & X3). exists seen. split; auto. fold acts. cbn [existsb orb] in X3.
  assert (OE : cut_out (firstn 0 rows ++ ugiven []) false 0 acts = asked_for rows acts) by reflexivity.
  unfold thn at 1 in H. cbn [fst snd] in H. destruct r as [[[rug front]|]|e].
  - rewrite OE in X3. destruct X3 as (Y1 & cur & (F & Kc & Lc) & Y2 & Y3 & Y4 & Y5 & Y6).
    destruct (truncate_ok w1 _ _ Kc front) as (cs & Et & Kt). rewrite (truncate_row_agr no_panics calm_boom _ _ _ Et) in H. unfold thn in H. cbn [fst snd] in H.
    destruct (u_pour_ok _ _ rug (firstn front cur) _ (frame_trans _ _ _ F (frame_cols w1 cs)) Kt Y6 H) as (U & F2 & K2). rewrite Y2 in K2.
    split; [split; [exact X1|right; split; auto; congruence]|]. split; auto.
    replace (left_over rows acts) with (asked_for rows acts); auto.
    unfold left_over. cbn zeta. assert (LL : length rows <= length (asked_for rows acts)).
    { rewrite <- Y2, app_length, firstn_length_le by lia. destruct Y4 as [->| ->]; [lia|]. discriminate U. }
    assert (C : match last acts UBreak with UPanic => Nat.min (length acts - 1) (length (asked_for rows acts)) | _ => length (asked_for rows acts) end = length (asked_for rows acts)).
    { destruct (last acts UBreak); auto. contradiction. }
    rewrite C, firstn_all, skipn_all2, app_nil_r; auto.
  - discriminate H.
  - inv H. rewrite OE in X3. destruct X3 as (cur & (F & Kc & Lc) & Y). destruct Y as [[Y1 Y2]|(Y1 & Y2 & Y3)].
    + split; [split; auto|]. split; auto. unfold left_over. cbn zeta. rewrite Y1. unfold over in Y2. rewrite Nat.add_0_l in Y2.
      rewrite firstn_length_le in Y2 by lia. rewrite <- Y2. exact Kc.
    + split; [split; auto|]. split; auto. unfold left_over. cbn zeta.
      assert (C : match last acts UBreak with UPanic => Nat.min (length acts - 1) (length (asked_for rows acts)) | _ => length (asked_for rows acts) end = length (asked_for rows acts)).
      { destruct (last acts UBreak); auto. contradiction. }
      rewrite C, firstn_all. unfold over in Y3. rewrite <- Y3. exact Kc.
Qed.
End V.

Lemma shown_of w0 rows : t_kind (w_tab w0) <> Consistent -> t_ok (w_tab w0) (fun _ => true) rows ->
  forall seen, vshown w0 rows 0 seen -> shown (w_tab w0) (length rows) seen.
Proof.
  intros Nc K seen [L H]. split; [lia|]. intros k w1 E. destruct (H k w1 E) as (cur & (F & Kc & Lc) & Sk). cbn [Nat.add] in Sk.
  split; [rewrite (t_len_ok _ _ _ Kc); auto|]. intros j Hj.
  destruct (nth_error_lt_Some rows j) as [r Hr]; [lia|].
  assert (N1 : t_kind (w_tab w1) <> Consistent) by (rewrite (frame_kind _ _ F); auto).
  rewrite (t_get_row_ok _ _ _ K j r), (t_get_row_ok _ _ _ Kc j r); auto; try (eapply t_not_deleted; eauto).
  assert (Q : nth_error (skipn k cur) (j - k) = nth_error (skipn k rows) (j - k)) by congruence.
  rewrite !nth_error_skipn in Q. replace (k + (j - k)) with j in Q by lia. congruence.
Qed.

Lemma finds_of t rows : t_kind t <> Consistent -> t_ok t (fun _ => true) rows -> finds_right t.
Proof.
  intros Nc K k b v Hk. pose proof (cols_len_eq _ _ _ K) as L. pose proof (nth_error_Some_lt _ _ _ Hk) as Lk.
  destruct (nth_error_lt_Some (t_cols t) k) as [c Ek]; [congruence|]. pose proof (ok_cols _ _ _ K) as CO.
  destruct (cols_nth _ _ _ _ _ _ _ _ CO Ek Hk) as [W D].
  unfold t_find. rewrite Ek, (c_find_ok _ _ _ _ _ W). eexists. split; [reflexivity|].
  split; [apply ss_filter, seq_ss|]. intro i.
  pose proof (cols_ok_row_length _ _ _ _ _ CO) as RL. rewrite Forall_forall in RL.
  rewrite filter_In, in_seq, D, map_length, !andb_true_iff, Nat.ltb_lt, val_at_iff, nth_error_map. split.
  - intros (Li & (Lm & _) & V). split; auto. destruct (nth_error rows i) as [r|] eqn:Hr; [|discriminate].
    exists r. split; [apply (t_get_row_ok _ _ _ K); auto; eapply t_not_deleted; eauto|].
    simpl in V. inv V. apply nth_error_nth'. rewrite (RL r) by (eapply nth_error_In; eauto). auto.
  - intros (Lm & r & G & V). apply (t_get_row_inv _ _ _ K) in G. destruct G as [Hr Dl].
    pose proof (nth_error_Some_lt _ _ _ Hr) as Li. split; [lia|]. split; [split; auto|].
    rewrite Hr. simpl. f_equal. apply nth_error_nth. auto.
Qed.
Lemma visit_interrupted pr umax sch w its A (f : A -> wlock -> nat -> A * uaction) s rows w' :
  reachable pr umax sch (Locked w its) -> s_kind sch <> Consistent ->
  holds (w_tab w) rows -> length rows <= s_imax sch ->
  (forall s w i s' rm add stop, f s w i = (s', UContinue rm add stop) -> Forall (row_ty (s_cols sch)) add) ->
  u_visit pr no_panics f s w = (w', panic PUser) ->
  exists seen, shown (w_tab w) (length rows) seen /\ cut_short (answers f s 0 seen) /\
    holds (w_tab w') (left_over rows (answers f s 0 seen)) /\ finds_right (w_tab w').
Proof.
  intros R N H L T U. destruct (reachable_rows _ _ _ _ _ R N H) as (E & Nk & K). simpl in *.
  assert (Ei : t_imax (w_tab w) = s_imax sch) by (unfold t_imax; congruence).
  destruct (u_visit_cut pr w rows Nk) with (f := f) (s := s) (w' := w') as (seen & S1 & S2 & F & K'); auto; [lia|rewrite E; exact T|].
  exists seen. split; [apply shown_of; auto|]. split; auto.
  assert (Nk' : t_kind (w_tab w') <> Consistent) by (rewrite (frame_kind _ _ F); auto).
  split; [eapply holds_of; eauto|eapply finds_of; eauto].
Qed.

(** ** retain *)
Definition conv (o : option bool) : uaction := match o with Some b => UContinue (negb b) [] false | None => UPanic end.
Lemma answers_conv {A} (f : A -> wlock -> nat -> A * option bool) seen : forall s i,
  answers (fun s w i => let p := f s w i in (fst p, conv (snd p))) s i seen = map conv (answers f s i seen).
Proof. induction seen as [|w seen IH]; intros s i; cbn; [auto|]. rewrite IH. auto. Qed.
Lemma answers_length {A B} (f : A -> wlock -> nat -> A * B) seen : forall s i, length (answers f s i seen) = length seen.
Proof. induction seen as [|w seen IH]; intros s i; cbn; auto. Qed.
Lemma asked_kept bs : forall rows, length bs <= length rows ->
  asked_for rows (map conv (map Some bs ++ [None])) = map fst (filter snd (combine rows bs)).
Proof.
  induction bs as [|b bs IH]; intros [|r rows] L; cbn in *; try lia; auto. rewrite IH by lia. destruct b; reflexivity.
Qed.
Lemma cut_conv l : cut_short (map conv l) -> exists bs, l = map Some bs ++ [None].
Proof.
  unfold cut_short. induction l as [|o l IH]; intros [F H]; cbn in H; [destruct H as [H|[_ H]]; discriminate|].
  destruct l as [|o2 l].
  - destruct o as [b|]; [cbn in H; destruct H as [H|[_ H]]; discriminate|]. exists []. reflexivity.
  - change (removelast (map conv (o :: o2 :: l))) with (conv o :: removelast (map conv (o2 :: l))) in F. inv F.
    destruct o as [b|]; [|contradiction]. destruct IH as [bs E].
    + split; auto.
    + exists (b :: bs). cbn. rewrite E. reflexivity.
Qed.
Lemma kept_length {A} (bs : list bool) : forall rows : list A, length (map fst (filter snd (combine rows bs))) <= length bs.
Proof. induction bs as [|b bs IH]; intros [|r rows]; cbn; try lia. destruct b; cbn; specialize (IH rows); lia. Qed.
Lemma kept_In {A} (bs : list bool) : forall (rows : list A) i r, nth_error rows i = Some r -> nth_error bs i = Some true ->
  In r (map fst (filter snd (combine rows bs))).
Proof.
  induction bs as [|b bs IH]; intros [|x rows] [|i] r H H2; cbn in *; try discriminate.
  - inv H. inv H2. cbn. auto.
  - specialize (IH _ _ _ H H2). destruct b; cbn; auto.
Qed.
Lemma retain_interrupted pr umax sch w its A (f : A -> wlock -> nat -> A * option bool) s rows w' :
  reachable pr umax sch (Locked w its) -> s_kind sch <> Consistent ->
  holds (w_tab w) rows -> length rows <= s_imax sch ->
  u_retain pr no_panics f s w = (w', panic PUser) ->
  exists seen bs, shown (w_tab w) (length rows) seen /\ answers f s 0 seen = map Some bs ++ [None] /\
    let kept := map fst (filter snd (combine rows bs)) in
    holds (w_tab w') (kept ++ skipn (length kept) rows) /\ finds_right (w_tab w') /\
    forall i r, nth_error rows i = Some r -> nth_error bs i <> Some false -> In r (kept ++ skipn (length kept) rows).
Proof.
  intros R N H L U. unfold u_retain in U.
  destruct (visit_interrupted pr umax sch w its A (fun s w i => let p := f s w i in (fst p, conv (snd p))) s rows w') as (seen & S1 & S2 & S3 & S4); auto.
  { intros s0 w0 i s' rm add stop E. cbn in E. destruct (snd (f s0 w0 i)) as [b|]; cbn in E; inv E. constructor. }
  rewrite answers_conv in S2, S3. destruct (cut_conv _ S2) as [bs Eb]. exists seen, bs. split; auto. split; auto. cbn zeta.
  assert (Lb : length bs < length rows).
  { destruct S1 as [S1 _]. rewrite <- (answers_length f seen s 0), Eb, app_length, map_length in S1. cbn in S1. lia. }
  rewrite Eb in S3. unfold left_over in S3. rewrite asked_kept in S3 by lia.
  assert (La : last (map conv (map Some bs ++ [None])) UBreak = UPanic) by (rewrite map_app; apply last_last).
  rewrite La, map_length, app_length, map_length in S3. cbn [length] in S3. rewrite Nat.add_sub in S3.
  pose proof (kept_length bs rows) as Kl. rewrite Nat.min_r, firstn_all in S3 by lia. split; [exact S3|]. split; [exact S4|].
  intros i r Hr Hb. apply in_or_app. destruct (nth_error bs i) as [[]|] eqn:Ei; [left; eapply kept_In; eauto|contradiction|].
  right. apply nth_error_None in Ei. apply (nth_error_In _ (i - length (map fst (filter snd (combine rows bs))))). rewrite nth_error_skipn, Nat.add_comm, Nat.sub_add by lia. auto.
Qed.
