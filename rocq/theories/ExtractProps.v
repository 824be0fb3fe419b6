From Coq Require Import List Arith Bool Lia Sorting.Sorted Sorting.Permutation.
From Verif Require Import Base BaseFacts Names Column ColumnFacts RowRange RowRangeFacts Table Visit SortedTab BagTab
  TableSpec TableFacts Hist HistFacts TableProps Events Cascade CascadeSpec CascadeFacts CascadeProps
  Extract ExtractSpec ExtractFacts RestoreFacts.
Import ListNotations.

Lemma Forall2_len {A B} (R : A -> B -> Prop) l m : Forall2 R l m -> length l = length m.
Proof. induction 1; simpl; auto. Qed.
Lemma Forall2_nth {A B} (R : A -> B -> Prop) l m : Forall2 R l m -> forall n x y, nth_error l n = Some x -> nth_error m n = Some y -> R x y.
Proof.
  induction 1; intros n a b Ha Hb; destruct n; simpl in *; try discriminate; [congruence|eauto].
Qed.
Lemma Forall2_map_l {A B C} (R : B -> C -> Prop) (f : A -> B) l : forall m, Forall2 (fun x y => R (f x) y) l m -> Forall2 R (map f l) m.
Proof. induction l; intros m H; inv H; simpl; constructor; auto. Qed.

Section P.
Variables (pr : profile) (umax : nat) (heads : nat -> header) (foreign : nat -> list (nat * nat)) (order : nat -> row -> row -> comparison).

(** ** C41 *)
Lemma row_of_unique t i r r' : row_of t i r -> row_of t i r' -> r = r'.
Proof. clear.
  intros [L H] [L' H']. apply list_ext. intro k. destruct (nth_error r k) as [v|] eqn:E.
  - apply H in E. destruct (nth_error r' k) as [v'|] eqn:E'; [apply H' in E'; congruence|]. apply nth_error_None in E'.
    unfold t_read in E. destruct (nth_error (t_cols t) k) eqn:Ec; [|discriminate]. apply nth_error_Some_lt in Ec. lia.
  - destruct (nth_error r' k) eqn:E'; auto. apply nth_error_None in E. apply nth_error_Some_lt in E'. lia.
Qed.

Lemma extract_spec head t sch sel e : reachable pr umax sch (Free t) ->
  extract_selection pr head t sel = Ok e ->
  exists live rs rows, t_ok t live rs /\ t_sch t = sch /\ ex_head e = head /\
    map c_into_iter (ex_data e) = columns_of (length (s_cols sch)) rows /\
    Forall2 (row_of t) (ex_sel e) rows /\ Forall (row_ty (s_cols sch)) rows /\ length (ex_sel e) = length rows /\
    ex_sel e = match sel with SAll => filter (t_contains t) (seq 0 (t_len t)) | SThese l => l end.
Proof.
  intros R H. destruct (reachable_tg _ _ _ _ R) as (E & live & rs & K & _). cbn [st_tab] in *.
  destruct (extract_ok pr head t live rs K sel e H) as (A1 & A2 & A3 & A4).
  exists live, rs, (at_ids rs (ex_sel e)). rewrite <- E in *. split; auto. split; auto. split; auto. split; auto.
  split; [|split; [apply (at_ids_ty t live rs K); auto|split; [unfold at_ids; rewrite map_length; auto|auto]]].
  unfold at_ids. clear - K A3. induction A3; simpl; constructor; auto. apply (row_of_nth t live rs K). auto.
Qed.

Lemma linked_put rank u p t t' : linked pr umax rank u -> nth_error (u_tabs u) p = Some t -> t_kind t <> Sorted ->
  t_sch t' = t_sch t -> sane pr umax (t_sch t) (Free t') -> t_len t' <= t_imax t' -> linked pr umax rank (u_put u p t').
Proof.
  intros [L1 L2] Ht Ks Es S Le. split.
  - intros q c k key Htr. destruct (L1 q c k key Htr) as (A & t0 & b & E0 & S0 & Le0 & Hb & Hk). split; auto.
    destruct (Nat.eq_dec c p) as [->|N].
    + rewrite Ht in E0. inv E0. exists t', b. cbn. rewrite nth_error_upd_eq by (eapply nth_error_Some_lt; eauto).
      rewrite Es. split; auto. split; auto. split; auto. split; auto. destruct key; [destruct Hk; congruence|].
      unfold t_kind in *. rewrite Es. auto.
    + exists t0, b. cbn. rewrite nth_error_upd_ne by auto. auto.
  - intros q t0 E0 K0. cbn in E0. destruct (Nat.eq_dec q p) as [->|N].
    + rewrite nth_error_upd_eq in E0 by (eapply nth_error_Some_lt; eauto). inv E0. unfold u_trackers; cbn. fold (u_trackers u p).
      apply (L2 p t Ht). unfold t_kind in *. congruence.
    + rewrite nth_error_upd_ne in E0 by auto. apply (L2 q t0 E0 K0).
Qed.

Lemma restore_new rank fuel x p e ev sch live rows f :
  sane pr umax sch (Free (t_new sch)) -> s_kind sch <> Sorted ->
  nth_error (u_tabs (xu_u x)) p = Some (t_new sch) -> nth_error (xu_fl x) p = Some f -> fs_leaked f = 0 -> foreign p = [] ->
  handled_by_nothing (xu_u x) ev -> linked pr umax rank (xu_u x) -> rank p < fuel ->
  map c_into_iter (ex_data e) = columns_of (length (s_cols sch)) rows -> Forall (row_ty (s_cols sch)) rows ->
  length (ex_sel e) = length rows -> ex_head e = heads p -> length rows <= s_imax sch -> t_ok (t_new sch) live [] ->
  exists x', restore pr umax heads foreign order fuel x [] p e ev = Ok (x', None).
Proof.
  intros S Ks Ht Ef Lk Fo HN Lin Rk Ed T L Eh Le K.
  unfold restore. cbn [can_write forallb lock_ok bind]. unfold u_get. rewrite Ht. cbn [bind]. unfold restore_extract. rewrite Eh.
  assert (Ev : validate (heads p) (heads p) = Ok None).
  { destruct (validate_spec (heads p) (heads p)) as [[X _]|[[_ [X _]]|[_ [X _]]]]; [congruence|congruence|lia]. }
  rewrite Ev. cbn [bind]. rewrite Fo. cbn [forallb lock_ok bind].
  assert (Lr : Forall (fun r => length r = length (s_cols sch)) rows).
  { eapply Forall_impl; [|exact T]. intros r Hr. apply row_ty_length. auto. }
  rewrite (merge_extract_loop pr foreign order _ _ _ (w_new (t_new sch)) _ _ rows Ks Ed Lr L).
  set (nt := match u_trackers (xu_u x) p with [] => true | _ => false end).
  destruct (push_loop_total foreign (xu_fl x) p nt rows (ex_sel e) (w_new (t_new sch)) [] live [] K T L Fo eq_refl) as [[w' rm'] E'].
  { cbn. unfold t_imax. cbn. lia. }
  rewrite E'. cbn [bind fst snd].
  destruct (push_loop foreign (xu_fl x) p nt rows (ex_sel e) (w_new (t_new sch)) [] w' rm' live [] K T L E') as (live' & rs' & news & rows' & A1 & A2 & A3 & A4 & A5 & A6 & A7 & A8 & A9 & A10 & A11).
  destruct (push_loop_sane foreign (xu_fl x) p nt pr umax sch rows (ex_sel e) (w_new (t_new sch)) [] w' rm') as (B1 & B2 & B3); auto.
  { eapply sane_step with (o := OLock); [exact S|exact I|intro X; discriminate X|]. unfold step. cbn. destruct (s_kind sch); reflexivity. }
  destruct (sel_empty (w_changes w')) eqn:Ee.
  - unfold w_drop. rewrite Ee, andb_false_r. cbn [bind]. eauto.
  - unfold xu_flush. rewrite Ef. cbn [bind]. rewrite Lk. cbn [Nat.eqb lock_ok bind].
    apply sane_quiet_close in B1; auto.
    assert (Le' : t_len (w_tab w') <= t_imax (w_tab w')).
    { rewrite (t_len_ok _ _ _ A1). destruct (A11 eq_refl) as [_ ->]. cbn [app]. rewrite <- (Forall2_len _ _ _ A3). unfold t_imax. rewrite B2. auto. }
    pose proof (linked_put rank (xu_u x) p _ (w_tab w') Lin Ht Ks) as Lp. cbn in Lp. specialize (Lp B2 B1 Le').
    destruct (flush_quiet pr umax rank (u_put (xu_u x) p (w_tab w')) ev Lp) with (fuel := fuel) (p := p) (w := w') as (u' & E1 & _); auto.
    + destruct HN as [-> _]. reflexivity.
    + apply HN.
    + cbn. apply nth_error_upd_eq. eapply nth_error_Some_lt; eauto.
    + apply HN.
    + rewrite B3. apply andb_false_r.
    + assert (E2 : flush pr umax fuel (xu_u x) [] p w' ev = Ok u').
      { rewrite <- E1. unfold flush, flush_with. rewrite Ee.
        replace (u_put (u_put (xu_u x) p (w_tab w')) p (w_tab w')) with (u_put (xu_u x) p (w_tab w')); auto.
        unfold u_put. cbn. f_equal. symmetry. apply upd_same. apply nth_error_upd_eq. eapply nth_error_Some_lt; eauto. }
      rewrite E2. eexists. reflexivity.
Qed.

Lemma extract_restore rank fuel t sel e x p ev f :
  reachable pr umax (t_sch t) (Free t) -> t_kind t <> Sorted ->
  extract_selection pr (heads p) t sel = Ok e -> length (ex_sel e) <= t_imax t ->
  foreign p = [] -> nth_error (u_tabs (xu_u x)) p = Some (t_new (t_sch t)) ->
  nth_error (xu_fl x) p = Some f -> fs_leaked f = 0 ->
  handled_by_nothing (xu_u x) ev -> linked pr umax rank (xu_u x) -> rank p < fuel ->
  exists x' t' rows, restore pr umax heads foreign order fuel x [] p e ev = Ok (x', None) /\
    nth_error (u_tabs (xu_u x')) p = Some t' /\ only_changes x x' p /\ holds t' rows /\ Forall2 (row_of t) (ex_sel e) rows.
Proof.
  intros R Ks H Le Fo Ht Ef Lk HN Lin Rk.
  destruct (extract_spec _ _ _ _ _ R H) as (live & rs & rows & K & _ & Eh & Ed & F & T & L & _).
  pose proof R as [Nc _].
  assert (K0 : t_ok (t_new (t_sch t)) live []) by (apply t_new_ok; auto).
  destruct (restore_new rank fuel x p e ev (t_sch t) live rows f) as [x' E]; auto.
  { apply sane_new; auto. }
  { rewrite <- L. exact Le. }
  destruct (restore_ok pr umax heads foreign order fuel x [] p e ev x' None _ live [] _ rows Ht K0 Ks HN Ed T eq_refl L Eh E)
    as (t' & news & rows' & _ & U1 & _ & _ & A3 & _ & _ & _ & _ & A9 & _).
  destruct (A9 eq_refl) as (live' & K' & F').
  assert (Er : rows' = rows).
  { clear - A3 Fo. induction A3; auto. f_equal; auto. unfold update_row in H. rewrite Fo in H. cbn in H. congruence. }
  subst rows'. cbn [app] in K'. exists x', t', rows. split; auto. split; [|split; [|split; auto]].
  - rewrite U1. apply nth_error_upd_eq. eapply nth_error_Some_lt; eauto.
  - intros q Nq. rewrite U1. apply nth_error_upd_ne. auto.
  - split; [apply (t_len_ok _ _ _ K')|]. intros i r Hr. apply (t_get_row_ok _ _ _ K' _ _ Hr).
    rewrite (t_deleted_iff _ _ _ K'), F'. reflexivity.
Qed.

(** What is selected, and when extraction succeeds. *)
Lemma extract_selects head t sel e : reachable pr umax (t_sch t) (Free t) ->
  extract_selection pr head t sel = Ok e ->
  ex_sel e = match sel with SAll => filter (t_contains t) (seq 0 (t_len t)) | SThese l => l end.
Proof. clear heads foreign order. intros R H. destruct (extract_spec _ _ _ _ _ R H) as (live & rs & rows & X). tauto. Qed.
Lemma extract_succeeds head t sel : reachable pr umax (t_sch t) (Free t) ->
  match sel with SAll => t_len t <= t_imax t | SThese l => Forall (fun i => i < t_len t) l /\ length l <= S (t_imax t) end ->
  exists e, extract_selection pr head t sel = Ok e.
Proof.
  intros R H. destruct (reachable_tg _ _ _ _ R) as (E & live & rs & K & _). cbn [st_tab] in *.
  apply (extract_total pr head t live rs K). rewrite (t_len_ok _ _ _ K) in H. exact H.
Qed.
Lemma row_of_get t i r : reachable pr umax (t_sch t) (Free t) -> t_get_row t i = Ok r -> row_of t i r.
Proof.
  intros R H. destruct (reachable_tg _ _ _ _ R) as (E & live & rs & K & _). cbn [st_tab] in *.
  apply (t_get_row_inv _ _ _ K) in H. destruct H as [H _].
  rewrite <- (nth_error_nth _ _ [] H). apply (row_of_nth t live rs K). eapply nth_error_Some_lt; eauto.
Qed.

(** ** C42 *)
Lemma update_row_spec fl p r r' : NoDup (map fst (foreign p)) -> update_row foreign fl p r = Ok r' ->
  same_but_foreign (foreign p) r r' /\
  forall k q, In (k, q) (foreign p) -> exists old new f, nth_error r k = Some (VRow old) /\ nth_error fl q = Some f /\
    fs_lookup f old = Some new /\ nth_error r' k = Some (VRow new).
Proof.
  unfold update_row. generalize (foreign p). intro l. revert r. induction l as [|[k q] l IH]; intros r ND H; cbn [fold_res] in H.
  - inv H. split; [split; auto|]. intros k q [].
  - cbn in ND. inversion ND as [|? ? N1 N2]; subst. bindn H r1 H1. unfold update_col in H1. cbn [fst snd] in H1.
    destruct (nth_error r k) as [[| |old]|] eqn:E; try discriminate.
    destruct (nth_error fl q) as [f|] eqn:Ef; [|discriminate]. destruct (fs_lookup f old) as [new|] eqn:Ew; [|discriminate]. inv H1.
    destruct (IH _ N2 H) as [[A1 A2] A3]. rewrite upd_length in A1.
    assert (Nk : ~ is_foreign l k).
    { intros [q' X]. apply N1. apply in_map_iff. exists (k, q'). auto. }
    split; [split; auto|].
    + intros k' N'. rewrite A2.
      * apply nth_error_upd_ne. intro; subst. apply N'. exists q. left; auto.
      * intros [q' X]. apply N'. exists q'. right; auto.
    + intros k' q' [X|X].
      * inv X. exists old, new, f. split; auto. split; auto. split; auto. rewrite A2 by auto. apply nth_error_upd_eq. eapply nth_error_Some_lt; eauto.
      * destruct (A3 _ _ X) as (old' & new' & f' & B1 & B2 & B3 & B4). exists old', new', f'. split; auto.
        rewrite nth_error_upd_ne in B1; auto. intro; subst. apply N1. apply in_map_iff. exists (k, q'). auto.
Qed.

(** Whatever is restored, only its table changes, and only its remapping. *)
Lemma restore_frame fuel x h p e ev x' er : handled_by_nothing (xu_u x) ev ->
  restore pr umax heads foreign order fuel x h p e ev = Ok (x', er) ->
  only_changes x x' p /\ u_trk (xu_u x') = u_trk (xu_u x) /\ u_hdl (xu_u x') = u_hdl (xu_u x) /\
  forall q, q <> p -> nth_error (xu_fl x') q = nth_error (xu_fl x) q.
Proof.
  intros HN H. unfold restore in H. bindn H l1 Hl. bindn H t Ht. unfold restore_extract in H. bindn H v Hv. destruct v as [er'|].
  - bindn H t' Ht'. inv H. cbn. split; auto. intros q Nq. cbn. apply nth_error_upd_ne. auto.
  - bindn H l2 Hl2. bindn H s Hs. destruct (sel_empty (w_changes (fst s))).
    + bindn H t' Ht'. inv H. cbn. split; auto. intros q Nq. cbn. apply nth_error_upd_ne. auto.
    + bindn H f Hf. bindn H l3 Hl3. bindn H u Hu. inv H. destruct (flush_null _ _ _ _ _ _ _ _ _ HN Hu) as (U1 & U2 & U3).
      split; [|split; auto; split; auto].
      * intros q Nq. cbn. rewrite U1. apply nth_error_upd_ne. auto.
      * intros q Nq. cbn. apply nth_error_upd_ne. auto.
Qed.

(** Restores of several tables, one after another. *)
Fixpoint restores (fuel : nat) (x : xuni) (l : list (nat * extraction * event)) : res xuni :=
  match l with
  | [] => Ok x
  | (q, e, ev) :: l => let* y := restore pr umax heads foreign order fuel x [] q e ev in restores fuel (fst y) l
  end.
Lemma restores_frame fuel p l : forall x x', Forall (fun y => handled_by_nothing (xu_u x) (snd y) /\ fst (fst y) <> p) l ->
  restores fuel x l = Ok x' ->
  nth_error (u_tabs (xu_u x')) p = nth_error (u_tabs (xu_u x)) p /\ nth_error (xu_fl x') p = nth_error (xu_fl x) p /\
  u_trk (xu_u x') = u_trk (xu_u x) /\ u_hdl (xu_u x') = u_hdl (xu_u x).
Proof.
  induction l as [|[[q e] ev] l IH]; intros x x' F H; cbn [restores] in H; [inv H; auto|].
  bindn H y Hy. destruct y as [x1 er]. cbn [fst] in H. inversion F as [|? ? [F1 F2] F3]; subst. cbn [fst snd] in *.
  destruct (restore_frame _ _ _ _ _ _ _ _ F1 Hy) as (A1 & A2 & A3 & A4).
  destruct (IH x1 x') as (B1 & B2 & B3 & B4); auto.
  - eapply Forall_impl; [|exact F3]. unfold handled_by_nothing. rewrite A3. auto.
  - rewrite B1, B2, B3, B4, A2, A3, A4, A1 by auto. auto.
Qed.

Section Family.
Variables (fuel : nat) (x : xuni) (p c : nat) (tp tc dp dc : table) (sp sc : select) (ep ec : extraction) (evp evc : event)
  (f : fstate) (x1 x2 : xuni) (erp : option verror) (others : list (nat * extraction * event)).
Hypothesis Npc : p <> c.
Hypothesis Rp : reachable pr umax (t_sch tp) (Free tp).
Hypothesis Rc : reachable pr umax (t_sch tc) (Free tc).
Hypothesis Rdp : reachable pr umax (t_sch tp) (Free dp).
Hypothesis Rdc : reachable pr umax (t_sch tc) (Free dc).
Hypothesis Kp : t_kind tp = Consistent.
Hypothesis Kc : t_kind tc <> Sorted.
Hypothesis Xp : extract_selection pr (heads p) tp sp = Ok ep.
Hypothesis Xc : extract_selection pr (heads c) tc sc = Ok ec.
Hypothesis Np : ex_sel ep <> [].
Hypothesis Dp : nth_error (u_tabs (xu_u x)) p = Some dp.
Hypothesis Dc : nth_error (u_tabs (xu_u x)) c = Some dc.
Hypothesis Tr : u_trackers (xu_u x) p <> [].
Hypothesis Ef : nth_error (xu_fl x) p = Some f.
Hypothesis Id : fs_ident f = false.
Hypothesis Hp : handled_by_nothing (xu_u x) evp.
Hypothesis Hc : handled_by_nothing (xu_u x) evc.
Hypothesis Ho : Forall (fun y => handled_by_nothing (xu_u x) (snd y) /\ fst (fst y) <> p /\ fst (fst y) <> c) others.
Hypothesis NDp : NoDup (map fst (foreign p)).
Hypothesis NDc : NoDup (map fst (foreign c)).
Hypothesis E1 : restore pr umax heads foreign order fuel x [] p ep evp = Ok (x1, erp).
Hypothesis E2 : restores fuel x1 others = Ok x2.

Lemma parent_restored : exists tp' f',
  nth_error (u_tabs (xu_u x2)) p = Some tp' /\ keeps dp tp' /\ nth_error (xu_fl x2) p = Some f' /\
  handled_by_nothing (xu_u x2) evc /\ nth_error (u_tabs (xu_u x2)) c = Some dc /\
  (forall a b, fs_lookup f' a = Some b -> In a (ex_sel ep) /\ same_contents (foreign p) tp tp' a b).
Proof.
  destruct (extract_spec _ _ _ _ _ Rp Xp) as (live & rs & rows & K & _ & Eh & Ed & F & T & L & _).
  destruct (reachable_tg _ _ _ _ Rdp) as (Es & lived & rsd & Kd & _). cbn [st_tab] in *.
  assert (Ks : t_kind dp <> Sorted) by (unfold t_kind in *; congruence).
  destruct (restore_ok pr umax heads foreign order fuel x [] p ep evp x1 erp dp lived rsd _ rows Dp Kd Ks Hp Ed)
    as (t' & news & rows' & _ & U1 & U2 & U3 & A3 & A4 & A5 & A6 & A7 & _ & _ & A10); auto; try (rewrite Es; auto; fail).
  destruct A10 as (f0 & Ef0 & _ & Efl); [unfold t_kind in *; congruence|intro X; subst rows; destruct (ex_sel ep); [auto|discriminate L]|].
  rewrite Ef in Ef0. inv Ef0. 
  assert (Ho1 : forall q, q = p \/ q = c -> Forall (fun y => handled_by_nothing (xu_u x1) (snd y) /\ fst (fst y) <> q) others).
  { intros q Hq. eapply Forall_impl; [|exact Ho]. unfold handled_by_nothing. rewrite U3. intros y Hy. destruct Hq; subst; tauto. }
  destruct (restores_frame fuel p others x1 x2 (Ho1 p (or_introl eq_refl)) E2) as (B1 & B2 & B3 & B4).
  destruct (restores_frame fuel c others x1 x2 (Ho1 c (or_intror eq_refl)) E2) as (C1 & C2 & _ & _).
  exists t', (set_remapping f0 (combine (ex_sel ep) news)). split; [|split; [|split; [|split; [|split]]]].
  - rewrite B1, U1. apply nth_error_upd_eq. eapply nth_error_Some_lt; eauto.
  - intros i r Hr. apply (A7 i); auto. intro X. rewrite Forall_forall in A5. apply A5 in X.
    assert (Y : t_contains dp i = true) by (apply (contains_get _ _ _ Kd); eauto). congruence.
  - rewrite B2, Efl. rewrite nth_error_upd_eq by (eapply nth_error_Some_lt; eauto). destruct (u_trackers (xu_u x) p); [congruence|auto].
  - unfold handled_by_nothing. rewrite B4, U3. exact Hc.
  - rewrite C1, U1. rewrite nth_error_upd_ne; auto.
  - intros a b Hab. unfold fs_lookup, set_remapping in Hab. rewrite Id in Hab. cbn [fs_ident fs_remap] in Hab.
    apply hm_extend in Hab. destruct Hab as [Hab|Hab]; [|discriminate].
    apply In_nth_error in Hab. destruct Hab as [n Hn].
    assert (Hn' : nth_error (ex_sel ep) n = Some a /\ nth_error news n = Some b).
    { clear - Hn. revert n news Hn. generalize (ex_sel ep). intro l. induction l as [|y l IH]; intros n news Hn; cbn in Hn; [destruct n; discriminate|].
      destruct news; [destruct n; discriminate|]. destruct n; cbn in *; [inv Hn; auto|]. apply IH; auto. }
    destruct Hn' as [H1 H2]. split; [eapply nth_error_In; eauto|].
    destruct (nth_error_lt_Some rows n) as [ra Ra]; [rewrite <- L; eapply nth_error_Some_lt; eauto|].
    destruct (nth_error_lt_Some rows' n) as [rb Rb].
    { rewrite <- (Forall2_len _ _ _ A6). eapply nth_error_Some_lt; eauto. }
    exists ra, rb. split; [exact (Forall2_nth _ _ _ F _ _ _ H1 Ra)|]. split; [exact (Forall2_nth _ _ _ A6 _ _ _ H2 Rb)|].
    apply (update_row_spec (xu_fl x) p ra rb NDp). exact (Forall2_nth _ _ _ A3 _ _ _ Ra Rb).
Qed.

Lemma child_restored x3 erc : restore pr umax heads foreign order fuel x2 [] c ec evc = Ok (x3, erc) ->
  exists tp' tc' news, nth_error (u_tabs (xu_u x3)) p = Some tp' /\ nth_error (u_tabs (xu_u x3)) c = Some tc' /\
    keeps dp tp' /\ keeps dc tc' /\ NoDup news /\ Forall (fun i => t_contains dc i = false) news /\
    Forall2 (fun j i => exists r r', row_of tc j r /\ t_get_row tc' i = Ok r' /\ same_but_foreign (foreign c) r r' /\
       forall k, In (k, p) (foreign c) -> exists a b, nth_error r k = Some (VRow a) /\ nth_error r' k = Some (VRow b) /\
         same_contents (foreign p) tp tp' a b) (ex_sel ec) news.
Proof.
  intro E3. destruct parent_restored as (tp' & f' & P1 & P2 & P3 & P4 & P5 & P6).
  destruct (extract_spec _ _ _ _ _ Rc Xc) as (live & rs & rows & K & _ & Eh & Ed & F & T & L & _).
  destruct (reachable_tg _ _ _ _ Rdc) as (Es & lived & rsd & Kd & _). cbn [st_tab] in *.
  assert (Ks : t_kind dc <> Sorted) by (unfold t_kind in *; congruence).
  destruct (restore_ok pr umax heads foreign order fuel x2 [] c ec evc x3 erc dc lived rsd _ rows P5 Kd Ks P4 Ed)
    as (t' & news & rows' & _ & U1 & U2 & U3 & A3 & A4 & A5 & A6 & A7 & _ & _ & _); auto; try (rewrite Es; auto; fail).
  exists tp', t', news. split; [|split; [|split; [|split; [|split; [|split]]]]]; auto.
  - rewrite U1. rewrite nth_error_upd_ne; auto.
  - rewrite U1. apply nth_error_upd_eq. eapply nth_error_Some_lt; eauto.
  - intros i r Hr. apply (A7 i); auto. intro X. rewrite Forall_forall in A5. apply A5 in X.
    assert (Y : t_contains dc i = true) by (apply (contains_get _ _ _ Kd); eauto). congruence.
  - clear - F A3 A6 P3 P6 NDc. revert news rows' A3 A6. induction F as [|j r ids rows Hj F IH]; intros news rows' A3 A6.
    + inv A3. inv A6. constructor.
    + inversion A3 as [|? r' ? rows'' Hr A3']; subst. inversion A6 as [|i ? news' ? Hi A6']; subst. constructor; [|eapply IH; eauto].
      destruct (update_row_spec _ _ _ _ NDc Hr) as [S1 S2]. exists r, r'. split; auto. split; auto. split; auto.
      intros k Hk. destruct (S2 _ _ Hk) as (a & b & f0 & B1 & B2 & B3 & B4). exists a, b. split; auto. split; auto.
      rewrite P3 in B2. inv B2. apply P6 in B3. tauto.
Qed.

(** A key that refers to a row that was not saved: nothing is restored. *)
Lemma missing_parent j r k a : In j (ex_sel ec) -> row_of tc j r -> In (k, p) (foreign c) -> nth_error r k = Some (VRow a) ->
  ~ In a (ex_sel ep) -> forall y, restore pr umax heads foreign order fuel x2 [] c ec evc <> Ok y.
Proof.
  intros Hj Hr Hk Ha Na [x3 erc] E3. destruct parent_restored as (tp' & f' & P1 & P2 & P3 & P4 & P5 & P6).
  destruct (extract_spec _ _ _ _ _ Rc Xc) as (live & rs & rows & K & _ & Eh & Ed & F & T & L & _).
  destruct (reachable_tg _ _ _ _ Rdc) as (Es & lived & rsd & Kd & _). cbn [st_tab] in *.
  assert (Ks : t_kind dc <> Sorted) by (unfold t_kind in *; congruence).
  destruct (restore_ok pr umax heads foreign order fuel x2 [] c ec evc x3 erc dc lived rsd _ rows P5 Kd Ks P4 Ed)
    as (t' & news & rows' & _ & U1 & U2 & U3 & A3 & A4 & A5 & A6 & A7 & _ & _ & _); auto; try (rewrite Es; auto; fail).
  apply In_nth_error in Hj. destruct Hj as [n Hn].
  destruct (nth_error_lt_Some rows n) as [r0 R0]; [rewrite <- L; eapply nth_error_Some_lt; eauto|].
  destruct (nth_error_lt_Some rows' n) as [r' R']; [rewrite <- (Forall2_len _ _ _ A3); eapply nth_error_Some_lt; eauto|].
  pose proof (Forall2_nth _ _ _ F _ _ _ Hn R0) as X. pose proof (row_of_unique _ _ _ _ Hr X). subst r0.
  destruct (update_row_spec _ _ _ _ NDc (Forall2_nth _ _ _ A3 _ _ _ R0 R')) as [_ S2].
  destruct (S2 _ _ Hk) as (a' & b & f0 & B1 & B2 & B3 & B4). rewrite Ha in B1. inv B1. rewrite P3 in B2. inv B2. apply P6 in B3. tauto.
Qed.
End Family.
End P.
Lemma row_of_saved pr umax t i r : reachable pr umax (t_sch t) (Free t) -> t_get_row t i = Ok r ->
  forall r', row_of t i r' <-> r' = r.
Proof.
  intros R H r'. pose proof (row_of_get pr umax t i r R H) as X. split; [|intros ->; exact X].
  intro Y. exact (row_of_unique t i r' r Y X).
Qed.

Lemma can_read_iff h p : can_read h p = true <-> ~ In (p, true) h.
Proof.
  unfold can_read. rewrite forallb_forall. split.
  - intros F I. apply F in I. cbn in I. rewrite Nat.eqb_refl in I. discriminate.
  - intros N [q w] I. cbn. destruct (Nat.eqb_spec q p) as [->|]; [|reflexivity]. destruct w; [contradiction|reflexivity].
Qed.
Lemma extract_locked pr umax heads x h p t sel : nth_error (u_tabs (xu_u x)) p = Some t -> reachable pr umax (t_sch t) (Free t) ->
  match sel with SAll => t_len t <= t_imax t | SThese l => Forall (fun i => i < t_len t) l /\ length l <= S (t_imax t) end ->
  (~ In (p, true) h -> exists e, extract pr heads x h p sel = Ok e /\ extract_selection pr (heads p) t sel = Ok e) /\
  (In (p, true) h -> extract pr heads x h p sel = Err EDeadlock).
Proof.
  intros N R Q. unfold extract, u_get. split; intro H.
  - apply can_read_iff in H. rewrite H, N. cbn [lock_ok bind]. destruct (extract_succeeds pr umax (heads p) t sel R Q) as [e E]. exists e. auto.
  - destruct (can_read h p) eqn:C; [apply can_read_iff in C; contradiction|reflexivity].
Qed.
