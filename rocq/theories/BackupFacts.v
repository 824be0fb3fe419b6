(** Proofs about copies of a whole database. *)
From Coq Require Import List Arith Bool Lia.
From Verif Require Import Base BaseFacts Column ColumnFacts Order RowRange RowRangeFacts Table TableFacts SortedTab BagTab TableSpec Hist HistFacts TableProps RowProps
  Events Cascade CascadeSpec CascadeFacts CascadeProps Extract ExtractSpec ExtractFacts RestoreFacts ExtractProps BackupSpec.
Import ListNotations.

(** ** New ids *)
Lemma nth_filter_seq (f : nat -> bool) n i : i < n -> f i = true ->
  nth_error (filter f (seq 0 n)) (length (filter f (seq 0 i))) = Some i.
Proof.
  intros L F. replace n with (i + S (n - S i)) by lia. rewrite seq_app, filter_app. cbn [seq filter plus]. rewrite F.
  rewrite nth_error_app2 by lia. rewrite Nat.sub_diag. reflexivity.
Qed.
Lemma filter_seq_inv (f : nat -> bool) n j i : nth_error (filter f (seq 0 n)) j = Some i -> f i = true /\ i < n /\ j = length (filter f (seq 0 i)).
Proof.
  intro H. pose proof (nth_error_In _ _ H) as I. apply filter_In in I. destruct I as [I F]. apply in_seq in I.
  split; [exact F|]. split; [lia|]. pose proof (nth_filter_seq f n i ltac:(lia) F) as Q.
  apply (proj1 (NoDup_nth_error (filter f (seq 0 n)))); [apply NoDup_filter, seq_NoDup|eapply nth_error_Some_lt; eauto|congruence].
Qed.
Lemma new_id_mono t i j : t_contains t i = true -> i < j -> new_id t i < new_id t j.
Proof.
  intros H L. unfold new_id. replace j with (i + S (j - S i)) by lia. rewrite seq_app, filter_app, app_length. cbn [seq filter plus]. rewrite H.
  cbn [length]. lia.
Qed.

Lemma forallb_filter_all {A} (f : A -> bool) l : (forall x, In x l -> f x = true) -> filter f l = l.
Proof. induction l as [|y l IH]; intro H; cbn; [reflexivity|]. rewrite (H y (or_introl eq_refl)), IH; [reflexivity|]. intros x I. apply H. right. exact I. Qed.
Lemma new_id_same t i : no_gaps t -> i < t_len t -> new_id t i = i.
Proof.
  intros N L. unfold new_id. rewrite (forallb_filter_all (t_contains t) (seq 0 i)).
  - apply seq_length.
  - intros j I. apply in_seq in I. apply N. lia.
Qed.

(** ** Pushing into an empty table *)
Section Loop.
Variables (foreign : nat -> list (nat * nat)) (fl : list fstate) (p : nat) (nt : bool).
Lemma push_loop_new rows : forall rows' ids w rm live rs, t_ok (w_tab w) live rs -> t_free (w_tab w) = [] ->
  Forall (row_ty (s_cols (t_sch (w_tab w)))) rows -> length ids = length rows ->
  Forall2 (fun r r' => update_row foreign fl p r = Ok r') rows rows' -> length rs + length rows <= S (t_imax (w_tab w)) ->
  exists w' live', fold_res (push_turn foreign fl p nt) (combine ids rows) (w, rm) =
      Ok (w', if nt then rm else rm ++ combine ids (seq (length rs) (length rows))) /\
    t_ok (w_tab w') live' (rs ++ rows') /\ t_free (w_tab w') = [] /\ t_sch (w_tab w') = t_sch (w_tab w).
Proof.
  induction rows as [|r rows IH]; intros rows' [|i ids] w rm live rs K F T L U Le; cbn [length] in *; try lia.
  - inversion U; subst. exists w, live. cbn. rewrite !app_nil_r. split; [destruct nt; reflexivity|]. auto.
  - inversion U as [|? r' ? rows1 Hr U1]; subst. inversion T as [|? ? T1 T2]; subst.
    cbn [combine fold_res]. unfold push_turn at 1. cbn [fst snd]. rewrite Hr. cbn [bind].
    destruct (update_row_ty _ _ _ _ _ _ T1 Hr) as [T1' _].
    pose proof (push_exact w live rs r' K T1') as P. rewrite F in P. destruct (Nat.leb_spec (length rs) (t_imax (w_tab w))); [|lia].
    destruct P as (w1 & -> & K1 & F1 & S1). cbn [bind fst snd].
    destruct (IH rows1 ids w1 (if nt then rm else rm ++ [(i, length rs)]) _ _ K1 F1) as (w' & live' & E & K' & F' & S'); auto.
    + rewrite S1. exact T2.
    + rewrite app_length. cbn. unfold t_imax in *. rewrite S1. lia.
    + exists w', live'. rewrite app_length in E. cbn [length] in E. split; [|split; [rewrite <- app_assoc in K'; exact K'|split; [exact F'|congruence]]].
      rewrite E. f_equal. f_equal. destruct nt; [reflexivity|]. rewrite <- app_assoc. cbn [app combine seq]. rewrite Nat.add_1_r. reflexivity.
Qed.
End Loop.

Lemma update_row_ok foreign fl p r : (forall k q, In (k, q) (foreign p) -> exists old f new,
    nth_error r k = Some (VRow old) /\ nth_error fl q = Some f /\ fs_lookup f old = Some new) ->
  NoDup (map fst (foreign p)) -> exists r', update_row foreign fl p r = Ok r'.
Proof.
  unfold update_row. generalize (foreign p). intro l. revert r. induction l as [|[k q] l IH]; intros r H ND; cbn [fold_res]; [eauto|].
  cbn in ND. inversion ND as [|? ? N1 N2]; subst.
  destruct (H k q (or_introl eq_refl)) as (old & f & new & E1 & E2 & E3). unfold update_col at 1. cbn [fst snd]. rewrite E1, E2, E3. cbn [bind].
  apply IH; auto. intros k' q' I. destruct (H k' q' (or_intror I)) as (old' & f' & new' & A1 & A2 & A3). exists old', f', new'. split; auto.
  rewrite nth_error_upd_ne; auto. intro; subst. apply N1. apply in_map_iff. exists (k, q'). auto.
Qed.

Section B.
Variables (pr : profile) (umax : nat) (heads : nat -> header) (foreign : nat -> list (nat * nat)) (order : nat -> row -> row -> comparison).

Lemma restore_fresh rank fuel x p e ev sch rows rows' f :
  s_cols sch <> [] -> s_kind sch <> Sorted ->
  nth_error (u_tabs (xu_u x)) p = Some (t_new sch) -> nth_error (xu_fl x) p = Some f -> fs_leaked f = 0 -> (forall k, ~ In (k, p) (foreign p)) ->
  handled_by_nothing (xu_u x) ev -> linked pr umax rank (xu_u x) -> rank p < fuel ->
  map c_into_iter (ex_data e) = columns_of (length (s_cols sch)) rows -> Forall (row_ty (s_cols sch)) rows ->
  length (ex_sel e) = length rows -> ex_head e = heads p -> length rows <= s_imax sch ->
  Forall2 (fun r r' => update_row foreign (xu_fl x) p r = Ok r') rows rows' ->
  exists x' t' live, restore pr umax heads foreign order fuel x [] p e ev = Ok (x', None) /\
    u_tabs (xu_u x') = upd (u_tabs (xu_u x)) p t' /\ u_trk (xu_u x') = u_trk (xu_u x) /\ u_hdl (xu_u x') = u_hdl (xu_u x) /\
    t_ok t' live rows' /\ t_free t' = [] /\ t_sch t' = sch /\ linked pr umax rank (xu_u x') /\
    (forall q, q <> p -> nth_error (xu_fl x') q = nth_error (xu_fl x) q) /\
    (u_trackers (xu_u x) p <> [] -> rows <> [] ->
       nth_error (xu_fl x') p = Some (set_remapping f (combine (ex_sel e) (seq 0 (length rows))))).
Proof.
  intros Nc Ks Ht Ef Lk Fo HN Lin Rk Ed T L Eh Le U.
  pose proof (nth_error_Some_lt _ _ _ Ht) as Lp.
  unfold restore. cbn [can_write forallb lock_ok bind]. unfold u_get. rewrite Ht. cbn [bind]. unfold restore_extract. rewrite Eh.
  assert (Ev : validate (heads p) (heads p) = Ok None).
  { destruct (validate_spec (heads p) (heads p)) as [[X _]|[[_ [X _]]|[_ [X _]]]]; [congruence|congruence|lia]. }
  rewrite Ev. cbn [bind].
  assert (Lo : forallb (fun kq => can_read [(p, true)] (snd kq)) (foreign p) = true).
  { apply forallb_forall. intros [k q] I. cbn. destruct (Nat.eqb_spec p q) as [->|N]; [exfalso; eapply Fo; eauto|reflexivity]. }
  rewrite Lo. cbn [lock_ok bind].
  assert (Lr : Forall (fun r => length r = length (s_cols sch)) rows).
  { eapply Forall_impl; [|exact T]. intros r Hr. apply row_ty_length. auto. }
  rewrite (merge_extract_loop pr foreign order _ _ _ (w_new (t_new sch)) _ _ rows Ks Ed Lr L).
  set (nt := match u_trackers (xu_u x) p with [] => true | _ => false end).
  assert (K : t_ok (t_new sch) (fun _ => true) []) by (apply t_new_ok; auto).
  destruct (push_loop_new foreign (xu_fl x) p nt rows rows' (ex_sel e) (w_new (t_new sch)) [] (fun _ => true) [] K eq_refl T L U) as (w' & live' & E' & K' & F' & S').
  { cbn. unfold t_imax. cbn. lia. }
  cbn [length app] in E', K'. rewrite E'. cbn [bind fst snd].
  destruct (push_loop foreign (xu_fl x) p nt rows (ex_sel e) (w_new (t_new sch)) [] w' _ _ [] K T L E') as (_ & _ & _ & _ & _ & _ & _ & _ & _ & _ & _ & _ & A9 & A10 & _).
  destruct (push_loop_sane foreign (xu_fl x) p nt pr umax sch rows (ex_sel e) (w_new (t_new sch)) [] w' (if nt then [] else combine (ex_sel e) (seq 0 (length rows)))) as (B1 & B2 & B3); auto.
  { eapply sane_step with (o := OLock); [apply sane_new; exact Nc|exact I|intro X; discriminate X|]. unfold step. cbn. destruct (s_kind sch); reflexivity. }
  assert (Le' : t_len (w_tab w') <= t_imax (w_tab w')).
  { rewrite (t_len_ok _ _ _ K'). rewrite <- (Forall2_len _ _ _ U). unfold t_imax. rewrite B2. auto. }
  pose proof (sane_quiet_close _ _ _ _ B1 B3) as B1'.
  pose proof (linked_put pr umax rank (xu_u x) p _ (w_tab w') Lin Ht Ks) as Lpu. cbn in Lpu. specialize (Lpu B2 B1' Le').
  assert (Tc : u_trackers (xu_u x) p <> [] -> s_kind sch = Consistent).
  { intro N. destruct Lin as [_ L2]. specialize (L2 p (t_new sch) Ht). unfold t_kind in L2. cbn in L2.
    destruct (s_kind sch); auto; exfalso; apply N; apply L2; discriminate. }
  destruct (sel_empty (w_changes w')) eqn:Ee.
  - unfold w_drop. rewrite Ee, andb_false_r. cbn [bind]. eexists. exists (w_tab w'), live'. split; [reflexivity|]. cbn.
    split; [reflexivity|]. split; [reflexivity|]. split; [reflexivity|]. split; [exact K'|]. split; [exact F'|]. split; [exact S'|].
    split; [exact Lpu|]. split; [reflexivity|]. intros N1 N2. exfalso. discriminate (A9 (Tc N1) (or_introl N2)).
  - unfold xu_flush. rewrite Ef. cbn [bind]. rewrite Lk. cbn [Nat.eqb lock_ok bind].
    destruct (flush_quiet pr umax rank (u_put (xu_u x) p (w_tab w')) ev Lpu) with (fuel := fuel) (p := p) (w := w') as (u' & E1 & V1 & V2 & V3); auto.
    + destruct HN as [-> _]. reflexivity.
    + apply HN.
    + cbn. apply nth_error_upd_eq. auto.
    + apply HN.
    + rewrite B3. apply andb_false_r.
    + assert (E2 : flush pr umax fuel (xu_u x) [] p w' ev = Ok u').
      { rewrite <- E1. unfold flush, flush_with. rewrite Ee.
        replace (u_put (u_put (xu_u x) p (w_tab w')) p (w_tab w')) with (u_put (xu_u x) p (w_tab w')); auto.
        unfold u_put. cbn. f_equal. symmetry. apply upd_same. apply nth_error_upd_eq. auto. }
      rewrite E2. cbn [bind]. eexists. exists (w_tab w'), live'. split; [reflexivity|]. cbn [xu_u xu_fl]. cbn in V1, V2, V3.
      split; [exact V1|]. split; [exact V2|]. split; [exact V3|]. split; [exact K'|]. split; [exact F'|]. split; [exact S'|].
      split.
      { destruct Lpu as [L1 L2]. unfold linked, dependent_ok, u_trackers in *. cbn [u_tabs u_trk u_put] in *. rewrite V1, V2. split; assumption. }
      split; [intros q Nq; apply nth_error_upd_ne; auto|]. intros N1 N2. rewrite nth_error_upd_eq by (eapply nth_error_Some_lt; eauto).
      unfold nt. destruct (u_trackers (xu_u x) p); [congruence|reflexivity].
Qed.

(** ** One table after another *)
Section All.
Variables (rank : nat -> nat) (fuel : nat) (tabs : list table) (es : nat -> extraction) (x0 : xuni) (ev : event).
Hypothesis Src : forall p t, nth_error tabs p = Some t ->
  reachable pr umax (t_sch t) (Free t) /\ t_kind t <> Sorted /\ NoDup (map fst (foreign p)) /\
  extract_selection pr (heads p) t SAll = Ok (es p) /\ rank p < fuel.
Hypothesis Wh : whole foreign tabs.
Hypothesis Trk : forall c k q, In (k, q) (foreign c) -> u_trackers (xu_u x0) q <> [].
Hypothesis HN : handled_by_nothing (xu_u x0) ev.

Record halfway (done : list nat) (x : xuni) : Prop := {
  hw_trk : u_trk (xu_u x) = u_trk (xu_u x0);
  hw_hdl : u_hdl (xu_u x) = u_hdl (xu_u x0);
  hw_lin : linked pr umax rank (xu_u x);
  hw_len : length (u_tabs (xu_u x)) = length tabs;
  hw_done : forall p t, In p done -> nth_error tabs p = Some t ->
    (exists t', nth_error (u_tabs (xu_u x)) p = Some t' /\ t_sch t' = t_sch t /\ copy_of (foreign p) tabs t t') /\
    (u_trackers (xu_u x0) p <> [] -> forall a, t_contains t a = true ->
       exists f, nth_error (xu_fl x) p = Some f /\ fs_lookup f a = Some (new_id t a));
  hw_todo : forall p t, ~ In p done -> nth_error tabs p = Some t ->
    nth_error (u_tabs (xu_u x)) p = Some (t_new (t_sch t)) /\ remaps x p t }.

Lemma halfway_step done x p t : halfway done x -> ~ In p done -> nth_error tabs p = Some t ->
  (forall k q, In (k, q) (foreign p) -> In q done) ->
  exists x', restore pr umax heads foreign order fuel x [] p (es p) ev = Ok (x', None) /\ halfway (p :: done) x'.
Proof.
  intros H Np Et Dn. destruct (Src p t Et) as (R & Ks & ND & Ex & Rk).
  destruct (hw_todo _ _ H p t Np Et) as (Dt & f & Ef & Fi & Lk).
  destruct (extract_spec pr umax _ _ _ _ _ R Ex) as (live & rs & rows & K & _ & Eh & Ed & F & T & L & Es).
  destruct (reachable_tg _ _ _ _ R) as (_ & Nc). pose proof R as [Ncols _].
  assert (Len : length rows <= t_imax t).
  { pose proof Ex as Ex'. unfold extract_selection in Ex'. bindn Ex' ids Hi. apply (extract_ids_all_inv pr t live rs K) in Hi.
    rewrite <- L, Es. pose proof (filter_le (t_contains t) (seq 0 (t_len t))) as X. rewrite seq_length, (t_len_ok _ _ _ K) in X.
    rewrite (t_len_ok _ _ _ K). lia. }
  (* every row saved is a row of the table *)
  assert (Get : forall j r, nth_error rows j = Some r -> exists i, t_get_row t i = Ok r /\ j = new_id t i /\ nth_error (ex_sel (es p)) j = Some i).
  { intros j r Hj. destruct (nth_error_lt_Some (ex_sel (es p)) j) as [i Hi]; [rewrite L; eapply nth_error_Some_lt; eauto|].
    exists i. pose proof Hi as Hi'. rewrite Es in Hi'. apply filter_seq_inv in Hi'. destruct Hi' as (C & _ & Ej).
    apply (contains_get _ _ _ K) in C. destruct C as [r' G]. pose proof (row_of_get pr umax t i r' R G) as Rw.
    pose proof (Forall2_nth _ _ _ F _ _ _ Hi Hj) as Rw'. rewrite (row_of_unique _ _ _ _ Rw Rw') in G. auto. }
  assert (Up : exists rows', Forall2 (fun r r' => update_row foreign (xu_fl x) p r = Ok r') rows rows').
  { assert (A : forall r, In r rows -> exists r', update_row foreign (xu_fl x) p r = Ok r').
    { intros r Ir. apply In_nth_error in Ir. destruct Ir as [j Hj]. destruct (Get j r Hj) as (i & G & _).
      apply update_row_ok; [|exact ND]. intros k q I. destruct (Wh p t k q i r Et I G) as (tq & a & Eq & Er & C).
      destruct (hw_done _ _ H q tq (Dn _ _ I) Eq) as [_ Lo]. destruct (Lo (Trk _ _ _ I) a C) as (fq & Efq & Lq).
      exists a, fq, (new_id tq a). auto. }
    clear - A. induction rows as [|r rows IH]; [exists []; constructor|]. destruct (A r) as [r' Hr]; [left; auto|].
    destruct IH as [rows' Hs]; [intros; apply A; right; auto|]. exists (r' :: rows'). constructor; auto. }
  destruct Up as [rows' U].
  destruct (restore_fresh rank fuel x p (es p) ev (t_sch t) rows rows' f) as (x' & t' & live' & E & U1 & U2 & U3 & K' & F' & S' & Lin' & Fl1 & Fl2); auto.
  { intros k I. exact (Np (Dn _ _ I)). }
  { unfold handled_by_nothing in *. rewrite (hw_hdl _ _ H). exact HN. }
  { apply H. }
  exists x'. split; [exact E|].
  assert (Get' : forall j r', t_get_row t' j = Ok r' <-> nth_error rows' j = Some r').
  { intros j r'. rewrite (t_get_row_inv _ _ _ K'). rewrite (t_deleted_iff _ _ _ K'), F'. cbn. tauto. }
  assert (Cp : copy_of (foreign p) tabs t t').
  { split.
    - intros i r G. assert (C : t_contains t i = true) by (apply (contains_get _ _ _ K); eauto).
      assert (Li : i < t_len t) by (unfold t_contains in C; apply andb_true_iff in C; destruct C as [C _]; apply Nat.ltb_lt in C; exact C).
      pose proof (nth_filter_seq _ _ _ Li C) as Hi. rewrite <- Es in Hi. fold (new_id t i) in Hi.
      destruct (nth_error_lt_Some rows (new_id t i)) as [r1 Hr]; [rewrite <- L; eapply nth_error_Some_lt; eauto|].
      destruct (Get _ _ Hr) as (i' & G' & _ & Hi'). rewrite Hi in Hi'. injection Hi' as <-. rewrite G in G'. injection G' as <-.
      destruct (nth_error_lt_Some rows' (new_id t i)) as [r' Hr']; [rewrite <- (Forall2_len _ _ _ U); eapply nth_error_Some_lt; eauto|].
      exists r'. split; [apply Get'; exact Hr'|].
      destruct (update_row_spec foreign (xu_fl x) p r r' ND (Forall2_nth _ _ _ U _ _ _ Hr Hr')) as [S1 S2]. split; [exact S1|].
      intros k q I. destruct (S2 _ _ I) as (a & b & fq & A1 & A2 & A3 & A4). destruct (Wh p t k q i r Et I G) as (tq & a' & Eq & Er & Ca).
      rewrite A1 in Er. injection Er as <-. destruct (hw_done _ _ H q tq (Dn _ _ I) Eq) as [_ Lo]. destruct (Lo (Trk _ _ _ I) a Ca) as (fq' & Efq & Lq).
      rewrite A2 in Efq. injection Efq as <-. rewrite A3 in Lq. injection Lq as ->. exists tq, a. auto.
    - intros j r' G. apply Get' in G. destruct (nth_error_lt_Some rows j) as [r Hr]; [rewrite (Forall2_len _ _ _ U); eapply nth_error_Some_lt; eauto|].
      destruct (Get _ _ Hr) as (i & Gi & Ej & _). eauto. }
  split.
  - rewrite U2. apply H.
  - rewrite U3. apply H.
  - exact Lin'.
  - rewrite U1, upd_length. apply H.
  - intros q tq [<-|I] Eq.
    + rewrite Et in Eq. injection Eq as <-. split.
      * exists t'. split; [rewrite U1; apply nth_error_upd_eq; eapply nth_error_Some_lt; eauto|]. split; [exact S'|exact Cp].
      * intros N a Ca.
        assert (La : a < t_len t) by (unfold t_contains in Ca; apply andb_true_iff in Ca; destruct Ca as [C _]; apply Nat.ltb_lt in C; exact C).
        pose proof (nth_filter_seq _ _ _ La Ca) as Ha. rewrite <- Es in Ha. fold (new_id t a) in Ha.
        assert (Nr : rows <> []) by (intro; subst rows; destruct (ex_sel (es p)); [destruct (new_id t a); discriminate|discriminate L]).
        assert (N' : u_trackers (xu_u x) p <> []) by (unfold u_trackers in *; rewrite (hw_trk _ _ H); exact N).
        eexists. split; [apply Fl2; assumption|]. unfold fs_lookup, set_remapping. destruct (fs_ident f) eqn:Fi'.
        { rewrite Fi'. rewrite new_id_same; auto. }
        cbn [fs_ident fs_remap].
        destruct (hm_get (fold_left (fun m p => hm_insert (fst p) (snd p) m) (combine (ex_sel (es p)) (seq 0 (length rows))) []) a) as [v|] eqn:Ev.
        -- apply hm_extend in Ev. destruct Ev as [Ev|Ev]; [|discriminate]. f_equal. apply In_nth_error in Ev. destruct Ev as [n Hn].
           assert (Hn' : nth_error (ex_sel (es p)) n = Some a /\ nth_error (seq 0 (length rows)) n = Some v).
           { clear - Hn. revert n Hn. generalize (ex_sel (es p)), (seq 0 (length rows)). intros l. induction l as [|y l IH]; intros news n Hn; cbn in Hn; [destruct n; discriminate|].
             destruct news; [destruct n; discriminate|]. destruct n; cbn in *; [injection Hn as -> ->; auto|]. apply IH; auto. }
           destruct Hn' as [H1 H2]. rewrite Es in H1. apply filter_seq_inv in H1. destruct H1 as (_ & _ & ->).
           pose proof (nth_error_Some_lt _ _ _ H2) as Ls. rewrite seq_length in Ls. rewrite nth_error_nth' with (d := 0) in H2 by (rewrite seq_length; exact Ls).
           injection H2 as <-. rewrite seq_nth by exact Ls. reflexivity.
        -- exfalso. eapply (hm_extend_some (combine (ex_sel (es p)) (seq 0 (length rows))) [] a); [left|exact Ev].
           pose proof (nth_error_Some_lt _ _ _ Ha) as Lh. exists (new_id t a). apply (nth_error_In _ (new_id t a)).
           clear - Ha L Lh. rewrite L in Lh.
           assert (G : forall (l : list nat) s n m, nth_error l n = Some a -> n < m -> nth_error (combine l (seq s m)) n = Some (a, s + n)).
           { induction l as [|y l IH]; intros s n m H1 H2; [destruct n; discriminate|]. destruct m as [|m]; [lia|]. destruct n as [|n]; cbn in *.
             - injection H1 as ->. rewrite Nat.add_0_r. reflexivity.
             - rewrite IH by (auto; lia). f_equal. f_equal. lia. }
           exact (G _ 0 _ _ Ha Lh).
    + assert (Nq : q <> p) by (intro; subst; tauto). destruct (hw_done _ _ H q tq I Eq) as [(tq' & A1 & A2 & A3) A4]. split.
      * exists tq'. rewrite U1, nth_error_upd_ne by auto. auto.
      * intros N a Ca. rewrite (Fl1 q Nq). apply A4; auto.
  - intros q tq I Eq. assert (Nq : q <> p) by (intro; subst; apply I; left; auto).
    destruct (hw_todo _ _ H q tq) as [A1 A2]; [intro; apply I; right; auto|exact Eq|].
    split; [rewrite U1, nth_error_upd_ne by auto; exact A1|unfold remaps; rewrite (Fl1 q Nq); exact A2].
Qed.

Lemma restores_all ps : forall done x, halfway done x -> NoDup ps -> (forall p, In p ps -> ~ In p done /\ p < length tabs) ->
  (forall before c after, ps = before ++ c :: after -> forall k q, In (k, q) (foreign c) -> In q before \/ In q done) ->
  exists x', restore_all pr umax heads foreign order fuel es ev ps x x' /\ halfway (rev ps ++ done) x'.
Proof.
  induction ps as [|p ps IH]; intros done x H ND I O; [exists x; split; [reflexivity|exact H]|].
  inversion ND as [|? ? N1 N2]; subst. destruct (I p (or_introl eq_refl)) as [Np Lp]. destruct (nth_error_lt_Some _ _ Lp) as [t Et].
  destruct (halfway_step done x p t H Np Et) as (x1 & E & H1).
  { intros k q Iq. destruct (O [] p ps eq_refl k q Iq) as [[]|Q]. exact Q. }
  destruct (IH (p :: done) x1 H1 N2) as (x' & E' & H').
  - intros q Iq. destruct (I q (or_intror Iq)) as [A1 A2]. split; [|exact A2]. intros [<-|Q]; tauto.
  - intros before c after -> k q Iq. destruct (O (p :: before) c after eq_refl k q Iq) as [[<-|Q]|Q]; [right; left; auto|left; auto|right; right; auto].
  - exists x'. split; [exists x1; split; assumption|]. cbn [rev]. rewrite <- app_assoc. exact H'.
Qed.
End All.

Lemma backup rank fuel tabs es x ev ps :
  (forall p t, nth_error tabs p = Some t -> reachable pr umax (t_sch t) (Free t) /\ t_kind t <> Sorted /\
     NoDup (map fst (foreign p)) /\ extract_selection pr (heads p) t SAll = Ok (es p) /\ rank p < fuel) ->
  whole foreign tabs -> NoDup ps -> (forall p, In p ps <-> p < length tabs) -> in_order foreign ps ->
  u_tabs (xu_u x) = map (fun t => t_new (t_sch t)) tabs ->
  (forall p t, nth_error tabs p = Some t -> remaps x p t) ->
  (forall c k q, In (k, q) (foreign c) -> u_trackers (xu_u x) q <> []) ->
  handled_by_nothing (xu_u x) ev -> linked pr umax rank (xu_u x) ->
  exists x', restore_all pr umax heads foreign order fuel es ev ps x x' /\ length (u_tabs (xu_u x')) = length tabs /\
    forall p t, nth_error tabs p = Some t -> exists t', nth_error (u_tabs (xu_u x')) p = Some t' /\ t_sch t' = t_sch t /\ copy_of (foreign p) tabs t t'.
Proof.
  intros Src Wh ND All O Tabs Fl Trk HN Lin.
  destruct (restores_all rank fuel tabs es x ev Src Wh Trk HN ps [] x) as (x' & E & H); auto.
  - split; auto; [rewrite Tabs, map_length; reflexivity|intros p t []|].
    intros p t _ Et. split; [rewrite Tabs; erewrite map_nth_error by exact Et; reflexivity|]. apply Fl. exact Et.
  - intros p I. split; [auto|apply All; exact I].
  - intros before c after E k q I. left. exact (O before c after E k q I).
  - exists x'. split; [exact E|]. split; [apply H|]. intros p t Et. rewrite app_nil_r in H.
    destruct H as [_ _ _ _ Hd _]. refine (proj1 (Hd p t _ Et)). apply in_rev. rewrite rev_involutive. apply All. eapply nth_error_Some_lt; eauto.
Qed.

(** ** The order matters *)
Lemma restore_all_cons fuel es ev p ps x x' : restore_all pr umax heads foreign order fuel es ev (p :: ps) x x' ->
  exists x1, restore pr umax heads foreign order fuel x [] p (es p) ev = Ok (x1, None) /\ restore_all pr umax heads foreign order fuel es ev ps x1 x'.
Proof. exact (fun H => H). Qed.
Lemma restore_all_frame fuel es ev ps : forall x x', handled_by_nothing (xu_u x) ev ->
  restore_all pr umax heads foreign order fuel es ev ps x x' -> handled_by_nothing (xu_u x') ev /\
  forall q, ~ In q ps -> nth_error (xu_fl x') q = nth_error (xu_fl x) q /\ nth_error (u_tabs (xu_u x')) q = nth_error (u_tabs (xu_u x)) q.
Proof.
  induction ps as [|p ps IH]; intros x x' HN H; [cbn in H; subst; auto|]. apply restore_all_cons in H. destruct H as (x1 & E & H).
  destruct (restore_frame pr umax heads foreign order _ _ _ _ _ _ _ _ HN E) as (Oc & _ & U3 & Fl).
  assert (HN1 : handled_by_nothing (xu_u x1) ev) by (unfold handled_by_nothing in *; rewrite U3; exact HN).
  destruct (IH _ _ HN1 H) as [A1 A2]. split; [exact A1|]. intros q N. destruct (A2 q) as [B1 B2]; [intro I; apply N; right; exact I|].
  assert (Nq : q <> p) by (intro; subst; apply N; left; reflexivity). rewrite B1, B2, (Fl q Nq), (Oc q Nq). auto.
Qed.
Lemma restore_all_app fuel es ev l1 l2 : forall x x', restore_all pr umax heads foreign order fuel es ev (l1 ++ l2) x x' ->
  exists x1, restore_all pr umax heads foreign order fuel es ev l1 x x1 /\ restore_all pr umax heads foreign order fuel es ev l2 x1 x'.
Proof.
  induction l1 as [|p l1 IH]; intros x x' H; [exists x; split; [reflexivity|exact H]|]. cbn [app] in H. apply restore_all_cons in H. destruct H as (x1 & E & H). destruct (IH _ _ H) as (x2 & A & B).
  exists x2. split; [exists x1; split; assumption|exact B].
Qed.

Lemma needs_order fuel tabs es x x' ev ps c q k t i r :
  (forall p t, nth_error tabs p = Some t -> reachable pr umax (t_sch t) (Free t) /\ t_kind t <> Sorted /\
     NoDup (map fst (foreign p)) /\ extract_selection pr (heads p) t SAll = Ok (es p)) ->
  u_tabs (xu_u x) = map (fun t => t_new (t_sch t)) tabs ->
  (exists f, nth_error (xu_fl x) q = Some f /\ fs_ident f = false /\ fs_remap f = []) -> handled_by_nothing (xu_u x) ev -> NoDup ps ->
  restore_all pr umax heads foreign order fuel es ev ps x x' ->
  nth_error tabs c = Some t -> In (k, q) (foreign c) -> t_get_row t i = Ok r ->
  forall before after, ps = before ++ c :: after -> In q before.
Proof.
  intros Src Tabs (f & Ef & Fi & Fr) HN NDp H Et Ik G before after ->. destruct (in_dec Nat.eq_dec q before) as [I|N]; [exact I|exfalso].
  destruct (restore_all_app _ _ _ _ _ _ _ H) as (x1 & H1 & H2). apply restore_all_cons in H2. destruct H2 as (x2 & E & _).
  destruct (restore_all_frame _ _ _ _ _ _ HN H1) as [HN1 Fr1].
  destruct (Fr1 q N) as [Ef1 _]. rewrite Ef in Ef1.
  assert (Nc : ~ In c before) by (intro I; apply NoDup_remove_2 in NDp; apply NDp, in_or_app; auto).
  destruct (Fr1 c Nc) as [_ Tc]. rewrite Tabs in Tc. rewrite (map_nth_error _ _ _ Et) in Tc.
  destruct (Src c t Et) as (R & Ks & ND & Ex).
  destruct (extract_spec pr umax _ _ _ _ _ R Ex) as (live & rs & rows & K & _ & Eh & Ed & F & T & L & Es). pose proof R as [Ncols _].
  assert (C : t_contains t i = true) by (apply (contains_get _ _ _ K); eauto).
  assert (Li : i < t_len t) by (unfold t_contains in C; apply andb_true_iff in C; destruct C as [C _]; apply Nat.ltb_lt in C; exact C).
  pose proof (nth_filter_seq _ _ _ Li C) as Hi. rewrite <- Es in Hi.
  destruct (restore_ok pr umax heads foreign order fuel x1 [] c (es c) ev x2 None (t_new (t_sch t)) (fun _ => true) [] (length (s_cols (t_sch t))) rows Tc)
    as (t' & news & rows' & _ & U1 & U2 & U3 & A3 & _); auto.
  { apply t_new_ok; auto. }
  destruct (nth_error_lt_Some rows _ ltac:(rewrite <- L; eapply nth_error_Some_lt; exact Hi)) as [r0 R0].
  destruct (nth_error_lt_Some rows' _ ltac:(rewrite <- (Forall2_len _ _ _ A3); eapply nth_error_Some_lt; exact R0)) as [r' R'].
  destruct (update_row_spec _ _ _ _ _ ND (Forall2_nth _ _ _ A3 _ _ _ R0 R')) as [_ S2].
  destruct (S2 _ _ Ik) as (a & b & f0 & B1 & B2 & B3 & B4). rewrite Ef1 in B2. injection B2 as <-.
  unfold fs_lookup in B3. rewrite Fi, Fr in B3. discriminate.
Qed.
End B.

Lemma self_deadlock pr umax heads foreign order fuel x p e ev k t :
  In (k, p) (foreign p) -> nth_error (u_tabs (xu_u x)) p = Some t -> ex_head e = heads p ->
  restore pr umax heads foreign order fuel x [] p e ev = Err EDeadlock.
Proof.
  intros I Et Eh. unfold restore. cbn [can_write forallb lock_ok bind]. unfold u_get. rewrite Et. cbn [bind]. unfold restore_extract. rewrite Eh.
  assert (Ev : validate (heads p) (heads p) = Ok None).
  { destruct (validate_spec (heads p) (heads p)) as [[X _]|[[_ [X _]]|[_ [X _]]]]; [congruence|congruence|lia]. }
  rewrite Ev. cbn [bind]. destruct (forallb (fun kq => can_read [(p, true)] (snd kq)) (foreign p)) eqn:F; [|reflexivity].
  rewrite forallb_forall in F. specialize (F _ I). cbn in F. rewrite Nat.eqb_refl in F. discriminate.
Qed.
Lemma new_id_inj t i j : t_contains t i = true -> t_contains t j = true -> new_id t i = new_id t j -> i = j.
Proof.
  intros A B E. destruct (Nat.lt_trichotomy i j) as [L|[L|L]]; [|exact L|].
  - pose proof (new_id_mono t i j A L). lia.
  - pose proof (new_id_mono t j i B L). lia.
Qed.
