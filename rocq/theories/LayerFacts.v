(** Proofs about programs with and without the tables that refer to the others. *)
From Coq Require Import List Arith Bool Lia.
From Verif Require Import Base BaseFacts Column Order RowRange Table SortedTab Events Cascade Hist Answers DbHist StableSpec StableFacts WatchSpec WatchFacts LayerSpec.
Import ListNotations.

(** If one succeeds, so does the other. *)
Definition ro {A B} (P : A -> B -> Prop) (x : res A) (y : res B) : Prop := forall a, x = Ok a -> exists b, y = Ok b /\ P a b.
Lemma ro_bind {A B C D} (P : A -> B -> Prop) (Q : C -> D -> Prop) x y f g : ro P x y -> (forall a b, P a b -> ro Q (f a) (g b)) -> ro Q (bind x f) (bind y g).
Proof. intros H K a E. destruct x as [a0|]; [|discriminate E]. cbn [bind] in E. destruct (H a0 eq_refl) as (b & -> & Hp). cbn [bind]. exact (K a0 b Hp a E). Qed.
Lemma ro_same {A C D} (Q : C -> D -> Prop) (x : res A) f g : (forall a, x = Ok a -> ro Q (f a) (g a)) -> ro Q (bind x f) (bind x g).
Proof. intro H. destruct x; cbn [bind]; [apply H; reflexivity|intros ? E; discriminate E]. Qed.
Lemma ro_ok {A B} (P : A -> B -> Prop) a b : P a b -> ro P (Ok a) (Ok b). Proof. intros H ? [= <-]. eauto. Qed.
Lemma ro_panic {A B} (P : A -> B -> Prop) c y : ro P (@panic A c) y. Proof. intros ? E. discriminate E. Qed.

Section W.
Variables (pr : profile) (umax : nat) (out : nat -> bool) (sure : nat -> Prop) (ms : nat -> list bool) (T T' : list (list tracker)) (L L' : list note).
(** [sure]: the tables that refer, which are consistent. *)
Record thinned : Prop := {
  th_num : length T' = length T;
  th_len : forall p, out p = false -> length (nth p T []) <= length (ms p);
  th_pick : forall p, out p = false -> nth p T' [] = pick (ms p) (nth p T []);
  th_gone : forall p i tr, out p = false -> nth_error (nth p T []) i = Some tr -> nth_error (ms p) i = Some false -> exists q k key, tr = TAuto q k key /\ out q = true /\ sure q;
  th_left : forall p i q k key, out p = false -> nth_error (nth p T []) i = Some (TAuto q k key) -> nth_error (ms p) i = Some true -> out q = false;
  th_out : forall p q k key, out p = true -> In (TAuto q k key) (nth p T []) -> out q = true;
  th_none : forall p i, out p = true -> nth i (ms p) false = false }.
Hypothesis Th : thinned.
Record R (u v : universe) : Prop := {
  r_trk : u_trk u = T;
  r_trk' : u_trk v = T';
  r_hdl : u_hdl v = u_hdl u;
  r_len : length (u_tabs v) = length (u_tabs u);
  r_num : length (u_tabs u) = length T;
  r_tabs : forall p, out p = false -> nth_error (u_tabs v) p = nth_error (u_tabs u) p;
  r_sure : forall q t, out q = true -> sure q -> nth_error (u_tabs u) q = Some t -> t_kind t = Consistent;
  r_log : exists n, u_log u = L ++ n /\ u_log v = L' ++ flat_map (heard ms) n }.
Lemma R_get u v p : R u v -> out p = false -> u_get v p = u_get u p. Proof. intros H O. unfold u_get. rewrite (r_tabs _ _ H p O). reflexivity. Qed.
Lemma R_put u v p t : R u v -> out p = false -> R (u_put u p t) (u_put v p t).
Proof.
  intros [A B C D Nu E F G] O. constructor; cbn; rewrite ?upd_length; auto.
  - intros q Oq. destruct (Nat.eq_dec q p) as [->|N]; [|rewrite !nth_error_upd_ne by congruence; auto].
    destruct (Nat.lt_ge_cases p (length (u_tabs u))) as [Lt|Ge]; [rewrite !nth_error_upd_eq by lia; reflexivity|]. rewrite !upd_oob by lia. auto.
  - intros q t0 Oq Sq. rewrite nth_error_upd_ne by congruence. eauto.
Qed.
(** Only the first changes. *)
Lemma R_side u v p t : R u v -> out p = true -> (sure p -> t_kind t = Consistent) -> R (u_put u p t) v.
Proof.
  intros [A B C D Nu E F G] O K. constructor; cbn; rewrite ?upd_length; auto.
  - intros q Oq. rewrite nth_error_upd_ne by congruence. auto.
  - intros q t0 Oq Sq. destruct (Nat.eq_dec q p) as [->|N]; [|rewrite nth_error_upd_ne by congruence; eauto].
    destruct (Nat.lt_ge_cases p (length (u_tabs u))) as [Lt|Ge]; [rewrite nth_error_upd_eq by lia; intros [= <-]; auto|]. rewrite upd_oob by lia. eauto.
Qed.
Lemma R_drop u v p i ev s : R u v -> nth i (ms p) false = false -> R (u_say u (Note p i ev s)) v.
Proof.
  intros [A B C D Nu E F (n & G & H)] N. constructor; cbn; auto. exists (n ++ [Note p i ev s]). rewrite G, H, app_assoc. split; [reflexivity|].
  rewrite flat_map_app. cbn [flat_map]. unfold heard at 3. cbn. rewrite N. rewrite !app_nil_r. reflexivity.
Qed.
Lemma R_say u v p i ev s : R u v -> nth i (ms p) false = true -> R (u_say u (Note p i ev s)) (u_say v (Note p (cnt (firstn i (ms p))) ev s)).
Proof.
  intros [A B C D Nu E F (n & G & H)] N. constructor; cbn; auto. exists (n ++ [Note p i ev s]). rewrite G, H, <- !app_assoc. split; [reflexivity|].
  rewrite flat_map_app. f_equal. f_equal. cbn [flat_map app]. unfold heard. cbn. rewrite N. reflexivity.
Qed.
Definition H2 (h h' : locks) : Prop := forall p, out p = false -> can_write h' p = can_write h p /\ can_read h' p = can_read h p.
Lemma H2_cons p b h h' : H2 h h' -> H2 ((p, b) :: h) ((p, b) :: h').
Proof. intros H q O. destruct (H q O) as [A B]. cbn. unfold can_write, can_read in *. rewrite A, B. auto. Qed.

Section Calls.
Variable call : universe -> locks -> nat -> event -> bool -> bool -> select -> res (universe * select).
Definition R2 (x y : universe * select) : Prop := R (fst x) (fst y) /\ snd x = snd y.
Hypothesis Call : forall u v h h' p ev a d s, R u v -> H2 h h' -> out p = false -> ro R2 (call u h p ev a d s) (call v h' p ev a d s).
Hypothesis Side : forall u v h p ev a d s q, R u v -> out p = true -> call u h p ev a d s = Ok q -> R (fst q) v.
Lemma flush_R u v h h' p w ev : R u v -> H2 h h' -> out p = false -> ro R (flush_with pr umax call u h p w ev) (flush_with pr umax call v h' p w ev).
Proof.
  intros H Hh O. unfold flush_with. destruct (sel_empty (w_changes w)).
  - apply ro_same. intros t _. apply ro_ok, R_put; auto.
  - eapply ro_bind; [apply Call; auto; apply R_put; auto|]. intros [u1 s] [v1 s'] [H1 E]. cbn [fst snd] in *. subst s'. destruct (_ && _); [|apply ro_ok, H1].
    destruct (Hh p O) as [-> _]. apply ro_same. intros _ _. rewrite (R_get _ _ p H1 O). apply ro_same. intros t _. apply ro_same. intros w1 _. apply ro_same. intros _ _.
    apply ro_same. intros t1 _. apply ro_ok, R_put; auto.
Qed.
Lemma flush_side u v h p w ev u' : R u v -> out p = true -> (sure p -> t_kind (w_tab w) = Consistent) -> flush_with pr umax call u h p w ev = Ok u' -> R u' v.
Proof.
  intros H O K E. unfold flush_with in E. destruct (sel_empty (w_changes w)).
  - bindn E t Et. injection E as <-. apply drop_same in Et. subst t. apply R_side; auto.
  - bindn E q Eqq. apply (Side _ v) in Eqq; [|apply R_side; auto|exact O]. destruct (_ && _); [|injection E as <-; exact Eqq].
    bindn E l0 El. bindn E t Et. bindn E w1 Ew. bindn E l1 El1. bindn E t1 Et1. injection E as <-. apply R_side; [exact Eqq|exact O|]. intro Sp.
    apply drop_same in Et1. subst t1. apply flush_apply_keep in Ew. rewrite (keep_kind _ _ Ew). apply get_nth in Et. exact (r_sure _ _ Eqq _ _ O Sp Et).
Qed.
Lemma live_R u v h h' p w ev : R u v -> H2 h h' -> out p = false ->
  ro (fun x y => R (fst x) (fst y) /\ snd x = snd y) (live_flush_with pr umax call u h p w ev) (live_flush_with pr umax call v h' p w ev).
Proof.
  intros H Hh O. unfold live_flush_with. destruct (sel_empty (w_changes w)).
  - apply ro_ok. split; [apply R_put; auto|reflexivity].
  - eapply ro_bind; [apply Call; [apply R_put; auto|apply H2_cons, Hh|exact O]|]. intros [u1 s] [v1 s'] [H1 E]. cbn [fst snd] in *. subst s'.
    rewrite (R_get _ _ p H1 O). apply ro_same. intros t _. apply ro_same. intros w1 _. apply ro_same. intros _ _. apply ro_ok. split; [apply R_put; auto|reflexivity].
Qed.
Lemma live_side u v h p w ev x : R u v -> out p = true -> (sure p -> t_kind (w_tab w) = Consistent) -> live_flush_with pr umax call u h p w ev = Ok x ->
  R (fst x) v /\ (sure p -> t_kind (w_tab (snd x)) = Consistent).
Proof.
  intros H O K E. unfold live_flush_with in E. destruct (sel_empty (w_changes w)).
  - injection E as <-. cbn. split; [apply R_side; auto|exact K].
  - bindn E q Eqq. apply (Side _ v) in Eqq; [|apply R_side; auto|exact O].
    bindn E t Et. bindn E w1 Ew. bindn E l1 El1. injection E as <-. cbn [fst snd w_tab].
    assert (K1 : sure p -> t_kind (w_tab w1) = Consistent).
    { intro Sp. apply flush_apply_keep in Ew. rewrite (keep_kind _ _ Ew). apply get_nth in Et. exact (r_sure _ _ Eqq _ _ O Sp Et). }
    split; [apply R_side; auto|exact K1].
Qed.
Lemma remove_R u v h h' c ev rows : R u v -> H2 h h' -> out c = false -> ro R (remove_rows_with pr umax call u h c ev rows) (remove_rows_with pr umax call v h' c ev rows).
Proof.
  intros H Hh O. unfold remove_rows_with. rewrite (R_get _ _ c H O). apply ro_same. intros t _. destruct (Hh c O) as [-> _].
  destruct (t_kind t); try apply ro_panic; apply ro_same; intros _ _; apply ro_same; intros w _; apply flush_R; auto.
Qed.
Lemma remove_side u v h c ev rows u' : R u v -> out c = true -> remove_rows_with pr umax call u h c ev rows = Ok u' -> R u' v.
Proof.
  intros H O E. unfold remove_rows_with in E. bindn E t Et. apply get_nth in Et. destruct (t_kind t) eqn:Kd; try discriminate E; bindn E l0 El; bindn E w Ew; (eapply flush_side; [exact H|exact O| |exact E]).
  - intros _. rewrite <- Kd. apply (keep_kind t). destruct rows as [|rows]; [injection Ew as <-; eapply keep_trans; [apply (clear_raw_keep (w_new t))|apply (clear_keep (clear_raw (w_new t)))]|].
    exact (raws_keep _ _ _ _ _ _ Ew).
  - intro Sp. rewrite (r_sure _ _ H _ _ O Sp Et) in Kd. discriminate Kd.
Qed.
Lemma auto_R hd u v h h' c k key ev rows : R u v -> H2 h h' -> out c = false ->
  ro R (auto_handle pr umax call hd u h c k key ev rows) (auto_handle pr umax call hd v h' c k key ev rows).
Proof.
  intros H Hh O. unfold auto_handle. destruct (Hh c O) as [_ Er]. rewrite Er. apply ro_same. intros _ _. rewrite (R_get _ _ c H O). apply ro_same. intros t _. apply ro_same. intros s _.
  unfold run_with. rewrite (R_get _ _ c H O). apply ro_same. intros t1 _.
  eapply ro_bind with (P := R); [|intros u1 v1 H1; rewrite Er; apply ro_same; intros _ _; eapply ro_bind; [apply Call; [exact H1|apply H2_cons, Hh|exact O]|]; intros x y [X _]; apply ro_ok, X].
  unfold handle_with. destruct hd; [apply remove_R; auto|apply ro_ok, H|apply ro_panic].
Qed.
Lemma auto_side hd u v h c k key ev rows u' : R u v -> out c = true -> auto_handle pr umax call hd u h c k key ev rows = Ok u' -> R u' v.
Proof.
  intros H O E. unfold auto_handle in E. bindn E l0 El. bindn E t Et. bindn E s Es. unfold run_with in E. bindn E t1 Et1. bindn E u1 Eu. bindn E l1 El1. bindn E q Eqq. injection E as <-.
  eapply Side; [|exact O|exact Eqq]. unfold handle_with in Eu. destruct hd; [eapply remove_side; eauto|injection Eu as <-; exact H|discriminate Eu].
Qed.
Definition R3 (x y : universe * select * bool) : Prop := R (fst (fst x)) (fst (fst y)) /\ snd (fst x) = snd (fst y) /\ snd x = snd y.
Lemma turn_R hd h h' p ev s s' i tr : R3 s s' -> H2 h h' -> nth i (ms p) false = true -> (forall q k key, tr = TAuto q k key -> out q = false) ->
  ro R3 (tracker_turn pr umax call hd h p ev s (i, tr)) (tracker_turn pr umax call hd h' p ev s' (cnt (firstn i (ms p)), tr)).
Proof.
  destruct s as [[u sel] b], s' as [[v sel'] b']. intros (H & E1 & E2) Hh N Tr. cbn [fst snd] in *. subst sel' b'. unfold tracker_turn. cbn [fst snd].
  destruct (tracker_considers tr ev); [|apply ro_ok; split; [exact H|split; reflexivity]].
  assert (Es : tracker_sorts v tr = tracker_sorts u tr) by (unfold tracker_sorts; destruct tr as [q k key|]; [rewrite (r_tabs _ _ H q (Tr _ _ _ eq_refl))|]; reflexivity). rewrite Es.
  set (sel1 := if negb b && tracker_sorts u tr then sel_sort sel else sel). pose proof (R_say u v p i ev sel1 H N) as H1.
  eapply ro_bind with (P := R); [destruct tr as [q k key|]; [apply auto_R; eauto|apply ro_ok, H1]|]. intros u1 v1 X. apply ro_ok. split; [exact X|split; reflexivity].
Qed.
Lemma turn_drop hd h p ev s s' i q k key s1 : R3 s s' -> nth i (ms p) false = false -> out q = true -> sure q ->
  tracker_turn pr umax call hd h p ev s (i, TAuto q k key) = Ok s1 -> R3 s1 s'.
Proof.
  destruct s as [[u sel] b], s' as [[v sel'] b']. intros (H & E1 & E2) N O Sq E. cbn [fst snd] in *. subst sel' b'. unfold tracker_turn in E. cbn [fst snd tracker_considers] in E.
  assert (Es : tracker_sorts u (TAuto q k key) = false).
  { unfold tracker_sorts. destruct (nth_error (u_tabs u) q) as [t|] eqn:Et; [|reflexivity]. rewrite (r_sure _ _ H _ _ O Sq Et). reflexivity. }
  rewrite Es, andb_false_r, orb_false_r in E. bindn E u1 Eu. injection E as <-. split; [|split; reflexivity]. cbn [fst snd]. eapply auto_side; [|exact O|exact Eu]. apply R_drop; auto.
Qed.
Lemma turn_side hd h p ev s v i tr s1 : R (fst (fst s)) v -> nth i (ms p) false = false -> (forall q k key, tr = TAuto q k key -> out q = true) ->
  tracker_turn pr umax call hd h p ev s (i, tr) = Ok s1 -> R (fst (fst s1)) v.
Proof.
  intros H N O E. unfold tracker_turn in E. cbn [fst snd] in E. destruct (tracker_considers tr ev); [|injection E as <-; exact H]. bindn E u1 Eu. injection E as <-. cbn [fst].
  destruct tr as [q k key|]; [|injection Eu as <-; apply R_drop; auto]. eapply auto_side; [|exact (O _ _ _ eq_refl)|exact Eu]. apply R_drop; auto.
Qed.
Lemma turns hd h h' p ev trs : out p = false -> H2 h h' -> forall m s s', R3 s s' -> m + length trs <= length (ms p) ->
  (forall i tr, nth_error trs i = Some tr -> nth_error (ms p) (m + i) = Some false -> exists q k key, tr = TAuto q k key /\ out q = true /\ sure q) ->
  (forall i q k key, nth_error trs i = Some (TAuto q k key) -> nth_error (ms p) (m + i) = Some true -> out q = false) ->
  let trs' := pick (skipn m (ms p)) trs in
  ro R3 (fold_res (tracker_turn pr umax call hd h p ev) (combine (seq m (length trs)) trs) s)
        (fold_res (tracker_turn pr umax call hd h' p ev) (combine (seq (cnt (firstn m (ms p))) (length trs')) trs') s').
Proof.
  intros O Hh. induction trs as [|tr trs IH]; intros m s s' H Ln Q Q2 trs'.
  - subst trs'. assert (E : pick (skipn m (ms p)) (@nil tracker) = []) by (destruct (skipn m (ms p)) as [|[] ?]; reflexivity). rewrite E. cbn. apply ro_ok, H.
  - cbn [length] in Ln. destruct (nth_error_lt_Some (ms p) m) as [b Eb]; [lia|]. pose proof (skipn_cons _ _ _ Eb) as Sk. pose proof (firstn_snoc _ _ _ Eb) as Fs.
    assert (Nb : nth m (ms p) false = b) by (apply nth_error_nth; exact Eb).
    assert (Q' : forall i tr0, nth_error trs i = Some tr0 -> nth_error (ms p) (S m + i) = Some false -> exists q k key, tr0 = TAuto q k key /\ out q = true /\ sure q).
    { intros i tr0 Hi Hm. apply (Q (S i) tr0 Hi). rewrite <- Hm. f_equal. lia. }
    assert (Q2' : forall i q k key, nth_error trs i = Some (TAuto q k key) -> nth_error (ms p) (S m + i) = Some true -> out q = false).
    { intros i q k key Hi Hm. apply (Q2 (S i) q k key Hi). rewrite <- Hm. f_equal. lia. }
    subst trs'. rewrite Sk. cbn [pick length seq combine fold_res]. destruct b.
    + cbn [length seq combine fold_res]. eapply ro_bind.
      { apply turn_R; [exact H|exact Hh|exact Nb|]. intros q k key ->. apply (Q2 0 q k key eq_refl). rewrite Nat.add_0_r. exact Eb. }
      intros s1 s1' H1. specialize (IH (S m) s1 s1' H1). cbv zeta in IH.
      replace (S (cnt (firstn m (ms p)))) with (cnt (firstn (S m) (ms p))) by (rewrite Fs; unfold cnt; rewrite filter_app, app_length; cbn; lia). apply IH; [lia|exact Q'|exact Q2'].
    + destruct (Q 0 tr eq_refl) as (q & k & key & -> & Oq & Sq); [rewrite Nat.add_0_r; exact Eb|]. intros x E. bindn E s1 E1. pose proof (turn_drop _ _ _ _ _ _ _ _ _ _ _ H Nb Oq Sq E1) as H1.
      specialize (IH (S m) s1 s' H1). cbv zeta in IH.
      replace (cnt (firstn m (ms p))) with (cnt (firstn (S m) (ms p))) by (rewrite Fs; unfold cnt; rewrite filter_app, app_length; cbn; lia). apply IH; [lia|exact Q'|exact Q2'|exact E].
Qed.
Lemma sides hd h p ev trs v : (forall i, nth i (ms p) false = false) -> (forall q k key, In (TAuto q k key) trs -> out q = true) -> forall m s s1,
  R (fst (fst s)) v -> fold_res (tracker_turn pr umax call hd h p ev) (combine (seq m (length trs)) trs) s = Ok s1 -> R (fst (fst s1)) v.
Proof.
  intros N. induction trs as [|tr trs IH]; intros O m s s1 H E; [cbn in E; injection E as <-; exact H|]. cbn [length seq combine fold_res] in E. bindn E s2 E2.
  eapply IH; [intros q k key I; eapply O; right; exact I| |exact E]. eapply turn_side; [exact H|apply N| |exact E2]. intros q k key ->. eapply O. left. reflexivity.
Qed.
End Calls.

Lemma do_flush_side fuel : forall u v h p ev a d s q, R u v -> out p = true -> do_flush pr umax fuel u h p ev a d s = Ok q -> R (fst q) v.
Proof.
  induction fuel as [|n IH]; intros u v h p ev a d s q H O E; [discriminate E|]. cbn [do_flush] in E. bindn E l0 El. bindn E hd0 Eh. bindn E s1 Es. injection E as <-.
  eapply (sides (do_flush pr umax n) IH hd0 h p ev); [intro i; apply (th_none Th); exact O| | |exact Es]; [|exact H].
  intros x k key I. unfold u_trackers in I. rewrite (r_trk _ _ H) in I. exact (th_out Th _ _ _ _ O I).
Qed.
Lemma do_flush_R fuel : forall u v h h' p ev a d s, R u v -> H2 h h' -> out p = false -> ro R2 (do_flush pr umax fuel u h p ev a d s) (do_flush pr umax fuel v h' p ev a d s).
Proof.
  induction fuel as [|n IH]; intros u v h h' p ev a d s H Hh O; [intros ? E; discriminate E|]. cbn [do_flush]. apply ro_same. intros _ _.
  rewrite (r_hdl _ _ H). apply ro_same. intros hd _.
  assert (Eu : u_trackers u p = nth p T []) by (unfold u_trackers; rewrite (r_trk _ _ H); reflexivity).
  assert (Ev : u_trackers v p = pick (ms p) (nth p T [])) by (unfold u_trackers; rewrite (r_trk' _ _ H); apply (th_pick Th); exact O).
  rewrite Eu, Ev. eapply ro_bind.
  - pose proof (turns (do_flush pr umax n) IH (do_flush_side n) hd h h' p ev (nth p T []) O Hh 0 (u, s, match s with SAll => true | _ => false end) (v, s, match s with SAll => true | _ => false end)) as X.
    cbv zeta in X. cbn [skipn firstn] in X. apply X; [split; [exact H|split; reflexivity]|apply (th_len Th); exact O| |].
    + intros i tr Hi Hm. exact (th_gone Th p i tr O Hi Hm).
    + intros i q k key Hi Hm. exact (th_left Th p i q k key O Hi Hm).
  - intros s1 s1' (X1 & X2 & _). apply ro_ok. split; [exact X1|exact X2].
Qed.

(** ** Calls *)
Record RD (d e : db) : Prop := { rd_u : R (d_u d) (d_u e); rd_len : length (d_l e) = length (d_l d); rd_l : forall p, out p = false -> d_lock e p = d_lock d p }.
Definition RA (x y : db * answer) : Prop := RD (fst x) (fst y) /\ snd y = snd x.
Lemma held_write d p : can_write (d_held d) p = match d_lock d p with Some _ => false | None => true end.
Proof.
  unfold d_held, can_write. apply eq_true_iff_eq. rewrite forallb_forall. split.
  - intro H. destruct (d_lock d p) eqn:E; [|reflexivity]. assert (Lt : p < length (d_l d)).
    { destruct (Nat.lt_ge_cases p (length (d_l d))) as [Lt|Ge]; [exact Lt|]. unfold d_lock in E. rewrite nth_overflow in E by exact Ge. discriminate E. }
    specialize (H (p, true)). cbn in H. rewrite Nat.eqb_refl in H. apply H. apply in_flat_map. exists p. split; [apply in_seq; lia|]. rewrite E. left. reflexivity.
  - intros H [q b] I. apply in_flat_map in I. destruct I as (q0 & _ & I). destruct (d_lock d q0) eqn:E; [|destruct I]. destruct I as [[= -> <-]|[]]. cbn.
    destruct (Nat.eqb_spec q p) as [->|]; [|reflexivity]. rewrite E in H. exact H.
Qed.
Lemma held_read d p : can_read (d_held d) p = can_write (d_held d) p.
Proof.
  unfold d_held, can_write, can_read. induction (seq 0 (length (d_l d))) as [|q l IH]; [reflexivity|]. cbn [flat_map]. rewrite !forallb_app, IH. f_equal. destruct (d_lock d q); cbn; [|reflexivity].
  rewrite !andb_true_r. reflexivity.
Qed.
Lemma RD_held d e : RD d e -> H2 (d_held d) (d_held e).
Proof. intros [_ _ E] p O. rewrite !held_read, !held_write, (E p O). auto. Qed.
Lemma lock_upd l p x q : nth q (upd l p x) None = if q =? p then (if p <? length l then x else None) else nth q l (None : option (select * bool * bool)).
Proof.
  destruct (Nat.eqb_spec q p) as [->|N].
  - destruct (Nat.ltb_spec p (length l)) as [Lt|Ge]; [apply nth_error_nth, nth_error_upd_eq, Lt|]. rewrite upd_oob by lia. apply nth_overflow. exact Ge.
  - rewrite <- !nth_default_eq. unfold nth_default. rewrite nth_error_upd_ne by congruence. reflexivity.
Qed.
Lemma RD_set d e u v p x : RD d e -> R u v -> RD (Db u (upd (d_l d) p x)) (Db v (upd (d_l e) p x)).
Proof. intros [_ Ln E] H. constructor; cbn; [exact H|rewrite !upd_length; exact Ln|]. intros q O. unfold d_lock in *. cbn. rewrite !lock_upd, Ln, (E q O). reflexivity. Qed.
Lemma RD_side d e u p x : RD d e -> R u (d_u e) -> out p = true -> RD (Db u (upd (d_l d) p x)) e.
Proof.
  intros [_ Ln E] H Op. constructor; cbn; [exact H|rewrite upd_length; exact Ln|]. intros q O. unfold d_lock in *. cbn. rewrite lock_upd, (E q O).
  destruct (Nat.eqb_spec q p) as [->|]; [congruence|reflexivity].
Qed.
Lemma RD_state d e p : RD d e -> out p = false -> d_state e p = d_state d p.
Proof. intros [H _ E] O. unfold d_state. rewrite (R_get _ _ p H O), (E p O). reflexivity. Qed.
Lemma RD_locked d e p : RD d e -> out p = false -> locked_table e p = locked_table d p.
Proof. intros H O. unfold locked_table. rewrite (RD_state _ _ p H O). reflexivity. Qed.
Lemma RD_store d e p st : RD d e -> out p = false -> RD (d_store d p st) (d_store e p st).
Proof. intros H O. unfold d_store. destruct st; (apply RD_set; [exact H|apply R_put; [apply H|exact O]]). Qed.
Lemma RD_u d e u v : RD d e -> R u v -> RD (Db u (d_l d)) (Db v (d_l e)).
Proof. intros [_ Ln E] H. constructor; [exact H|exact Ln|exact E]. Qed.
Lemma RD_release d e p : RD d e -> RD (d_release d p) (d_release e p).
Proof. intro H. apply RD_set; [exact H|apply H]. Qed.
Lemma step_RD fuel d e c : RD d e -> (forall p tr, c <> Track p tr) -> inner out c = true -> ro RA (db_step pr umax fuel d c) (db_step pr umax fuel e c).
Proof.
  intros H NT I. destruct c as [p c|p ev|p ev|p ev s|p ev s|p ev s|p tr|ev hd]; [| | | | | |elim (NT p tr eq_refl)|]; cbn [inner] in I; try (apply negb_true_iff in I).
  - cbn [db_step]. assert (X : ro RA (let* st := d_state d p in let* st' := step pr umax st (op_of c) in let* a := answer_of pr umax st c in Ok (d_store d p st', a))
      (let* st := d_state e p in let* st' := step pr umax st (op_of c) in let* a := answer_of pr umax st c in Ok (d_store e p st', a))).
    { rewrite (RD_state _ _ p H I). apply ro_same. intros st _. apply ro_same. intros st' _. apply ro_same. intros a _. apply ro_ok. split; [apply RD_store; auto|reflexivity]. }
    destruct c; try exact X; destruct o; try exact X; apply ro_panic.
  - cbn [db_step]. rewrite (RD_locked _ _ p H I). apply ro_same. intros w _. pose proof (RD_release _ _ p H) as H1.
    eapply ro_bind; [apply flush_R; [apply do_flush_R|exact (rd_u _ _ H1)|apply RD_held; exact H1|exact I]|]. intros u v X. apply ro_ok. split; [apply RD_u; [exact H1|exact X]|reflexivity].
  - cbn [db_step]. rewrite (RD_locked _ _ p H I). apply ro_same. intros w _.
    eapply ro_bind; [apply live_R; [apply do_flush_R|exact (rd_u _ _ H)|apply RD_held, RD_release; exact H|exact I]|]. intros [u w1] [v w2] [X E]. cbn [fst snd] in *. subst w2. apply ro_ok.
    split; [apply RD_store; [apply RD_u; [exact H|exact X]|exact I]|reflexivity].
  - cbn [db_step]. eapply ro_bind; [apply remove_R; [apply do_flush_R|exact (rd_u _ _ H)|apply RD_held; exact H|exact I]|]. intros u v X. apply ro_ok. split; [apply RD_u; assumption|reflexivity].
  - cbn [db_step]. rewrite (RD_locked _ _ p H I). apply ro_same. intros w _. apply ro_same. intros _ _. apply ro_same. intros w1 _. pose proof (RD_release _ _ p H) as H1.
    eapply ro_bind; [apply flush_R; [apply do_flush_R|exact (rd_u _ _ H1)|apply RD_held; exact H1|exact I]|]. intros u v X. apply ro_ok. split; [apply RD_u; [exact H1|exact X]|reflexivity].
  - cbn [db_step]. destruct (RD_held _ _ H p I) as [_ ->]. apply ro_same. intros _ _. unfold read_select.
    eapply ro_bind with (P := R); [eapply ro_bind; [apply do_flush_R; [exact (rd_u _ _ H)|apply RD_held; exact H|exact I]|]; intros x y [X _]; apply ro_ok, X|].
    intros u v X. apply ro_ok. split; [apply RD_u; assumption|reflexivity].
  - cbn [db_step]. destruct H as [[A B C D Nu E F G] Ln El]. rewrite C. apply ro_same. intros q _. apply ro_ok. split; [|reflexivity]. constructor; cbn; [constructor; cbn; auto|exact Ln|exact El].
Qed.
Lemma step_side fuel d e c d' a : RD d e -> (forall p tr, c <> Track p tr) -> inner out c = false -> db_step pr umax fuel d c = Ok (d', a) -> RD d' e.
Proof.
  intros H NT I E. pose proof (rd_u _ _ H) as Hu.
  assert (Lk : forall p w, out p = true -> locked_table d p = Ok w -> sure p -> t_kind (w_tab w) = Consistent).
  { intros p w O Hw Sp. apply locked_nth in Hw. exact (r_sure _ _ Hu _ _ O Sp Hw). }
  destruct c as [p c|p ev|p ev|p ev s|p ev s|p ev s|p tr|ev hd]; [| | | | | |elim (NT p tr eq_refl)|discriminate I]; cbn [inner] in I; apply negb_false_iff in I.
  - pose proof E as E0. apply on_inv in E. destruct E as (_ & st & st' & St & _ & ->). assert (K : sure p -> t_kind (st_tab st') = Consistent).
    { intro Sp. apply state_nth in St. pose proof (r_sure _ _ Hu _ _ I Sp St) as Kd. destruct (db_step_still pr umax fuel d _ _ _ p (st_tab st) St Kd E0) as (t' & Ht' & Es & _).
      rewrite store_nth, nth_error_upd_eq in Ht' by (apply nth_error_Some; congruence). injection Ht' as <-. unfold t_kind. rewrite Es. exact Kd. }
    destruct st'; cbn [d_store]; (apply RD_side; [exact H| |exact I]); apply R_side; auto.
  - cbn [db_step] in E. bindn E w Hw. bindn E u U. injection E as <- _. apply RD_side; [exact H| |exact I]. eapply flush_side; [apply do_flush_side|exact Hu|exact I| |exact U]. intro Sp. eapply Lk; eauto.
  - cbn [db_step] in E. bindn E w Hw. bindn E x U. injection E as <- _. destruct (live_side _ (do_flush_side fuel) _ _ _ _ _ _ _ Hu I (fun Sp => Lk p w I Hw Sp) U) as [X K].
    cbn [d_store d_u d_l]. apply RD_side; [exact H| |exact I]. apply R_side; auto.
  - cbn [db_step] in E. bindn E u U. injection E as <- _. pose proof (remove_side _ (do_flush_side fuel) _ _ _ _ _ _ _ Hu I U) as X. destruct H as [_ Ln El]. constructor; auto.
  - cbn [db_step] in E. bindn E w Hw. bindn E x X. bindn E w1 Hw1. bindn E u U. injection E as <- _. apply RD_side; [exact H| |exact I].
    eapply flush_side; [apply do_flush_side|exact Hu|exact I| |exact U]. intro Sp. rewrite <- (Lk p w I Hw Sp). apply keep_kind.
    destruct s as [|rows]; [injection Hw1 as <-; eapply keep_trans; [apply (clear_raw_keep w)|apply (clear_keep (clear_raw w))]|exact (raws_keep _ _ _ _ _ _ Hw1)].
  - cbn [db_step] in E. bindn E x X. bindn E u U. injection E as <- _. unfold read_select in U. bindn U y Y. injection U as <-.
    pose proof (do_flush_side _ _ _ _ _ _ _ _ _ _ Hu I Y) as Z. destruct H as [_ Ln El]. constructor; auto.
Qed.
End W.

(** ** Programs *)
Section P.
Variables (pr : profile) (umax fuel : nat) (out : nat -> bool) (schs : list schema) (ms : nat -> list bool).
Definition sure (q : nat) : Prop := exists s, nth_error schs q = Some s /\ s_kind s = Consistent.
(** [rest]: the calls to come. *)
Record J (rest : list db_call) (d e : db) : Prop := {
  j_th : thinned out sure ms (u_trk (d_u d)) (u_trk (d_u e));
  j_rd : RD out sure ms (u_trk (d_u d)) (u_trk (d_u e)) (u_log (d_u d)) (u_log (d_u e)) d e;
  j_ms : forall p, skipn (length (u_trackers (d_u d) p)) (ms p) = marks (split_calls out rest) p }.
Lemma R_again T T' L L' u v : R out sure ms T T' L L' u v -> R out sure ms (u_trk u) (u_trk v) (u_log u) (u_log v) u v.
Proof. intros [A B C D Nu E F G]. constructor; auto; [congruence|]. exists []. cbn. rewrite !app_nil_r. auto. Qed.
Lemma RD_again T T' L L' d e : RD out sure ms T T' L L' d e -> RD out sure ms (u_trk (d_u d)) (u_trk (d_u e)) (u_log (d_u d)) (u_log (d_u e)) d e.
Proof. intros [A B C]. constructor; [eapply R_again; exact A|exact B|exact C]. Qed.
Lemma talk_notes T T' L L' u v : R out sure ms T T' L L' u v -> skipn (length L') (u_log v) = flat_map (heard ms) (skipn (length L) (u_log u)).
Proof. intros H. destruct (r_log _ _ _ _ _ _ _ _ _ H) as (n & -> & ->). rewrite !skipn_len. reflexivity. Qed.
Lemma J_next c rest d e d1 e1 : J (c :: rest) d e -> no_track c = true -> RD out sure ms (u_trk (d_u d)) (u_trk (d_u e)) (u_log (d_u d)) (u_log (d_u e)) d1 e1 -> J rest d1 e1.
Proof.
  intros [Th Rd Mk] NT H. pose proof (rd_u _ _ _ _ _ _ _ _ _ H) as Hu. pose proof (r_trk _ _ _ _ _ _ _ _ _ Hu) as Et. pose proof (r_trk' _ _ _ _ _ _ _ _ _ Hu) as Et'.
  constructor; [rewrite Et, Et'; exact Th|eapply RD_again; exact H|].
  intro p. unfold u_trackers. rewrite Et. specialize (Mk p). unfold u_trackers in Mk. rewrite Mk. destruct c; try discriminate NT; reflexivity.
Qed.
Lemma tracked_RD d e p tr b : RD out sure ms (u_trk (d_u d)) (u_trk (d_u e)) (u_log (d_u d)) (u_log (d_u e)) d e ->
  let e1 := if b : bool then tracked e p tr else e in
  RD out sure ms (u_trk (d_u (tracked d p tr))) (u_trk (d_u e1)) (u_log (d_u (tracked d p tr))) (u_log (d_u e1)) (tracked d p tr) e1.
Proof.
  intros [[A B C D Nu E F G] Ln El] e1. unfold e1.
  assert (X : R out sure ms (u_trk (d_u (tracked d p tr))) (u_trk (d_u (if b then tracked e p tr else e))) (u_log (d_u d)) (u_log (d_u e)) (d_u (tracked d p tr)) (d_u (if b then tracked e p tr else e))).
  { destruct b; (constructor; cbn; rewrite ?upd_length; auto). }
  destruct b; (constructor; [exact X|exact Ln|exact El]).
Qed.
Lemma track_J p tr rest d e : J (Track p tr :: rest) d e -> p < length (u_tabs (d_u d)) ->
  (forall q k key, tr = TAuto q k key -> (out p = true -> out q = true) /\ (out p = false -> out q = true -> sure q)) ->
  J rest (tracked d p tr) (if inner out (Track p tr) then tracked e p tr else e).
Proof.
  intros [Th Rd Mk] Lp Ly. set (b := inner out (Track p tr)). pose proof (tracked_RD d e p tr b Rd) as Rd1. cbv zeta in Rd1.
  assert (Lp1 : p < length (u_trk (d_u d))) by (rewrite <- (r_num _ _ _ _ _ _ _ _ _ (rd_u _ _ _ _ _ _ _ _ _ Rd)); exact Lp).
  assert (Lp2 : p < length (u_trk (d_u e))) by (rewrite (th_num _ _ _ _ _ Th); exact Lp1).
  assert (M0 : skipn (length (u_trackers (d_u d) p)) (ms p) = b :: marks (split_calls out rest) p) by (rewrite Mk; unfold marks; cbn [split_calls map flat_map fst snd]; rewrite Nat.eqb_refl; reflexivity).
  apply skipn_nth in M0. destruct M0 as [M0 M1]. pose proof (nth_error_Some_lt _ _ _ M0) as Lm.
  assert (Tq : forall q, nth q (u_trk (d_u (if b then tracked e p tr else e))) [] = if q =? p then u_trackers (d_u e) p ++ (if b then [tr] else []) else u_trackers (d_u e) q).
  { intro q. destruct b; cbn [tracked d_u u_trk]; [apply nth_upd; exact Lp2|]. rewrite app_nil_r. destruct (Nat.eqb_spec q p) as [->|_]; reflexivity. }
  assert (Tp : forall q, nth q (u_trk (d_u (tracked d p tr))) [] = if q =? p then u_trackers (d_u d) p ++ [tr] else u_trackers (d_u d) q).
  { intro q. cbn [tracked d_u u_trk]. apply nth_upd. exact Lp1. }
  assert (At : forall i tr0, nth_error (u_trackers (d_u d) p ++ [tr]) i = Some tr0 -> nth_error (u_trackers (d_u d) p) i = Some tr0 \/ tr0 = tr /\ i = length (u_trackers (d_u d) p)).
  { intros i tr0 Hi. destruct (Nat.lt_ge_cases i (length (u_trackers (d_u d) p))) as [Li|Li]; [left; rewrite nth_error_app1 in Hi by exact Li; exact Hi|].
    rewrite nth_error_app2 in Hi by exact Li. destruct (i - length (u_trackers (d_u d) p)) as [|n] eqn:En; [|destruct n; discriminate]. injection Hi as <-. right. split; [reflexivity|lia]. }
  destruct Th as [Tn Tl Tk Tg Tf To Tz]. constructor; [|exact Rd1|].
  - constructor.
    + destruct b; cbn [tracked d_u u_trk]; rewrite ?upd_length; exact Tn.
    + intros q O. rewrite Tp. destruct (Nat.eqb_spec q p) as [->|Nq]; [|exact (Tl q O)]. rewrite app_length. cbn. lia.
    + intros q O. rewrite Tp, Tq. destruct (Nat.eqb_spec q p) as [->|Nq]; [|exact (Tk q O)]. rewrite (pick_all _ _ _ _ M0). f_equal. exact (Tk p O).
    + intros q i tr0 O. rewrite Tp. destruct (Nat.eqb_spec q p) as [->|Nq]; [|exact (Tg q i tr0 O)]. intros Hi Hm. apply At in Hi. destruct Hi as [Hi|[-> ->]]; [exact (Tg p i tr0 O Hi Hm)|].
      rewrite M0 in Hm. injection Hm as Hm. unfold b in Hm. cbn [inner] in Hm. rewrite O in Hm. destruct tr as [x k key|]; [|discriminate Hm]. apply negb_false_iff in Hm.
      exists x, k, key. split; [reflexivity|]. split; [exact Hm|]. destruct (Ly _ _ _ eq_refl) as [_ Y]. auto.
    + intros q i x k key O. rewrite Tp. destruct (Nat.eqb_spec q p) as [->|Nq]; [|exact (Tf q i x k key O)]. intros Hi Hm. apply At in Hi. destruct Hi as [Hi|[<- ->]]; [exact (Tf p i x k key O Hi Hm)|].
      rewrite M0 in Hm. injection Hm as Hm. unfold b in Hm. cbn [inner] in Hm. rewrite O in Hm. apply negb_true_iff in Hm. exact Hm.
    + intros q x k key O. rewrite Tp. destruct (Nat.eqb_spec q p) as [->|Nq]; [|exact (To q x k key O)]. intro I. apply in_app_or in I. destruct I as [I|[E|[]]]; [exact (To p x k key O I)|].
      destruct (Ly _ _ _ E) as [Y _]. auto.
    + exact Tz.
  - intro q. unfold u_trackers at 1. rewrite Tp. destruct (Nat.eqb_spec q p) as [->|Nq].
    + rewrite app_length, Nat.add_1_r. exact M1.
    + rewrite Mk. unfold marks. cbn [split_calls map flat_map fst]. destruct (Nat.eqb_spec p q); [congruence|reflexivity].
Qed.
Lemma track_R d e p tr : RD out sure ms (u_trk (d_u d)) (u_trk (d_u e)) (u_log (d_u d)) (u_log (d_u e)) d e -> out p = false ->
  ro (fun _ y => y = (tracked e p tr, ANothing)) (db_step pr umax fuel d (Track p tr)) (db_step pr umax fuel e (Track p tr)).
Proof.
  intros H O. cbn [db_step]. rewrite (R_get _ _ _ _ _ _ _ _ _ p (rd_u _ _ _ _ _ _ _ _ _ H) O). destruct (RD_held _ _ _ _ _ _ _ _ _ H p O) as [-> _].
  apply ro_same. intros t _. apply ro_same. intros _ _. apply ro_same. intros _ _. apply ro_ok. reflexivity.
Qed.
Theorem layer_ok cs : layered out schs cs -> forall d e l, J cs d e -> db_talks pr umax fuel d cs = Ok l ->
  db_talks pr umax fuel e (filter (inner out) cs) =
    Ok (map (fun x => (fst (snd x), flat_map (heard ms) (snd (snd x)))) (filter (fun x : db_call * bool * (answer * list note) => snd (fst x)) (combine (split_calls out cs) l))).
Proof.
  induction cs as [|c cs IH]; intros Ly d e l HJ E; [cbn in E; injection E as <-; reflexivity|]. cbn [db_talks] in E. bindn E x Ex. destruct x as [d1 a1]. cbn [fst snd] in E. bindn E l1 E1. injection E as <-.
  assert (Ly1 : layered out schs cs) by (intros p q k key I; apply (Ly p q k key); right; exact I).
  assert (Cont : forall e1, J cs d1 e1 -> (inner out c = true -> db_step pr umax fuel e c = Ok (e1, a1) /\
       skipn (length (u_log (d_u e))) (u_log (d_u e1)) = flat_map (heard ms) (skipn (length (u_log (d_u d))) (u_log (d_u d1)))) -> (inner out c = false -> e1 = e) ->
    db_talks pr umax fuel e (filter (inner out) (c :: cs)) =
    Ok (map (fun x => (fst (snd x), flat_map (heard ms) (snd (snd x)))) (filter (fun x : db_call * bool * (answer * list note) => snd (fst x))
       (combine (split_calls out (c :: cs)) ((a1, skipn (length (u_log (d_u d))) (u_log (d_u d1))) :: l1))))).
  { intros e1 J1 Hb Hb'. specialize (IH Ly1 d1 e1 l1 J1 E1). cbn [filter split_calls map combine fst snd]. destruct (inner out c).
    - destruct (Hb eq_refl) as [E2 En]. cbn [map fst snd db_talks]. rewrite E2. cbn [bind fst snd]. rewrite IH. cbn [bind]. rewrite En. reflexivity.
    - rewrite (Hb' eq_refl) in IH. exact IH. }
  pose proof (j_th _ _ _ HJ) as Th. pose proof (j_rd _ _ _ HJ) as Rd. destruct (no_track c) eqn:NT.
  - assert (N : forall p tr, c <> Track p tr) by (intros p tr ->; discriminate NT). destruct (inner out c) eqn:Ib.
    + destruct (step_RD pr umax out sure ms _ _ _ _ Th fuel d e c Rd N Ib _ Ex) as ([e1 a2] & E2 & X & Ea). cbn [fst snd] in *. subst a2. apply (Cont e1); [eapply J_next; eauto| |discriminate].
      intros _. split; [exact E2|]. eapply talk_notes. apply (rd_u _ _ _ _ _ _ _ _ _ X).
    + apply (Cont e); [|discriminate|reflexivity]. eapply J_next; [exact HJ|exact NT|]. eapply step_side; eauto.
  - destruct c as [| | | | | |p tr|]; try discriminate NT. pose proof Ex as Ex0. apply track_step in Ex. destruct Ex as [Ex Lp]. injection Ex as -> ->.
    apply (Cont (if inner out (Track p tr) then tracked e p tr else e)).
    + apply track_J; [exact HJ|exact Lp|]. intros q k key ->. apply (Ly p q k key). left. reflexivity.
    + intro Ib. rewrite Ib. assert (O : out p = false) by (cbn [inner] in Ib; destruct tr; [apply andb_true_iff in Ib; destruct Ib as [Ib _]|]; apply negb_true_iff in Ib; exact Ib).
      destruct (track_R d e p tr Rd O _ Ex0) as (y & Ey & ->). split; [exact Ey|]. cbn. rewrite !skipn_all. reflexivity.
    + intro Ib. rewrite Ib. reflexivity.
Qed.
End P.
Lemma marks_out out cs p : out p = true -> forall i, nth i (marks (split_calls out cs) p) false = false.
Proof.
  intros O. unfold marks. induction cs as [|c cs IH]; intro i; [destruct i; reflexivity|]. cbn [split_calls map flat_map fst snd]. destruct c as [| | | | | |q tr|]; try apply IH.
  destruct (Nat.eqb_spec q p) as [->|]; [|apply IH]. destruct i as [|i]; [cbn; rewrite O; destruct tr; reflexivity|apply IH].
Qed.
Theorem layers pr umax fuel out schs cs l : layered out schs cs -> db_talks pr umax fuel (db_new schs) cs = Ok l ->
  db_talks pr umax fuel (db_new schs) (filter (inner out) cs) = Ok (thinner_talk (split_calls out cs) l).
Proof.
  intros Ly E. eapply layer_ok; [exact Ly| |exact E].
  assert (N : forall p, nth p (map (fun _ : schema => @nil tracker) schs) [] = []) by (clear; induction schs as [|s m IH]; intros [|p]; cbn; auto).
  constructor; cbn [db_new d_u u_trk u_log].
  - constructor.
    + reflexivity.
    + intros p _. rewrite N. apply Nat.le_0_l.
    + intros p _. rewrite N. destruct (marks _ p) as [|[] ?]; reflexivity.
    + intros p [|i] tr _ H; rewrite N in H; discriminate H.
    + intros p [|i] q k key _ H; rewrite N in H; discriminate H.
    + intros p q k key _ H. rewrite N in H. destruct H.
    + intros p i O. apply marks_out. exact O.
  - constructor; [constructor|auto|auto]; cbn; auto.
    + rewrite !map_length. reflexivity.
    + intros q t _ (s & Hs & Kd) H. rewrite nth_error_map, Hs in H. injection H as <-. exact Kd.
    + exists []. auto.
  - intro p. unfold u_trackers. cbn. rewrite N. reflexivity.
Qed.
