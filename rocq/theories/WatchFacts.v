(** Proofs about programs with and without some of their trackers. *)
From Coq Require Import List Arith Bool Lia.
From Verif Require Import Base BaseFacts Column Order RowRange Table SortedTab Events Cascade Hist Answers DbHist WatchSpec.
Import ListNotations.

(** Both fail alike, or succeed with related results. *)
Definition rr {A B} (P : A -> B -> Prop) (x : res A) (y : res B) : Prop :=
  match x, y with Ok a, Ok b => P a b | Err e, Err f => e = f | _, _ => False end.
Lemma rr_bind {A B C D} (P : A -> B -> Prop) (Q : C -> D -> Prop) x y f g : rr P x y -> (forall a b, P a b -> rr Q (f a) (g b)) -> rr Q (bind x f) (bind y g).
Proof. unfold rr. destruct x, y; cbn [bind]; intros H K; try contradiction; auto. apply K. exact H. Qed.
Lemma rr_same {A C D} (Q : C -> D -> Prop) (x : res A) f g : (forall a, rr Q (f a) (g a)) -> rr Q (bind x f) (bind x g).
Proof. intro H. destruct x; cbn [bind]; [apply H|reflexivity]. Qed.
Lemma rr_ok {A B} (P : A -> B -> Prop) a b : P a b -> rr P (Ok a) (Ok b). Proof. auto. Qed.
Lemma rr_panic {A B} (P : A -> B -> Prop) c : rr P (panic c) (panic c). Proof. reflexivity. Qed.

Section W.
Variables (pr : profile) (umax : nat) (ms : nat -> list bool) (T T' : list (list tracker)) (L L' : list note).
Definition cnt (l : list bool) : nat := length (filter (fun b => b) l).
Fixpoint pick {A} (bs : list bool) (l : list A) : list A :=
  match bs, l with b :: bs, x :: l => if b then x :: pick bs l else pick bs l | _, _ => [] end.
Definition thinned : Prop := forall p, let trs := nth p T [] in
  length trs <= length (ms p) /\ nth p T' [] = pick (ms p) trs /\ forall i tr, nth_error trs i = Some tr -> nth_error (ms p) i = Some false -> quiet tr.
Hypothesis Th : thinned.
Definition R (u v : universe) : Prop :=
  u_trk u = T /\ u_trk v = T' /\ u_tabs v = u_tabs u /\ u_hdl v = u_hdl u /\ length (u_tabs u) = length T /\ exists n, u_log u = L ++ n /\ u_log v = L' ++ flat_map (heard ms) n.
Lemma R_get u v p : R u v -> u_get v p = u_get u p. Proof. intros (_ & _ & E & _). unfold u_get. rewrite E. reflexivity. Qed.
Lemma R_put u v p t : R u v -> R (u_put u p t) (u_put v p t).
Proof. intros (A & B & C & D & E & F). unfold R, u_put. cbn. rewrite C, upd_length. auto 8. Qed.
Lemma R_drop u v p i ev s : R u v -> nth i (ms p) false = false -> R (u_say u (Note p i ev s)) v.
Proof.
  intros (A & B & C & D & Z & n & E & F) N. unfold R, u_say. cbn. repeat (split; [assumption|]). exists (n ++ [Note p i ev s]). rewrite E, F, app_assoc. split; [reflexivity|].
  rewrite flat_map_app. cbn [flat_map heard n_pos n_table]. unfold heard. cbn. rewrite N. rewrite !app_nil_r. reflexivity.
Qed.
Lemma R_say u v p i ev s : R u v -> nth i (ms p) false = true -> R (u_say u (Note p i ev s)) (u_say v (Note p (cnt (firstn i (ms p))) ev s)).
Proof.
  intros (A & B & C & D & Z & n & E & F) N. unfold R, u_say. cbn. repeat (split; [assumption|]). exists (n ++ [Note p i ev s]). rewrite E, F, <- !app_assoc. split; [reflexivity|].
  rewrite flat_map_app. f_equal. f_equal. cbn [flat_map app]. unfold heard. cbn. rewrite N. reflexivity.
Qed.

Section Calls.
Variable call : universe -> locks -> nat -> event -> bool -> bool -> select -> res (universe * select).
Definition R2 (x y : universe * select) : Prop := R (fst x) (fst y) /\ snd x = snd y.
Hypothesis Call : forall u v h p ev a d s, R u v -> rr R2 (call u h p ev a d s) (call v h p ev a d s).
Lemma flush_R u v h p w ev : R u v -> rr R (flush_with pr umax call u h p w ev) (flush_with pr umax call v h p w ev).
Proof.
  intro H. unfold flush_with. destruct (sel_empty (w_changes w)).
  - apply rr_same. intro t. apply rr_ok, R_put, H.
  - eapply rr_bind; [apply Call, R_put, H|]. intros [u1 s] [v1 s'] [H1 E]. cbn [fst snd] in *. subst s'. destruct (_ && _); [|apply rr_ok, H1].
    apply rr_same. intros _. rewrite (R_get _ _ p H1). apply rr_same. intro t. apply rr_same. intro w1. apply rr_same. intros _. apply rr_same. intro t1. apply rr_ok, R_put, H1.
Qed.
Lemma live_R u v h p w ev : R u v -> rr (fun x y => R (fst x) (fst y) /\ snd x = snd y) (live_flush_with pr umax call u h p w ev) (live_flush_with pr umax call v h p w ev).
Proof.
  intro H. unfold live_flush_with. destruct (sel_empty (w_changes w)).
  - apply rr_ok. split; [apply R_put, H|reflexivity].
  - eapply rr_bind; [apply Call, R_put, H|]. intros [u1 s] [v1 s'] [H1 E]. cbn [fst snd] in *. subst s'.
    rewrite (R_get _ _ p H1). apply rr_same. intro t. apply rr_same. intro w1. apply rr_same. intros _. apply rr_ok. split; [apply R_put, H1|reflexivity].
Qed.
Lemma remove_R u v h c ev rows : R u v -> rr R (remove_rows_with pr umax call u h c ev rows) (remove_rows_with pr umax call v h c ev rows).
Proof.
  intro H. unfold remove_rows_with. rewrite (R_get _ _ c H). apply rr_same. intro t.
  destruct (t_kind t); try apply rr_panic; apply rr_same; intros _; apply rr_same; intro w; apply flush_R, H.
Qed.
Lemma auto_R hd u v h c k key ev rows : R u v -> rr R (auto_handle pr umax call hd u h c k key ev rows) (auto_handle pr umax call hd v h c k key ev rows).
Proof.
  intro H. unfold auto_handle. apply rr_same. intros _. rewrite (R_get _ _ c H). apply rr_same. intro t. apply rr_same. intro s. unfold run_with. rewrite (R_get _ _ c H). apply rr_same. intro t1.
  eapply rr_bind with (P := R); [|intros u1 v1 H1; apply rr_same; intros _; eapply rr_bind; [apply Call, H1|]; intros x y [H2 _]; apply rr_ok, H2].
  unfold handle_with. destruct hd; [apply remove_R, H|apply rr_ok, H|apply rr_panic].
Qed.
Definition R3 (x y : universe * select * bool) : Prop := R (fst (fst x)) (fst (fst y)) /\ snd (fst x) = snd (fst y) /\ snd x = snd y.
Lemma turn_R hd h p ev s s' i tr : R3 s s' -> nth i (ms p) false = true ->
  rr R3 (tracker_turn pr umax call hd h p ev s (i, tr)) (tracker_turn pr umax call hd h p ev s' (cnt (firstn i (ms p)), tr)).
Proof.
  destruct s as [[u sel] b], s' as [[v sel'] b']. intros (H & E1 & E2) N. cbn [fst snd] in *. subst sel' b'. unfold tracker_turn. cbn [fst snd].
  destruct (tracker_considers tr ev); [|apply rr_ok; repeat split; auto; apply H].
  assert (Es : tracker_sorts v tr = tracker_sorts u tr) by (unfold tracker_sorts; destruct H as (_ & _ & -> & _); reflexivity). rewrite Es.
  set (sel1 := if negb b && tracker_sorts u tr then sel_sort sel else sel). pose proof (R_say u v p i ev sel1 H N) as H1.
  eapply rr_bind with (P := R); [destruct tr; [apply auto_R, H1|apply rr_ok, H1]|]. intros u1 v1 H2. apply rr_ok. split; [exact H2|split; reflexivity].
Qed.
Lemma turn_drop hd h p ev s s' i tr : R3 s s' -> nth i (ms p) false = false -> quiet tr -> exists s1, tracker_turn pr umax call hd h p ev s (i, tr) = Ok s1 /\ R3 s1 s'.
Proof.
  destruct s as [[u sel] b], s' as [[v sel'] b']. intros (H & E1 & E2) N [f ->]. cbn [fst snd] in *. subst sel' b'. unfold tracker_turn. cbn [fst snd tracker_considers tracker_sorts].
  destruct (f ev); [|eexists; split; [reflexivity|repeat split; auto; apply H]]. rewrite andb_false_r, orb_false_r. cbn [bind]. eexists. split; [reflexivity|].
  split; [|split; reflexivity]. apply R_drop; [exact H|exact N].
Qed.
Lemma skipn_cons {A} (l : list A) m x : nth_error l m = Some x -> skipn m l = x :: skipn (S m) l.
Proof. revert l. induction m as [|m IH]; intros [|y l] H; try discriminate; cbn in *; [congruence|]. apply IH. exact H. Qed.
Lemma firstn_snoc {A} (l : list A) m x : nth_error l m = Some x -> firstn (S m) l = firstn m l ++ [x].
Proof. revert l. induction m as [|m IH]; intros [|y l] H; try discriminate; cbn in *; [congruence|]. f_equal. apply IH. exact H. Qed.
Lemma turns hd h p ev trs : forall m s s', R3 s s' -> m + length trs <= length (ms p) ->
  (forall i tr, nth_error trs i = Some tr -> nth_error (ms p) (m + i) = Some false -> quiet tr) ->
  let trs' := pick (skipn m (ms p)) trs in
  rr R3 (fold_res (tracker_turn pr umax call hd h p ev) (combine (seq m (length trs)) trs) s)
        (fold_res (tracker_turn pr umax call hd h p ev) (combine (seq (cnt (firstn m (ms p))) (length trs')) trs') s').
Proof.
  induction trs as [|tr trs IH]; intros m s s' H Ln Q trs'.
  - subst trs'. assert (E : pick (skipn m (ms p)) (@nil tracker) = []) by (destruct (skipn m (ms p)) as [|[] ?]; reflexivity). rewrite E. cbn. exact H.
  - cbn [length] in Ln. destruct (nth_error_lt_Some (ms p) m) as [b Eb]; [lia|]. pose proof (skipn_cons _ _ _ Eb) as Sk. pose proof (firstn_snoc _ _ _ Eb) as Fs.
    assert (Nb : nth m (ms p) false = b) by (apply nth_error_nth; exact Eb).
    assert (Q' : forall i tr0, nth_error trs i = Some tr0 -> nth_error (ms p) (S m + i) = Some false -> quiet tr0).
    { intros i tr0 Hi Hm. apply (Q (S i) tr0 Hi). rewrite <- Hm. f_equal. lia. }
    subst trs'. rewrite Sk. cbn [pick length seq combine fold_res]. destruct b.
    + cbn [length seq combine fold_res]. eapply rr_bind; [apply turn_R; [exact H|exact Nb]|]. intros s1 s1' H1. specialize (IH (S m) s1 s1' H1). cbv zeta in IH.
      replace (S (cnt (firstn m (ms p)))) with (cnt (firstn (S m) (ms p))) by (rewrite Fs; unfold cnt; rewrite filter_app, app_length; cbn; lia). apply IH; [lia|exact Q'].
    + destruct (turn_drop hd h p ev s s' m tr H Nb) as (s1 & E1 & H1); [apply (Q 0 tr eq_refl); rewrite Nat.add_0_r; exact Eb|]. rewrite E1. cbn [bind].
      specialize (IH (S m) s1 s' H1). cbv zeta in IH.
      replace (cnt (firstn m (ms p))) with (cnt (firstn (S m) (ms p))) by (rewrite Fs; unfold cnt; rewrite filter_app, app_length; cbn; lia). apply IH; [lia|exact Q'].
Qed.
End Calls.

Lemma do_flush_R fuel : forall u v h p ev a d s, R u v -> rr R2 (do_flush pr umax fuel u h p ev a d s) (do_flush pr umax fuel v h p ev a d s).
Proof.
  induction fuel as [|n IH]; intros u v h p ev a d s H; [reflexivity|]. cbn [do_flush]. apply rr_same. intros _.
  pose proof H as (A & B & C & D & _). rewrite D. apply rr_same. intro hd. destruct (Th p) as (Ln & Ep & Q).
  assert (Eu : u_trackers u p = nth p T []) by (unfold u_trackers; rewrite A; reflexivity). assert (Ev : u_trackers v p = pick (ms p) (nth p T [])) by (unfold u_trackers; rewrite B; exact Ep).
  rewrite Eu, Ev. eapply rr_bind.
  - pose proof (turns (do_flush pr umax n) IH hd h p ev (nth p T []) 0 (u, s, match s with SAll => true | _ => false end) (v, s, match s with SAll => true | _ => false end)) as X.
    cbv zeta in X. cbn [skipn firstn] in X. apply X; [repeat split; auto; apply H|exact Ln|]. intros i tr Hi Hm. exact (Q i tr Hi Hm).
  - intros s1 s1' (H1 & H2 & _). apply rr_ok. split; [exact H1|exact H2].
Qed.

(** ** Calls *)
Definition RD (d e : db) : Prop := R (d_u d) (d_u e) /\ d_l e = d_l d.
Definition RA (x y : db * answer) : Prop := RD (fst x) (fst y) /\ snd y = snd x.
Lemma RD_held d e : RD d e -> d_held e = d_held d.
Proof. intros [_ E]. unfold d_held, d_lock. rewrite E. reflexivity. Qed.
Lemma RD_release d e p : RD d e -> RD (d_release d p) (d_release e p).
Proof. intros [H E]. split; cbn; [exact H|congruence]. Qed.
Lemma RD_state d e p : RD d e -> d_state e p = d_state d p.
Proof. intros [H E]. unfold d_state, d_lock. rewrite (R_get _ _ p H), E. reflexivity. Qed.
Lemma RD_locked d e p : RD d e -> locked_table e p = locked_table d p.
Proof. intro H. unfold locked_table. rewrite (RD_state _ _ p H). reflexivity. Qed.
Lemma RD_store d e p st : RD d e -> RD (d_store d p st) (d_store e p st).
Proof. intros [H E]. unfold d_store. destruct st; (split; cbn; [apply R_put, H|congruence]). Qed.
Lemma RD_u d e u v : RD d e -> R u v -> RD (Db u (d_l d)) (Db v (d_l e)).
Proof. intros [_ E] H. split; [exact H|exact E]. Qed.
Lemma step_RD fuel d e c : RD d e -> (forall p tr, c <> Track p tr) -> rr RA (db_step pr umax fuel d c) (db_step pr umax fuel e c).
Proof.
  intros H NT. destruct c as [p c|p ev|p ev|p ev s|p ev s|p ev s|p tr|ev hd]; [| | | | | |elim (NT p tr eq_refl)|].
  - cbn [db_step]. assert (X : rr RA (let* st := d_state d p in let* st' := step pr umax st (op_of c) in let* a := answer_of pr umax st c in Ok (d_store d p st', a))
      (let* st := d_state e p in let* st' := step pr umax st (op_of c) in let* a := answer_of pr umax st c in Ok (d_store e p st', a))).
    { rewrite (RD_state _ _ p H). apply rr_same. intro st. apply rr_same. intro st'. apply rr_same. intro a. apply rr_ok. split; [apply RD_store, H|reflexivity]. }
    destruct c; try exact X; destruct o; try exact X; apply rr_panic.
  - cbn [db_step]. rewrite (RD_locked _ _ p H). apply rr_same. intro w. pose proof (RD_release _ _ p H) as H1. rewrite (RD_held _ _ H1).
    eapply rr_bind; [apply flush_R; [apply do_flush_R|exact (proj1 H1)]|]. intros u v H2. apply rr_ok. split; [apply RD_u; [exact H1|exact H2]|reflexivity].
  - cbn [db_step]. rewrite (RD_locked _ _ p H). apply rr_same. intro w. rewrite (RD_held _ _ (RD_release _ _ p H)).
    eapply rr_bind; [apply live_R; [apply do_flush_R|exact (proj1 H)]|]. intros [u w1] [v w2] [H2 E]. cbn [fst snd] in *. subst w2. apply rr_ok.
    split; [apply RD_store, RD_u; [exact H|exact H2]|reflexivity].
  - cbn [db_step]. rewrite (RD_held _ _ H). eapply rr_bind; [apply remove_R; [apply do_flush_R|exact (proj1 H)]|]. intros u v H2. apply rr_ok. split; [apply RD_u; assumption|reflexivity].
  - cbn [db_step]. rewrite (RD_locked _ _ p H). apply rr_same. intro w. apply rr_same. intros _. apply rr_same. intro w1. pose proof (RD_release _ _ p H) as H1. rewrite (RD_held _ _ H1).
    eapply rr_bind; [apply flush_R; [apply do_flush_R|exact (proj1 H1)]|]. intros u v H2. apply rr_ok. split; [apply RD_u; [exact H1|exact H2]|reflexivity].
  - cbn [db_step]. rewrite (RD_held _ _ H). apply rr_same. intros _. unfold read_select.
    eapply rr_bind with (P := R); [eapply rr_bind; [apply do_flush_R; exact (proj1 H)|]; intros x y [H2 _]; apply rr_ok, H2|].
    intros u v H2. apply rr_ok. split; [apply RD_u; assumption|reflexivity].
  - cbn [db_step]. destruct H as [(A & B & C & D & Z & E) F]. rewrite D. apply rr_same. intro q. apply rr_ok. split; [|reflexivity]. split; [|exact F]. cbn. unfold R. cbn. auto 8.
Qed.
End W.

(** ** Programs *)
Section P.
Variables (pr : profile) (umax fuel : nat).
(** [rest]: the calls to come. *)
Definition J (ms : nat -> list bool) (rest : list (db_call * bool)) (d e : db) : Prop :=
  thinned ms (u_trk (d_u d)) (u_trk (d_u e)) /\ u_tabs (d_u e) = u_tabs (d_u d) /\ u_hdl (d_u e) = u_hdl (d_u d) /\ d_l e = d_l d /\
  length (u_tabs (d_u d)) = length (u_trk (d_u d)) /\ length (u_trk (d_u e)) = length (u_trk (d_u d)) /\
  forall p, skipn (length (u_trackers (d_u d) p)) (ms p) = marks rest p.
Lemma pick_all {A} bs (l : list A) x b : nth_error bs (length l) = Some b -> pick bs (l ++ [x]) = pick bs l ++ if b then [x] else [].
Proof.
  revert bs. induction l as [|y l IH]; intros [|c bs] H; try discriminate; cbn in *; [injection H as ->; destruct b, bs; reflexivity|].
  rewrite (IH _ H). destruct c; reflexivity.
Qed.
Lemma skipn_nth {A} (l : list A) m x r : skipn m l = x :: r -> nth_error l m = Some x /\ skipn (S m) l = r.
Proof. revert l. induction m as [|m IH]; intros [|y l] H; try discriminate; [injection H as -> ->; split; reflexivity|]. apply IH in H. exact H. Qed.
Lemma nth_upd {A} (l : list A) p q x d : p < length l -> nth q (upd l p x) d = if q =? p then x else nth q l d.
Proof.
  intro Lt. destruct (Nat.eqb_spec q p) as [->|N].
  - apply nth_error_nth. apply nth_error_upd_eq. exact Lt.
  - rewrite <- !nth_default_eq. unfold nth_default. rewrite nth_error_upd_ne by congruence. reflexivity.
Qed.
Lemma skipn_len {A} (l r : list A) : skipn (length l) (l ++ r) = r.
Proof. rewrite skipn_app, skipn_all, Nat.sub_diag. reflexivity. Qed.
Definition no_track (c : db_call) : bool := match c with Track _ _ => false | _ => true end.
Lemma step_J ms c rest d e : J ms ((c, true) :: rest) d e -> no_track c = true ->
  rr (fun x y => J ms rest (fst x) (fst y) /\ snd y = snd x /\
        skipn (length (u_log (d_u e))) (u_log (d_u (fst y))) = flat_map (heard ms) (skipn (length (u_log (d_u d))) (u_log (d_u (fst x)))))
     (db_step pr umax fuel d c) (db_step pr umax fuel e c).
Proof.
  intros (Th & Et & Eh & El & Lt & Lt' & Mk) NT.
  pose proof (step_RD pr umax ms (u_trk (d_u d)) (u_trk (d_u e)) (u_log (d_u d)) (u_log (d_u e)) Th fuel d e c) as X.
  assert (H : RD ms (u_trk (d_u d)) (u_trk (d_u e)) (u_log (d_u d)) (u_log (d_u e)) d e).
  { split; [|exact El]. repeat (split; [solve [auto]|]). exists []. cbn. rewrite !app_nil_r. auto. }
  specialize (X H). assert (N : forall p tr, c <> Track p tr) by (intros p tr ->; discriminate). specialize (X N). unfold rr in *.
  destruct (db_step pr umax fuel d c) as [[d1 a1]|]; destruct (db_step pr umax fuel e c) as [[e1 a2]|]; auto. destruct X as [[(A & B & C & D & Z & n & E & F) Dl] Ea]. cbn [fst snd] in *.
  split; [|split; [exact Ea|rewrite E, F, !skipn_len; reflexivity]]. unfold J. rewrite A, B. repeat (split; [solve [auto]|]). intro p. unfold u_trackers. rewrite A.
  specialize (Mk p). unfold u_trackers in Mk. rewrite Mk. unfold marks. cbn [flat_map fst]. destruct c; try discriminate; reflexivity.
Qed.
(** What [Track] does. *)
Definition tracked (d : db) (p : nat) (tr : tracker) : db :=
  Db (Uni (u_tabs (d_u d)) (upd (u_trk (d_u d)) p (u_trackers (d_u d) p ++ [tr])) (u_hdl (d_u d)) (u_log (d_u d))) (d_l d).
Lemma track_step d p tr x : db_step pr umax fuel d (Track p tr) = Ok x -> x = (tracked d p tr, ANothing) /\ p < length (u_tabs (d_u d)).
Proof.
  cbn [db_step]. unfold u_get. destruct (nth_error (u_tabs (d_u d)) p) as [t|] eqn:E; [|discriminate]. cbn [bind].
  unfold lock_ok. destruct (can_write _ _); [|discriminate]. cbn [bind]. unfold assert_. destruct (t_consistent t); [|discriminate]. cbn [bind]. intros [= <-].
  split; [reflexivity|]. eapply nth_error_Some_lt; eauto.
Qed.
Lemma track_same d e p tr : u_tabs (d_u e) = u_tabs (d_u d) -> d_l e = d_l d ->
  rr (fun x y => x = (tracked d p tr, ANothing) /\ y = (tracked e p tr, ANothing)) (db_step pr umax fuel d (Track p tr)) (db_step pr umax fuel e (Track p tr)).
Proof.
  intros Et El. cbn [db_step]. unfold u_get, d_held, d_lock. rewrite Et, El. apply rr_same. intro t. apply rr_same. intros _. apply rr_same. intros _. apply rr_ok. split; [reflexivity|].
  unfold tracked. rewrite Et, El. reflexivity.
Qed.
Lemma track_J ms p tr b rest d e : J ms ((Track p tr, b) :: rest) d e -> (b = false -> quiet tr) -> p < length (u_tabs (d_u d)) ->
  J ms rest (tracked d p tr) (if b then tracked e p tr else e).
Proof.
  intros (Th & Et & Eh & El & Lt & Lt' & Mk) Q Lp. assert (Lp1 : p < length (u_trk (d_u d))) by lia. assert (Lp2 : p < length (u_trk (d_u e))) by lia.
  assert (M0 : skipn (length (u_trackers (d_u d) p)) (ms p) = b :: marks rest p) by (rewrite Mk; unfold marks; cbn [flat_map fst snd]; rewrite Nat.eqb_refl; reflexivity).
  apply skipn_nth in M0. destruct M0 as [M0 M1]. pose proof (nth_error_Some_lt _ _ _ M0) as Lm.
  assert (Tq : forall q, nth q (u_trk (d_u (if b then tracked e p tr else e))) [] = if q =? p then u_trackers (d_u e) p ++ (if b then [tr] else []) else u_trackers (d_u e) q).
  { intro q. destruct b; cbn [tracked d_u u_trk]; [apply nth_upd; exact Lp2|]. rewrite app_nil_r. destruct (Nat.eqb_spec q p) as [->|_]; reflexivity. }
  unfold J. split; [|split; [destruct b; exact Et|split; [destruct b; exact Eh|split; [destruct b; exact El|split; [cbn; rewrite upd_length; exact Lt|split]]]]].
  - intro q. cbv zeta. rewrite Tq. cbn [tracked d_u u_trk]. rewrite nth_upd by exact Lp1. destruct (Th q) as (T1 & T2 & T3). destruct (Nat.eqb_spec q p) as [->|Nq]; [|auto].
    fold (u_trackers (d_u d) p) in T1, T2, T3. fold (u_trackers (d_u e) p) in T2. split; [rewrite app_length; cbn; lia|]. split; [rewrite (pick_all _ _ _ _ M0), T2; reflexivity|].
    intros i tr0 Hi Hm. destruct (Nat.lt_ge_cases i (length (u_trackers (d_u d) p))) as [Li|Li].
    + rewrite nth_error_app1 in Hi by exact Li. exact (T3 i tr0 Hi Hm).
    + rewrite nth_error_app2 in Hi by exact Li. destruct (i - length (u_trackers (d_u d) p)) as [|n] eqn:En; [|destruct n; discriminate]. injection Hi as <-.
      assert (i = length (u_trackers (d_u d) p)) by lia. subst i. apply Q. congruence.
  - destruct b; cbn; rewrite ?upd_length; lia.
  - intro q. unfold u_trackers at 1. cbn [tracked d_u u_trk]. rewrite nth_upd by exact Lp1. destruct (Nat.eqb_spec q p) as [->|Nq].
    + rewrite app_length, Nat.add_1_r. exact M1.
    + fold (u_trackers (d_u d) q). rewrite Mk. unfold marks. cbn [flat_map fst]. destruct (Nat.eqb_spec p q); [congruence|reflexivity].
Qed.
Theorem thinner_ok mcs : Forall droppable mcs -> forall ms d e, J ms mcs d e ->
  match db_talks pr umax fuel d (map fst mcs) with
  | Ok l => db_talks pr umax fuel e (thinner mcs) =
      Ok (map (fun x => (fst (snd x), flat_map (heard ms) (snd (snd x)))) (filter (fun x : db_call * bool * (answer * list note) => snd (fst x)) (combine mcs l)))
  | Err er => db_talks pr umax fuel e (thinner mcs) = Err er \/
      exists mcs1 p tr mcs2 l, mcs = mcs1 ++ (Track p tr, false) :: mcs2 /\ db_talks pr umax fuel d (map fst mcs1) = Ok l /\
        db_talks pr umax fuel d (map fst mcs1 ++ [Track p tr]) = Err er
  end.
Proof.
  induction 1 as [|[c b] mcs Dr _ IH]; intros ms d e HJ; [reflexivity|]. cbn [map fst db_talks].
  assert (Cont : forall d1 a1 e1, db_step pr umax fuel d c = Ok (d1, a1) -> J ms mcs d1 e1 ->
    (b = true -> db_step pr umax fuel e c = Ok (e1, a1) /\
       skipn (length (u_log (d_u e))) (u_log (d_u e1)) = flat_map (heard ms) (skipn (length (u_log (d_u d))) (u_log (d_u d1)))) -> (b = false -> e1 = e) ->
    match (let* q := Ok (d1, a1) in let* l := db_talks pr umax fuel (fst q) (map fst mcs) in Ok ((snd q, skipn (length (u_log (d_u d))) (u_log (d_u (fst q)))) :: l)) with
    | Ok l => db_talks pr umax fuel e (thinner ((c, b) :: mcs)) =
        Ok (map (fun x => (fst (snd x), flat_map (heard ms) (snd (snd x)))) (filter (fun x : db_call * bool * (answer * list note) => snd (fst x)) (combine ((c, b) :: mcs) l)))
    | Err er => db_talks pr umax fuel e (thinner ((c, b) :: mcs)) = Err er \/
        exists mcs1 p tr mcs2 l, (c, b) :: mcs = mcs1 ++ (Track p tr, false) :: mcs2 /\ db_talks pr umax fuel d (map fst mcs1) = Ok l /\
          db_talks pr umax fuel d (map fst mcs1 ++ [Track p tr]) = Err er
    end).
  { intros d1 a1 e1 E1 HJ1 Hb Hb'. cbn [bind fst snd]. specialize (IH ms d1 e1 HJ1). unfold thinner. cbn [filter snd].
    destruct (db_talks pr umax fuel d1 (map fst mcs)) as [l|er] eqn:El; cbn [bind].
    - destruct b.
      + destruct (Hb eq_refl) as [E2 En]. cbn [map fst db_talks]. rewrite E2. cbn [bind fst snd]. fold (thinner mcs). rewrite IH. cbn [bind combine filter fst snd map]. rewrite En. reflexivity.
      + rewrite (Hb' eq_refl) in IH. fold (thinner mcs). rewrite IH. reflexivity.
    - destruct IH as [IH|(mcs1 & p & tr & mcs2 & l & Em & Ok1 & Er1)].
      + left. destruct b; [|rewrite (Hb' eq_refl) in IH; exact IH]. destruct (Hb eq_refl) as [E2 _]. cbn [map fst db_talks]. rewrite E2. cbn [bind fst snd]. fold (thinner mcs). rewrite IH. reflexivity.
      + right. exists ((c, b) :: mcs1), p, tr, mcs2. eexists. split; [rewrite Em; reflexivity|]. cbn [map fst app db_talks]. rewrite E1. cbn [bind fst snd]. rewrite Ok1, Er1. split; reflexivity. }
  destruct (no_track c) eqn:NT.
  - assert (b = true) by (destruct Dr as [H|(p & tr & H & _)]; [exact H|cbn in H; subst c; discriminate]). subst b. pose proof (step_J ms c mcs d e HJ NT) as X. unfold rr in X.
    destruct (db_step pr umax fuel d c) as [[d1 a1]|er] eqn:E1; destruct (db_step pr umax fuel e c) as [[e1 a2]|er'] eqn:E2; try contradiction.
    + destruct X as (X1 & X2 & X3). cbn [fst snd] in *. subst a2. apply (Cont d1 a1 e1); auto. discriminate.
    + subst er'. cbn [bind]. left. unfold thinner. cbn [filter snd map fst db_talks]. rewrite E2. reflexivity.
  - destruct c as [| | | | | |p tr|]; try discriminate. pose proof HJ as (_ & Et & _ & El & _). pose proof (track_same d e p tr Et El) as X. unfold rr in X.
    destruct (db_step pr umax fuel d (Track p tr)) as [x|er] eqn:E1.
    + destruct (track_step _ _ _ _ E1) as [-> Lp]. destruct (db_step pr umax fuel e (Track p tr)) as [y|] eqn:E2; [|contradiction]. destruct X as [_ ->].
      apply (Cont (tracked d p tr) ANothing (if b then tracked e p tr else e)); auto.
      * apply track_J; auto. intros ->. destruct Dr as [H|(q & tr' & H & Q)]; [discriminate|]. cbn in H. injection H as <- <-. exact Q.
      * intros ->. split; [reflexivity|]. cbn. rewrite !skipn_all. reflexivity.
      * intros ->. reflexivity.
    + destruct (db_step pr umax fuel e (Track p tr)) as [|er'] eqn:E2; [contradiction|]. subst er'. cbn [bind]. destruct b.
      * left. unfold thinner. cbn [filter snd map fst db_talks]. rewrite E2. reflexivity.
      * right. exists [], p, tr, mcs. eexists. split; [reflexivity|]. split; [reflexivity|]. cbn [map app db_talks]. rewrite E1. reflexivity.
Qed.
Lemma J_new schs mcs : J (marks mcs) mcs (db_new schs) (db_new schs).
Proof.
  assert (N : forall p, nth p (map (fun _ : schema => @nil tracker) schs) [] = []) by (induction schs as [|s l IH]; intros [|p]; cbn; auto).
  unfold J, db_new. cbn. split; [|repeat (split; [rewrite ?map_length; reflexivity|])].
  - intro p. cbv zeta. rewrite N. split; [apply Nat.le_0_l|]. split; [destruct (marks mcs p) as [|[] ?]; reflexivity|]. intros [|i] tr H; discriminate H.
  - intro p. unfold u_trackers. cbn. rewrite N. reflexivity.
Qed.
Theorem watching schs mcs : Forall droppable mcs ->
  match db_talks pr umax fuel (db_new schs) (map fst mcs) with
  | Ok l => db_talks pr umax fuel (db_new schs) (thinner mcs) = Ok (thinner_talk mcs l)
  | Err er => db_talks pr umax fuel (db_new schs) (thinner mcs) = Err er \/
      exists mcs1 p tr mcs2 l, mcs = mcs1 ++ (Track p tr, false) :: mcs2 /\ db_talks pr umax fuel (db_new schs) (map fst mcs1) = Ok l /\
        db_talks pr umax fuel (db_new schs) (map fst mcs1 ++ [Track p tr]) = Err er
  end.
Proof. intro F. exact (thinner_ok mcs F (marks mcs) (db_new schs) (db_new schs) (J_new schs mcs)). Qed.
End P.
