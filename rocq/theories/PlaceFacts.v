(** Proofs about the place of tables in a database. *)
From Coq Require Import List Arith Bool Lia.
From Verif Require Import Base BaseFacts Column Order RowRange Table SortedTab Events Cascade Hist Answers DbHist DbFacts ChooseFacts PlaceSpec.
Import ListNotations.

(** Both succeed, or both fail alike. *)
Definition rr {A B} (P : A -> B -> Prop) (x : res A) (y : res B) : Prop := match x, y with Ok a, Ok b => P a b | Err e, Err e' => e = e' | _, _ => False end.
Lemma rr_bind {A B C D} (P : A -> B -> Prop) (Q : C -> D -> Prop) x y f g : rr P x y -> (forall a b, P a b -> rr Q (f a) (g b)) -> rr Q (bind x f) (bind y g).
Proof. destruct x, y; cbn; intros H K; try contradiction; auto. Qed.
Lemma rr_same {A C D} (Q : C -> D -> Prop) (x : res A) f g : (forall a, x = Ok a -> rr Q (f a) (g a)) -> rr Q (bind x f) (bind x g).
Proof. destruct x; cbn; auto. Qed.

Section W.
(** [n] tables, and now [N], of which the others are [T0]. *)
Variables (pr : profile) (umax : nat) (sg : nat -> nat) (n N : nat) (T0 : list table).
Hypothesis Inj : forall p q, p < n -> q < n -> sg p = sg q -> p = q.
Hypothesis Below : forall p, p < n -> sg p < N.
Definition other (q : nat) : Prop := forall p, p < n -> sg p <> q.
Definition tr_in (tr : tracker) : Prop := match tr with TAuto c _ _ => c < n | TUser _ _ => True end.
Record R (u v : universe) : Prop := {
  r_tabs : forall p, p < n -> nth_error (u_tabs v) (sg p) = nth_error (u_tabs u) p;
  r_len : length (u_tabs u) = n;
  r_len' : length (u_tabs v) = N;
  r_out : forall q, other q -> nth_error (u_tabs v) q = nth_error T0 q;
  r_trk : forall p, p < n -> nth (sg p) (u_trk v) [] = map (place_tracker sg) (nth p (u_trk u) []);
  r_tlen : length (u_trk u) = n;
  r_tlen' : forall p, p < n -> sg p < length (u_trk v);
  r_in : forall p, p < n -> Forall tr_in (nth p (u_trk u) []);
  r_hdl : u_hdl v = u_hdl u;
  r_log : u_log v = map (place_note sg) (u_log u) }.
Lemma R_get u v p : R u v -> p < n -> u_get v (sg p) = u_get u p. Proof. intros H O. unfold u_get. rewrite (r_tabs _ _ H p O). reflexivity. Qed.
Lemma R_put u v p t : R u v -> p < n -> R (u_put u p t) (u_put v (sg p) t).
Proof.
  intros [A B B1 B2 C D E F G H] O. constructor; cbn; rewrite ?upd_length; auto; [|intros q Oq; rewrite nth_error_upd_ne by (intro Y; apply (Oq p O); congruence); auto]. intros q Oq. pose proof (Below p O) as Lv.
  destruct (Nat.eq_dec q p) as [->|Nq]; [rewrite !nth_error_upd_eq by lia; reflexivity|]. rewrite !nth_error_upd_ne by (intro X; apply Nq; auto). auto.
Qed.
Lemma R_say u v p i ev s : R u v -> R (u_say u (Note p i ev s)) (u_say v (Note (sg p) i ev s)).
Proof. intros [A B B1 B2 C D E F G H]. constructor; cbn; auto. rewrite H, map_app. reflexivity. Qed.
Definition H2 (h h' : locks) : Prop :=
  forall p, p < n -> can_write h' (sg p) = can_write h p /\ can_read h' (sg p) = can_read h p /\ can_write h' (N + sg p) = can_write h (n + p).
Lemma sg_eqb p q : p < n -> q < n -> (sg p =? sg q) = (p =? q).
Proof. intros O Oq. destruct (Nat.eqb_spec p q) as [->|X]; [apply Nat.eqb_refl|apply Nat.eqb_neq; auto]. Qed.
Lemma H2_cons p b h h' : p < n -> H2 h h' -> H2 ((p, b) :: h) ((sg p, b) :: h').
Proof.
  intros O H q Oq. destruct (H q Oq) as (A & B & C). unfold can_write, can_read in *. cbn [forallb fst snd]. rewrite A, B, C, (sg_eqb p q O Oq).
  pose proof (Below p O). assert (X1 : (sg p =? N + sg q) = false) by (apply Nat.eqb_neq; lia). assert (X2 : (p =? n + q) = false) by (apply Nat.eqb_neq; lia). rewrite X1, X2. auto.
Qed.
(** The trackers of a table are locked for reading. *)
Lemma H2_guard p h h' : p < n -> H2 h h' -> H2 ((n + p, false) :: h) ((N + sg p, false) :: h').
Proof.
  intros O H q Oq. destruct (H q Oq) as (A & B & C). unfold can_write, can_read in *. cbn [forallb fst snd]. rewrite A, B, C, !andb_false_r.
  pose proof (Below q Oq). assert (X1 : (N + sg p =? sg q) = false) by (apply Nat.eqb_neq; lia). assert (X2 : (n + p =? q) = false) by (apply Nat.eqb_neq; lia). rewrite X1, X2.
  assert (X3 : (N + sg p =? N + sg q) = (n + p =? n + q)).
  { destruct (Nat.eqb_spec (n + p) (n + q)) as [X|X]; [replace q with p by lia; apply Nat.eqb_refl|]. apply Nat.eqb_neq. intro Y. apply X. f_equal. apply Inj; auto. lia. }
  rewrite X3. auto.
Qed.
Lemma H2_app g h g' h' : H2 g g' -> H2 h h' -> H2 (g ++ h) (g' ++ h').
Proof. intros A B p O. destruct (A p O) as (A1 & A2 & A3), (B p O) as (B1 & B2 & B3). unfold can_write, can_read in *. rewrite !forallb_app. rewrite A1, A2, A3, B1, B2, B3. auto. Qed.
Lemma H2_nil : H2 [] []. Proof. intros p O. repeat split. Qed.

Section Calls.
Variables call call' : universe -> locks -> nat -> event -> bool -> bool -> select -> res (universe * select).
Definition R2 (x y : universe * select) : Prop := R (fst x) (fst y) /\ snd y = snd x.
Hypothesis Call : forall u v h h' p ev a d s, R u v -> H2 h h' -> p < n -> rr R2 (call u h p ev a d s) (call' v h' (sg p) ev a d s).
Lemma flush_R u v h h' p w ev : R u v -> H2 h h' -> p < n -> rr R (flush_with pr umax call u h p w ev) (flush_with pr umax call' v h' (sg p) w ev).
Proof.
  intros H Hh O. unfold flush_with. destruct (sel_empty (w_changes w)).
  - apply rr_same. intros t _. apply R_put; auto.
  - eapply rr_bind; [apply Call; auto; apply R_put; auto|]. intros [u1 s] [v1 s'] [H1 E]. cbn [fst snd] in *. subst s'. destruct (_ && _); [|exact H1].
    destruct (Hh p O) as [-> _]. apply rr_same. intros _ _. rewrite (R_get _ _ p H1 O). apply rr_same. intros t _. apply rr_same. intros w1 _. apply rr_same. intros _ _.
    apply rr_same. intros t1 _. apply R_put; auto.
Qed.
Lemma live_R u v h h' p w ev : R u v -> H2 h h' -> p < n ->
  rr (fun x y => R (fst x) (fst y) /\ snd y = snd x) (live_flush_with pr umax call u h p w ev) (live_flush_with pr umax call' v h' (sg p) w ev).
Proof.
  intros H Hh O. unfold live_flush_with. destruct (sel_empty (w_changes w)).
  - split; [apply R_put; auto|reflexivity].
  - eapply rr_bind; [apply Call; [apply R_put; auto|apply H2_cons; auto|exact O]|]. intros [u1 s] [v1 s'] [H1 E]. cbn [fst snd] in *. subst s'.
    rewrite (R_get _ _ p H1 O). apply rr_same. intros t _. apply rr_same. intros w1 _. apply rr_same. intros _ _. split; [apply R_put; auto|reflexivity].
Qed.
Lemma remove_R u v h h' c ev rows : R u v -> H2 h h' -> c < n -> rr R (remove_rows_with pr umax call u h c ev rows) (remove_rows_with pr umax call' v h' (sg c) ev rows).
Proof.
  intros H Hh O. unfold remove_rows_with. rewrite (R_get _ _ c H O). apply rr_same. intros t _. destruct (Hh c O) as [-> _].
  destruct (t_kind t); try reflexivity; apply rr_same; intros _ _; apply rr_same; intros w _; apply flush_R; auto.
Qed.
Lemma auto_R hd u v h h' c k key ev rows : R u v -> H2 h h' -> c < n ->
  rr R (auto_handle pr umax call hd u h c k key ev rows) (auto_handle pr umax call' hd v h' (sg c) k key ev rows).
Proof.
  intros H Hh O. unfold auto_handle. destruct (Hh c O) as (_ & Er & _). rewrite Er. apply rr_same. intros _ _. rewrite (R_get _ _ c H O). apply rr_same. intros t _. apply rr_same. intros s _.
  unfold run_with. rewrite (R_get _ _ c H O). apply rr_same. intros t1 _.
  eapply rr_bind with (P := R); [|intros u1 v1 H1; rewrite Er; apply rr_same; intros _ _; eapply rr_bind; [apply Call; [exact H1|apply H2_cons; auto|exact O]|]; intros x y [X _]; exact X].
  unfold handle_with. destruct hd; [apply remove_R; auto|exact H|reflexivity].
Qed.
Definition R3 (x y : universe * select * bool) : Prop := R (fst (fst x)) (fst (fst y)) /\ snd (fst y) = snd (fst x) /\ snd y = snd x.
Lemma turn_R hd h h' p ev s s' i tr : R3 s s' -> H2 h h' -> tr_in tr ->
  rr R3 (tracker_turn pr umax call hd h p ev s (i, tr)) (tracker_turn pr umax call' hd h' (sg p) ev s' (i, place_tracker sg tr)).
Proof.
  destruct s as [[u sel] b], s' as [[v sel'] b']. intros (H & E1 & E2) Hh Tr. cbn [fst snd] in *. subst sel' b'. unfold tracker_turn. cbn [fst snd].
  assert (Ec : tracker_considers (place_tracker sg tr) ev = tracker_considers tr ev) by (destruct tr; reflexivity). rewrite Ec.
  destruct (tracker_considers tr ev); [|split; [exact H|split; reflexivity]].
  assert (Es : tracker_sorts v (place_tracker sg tr) = tracker_sorts u tr) by (unfold tracker_sorts; destruct tr as [q k key|]; cbn [place_tracker]; [rewrite (r_tabs _ _ H q Tr)|]; reflexivity). rewrite Es.
  set (sel1 := if negb b && tracker_sorts u tr then sel_sort sel else sel). pose proof (R_say u v p i ev sel1 H) as H1.
  eapply rr_bind with (P := R); [destruct tr as [q k key|]; [apply auto_R; auto|exact H1]|]. intros u1 v1 X. split; [exact X|split; reflexivity].
Qed.
Lemma turns hd h h' p ev trs : H2 h h' -> Forall tr_in trs -> forall m s s', R3 s s' ->
  rr R3 (fold_res (tracker_turn pr umax call hd h p ev) (combine (seq m (length trs)) trs) s)
        (fold_res (tracker_turn pr umax call' hd h' (sg p) ev) (combine (seq m (length trs)) (map (place_tracker sg) trs)) s').
Proof.
  intros Hh F. induction F as [|tr trs Ht F IH]; intros m s s' H; cbn [length seq combine map fold_res]; [exact H|]. eapply rr_bind; [apply turn_R; assumption|]. intros a b Hab. apply IH. exact Hab.
Qed.
End Calls.
Lemma do_R fuel : forall u v h h' p ev a d s, R u v -> H2 h h' -> p < n -> rr R2 (do_flush pr umax fuel u h p ev a d s) (do_flush pr umax fuel v h' (sg p) ev a d s).
Proof.
  induction fuel as [|m IH]; intros u v h h' p ev a d s H Hh O; cbn [do_flush]; [reflexivity|]. apply rr_same. intros _ _. rewrite (r_hdl _ _ H). apply rr_same. intros hd _.
  unfold u_trackers. rewrite (r_trk _ _ H p O), map_length. eapply rr_bind; [apply turns; [exact IH|exact Hh|apply (r_in _ _ H p O)|split; [exact H|split; reflexivity]]|].
  intros x y (A & B & _). split; assumption.
Qed.

Lemma R_track u v p tr : R u v -> p < n -> tr_in tr ->
  R (Uni (u_tabs u) (upd (u_trk u) p (u_trackers u p ++ [tr])) (u_hdl u) (u_log u)) (Uni (u_tabs v) (upd (u_trk v) (sg p) (u_trackers v (sg p) ++ [place_tracker sg tr])) (u_hdl v) (u_log v)).
Proof.
  intros [A B B1 B2 C D E F G L] O Ti. unfold u_trackers. rewrite (C p O).
  constructor; cbn [u_tabs u_trk u_hdl u_log]; rewrite ?upd_length; auto.
  - intros q Oq. specialize (C q Oq). specialize (E p O). rewrite !nth_def in *. destruct (Nat.eq_dec q p) as [->|Nq]; [rewrite !nth_error_upd_eq by lia; rewrite map_app; reflexivity|].
      rewrite !nth_error_upd_ne by (intro X; apply Nq; auto). exact C.
  - intros q Oq. pose proof (F q Oq) as Fq. rewrite nth_def. destruct (Nat.eq_dec q p) as [->|Nq].
    + rewrite nth_error_upd_eq by lia. apply Forall_app. split; [exact Fq|]. constructor; [exact Ti|constructor].
    + rewrite nth_error_upd_ne by congruence. rewrite <- nth_def. exact Fq.
Qed.
(** Programs. *)
Record RD (d e : db) : Prop := {
  rd_u : R (d_u d) (d_u e);
  rd_len : length (d_l d) = n;
  rd_len' : length (d_l e) = N;
  rd_out : forall q, other q -> d_lock e q = None;
  rd_l : forall p, p < n -> d_lock e (sg p) = d_lock d p }.
Lemma lock_above d q : length (d_l d) <= q -> d_lock d q = None. Proof. intro L. apply nth_overflow. exact L. Qed.
Lemma RD_held d e : RD d e -> H2 (d_held d) (d_held e).
Proof.
  intros H p O. rewrite !held_write, !held_read, (rd_l _ _ H p O), (lock_above e (N + sg p)), (lock_above d (n + p)) by (rewrite ?(rd_len _ _ H), ?(rd_len' _ _ H); lia). auto.
Qed.
Lemma RD_upd d e p l u v : RD d e -> p < n -> R u v -> RD (Db u (upd (d_l d) p l)) (Db v (upd (d_l e) (sg p) l)).
Proof.
  intros [A B C C1 D] O H. constructor; cbn [d_u d_l]; rewrite ?upd_length; auto.
  - intros q Oq. specialize (C1 q Oq). unfold d_lock in *. cbn [d_l]. rewrite !nth_def in *. rewrite nth_error_upd_ne by (intro Y; apply (Oq p O); congruence). exact C1.
  - intros q Oq. unfold d_lock in *. cbn [d_l]. specialize (D q Oq). pose proof (Below p O). rewrite !nth_def in *.
    destruct (Nat.eq_dec q p) as [->|X]; [rewrite !nth_error_upd_eq by lia; reflexivity|]. rewrite !nth_error_upd_ne by (intro Y; apply X; auto). exact D.
Qed.
Lemma RD_with d e u v : RD d e -> R u v -> RD (Db u (d_l d)) (Db v (d_l e)).
Proof. intros [A B C C1 D] H. constructor; auto. Qed.
Lemma RD_release d e p : RD d e -> p < n -> RD (d_release d p) (d_release e (sg p)).
Proof. intros H O. apply RD_upd; auto. apply (rd_u _ _ H). Qed.
Lemma RD_store d e p st : RD d e -> p < n -> RD (d_store d p st) (d_store e (sg p) st).
Proof. intros H O. destruct st; apply RD_upd; auto; apply R_put; auto; apply (rd_u _ _ H). Qed.
Lemma RD_state d e p : RD d e -> p < n -> d_state e (sg p) = d_state d p.
Proof. intros H O. unfold d_state. rewrite (R_get _ _ p (rd_u _ _ H) O), (rd_l _ _ H p O). reflexivity. Qed.
Lemma RD_table d e p : RD d e -> p < n -> locked_table e (sg p) = locked_table d p.
Proof. intros H O. unfold locked_table. rewrite (RD_state _ _ _ H O). reflexivity. Qed.
Local Notation RS := (fun x y : db * answer => RD (fst x) (fst y) /\ snd y = snd x).
Lemma step_R fuel d e c : RD d e -> about n c -> rr RS (db_step pr umax fuel d c) (db_step pr umax fuel e (place_call sg c)).
Proof.
  intros H O. pose proof (rd_u _ _ H) as U. pose proof (RD_held _ _ H) as Hh. destruct c as [p c|p ev|p ev|p ev s|p ev s|p ev s|p tr|ev hd]; cbn [place_call about] in *.
  - assert (X : rr RS (let* st := d_state d p in let* st' := step pr umax st (op_of c) in let* a := answer_of pr umax st c in Ok (d_store d p st', a))
                      (let* st := d_state e (sg p) in let* st' := step pr umax st (op_of c) in let* a := answer_of pr umax st c in Ok (d_store e (sg p) st', a))).
    { rewrite (RD_state _ _ _ H O). apply rr_same. intros st _. apply rr_same. intros st' _. apply rr_same. intros a _. split; [apply RD_store; assumption|reflexivity]. }
    destruct c as [o| | |]; [destruct o|..]; first [exact X|reflexivity].
  - cbn [db_step]. rewrite (RD_table _ _ _ H O). apply rr_same. intros w _. pose proof (RD_release _ _ _ H O) as H1.
    eapply rr_bind; [apply flush_R; [intros; apply do_R; assumption|exact U|apply RD_held; exact H1|exact O]|]. intros u v Huv. split; [exact (RD_with _ _ _ _ H1 Huv)|reflexivity].
  - cbn [db_step]. rewrite (RD_table _ _ _ H O). apply rr_same. intros w _. pose proof (RD_release _ _ _ H O) as H1.
    eapply rr_bind; [apply live_R; [intros; apply do_R; assumption|exact U|apply RD_held; exact H1|exact O]|]. intros [u w1] [v w2] [Huv Ew]. cbn [fst snd] in *. subst w2.
    split; [apply RD_store; [exact (RD_with _ _ _ _ H Huv)|exact O]|reflexivity].
  - cbn [db_step]. eapply rr_bind; [apply remove_R; [intros; apply do_R; assumption|exact U|exact Hh|exact O]|]. intros u v Huv. split; [exact (RD_with _ _ _ _ H Huv)|reflexivity].
  - cbn [db_step]. rewrite (RD_table _ _ _ H O). apply rr_same. intros w _. apply rr_same. intros _ _. apply rr_same. intros w1 _. pose proof (RD_release _ _ _ H O) as H1.
    eapply rr_bind; [apply flush_R; [intros; apply do_R; assumption|exact U|apply RD_held; exact H1|exact O]|]. intros u v Huv. split; [exact (RD_with _ _ _ _ H1 Huv)|reflexivity].
  - cbn [db_step]. destruct (Hh p O) as (_ & -> & _). apply rr_same. intros _ _. unfold read_select. eapply rr_bind with (P := R).
    + eapply rr_bind; [apply do_R; [exact U|exact Hh|exact O]|]. intros x y [A _]. exact A.
    + intros u v Huv. split; [exact (RD_with _ _ _ _ H Huv)|reflexivity].
  - assert (O1 : p < n /\ tr_in tr) by (destruct tr; [exact O|split; [exact O|exact I]]). clear O. destruct O1 as [O Ti]. cbn [db_step]. rewrite (R_get _ _ p U O). apply rr_same. intros t _. destruct (Hh p O) as [-> _]. apply rr_same. intros _ _.
    apply rr_same. intros _ _. split; [|reflexivity]. apply RD_with; [exact H|]. apply R_track; assumption.
  - cbn [db_step]. rewrite (r_hdl _ _ U). apply rr_same. intros q _. split; [|reflexivity]. apply RD_with; [exact H|]. destruct U as [A B B1 B2 C D E F G L]. constructor; auto.
Qed.
Lemma talks_R fuel cs : Forall (about n) cs -> forall d e, RD d e ->
  db_talks pr umax fuel e (map (place_call sg) cs) = match db_talks pr umax fuel d cs with Ok l => Ok (map (place_said sg) l) | Err x => Err x end.
Proof.
  intro F. induction F as [|c cs O F IH]; intros d e H; [reflexivity|]. cbn [map db_talks]. pose proof (step_R fuel d e c H O) as S1.
  destruct (db_step pr umax fuel d c) as [[d1 a]|x], (db_step pr umax fuel e (place_call sg c)) as [[e1 b]|y]; try contradiction; [|cbn in S1; subst; reflexivity].
  destruct S1 as [H1 E1]. cbn [fst snd bind] in *. subst b. rewrite (IH _ _ H1). destruct (db_talks pr umax fuel d1 cs) as [l|x]; [|reflexivity]. cbn [bind map]. unfold place_said at 2. cbn [fst snd].
  rewrite (r_log _ _ (rd_u _ _ H)), (r_log _ _ (rd_u _ _ H1)), map_length, skipn_map. reflexivity.
Qed.
End W.

Lemma new_R sg schs schs' : placed sg schs schs' -> (forall p, p < length schs -> sg p < length schs') /\
  R sg (length schs) (length schs') (map t_new schs') (Uni (map t_new schs) (map (fun _ => []) schs) default_handlers []) (Uni (map t_new schs') (map (fun _ => []) schs') default_handlers []).
Proof.
  intros [P Inj]. assert (Q : forall p, p < length schs -> exists s, nth_error schs p = Some s /\ nth_error schs' (sg p) = Some s).
  { intros p O. destruct (nth_error schs p) as [s|] eqn:E; [exists s; auto|]. apply nth_error_None in E. lia. }
  assert (L : forall p, p < length schs -> sg p < length schs') by (intros p O; destruct (Q p O) as (s & _ & E); apply nth_error_Some; congruence).
  assert (Z : forall A (a : A) p (l : list schema), nth p (map (fun _ => a) l) a = a) by (intros A a p l; revert p; induction l as [|x l IH]; intros [|p]; try reflexivity; apply IH).
  split; [exact L|]. constructor; cbn [u_tabs u_trk u_hdl u_log]; rewrite ?map_length; auto.
  - intros p O. rewrite !nth_error_map. destruct (Q p O) as (s & -> & ->). reflexivity.
  - intros p O. rewrite !Z. reflexivity.
  - intros p O. rewrite Z. constructor.
Qed.
Theorem placing : forall pr umax fuel sg schs schs' cs, placed sg schs schs' -> Forall (about (length schs)) cs ->
  db_talks pr umax fuel (db_new schs') (map (place_call sg) cs) = match db_talks pr umax fuel (db_new schs) cs with Ok l => Ok (map (place_said sg) l) | Err e => Err e end.
Proof.
  intros pr umax fuel sg schs schs' cs P F. destruct (new_R _ _ _ P) as [L U]. destruct P as [_ Inj].
  assert (Z : forall A (a : A) p (l : list schema), nth p (map (fun _ => a) l) a = a) by (intros A a p l; revert p; induction l as [|x l IH]; intros [|p]; try reflexivity; apply IH).
  apply (talks_R pr umax sg (length schs) (length schs') (map t_new schs') Inj L fuel cs F).
  constructor; cbn [db_new d_u d_l]; rewrite ?map_length; auto; intros p O; unfold d_lock; cbn [db_new d_l]; rewrite !Z; reflexivity.
Qed.
