(** Proofs about groups of tables that have nothing to do with each other. *)
From Coq Require Import List Arith Bool Lia.
From Verif Require Import Base BaseFacts Column Order RowRange Table SortedTab Events Cascade Hist Answers DbHist StableSpec StableFacts WatchSpec WatchFacts LayerFacts ApartSpec.
Import ListNotations.

Section W.
Variables (pr : profile) (umax : nat) (inn : nat -> bool).
Section Rel.
Variables (L L' : list note).
(** The tables that are [inn] and their trackers are the same, and refer to none other. *)
Record R (u v : universe) : Prop := {
  r_hdl : u_hdl v = u_hdl u;
  r_len : length (u_tabs v) = length (u_tabs u);
  r_num : length (u_trk v) = length (u_trk u);
  r_tabs : forall p, inn p = true -> nth_error (u_tabs v) p = nth_error (u_tabs u) p;
  r_trk : forall p, inn p = true -> u_trackers v p = u_trackers u p;
  r_ref : forall p q k key, inn p = true -> In (TAuto q k key) (u_trackers u p) -> inn q = true;
  r_log : exists n, u_log u = L ++ n /\ u_log v = L' ++ n }.
Lemma R_get u v p : R u v -> inn p = true -> u_get v p = u_get u p. Proof. intros H O. unfold u_get. rewrite (r_tabs _ _ H p O). reflexivity. Qed.
Lemma R_put u v p t : R u v -> R (u_put u p t) (u_put v p t).
Proof.
  intros [A B C D E F G]. constructor; cbn; rewrite ?upd_length; auto.
  intros q Oq. destruct (Nat.eq_dec q p) as [->|N]; [|rewrite !nth_error_upd_ne by congruence; auto].
  destruct (Nat.lt_ge_cases p (length (u_tabs u))) as [Lt|Ge]; [rewrite !nth_error_upd_eq by lia; reflexivity|]. rewrite !upd_oob by lia. auto.
Qed.
Lemma R_say u v n : R u v -> R (u_say u n) (u_say v n).
Proof. intros [A B C D E F (m & G & H)]. constructor; cbn; auto. exists (m ++ [n]). rewrite G, H, <- !app_assoc. auto. Qed.
Definition H2 (h h' : locks) : Prop := forall p, inn p = true -> can_write h' p = can_write h p /\ can_read h' p = can_read h p.
Lemma H2_cons p b h h' : H2 h h' -> H2 ((p, b) :: h) ((p, b) :: h').
Proof. intros H q O. destruct (H q O) as [A B]. cbn. unfold can_write, can_read in *. rewrite A, B. auto. Qed.

Section Calls.
Variable call : universe -> locks -> nat -> event -> bool -> bool -> select -> res (universe * select).
Definition R2 (x y : universe * select) : Prop := R (fst x) (fst y) /\ snd x = snd y.
Hypothesis Call : forall u v h h' p ev a d s, R u v -> H2 h h' -> inn p = true -> ro R2 (call u h p ev a d s) (call v h' p ev a d s).
Lemma flush_R u v h h' p w ev : R u v -> H2 h h' -> inn p = true -> ro R (flush_with pr umax call u h p w ev) (flush_with pr umax call v h' p w ev).
Proof.
  intros H Hh O. unfold flush_with. destruct (sel_empty (w_changes w)).
  - apply ro_same. intros t _. apply ro_ok, R_put; auto.
  - eapply ro_bind; [apply Call; auto; apply R_put; auto|]. intros [u1 s] [v1 s'] [H1 E]. cbn [fst snd] in *. subst s'. destruct (_ && _); [|apply ro_ok, H1].
    destruct (Hh p O) as [-> _]. apply ro_same. intros _ _. rewrite (R_get _ _ p H1 O). apply ro_same. intros t _. apply ro_same. intros w1 _. apply ro_same. intros _ _.
    apply ro_same. intros t1 _. apply ro_ok, R_put; auto.
Qed.
Lemma live_R u v h h' p w ev : R u v -> H2 h h' -> inn p = true ->
  ro (fun x y => R (fst x) (fst y) /\ snd x = snd y) (live_flush_with pr umax call u h p w ev) (live_flush_with pr umax call v h' p w ev).
Proof.
  intros H Hh O. unfold live_flush_with. destruct (sel_empty (w_changes w)).
  - apply ro_ok. split; [apply R_put; auto|reflexivity].
  - eapply ro_bind; [apply Call; [apply R_put; auto|apply H2_cons, Hh|exact O]|]. intros [u1 s] [v1 s'] [H1 E]. cbn [fst snd] in *. subst s'.
    rewrite (R_get _ _ p H1 O). apply ro_same. intros t _. apply ro_same. intros w1 _. apply ro_same. intros _ _. apply ro_ok. split; [apply R_put; auto|reflexivity].
Qed.
Lemma remove_R u v h h' c ev rows : R u v -> H2 h h' -> inn c = true -> ro R (remove_rows_with pr umax call u h c ev rows) (remove_rows_with pr umax call v h' c ev rows).
Proof.
  intros H Hh O. unfold remove_rows_with. rewrite (R_get _ _ c H O). apply ro_same. intros t _. destruct (Hh c O) as [-> _].
  destruct (t_kind t); try apply ro_panic; apply ro_same; intros _ _; apply ro_same; intros w _; apply flush_R; auto.
Qed.
Lemma auto_R hd u v h h' c k key ev rows : R u v -> H2 h h' -> inn c = true ->
  ro R (auto_handle pr umax call hd u h c k key ev rows) (auto_handle pr umax call hd v h' c k key ev rows).
Proof.
  intros H Hh O. unfold auto_handle. destruct (Hh c O) as [_ Er]. rewrite Er. apply ro_same. intros _ _. rewrite (R_get _ _ c H O). apply ro_same. intros t _. apply ro_same. intros s _.
  unfold run_with. rewrite (R_get _ _ c H O). apply ro_same. intros t1 _.
  eapply ro_bind with (P := R); [|intros u1 v1 H1; rewrite Er; apply ro_same; intros _ _; eapply ro_bind; [apply Call; [exact H1|apply H2_cons, Hh|exact O]|]; intros x y [X _]; apply ro_ok, X].
  unfold handle_with. destruct hd; [apply remove_R; auto|apply ro_ok, H|apply ro_panic].
Qed.
Definition R3 (x y : universe * select * bool) : Prop := R (fst (fst x)) (fst (fst y)) /\ snd (fst x) = snd (fst y) /\ snd x = snd y.
Lemma turn_R hd h h' p ev s s' i tr : R3 s s' -> H2 h h' -> (forall q k key, tr = TAuto q k key -> inn q = true) ->
  ro R3 (tracker_turn pr umax call hd h p ev s (i, tr)) (tracker_turn pr umax call hd h' p ev s' (i, tr)).
Proof.
  destruct s as [[u sel] b], s' as [[v sel'] b']. intros (H & E1 & E2) Hh Tr. cbn [fst snd] in *. subst sel' b'. unfold tracker_turn. cbn [fst snd].
  destruct (tracker_considers tr ev); [|apply ro_ok; split; [exact H|split; reflexivity]].
  assert (Es : tracker_sorts v tr = tracker_sorts u tr) by (unfold tracker_sorts; destruct tr as [q k key|]; [rewrite (r_tabs _ _ H q (Tr _ _ _ eq_refl))|]; reflexivity). rewrite Es.
  set (sel1 := if negb b && tracker_sorts u tr then sel_sort sel else sel). pose proof (R_say u v (Note p i ev sel1) H) as H1.
  eapply ro_bind with (P := R); [destruct tr as [q k key|]; [apply auto_R; eauto|apply ro_ok, H1]|]. intros u1 v1 X. apply ro_ok. split; [exact X|split; reflexivity].
Qed.
Lemma turns hd h h' p ev xs : H2 h h' -> (forall i q k key, In (i, TAuto q k key) xs -> inn q = true) -> forall s s', R3 s s' ->
  ro R3 (fold_res (tracker_turn pr umax call hd h p ev) xs s) (fold_res (tracker_turn pr umax call hd h' p ev) xs s').
Proof.
  intros Hh. induction xs as [|[i tr] xs IH]; intros Tr s s' H; [apply ro_ok, H|]. cbn [fold_res]. eapply ro_bind.
  - apply turn_R; [exact H|exact Hh|]. intros q k key ->. eapply Tr. left. reflexivity.
  - intros s1 s1' H1. apply IH; [|exact H1]. intros j q k key I. eapply Tr. right. exact I.
Qed.
End Calls.
Lemma do_flush_R fuel : forall u v h h' p ev a d s, R u v -> H2 h h' -> inn p = true -> ro R2 (do_flush pr umax fuel u h p ev a d s) (do_flush pr umax fuel v h' p ev a d s).
Proof.
  induction fuel as [|n IH]; intros u v h h' p ev a d s H Hh O; [intros ? E; discriminate E|]. cbn [do_flush]. apply ro_same. intros _ _.
  rewrite (r_hdl _ _ H). apply ro_same. intros hd _. rewrite (r_trk _ _ H p O). eapply ro_bind.
  - apply (turns (do_flush pr umax n) IH hd h h' p ev _ Hh); [|split; [exact H|split; reflexivity]].
    intros i q k key I. apply in_combine_r in I. exact (r_ref _ _ H p q k key O I).
  - intros s1 s1' (X1 & X2 & _). apply ro_ok. split; [exact X1|exact X2].
Qed.

(** ** Calls *)
Record RD (d e : db) : Prop := { rd_u : R (d_u d) (d_u e); rd_len : length (d_l e) = length (d_l d); rd_l : forall p, inn p = true -> d_lock e p = d_lock d p }.
Definition RA (x y : db * answer) : Prop := RD (fst x) (fst y) /\ snd y = snd x.
Lemma RD_held d e : RD d e -> H2 (d_held d) (d_held e).
Proof. intros [_ _ E] p O. rewrite !held_read, !held_write, (E p O). auto. Qed.
Lemma RD_set d e u v p x : RD d e -> R u v -> RD (Db u (upd (d_l d) p x)) (Db v (upd (d_l e) p x)).
Proof. intros [_ Ln E] H. constructor; cbn; [exact H|rewrite !upd_length; exact Ln|]. intros q O. unfold d_lock in *. cbn. rewrite !lock_upd, Ln, (E q O). reflexivity. Qed.
Lemma RD_state d e p : RD d e -> inn p = true -> d_state e p = d_state d p.
Proof. intros [H _ E] O. unfold d_state. rewrite (R_get _ _ p H O), (E p O). reflexivity. Qed.
Lemma RD_locked d e p : RD d e -> inn p = true -> locked_table e p = locked_table d p.
Proof. intros H O. unfold locked_table. rewrite (RD_state _ _ p H O). reflexivity. Qed.
Lemma RD_store d e p st : RD d e -> RD (d_store d p st) (d_store e p st).
Proof. intros H. unfold d_store. destruct st; (apply RD_set; [exact H|apply R_put; apply H]). Qed.
Lemma RD_u d e u v : RD d e -> R u v -> RD (Db u (d_l d)) (Db v (d_l e)).
Proof. intros [_ Ln E] H. constructor; [exact H|exact Ln|exact E]. Qed.
Lemma RD_release d e p : RD d e -> RD (d_release d p) (d_release e p).
Proof. intro H. apply RD_set; [exact H|apply H]. Qed.
(** The table a call is on. *)
Definition on_table (c : db_call) : option nat :=
  match c with On p _ | Flush p _ | LiveFlush p _ | RemoveRows p _ _ | WRemove p _ _ | Select p _ _ | Track p _ => Some p | Handle _ _ => None end.
Lemma step_RD fuel d e c : RD d e -> (forall p, on_table c = Some p -> inn p = true) -> (forall p q k key, c = Track p (TAuto q k key) -> inn q = true) ->
  ro RA (db_step pr umax fuel d c) (db_step pr umax fuel e c).
Proof.
  intros H I0 Rf. destruct c as [p c|p ev|p ev|p ev s|p ev s|p ev s|p tr|ev hd]; try (assert (I : inn p = true) by (apply I0; reflexivity)).
  - cbn [db_step]. assert (X : ro RA (let* st := d_state d p in let* st' := step pr umax st (op_of c) in let* a := answer_of pr umax st c in Ok (d_store d p st', a))
      (let* st := d_state e p in let* st' := step pr umax st (op_of c) in let* a := answer_of pr umax st c in Ok (d_store e p st', a))).
    { rewrite (RD_state _ _ p H I). apply ro_same. intros st _. apply ro_same. intros st' _. apply ro_same. intros a _. apply ro_ok. split; [apply RD_store; auto|reflexivity]. }
    destruct c; try exact X; destruct o; try exact X; apply ro_panic.
  - cbn [db_step]. rewrite (RD_locked _ _ p H I). apply ro_same. intros w _. pose proof (RD_release _ _ p H) as H1.
    eapply ro_bind; [apply flush_R; [apply do_flush_R|exact (rd_u _ _ H1)|apply RD_held; exact H1|exact I]|]. intros u v X. apply ro_ok. split; [apply RD_u; [exact H1|exact X]|reflexivity].
  - cbn [db_step]. rewrite (RD_locked _ _ p H I). apply ro_same. intros w _.
    eapply ro_bind; [apply live_R; [apply do_flush_R|exact (rd_u _ _ H)|apply RD_held, RD_release; exact H|exact I]|]. intros [u w1] [v w2] [X E]. cbn [fst snd] in *. subst w2. apply ro_ok.
    split; [apply RD_store; apply RD_u; [exact H|exact X]|reflexivity].
  - cbn [db_step]. eapply ro_bind; [apply remove_R; [apply do_flush_R|exact (rd_u _ _ H)|apply RD_held; exact H|exact I]|]. intros u v X. apply ro_ok. split; [apply RD_u; assumption|reflexivity].
  - cbn [db_step]. rewrite (RD_locked _ _ p H I). apply ro_same. intros w _. apply ro_same. intros _ _. apply ro_same. intros w1 _. pose proof (RD_release _ _ p H) as H1.
    eapply ro_bind; [apply flush_R; [apply do_flush_R|exact (rd_u _ _ H1)|apply RD_held; exact H1|exact I]|]. intros u v X. apply ro_ok. split; [apply RD_u; [exact H1|exact X]|reflexivity].
  - cbn [db_step]. destruct (RD_held _ _ H p I) as [_ ->]. apply ro_same. intros _ _. unfold read_select.
    eapply ro_bind with (P := R); [eapply ro_bind; [apply do_flush_R; [exact (rd_u _ _ H)|apply RD_held; exact H|exact I]|]; intros x y [X _]; apply ro_ok, X|].
    intros u v X. apply ro_ok. split; [apply RD_u; assumption|reflexivity].
  - cbn [db_step]. rewrite (R_get _ _ p (rd_u _ _ H) I). destruct (RD_held _ _ H p I) as [-> _]. apply ro_same. intros t _. apply ro_same. intros _ _. apply ro_same. intros _ _. apply ro_ok.
    split; [|reflexivity]. apply RD_u; [exact H|]. destruct (rd_u _ _ H) as [A B C D E F G]. rewrite (E p I).
    assert (N : forall (l : list (list tracker)) x y, nth y (upd l p x) [] = if y =? p then (if p <? length l then x else []) else nth y l []).
    { intros l x y. destruct (Nat.eqb_spec y p) as [->|Ny].
      - destruct (Nat.ltb_spec p (length l)) as [Lt|Ge]; [apply nth_error_nth, nth_error_upd_eq, Lt|]. rewrite upd_oob by lia. apply nth_overflow. exact Ge.
      - rewrite <- !nth_default_eq. unfold nth_default. rewrite nth_error_upd_ne by congruence. reflexivity. }
    constructor; cbn; rewrite ?upd_length; auto.
    + intros q Iq. unfold u_trackers. cbn. rewrite !N, C. specialize (E q Iq). unfold u_trackers in E. rewrite E. reflexivity.
    + intros q x k key Iq. unfold u_trackers at 1. cbn. rewrite N. destruct (Nat.eqb_spec q p) as [->|]; [|exact (F q x k key Iq)]. destruct (p <? _); [|intros []]. intro Y. apply in_app_or in Y.
      destruct Y as [Y|[Y|[]]]; [exact (F p x k key I Y)|]. subst tr. exact (Rf _ _ _ _ eq_refl).
  - cbn [db_step]. destruct H as [[A B C D E F G] Ln El]. rewrite A. apply ro_same. intros q _. apply ro_ok. split; [|reflexivity]. constructor; cbn; [constructor; cbn; auto|exact Ln|exact El].
Qed.
End Rel.
Lemma R_again L L' u v : R L L' u v -> R (u_log u) (u_log v) u v.
Proof. intros [A B C D E F G]. constructor; auto. exists []. rewrite !app_nil_r. auto. Qed.
Lemma R_swap L L' u v : R L L' u v -> R L' L v u.
Proof. intros [A B C D E F (n & G & H)]. constructor; [auto|auto|auto|intros; symmetry; auto|intros; symmetry; auto| |exists n; auto]. intros p q k key I. rewrite (E p I). eauto. Qed.
Lemma RD_again L L' d e : RD L L' d e -> RD (u_log (d_u d)) (u_log (d_u e)) d e.
Proof. intros [A B C]. constructor; [eapply R_again; exact A|exact B|exact C]. Qed.
Lemma RD_swap L L' d e : RD L L' d e -> RD L' L e d.
Proof. intros [A B C]. constructor; [eapply R_swap; exact A|auto|intros; symmetry; auto]. Qed.

(** ** Calls on other tables *)
Record F (u u1 : universe) : Prop := {
  f_hdl : u_hdl u1 = u_hdl u;
  f_len : length (u_tabs u1) = length (u_tabs u);
  f_trk : u_trk u1 = u_trk u;
  f_tabs : forall p, inn p = true -> nth_error (u_tabs u1) p = nth_error (u_tabs u) p }.
Lemma F_refl u : F u u. Proof. constructor; auto. Qed.
Lemma F_trans u v w : F u v -> F v w -> F u w.
Proof. intros [A B C D] [A' B' C' D']. constructor; try congruence. intros p I. rewrite (D' p I). auto. Qed.
Lemma F_put u p t : inn p = false -> F u (u_put u p t).
Proof. intro I. constructor; cbn; rewrite ?upd_length; auto. intros q Iq. apply nth_error_upd_ne. congruence. Qed.
Lemma F_say u n : F u (u_say u n). Proof. constructor; auto. Qed.
Definition C (u : universe) : Prop := forall p q k key, inn p = false -> In (TAuto q k key) (u_trackers u p) -> inn q = false.
Lemma F_C u v : C u -> F u v -> C v. Proof. intros H [_ _ E _] p q k key. unfold u_trackers. rewrite E. apply H. Qed.
Section Calls2.
Variable call : universe -> locks -> nat -> event -> bool -> bool -> select -> res (universe * select).
Hypothesis Side : forall u h p ev a d s q, C u -> inn p = false -> call u h p ev a d s = Ok q -> F u (fst q).
Lemma C_put u p t : inn p = false -> C u -> C (u_put u p t). Proof. intros I H. eapply F_C; [exact H|apply F_put, I]. Qed.
Lemma flush_F u h p w ev u' : C u -> inn p = false -> flush_with pr umax call u h p w ev = Ok u' -> F u u'.
Proof.
  intros H O E. unfold flush_with in E. destruct (sel_empty (w_changes w)).
  - bindn E t Et. injection E as <-. apply F_put, O.
  - bindn E q Eqq. apply Side in Eqq; [|apply C_put; auto|exact O]. assert (X : F u (fst q)) by (eapply F_trans; [apply F_put, O|exact Eqq]). destruct (_ && _); [|injection E as <-; exact X].
    bindn E l0 El. bindn E t Et. bindn E w1 Ew. bindn E l1 El1. bindn E t1 Et1. injection E as <-. eapply F_trans; [exact X|apply F_put, O].
Qed.
Lemma live_F u h p w ev x : C u -> inn p = false -> live_flush_with pr umax call u h p w ev = Ok x -> F u (fst x).
Proof.
  intros H O E. unfold live_flush_with in E. destruct (sel_empty (w_changes w)).
  - injection E as <-. apply F_put, O.
  - bindn E q Eqq. apply Side in Eqq; [|apply C_put; auto|exact O]. assert (X : F u (fst q)) by (eapply F_trans; [apply F_put, O|exact Eqq]).
    bindn E t Et. bindn E w1 Ew. bindn E l1 El1. injection E as <-. eapply F_trans; [exact X|apply F_put, O].
Qed.
Lemma remove_F u h c ev rows u' : C u -> inn c = false -> remove_rows_with pr umax call u h c ev rows = Ok u' -> F u u'.
Proof.
  intros H O E. unfold remove_rows_with in E. bindn E t Et. destruct (t_kind t); try discriminate E; bindn E l0 El; bindn E w Ew; (eapply flush_F; [exact H|exact O|exact E]).
Qed.
Lemma auto_F hd u h c k key ev rows u' : C u -> inn c = false -> auto_handle pr umax call hd u h c k key ev rows = Ok u' -> F u u'.
Proof.
  intros H O E. unfold auto_handle in E. bindn E l0 El. bindn E t Et. bindn E s Es. unfold run_with in E. bindn E t1 Et1. bindn E u1 Eu. bindn E l1 El1. bindn E q Eqq. injection E as <-.
  assert (X : F u u1) by (unfold handle_with in Eu; destruct hd; [eapply remove_F; eauto|injection Eu as <-; apply F_refl|discriminate Eu]).
  eapply F_trans; [exact X|]. eapply Side; [eapply F_C; eauto|exact O|exact Eqq].
Qed.
Lemma turns_F hd h p ev xs : (forall i q k key, In (i, TAuto q k key) xs -> inn q = false) -> forall s s1, C (fst (fst s)) ->
  fold_res (tracker_turn pr umax call hd h p ev) xs s = Ok s1 -> F (fst (fst s)) (fst (fst s1)).
Proof.
  induction xs as [|[i tr] xs IH]; intros O s s1 H E; [cbn in E; injection E as <-; apply F_refl|]. cbn [fold_res] in E. bindn E s2 E2.
  assert (X : F (fst (fst s)) (fst (fst s2))).
  { clear E. unfold tracker_turn in E2. cbn [fst snd] in E2. destruct (tracker_considers tr ev); [|injection E2 as <-; apply F_refl]. bindn E2 u1 Eu. injection E2 as <-. cbn [fst].
    destruct tr as [q k key|]; [|injection Eu as <-; apply F_say]. eapply F_trans; [apply F_say|]. eapply auto_F; [|eapply O; left; reflexivity|exact Eu]. eapply F_C; [exact H|apply F_say]. }
  eapply F_trans; [exact X|]. eapply IH; [|eapply F_C; eauto|exact E]. intros j q k key I. eapply O. right. exact I.
Qed.
End Calls2.
Lemma do_flush_F fuel : forall u h p ev a d s q, C u -> inn p = false -> do_flush pr umax fuel u h p ev a d s = Ok q -> F u (fst q).
Proof.
  induction fuel as [|n IH]; intros u h p ev a d s q H O E; [discriminate E|]. cbn [do_flush] in E. bindn E l0 El. bindn E hd0 Eh. bindn E s1 Es. injection E as <-.
  eapply (turns_F (do_flush pr umax n) IH hd0 h p ev) in Es; [exact Es| |exact H]. intros i x k key I. apply in_combine_r in I. exact (H p x k key O I).
Qed.
(** A call on a table that is not [inn]. *)
Record FD (d d1 : db) : Prop := {
  fd_hdl : u_hdl (d_u d1) = u_hdl (d_u d);
  fd_len : length (u_tabs (d_u d1)) = length (u_tabs (d_u d));
  fd_num : length (u_trk (d_u d1)) = length (u_trk (d_u d));
  fd_trk : forall p, inn p = true -> u_trackers (d_u d1) p = u_trackers (d_u d) p;
  fd_tabs : forall p, inn p = true -> nth_error (u_tabs (d_u d1)) p = nth_error (u_tabs (d_u d)) p;
  fd_llen : length (d_l d1) = length (d_l d);
  fd_l : forall p, inn p = true -> d_lock d1 p = d_lock d p }.
Lemma FD_u d u : F (d_u d) u -> FD d (Db u (d_l d)).
Proof. intros [A B E D]. constructor; cbn; auto; [congruence|]. intros p _. unfold u_trackers. rewrite E. reflexivity. Qed.
Lemma FD_set d u p x : F (d_u d) u -> inn p = false -> FD d (Db u (upd (d_l d) p x)).
Proof.
  intros [A B E D] I. constructor; cbn; rewrite ?upd_length; auto; [congruence|intros q _; unfold u_trackers; rewrite E; reflexivity|].
  intros q Iq. unfold d_lock. cbn. rewrite lock_upd. destruct (Nat.eqb_spec q p) as [->|]; [congruence|reflexivity].
Qed.
Lemma step_F fuel d c p d1 a : C (d_u d) -> on_table c = Some p -> inn p = false -> db_step pr umax fuel d c = Ok (d1, a) -> FD d d1.
Proof.
  intros H On0 I E. destruct c as [p0 c|p0 ev|p0 ev|p0 ev s|p0 ev s|p0 ev s|p0 tr|ev hd]; try discriminate On0; injection On0 as ->.
  - apply on_inv in E. destruct E as (_ & st & st' & St & _ & ->). destruct st'; cbn [d_store]; (apply FD_set; [apply F_put, I|exact I]).
  - cbn [db_step] in E. bindn E w Hw. bindn E u U. injection E as <- _. apply FD_set; [|exact I]. eapply flush_F; [apply do_flush_F|exact H|exact I|exact U].
  - cbn [db_step] in E. bindn E w Hw. bindn E x U. injection E as <- _. pose proof (live_F _ (do_flush_F fuel) _ _ _ _ _ _ H I U) as X.
    cbn [d_store d_u d_l]. apply FD_set; [|exact I]. eapply F_trans; [exact X|apply F_put, I].
  - cbn [db_step] in E. bindn E u U. injection E as <- _. apply FD_u. exact (remove_F _ (do_flush_F fuel) _ _ _ _ _ _ H I U).
  - cbn [db_step] in E. bindn E w Hw. bindn E x X. bindn E w1 Hw1. bindn E u U. injection E as <- _. apply FD_set; [|exact I]. eapply flush_F; [apply do_flush_F|exact H|exact I|exact U].
  - cbn [db_step] in E. bindn E x X. bindn E u U. injection E as <- _. unfold read_select in U. bindn U y Y. injection U as <-. apply FD_u. exact (do_flush_F _ _ _ _ _ _ _ _ _ H I Y).
  - cbn [db_step] in E. bindn E t Et. bindn E x X. bindn E y Y. injection E as <- _. constructor; cbn; rewrite ?upd_length; auto.
    intros q Iq. unfold u_trackers. cbn. rewrite <- !nth_default_eq. unfold nth_default. rewrite nth_error_upd_ne by congruence. reflexivity.
Qed.
Lemma RD_side L L' d e d1 : RD L L' d e -> FD d d1 -> RD (u_log (d_u d1)) (u_log (d_u e)) d1 e.
Proof.
  intros [[A B Nu D E G Lg] Ln El] [A' B' N' E' D' Ln' El']. constructor; [|congruence|intros p I; rewrite (El' p I); auto]. constructor; try congruence.
  - intros p I. rewrite (D' p I). auto.
  - intros p I. rewrite (E' p I). auto.
  - intros p q k key I. rewrite (E' p I). eauto.
  - exists []. rewrite !app_nil_r. auto.
Qed.
End W.

(** ** Programs *)
Section P.
Variables (pr : profile) (umax fuel : nat) (g : nat -> nat).
Definition mem (k p : nat) : bool := g p =? k.
(** References stay within groups. *)
Definition Cl (d : db) : Prop := forall p q k key, In (TAuto q k key) (u_trackers (d_u d) p) -> g q = g p.
Definition J (k : nat) (d e : db) : Prop := RD (mem k) (u_log (d_u d)) (u_log (d_u e)) d e.
Definition good (c : db_call) : Prop := forall p q k key, c = Track p (TAuto q k key) -> g q = g p.
Lemma mem_true k p : mem k p = true <-> g p = k. Proof. apply Nat.eqb_eq. Qed.
Lemma mem_false k p : mem k p = false <-> g p <> k. Proof. apply Nat.eqb_neq. Qed.
Lemma of_mem k c p : on_table c = Some p -> of_group g k c = mem k p. Proof. destruct c; intro E; try discriminate E; injection E as <-; reflexivity. Qed.
Lemma of_out k c : of_group g k c = false -> exists p, on_table c = Some p /\ mem k p = false. Proof. destruct c; cbn; intro E; try discriminate E; eauto. Qed.
Lemma Cl_C d k : Cl d -> C (mem k) (d_u d).
Proof. intros H p q n key M I. apply mem_false. apply mem_false in M. rewrite (H p q n key I). exact M. Qed.
Lemma J_refl k d : Cl d -> J k d d.
Proof.
  intros H. constructor; auto. constructor; auto; [|exists []; rewrite !app_nil_r; auto]. intros p q n key M I. apply mem_true. rewrite (H p q n key I). apply mem_true, M.
Qed.
Lemma step_J k d e c d1 a : J k d e -> good c -> of_group g k c = true -> db_step pr umax fuel d c = Ok (d1, a) ->
  exists e1, db_step pr umax fuel e c = Ok (e1, a) /\ J k d1 e1 /\ skipn (length (u_log (d_u e))) (u_log (d_u e1)) = skipn (length (u_log (d_u d))) (u_log (d_u d1)).
Proof.
  intros H G O E. destruct (step_RD pr umax (mem k) _ _ fuel d e c H) with (a := (d1, a)) as ([e1 a1] & E1 & X & Ea); [| |exact E|].
  - intros p Hp. rewrite <- (of_mem k c p Hp). exact O.
  - intros p q n key ->. apply mem_true. rewrite (G _ _ _ _ eq_refl). apply mem_true. exact O.
  - cbn [fst snd] in *. subst a1. exists e1. split; [exact E1|]. split; [eapply RD_again; exact X|].
    destruct (r_log _ _ _ _ _ (rd_u _ _ _ _ _ X)) as (n & -> & ->). rewrite !skipn_len. reflexivity.
Qed.
Lemma step_out k d e c d1 a : J k d e -> Cl d -> of_group g k c = false -> db_step pr umax fuel d c = Ok (d1, a) -> J k d1 e.
Proof. intros H Hc O E. destruct (of_out k c O) as (p & Hp & M). eapply RD_side; [exact H|]. eapply step_F; [apply Cl_C, Hc|exact Hp|exact M|exact E]. Qed.
Lemma step_Cl d c d1 a : Cl d -> good c -> db_step pr umax fuel d c = Ok (d1, a) -> Cl d1.
Proof.
  intros H G E p q n key I. destruct (of_group g (g p) c) eqn:O.
  - destruct (step_J (g p) d d c d1 a (J_refl _ _ H) G O E) as (e1 & _ & X & _). apply mem_true. eapply (r_ref _ _ _ _ _ (rd_u _ _ _ _ _ X)); [apply mem_true; reflexivity|exact I].
  - pose proof (step_out (g p) d d c d1 a (J_refl _ _ H) H O E) as X. rewrite <- (r_trk _ _ _ _ _ (rd_u _ _ _ _ _ X) p) in I by (apply mem_true; reflexivity). exact (H _ _ _ _ I).
Qed.
Lemma good_in c cs : apart g (c :: cs) -> good c /\ apart g cs.
Proof. intro H. split; [intros p q k key ->; eapply H; left; reflexivity|]. intros p q k key I. eapply H. right. exact I. Qed.
Lemma talk_part k cs : apart g cs -> forall d e l, Cl d -> J k d e -> db_talks pr umax fuel d cs = Ok l -> db_talks pr umax fuel e (filter (of_group g k) cs) = Ok (part g k cs l).
Proof.
  induction cs as [|c cs IH]; intros A d e l Hc HJ E; [cbn in E; injection E as <-; reflexivity|]. apply good_in in A. destruct A as [G A].
  cbn [db_talks] in E. bindn E x Ex. destruct x as [d1 a1]. cbn [fst snd] in E. bindn E l1 E1. injection E as <-. pose proof (step_Cl _ _ _ _ Hc G Ex) as Hc1.
  unfold part. cbn [filter combine fst]. destruct (of_group g k c) eqn:O.
  - destruct (step_J _ _ _ _ _ _ HJ G O Ex) as (e1 & E2 & J1 & En). cbn [map snd db_talks]. rewrite E2. cbn [bind fst snd]. rewrite (IH A d1 e1 l1 Hc1 J1 E1). cbn [bind]. rewrite En. reflexivity.
  - exact (IH A d1 e l1 Hc1 (step_out _ _ _ _ _ _ HJ Hc O Ex) E1).
Qed.
Lemma talk_whole cs : apart g cs -> forall d (e : nat -> db), Cl d -> (forall k, J k d (e k)) -> (forall k, exists l, db_talks pr umax fuel (e k) (filter (of_group g k) cs) = Ok l) ->
  exists l, db_talks pr umax fuel d cs = Ok l.
Proof.
  induction cs as [|c cs IH]; intros A d e Hc HJ E; [eexists; reflexivity|]. apply good_in in A. destruct A as [G A].
  assert (X : exists x, db_step pr umax fuel d c = Ok x).
  { assert (O : exists k, of_group g k c = true) by (destruct c as [p ?|p ?|p ?|p ? ?|p ? ?|p ? ?|p ?|]; try (exists (g p); apply Nat.eqb_refl); exists 0; reflexivity).
    destruct O as [k O]. destruct (E k) as [l El]. cbn [filter] in El. rewrite O in El. cbn [db_talks] in El. bindn El x Ex. destruct x as [e1 a].
    destruct (step_J k (e k) d c e1 a (RD_swap _ _ _ _ _ (HJ k)) G O Ex) as (d1 & Ed & _). eauto. }
  destruct X as [[d1 a] Ex]. cbn [db_talks]. rewrite Ex. cbn [bind fst snd].
  destruct (IH A d1 (fun k => if of_group g k c then match db_step pr umax fuel (e k) c with Ok x => fst x | Err _ => e k end else e k)) as [l El].
  - exact (step_Cl _ _ _ _ Hc G Ex).
  - intro k. cbv beta. destruct (of_group g k c) eqn:O; [|exact (step_out _ _ _ _ _ _ (HJ k) Hc O Ex)].
    destruct (step_J _ _ _ _ _ _ (HJ k) G O Ex) as (e1 & -> & J1 & _). exact J1.
  - intro k. destruct (E k) as [l El]. cbv beta. cbn [filter] in El. destruct (of_group g k c) eqn:O; [|eauto]. cbn [db_talks] in El. bindn El x E1. bindn El l1 E2. rewrite E1. eauto.
  - rewrite El. cbn [bind]. eauto.
Qed.
Lemma Cl_new schs : Cl (db_new schs).
Proof. intros p q k key I. unfold u_trackers in I. cbn in I. assert (N : nth p (map (fun _ : schema => @nil tracker) schs) [] = []) by (clear; revert p; induction schs as [|s m IH]; intros [|p]; cbn; auto). rewrite N in I. destruct I. Qed.
End P.
Theorem parts pr umax fuel g schs cs l : apart g cs -> db_talks pr umax fuel (db_new schs) cs = Ok l ->
  forall k, db_talks pr umax fuel (db_new schs) (filter (of_group g k) cs) = Ok (part g k cs l).
Proof. intros A E k. eapply talk_part; [exact A|apply Cl_new|apply J_refl, Cl_new|exact E]. Qed.
Theorem whole pr umax fuel g schs cs : apart g cs -> (forall k, exists l, db_talks pr umax fuel (db_new schs) (filter (of_group g k) cs) = Ok l) ->
  exists l, db_talks pr umax fuel (db_new schs) cs = Ok l.
Proof. intros A E. eapply (talk_whole pr umax fuel g cs A (db_new schs) (fun _ => db_new schs)); [apply Cl_new|intro k; apply J_refl, Cl_new|exact E]. Qed.
Theorem shuffle pr umax fuel g schs cs cs' l : apart g cs -> (forall k, filter (of_group g k) cs' = filter (of_group g k) cs) -> db_talks pr umax fuel (db_new schs) cs = Ok l ->
  exists l', db_talks pr umax fuel (db_new schs) cs' = Ok l' /\ forall k, part g k cs' l' = part g k cs l.
Proof.
  intros A S E. pose proof (parts _ _ _ _ _ _ _ A E) as P.
  assert (A' : apart g cs').
  { intros p q k key I. apply (A p q k key). assert (X : In (Track p (TAuto q k key)) (filter (of_group g (g p)) cs')) by (apply filter_In; split; [exact I|apply Nat.eqb_refl]).
    rewrite S in X. apply filter_In in X. apply X. }
  destruct (whole pr umax fuel g schs cs' A') as [l' E']; [intro k; rewrite S, (P k); eauto|]. exists l'. split; [exact E'|]. intro k.
  pose proof (parts _ _ _ _ _ _ _ A' E' k) as P'. rewrite S, (P k) in P'. injection P' as P'. auto.
Qed.
