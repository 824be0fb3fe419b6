(** Proofs about the place of tables in a database whose trackers act. *)
From Coq Require Import List Arith Bool Lia.
From Verif Require Import Base BaseFacts Column Order RowRange Table SortedTab Events Cascade Hist Answers DbHist DbFacts Acting PlaceSpec PlaceFacts PlaceActSpec.
Import ListNotations.

(** All succeed, or some fails; and all fail alike. *)
Lemma map_res_all {A B} (f : A -> res B) e l : (forall x, In x l -> (exists a, f x = Ok a) \/ f x = Err e) ->
  ((exists r, map_res f l = Ok r) /\ forall x, In x l -> exists a, f x = Ok a) \/ (map_res f l = Err e /\ exists x, In x l /\ f x = Err e).
Proof.
  induction l as [|x l IH]; intro H; [left; split; [exists []; reflexivity|intros x []]|]. cbn [map_res]. destruct (H x (or_introl eq_refl)) as [[a E]|E]; rewrite E; cbn [bind].
  - destruct IH as [[[r ->] F]|[-> (y & I0 & F)]]; [intros y I0; apply H; right; exact I0|left|right]; cbn [bind].
    + split; [eauto|]. intros y [<-|I0]; eauto.
    + split; [reflexivity|]. exists y. split; [right; exact I0|exact F].
  - right. split; [reflexivity|]. exists x. split; [left; reflexivity|exact E].
Qed.

Section W.
Variables (pr : profile) (umax : nat) (sg : nat -> nat) (n N : nat) (T0 : list table).
Hypothesis Inj : forall p q, p < n -> q < n -> sg p = sg q -> p = q.
Hypothesis Below : forall p, p < n -> sg p < N.
Variables react react' : list note -> plan.
Hypothesis React : same_trackers sg n react react'.
Local Notation R := (R sg n N T0).
Local Notation RD := (RD sg n N T0).
Local Notation H2 := (H2 sg n N).
Local Notation R2 := (R2 sg n N T0).
Local Notation R3 := (R3 sg n N T0).
Local Notation RS := (fun x y : db * answer => RD (fst x) (fst y) /\ snd y = snd x).
Section Calls.
Variable call call' : universe -> locks -> nat -> event -> bool -> bool -> select -> res (universe * select).
Hypothesis Call : forall u v h h' p ev a d s, R u v -> H2 h h' -> p < n -> rr R2 (call u h p ev a d s) (call' v h' (sg p) ev a d s).
Lemma act_R hd h h' d e c : RD d e -> H2 h h' -> about n c -> rr RS (act_step pr umax call hd h d c) (act_step pr umax call' hd h' e (place_call sg c)).
Proof.
  intros H Hh O. pose proof (rd_u _ _ _ _ _ _ H) as U. assert (Hd : forall d e, RD d e -> H2 (d_held d ++ h) (d_held e ++ h')) by (intros d0 e0 H0; apply H2_app; [exact (RD_held sg n N T0 Inj Below _ _ H0)|exact Hh]).
  destruct c as [p c|p ev|p ev|p ev s|p ev s|p ev s|p tr|ev f]; cbn [place_call about] in *.
  - assert (X : rr RS (let* st := d_state d p in
                       let* _ := match st, op_of c with Free _, OLock => lock_ok (can_write h p) | Free _, _ => lock_ok (can_read h p) | Locked _ _, _ => Ok tt end in
                       let* st' := step pr umax st (op_of c) in let* a := answer_of pr umax st c in Ok (d_store d p st', a))
                      (let* st := d_state e (sg p) in
                       let* _ := match st, op_of c with Free _, OLock => lock_ok (can_write h' (sg p)) | Free _, _ => lock_ok (can_read h' (sg p)) | Locked _ _, _ => Ok tt end in
                       let* st' := step pr umax st (op_of c) in let* a := answer_of pr umax st c in Ok (d_store e (sg p) st', a))).
    { rewrite (RD_state sg n N T0 _ _ _ H O). destruct (Hh p O) as (-> & -> & _). apply rr_same. intros st _. apply rr_same. intros _ _. apply rr_same. intros st' _. apply rr_same. intros a _.
      split; [apply RD_store; assumption|reflexivity]. }
    destruct c as [o| | |]; [destruct o|..]; first [exact X|reflexivity].
  - cbn [act_step]. rewrite (RD_table sg n N T0 _ _ _ H O). apply rr_same. intros w _. pose proof (RD_release sg n N T0 Inj Below _ _ _ H O) as H1.
    eapply rr_bind; [apply (flush_R pr umax sg n N T0 Inj Below call call' Call); [exact U|apply Hd; exact H1|exact O]|]. intros u v Huv. split; [exact (RD_with sg n N T0 _ _ _ _ H1 Huv)|reflexivity].
  - cbn [act_step]. rewrite (RD_table sg n N T0 _ _ _ H O). apply rr_same. intros w _. pose proof (RD_release sg n N T0 Inj Below _ _ _ H O) as H1.
    eapply rr_bind; [apply (live_R pr umax sg n N T0 Inj Below call call' Call); [exact U|apply Hd; exact H1|exact O]|]. intros [u w1] [v w2] [Huv Ew]. cbn [fst snd] in *. subst w2.
    split; [apply RD_store; [assumption|assumption|exact (RD_with sg n N T0 _ _ _ _ H Huv)|exact O]|reflexivity].
  - cbn [act_step]. eapply rr_bind; [apply (remove_R pr umax sg n N T0 Inj Below call call' Call); [exact U|apply Hd; exact H|exact O]|]. intros u v Huv. split; [exact (RD_with sg n N T0 _ _ _ _ H Huv)|reflexivity].
  - cbn [act_step]. rewrite (RD_table sg n N T0 _ _ _ H O). apply rr_same. intros w _. apply rr_same. intros _ _. apply rr_same. intros w1 _. pose proof (RD_release sg n N T0 Inj Below _ _ _ H O) as H1.
    eapply rr_bind; [apply (flush_R pr umax sg n N T0 Inj Below call call' Call); [exact U|apply Hd; exact H1|exact O]|]. intros u v Huv. split; [exact (RD_with sg n N T0 _ _ _ _ H1 Huv)|reflexivity].
  - cbn [act_step]. destruct (Hd _ _ H p O) as (_ & -> & _). apply rr_same. intros _ _. eapply rr_bind; [apply Call; [exact U|apply Hd; exact H|exact O]|]. intros x y [A _].
    split; [exact (RD_with sg n N T0 _ _ _ _ H A)|reflexivity].
  - assert (O1 : p < n /\ tr_in n tr) by (destruct tr; [exact O|split; [exact O|exact I]]). destruct O1 as [Op Ti]. cbn [act_step]. cbv zeta. rewrite (R_get sg n N T0 _ _ p U Op). apply rr_same. intros t _.
    rewrite (r_len _ _ _ _ _ _ U), (r_len' _ _ _ _ _ _ U). destruct (Hd _ _ H p Op) as (-> & _ & ->). apply rr_same. intros _ _. apply rr_same. intros _ _. apply rr_same. intros _ _.
    split; [|reflexivity]. apply RD_with; [exact H|]. apply R_track; assumption.
  - cbn [act_step]. destruct hd; [reflexivity|]. rewrite (r_hdl _ _ _ _ _ _ U). apply rr_same. intros q _. split; [|reflexivity]. apply RD_with; [exact H|]. destruct U as [A B B1 B2 C D E F G L]. constructor; auto.
Qed.
Lemma handle_R hd u v h h' c ev rows : R u v -> H2 h h' -> c < n -> rr R (handle_with pr umax call hd u h c ev rows) (handle_with pr umax call' hd v h' (sg c) ev rows).
Proof. intros H Hh O. unfold handle_with. destruct hd; [apply (remove_R pr umax sg n N T0 Inj Below call call' Call); assumption|exact H|reflexivity]. Qed.
Lemma run_R hd u v h h' c ev rows : R u v -> H2 h h' -> c < n -> rr R (run_with pr umax call hd u h c ev rows) (run_with pr umax call' hd v h' (sg c) ev rows).
Proof.
  intros H Hh O. unfold run_with. rewrite (R_get sg n N T0 _ _ c H O). apply rr_same. intros t _. eapply rr_bind; [apply handle_R; assumption|]. intros u1 v1 H1. destruct (Hh c O) as (_ & -> & _).
  apply rr_same. intros _ _. eapply rr_bind; [apply Call; [exact H1|apply H2_cons; assumption|exact O]|]. intros x y [X _]. exact X.
Qed.
Lemma close_R d e : RD d e -> rr R (close_all d) (close_all e).
Proof.
  intro H. pose proof (rd_u _ _ _ _ _ _ H) as U. unfold close_all. rewrite (r_len _ _ _ _ _ _ U), (r_len' _ _ _ _ _ _ U).
  set (f := fun d p => let* st := d_state d p in match st with Locked w _ => w_drop w | Free t => Ok t end).
  change (rr R (let* _ := map_res (f d) (seq 0 n) in Ok (d_u d)) (let* _ := map_res (f e) (seq 0 N) in Ok (d_u e))).
  assert (F : forall x p, p < length (u_tabs (d_u x)) -> (exists a, f x p = Ok a) \/ f x p = Err (EPanic PNotFlushed)).
  { intros x p L. unfold f, d_state, u_get. destruct (nth_error (u_tabs (d_u x)) p) eqn:E; [|apply nth_error_None in E; lia]. cbn [bind]. destruct (d_lock x p) as [[[s a] b]|]; [|eauto]. unfold w_drop.
    destruct (_ && _); [right; reflexivity|eauto]. }
  assert (Fp : forall p, p < n -> f e (sg p) = f d p) by (intros p O; unfold f; rewrite (RD_state sg n N T0 _ _ _ H O); reflexivity).
  assert (Fo : forall q, q < N -> (exists p, p < n /\ sg p = q) \/ exists a, f e q = Ok a).
  { intros q L. assert (X : (exists p, p < n /\ sg p = q) \/ other sg n q).
    { clear - n. unfold other. induction n as [|m IH]; [right; intros p O; lia|]. destruct IH as [(p & O & E)|IH]; [left; exists p; split; [lia|exact E]|]. destruct (Nat.eq_dec (sg m) q) as [E|E]; [left; exists m; split; [lia|exact E]|].
      right. intros p O. destruct (Nat.eq_dec p m) as [->|X]; [exact E|apply IH; lia]. }
    destruct X as [X|X]; [left; exact X|right]. unfold f, d_state, u_get. destruct (nth_error (u_tabs (d_u e)) q) eqn:E; [|apply nth_error_None in E; rewrite (r_len' _ _ _ _ _ _ U) in E; lia]. cbn [bind].
    rewrite (rd_out _ _ _ _ _ _ H q X). eauto. }
  destruct (map_res_all (f d) (EPanic PNotFlushed) (seq 0 n)) as [[[r ->] A]|[-> (x & I0 & A)]]; [intros x I0; apply in_seq in I0; apply F; rewrite (r_len _ _ _ _ _ _ U); lia|..];
    (destruct (map_res_all (f e) (EPanic PNotFlushed) (seq 0 N)) as [[[r' ->] B]|[-> (y & J0 & B)]]; [intros y J0; apply in_seq in J0; apply F; rewrite (r_len' _ _ _ _ _ _ U); lia|..]); cbn [bind].
  - exact U.
  - exfalso. apply in_seq in J0. destruct (Fo y) as [(p & O & <-)|[a E]]; [lia| |congruence]. rewrite (Fp p O) in B. destruct (A p) as [a E]; [apply in_seq; lia|congruence].
  - exfalso. apply in_seq in I0. destruct (B (sg x)) as [a E]; [apply in_seq; pose proof (Below x); lia|]. rewrite Fp in E by lia. congruence.
  - reflexivity.
Qed.
Lemma perform_R hd h h' m m' : same_plan sg n m m' -> H2 h h' -> forall d e, RD d e -> rr R (perform pr umax call hd h m d) (perform pr umax call' hd h' m' e).
Proof.
  intros S0 Hh. induction S0 as [| |c k k' O _ IH|c ev rows k k' O _ IH|c ev rows k k' O _ IH]; intros d e H; cbn [perform].
  - apply close_R. exact H.
  - reflexivity.
  - eapply rr_bind; [apply act_R; assumption|]. intros x y [A ->]. apply IH. exact A.
  - cbn [deed_step]. destruct hd as [f|]; [|reflexivity]. assert (Hd : H2 (d_held d ++ h) (d_held e ++ h')) by (apply H2_app; [exact (RD_held sg n N T0 Inj Below _ _ H)|exact Hh]).
    eapply rr_bind with (P := RS); [|intros x y [A ->]; apply IH; exact A]. eapply rr_bind; [apply handle_R; [apply (rd_u _ _ _ _ _ _ H)|exact Hd|exact O]|]. intros u v Huv. split; [exact (RD_with sg n N T0 _ _ _ _ H Huv)|reflexivity].
  - cbn [deed_step]. destruct hd as [f|]; [|reflexivity]. assert (Hd : H2 (d_held d ++ h) (d_held e ++ h')) by (apply H2_app; [exact (RD_held sg n N T0 Inj Below _ _ H)|exact Hh]).
    eapply rr_bind with (P := RS); [|intros x y [A ->]; apply IH; exact A]. eapply rr_bind; [apply run_R; [apply (rd_u _ _ _ _ _ _ H)|exact Hd|exact O]|]. intros u v Huv. split; [exact (RD_with sg n N T0 _ _ _ _ H Huv)|reflexivity].
Qed.
Lemma unlocked_R u v : R u v -> RD (unlocked u) (unlocked v).
Proof.
  intro H. assert (Z : forall A (l : list A) p, nth p (map (fun _ => @None (select * bool * bool)) l) None = None) by (intros A l; induction l as [|x l IH]; intros [|p]; try reflexivity; apply IH).
  constructor; cbn [unlocked d_u d_l]; rewrite ?map_length; [exact H|apply (r_len _ _ _ _ _ _ H)|apply (r_len' _ _ _ _ _ _ H)|..]; intros p O; unfold d_lock; cbn [unlocked d_l]; rewrite !Z; reflexivity.
Qed.
Lemma act_turn_R hd h h' p ev s s' i tr : R3 s s' -> H2 h h' -> tr_in n tr ->
  rr R3 (act_turn pr umax react call hd h p ev s (i, tr)) (act_turn pr umax react' call' hd h' (sg p) ev s' (i, place_tracker sg tr)).
Proof.
  destruct s as [[u sel] b], s' as [[v sel'] b']. intros (H & E1 & E2) Hh Tr. cbn [fst snd] in *. subst sel' b'. unfold act_turn. cbn [fst snd].
  assert (Ec : tracker_considers (place_tracker sg tr) ev = tracker_considers tr ev) by (destruct tr; reflexivity). rewrite Ec.
  destruct (tracker_considers tr ev); [|split; [exact H|split; reflexivity]].
  assert (Es : tracker_sorts v (place_tracker sg tr) = tracker_sorts u tr) by (unfold tracker_sorts; destruct tr as [q k key|]; cbn [place_tracker]; [rewrite (r_tabs _ _ _ _ _ _ H q Tr)|]; reflexivity). rewrite Es.
  set (sel1 := if negb b && tracker_sorts u tr then sel_sort sel else sel). pose proof (R_say sg n N T0 u v p i ev sel1 H) as H1.
  eapply rr_bind with (P := R); [|intros u1 v1 X; split; [exact X|split; reflexivity]]. destruct tr as [q k key|]; cbn [place_tracker].
  - apply (auto_R pr umax sg n N T0 Inj Below call call' Call); assumption.
  - apply perform_R; [|exact Hh|apply unlocked_R; exact H1]. rewrite (r_log _ _ _ _ _ _ H1). apply React.
Qed.
Lemma act_turns hd h h' p ev trs : H2 h h' -> Forall (tr_in n) trs -> forall m s s', R3 s s' ->
  rr R3 (fold_res (act_turn pr umax react call hd h p ev) (combine (seq m (length trs)) trs) s)
        (fold_res (act_turn pr umax react' call' hd h' (sg p) ev) (combine (seq m (length trs)) (map (place_tracker sg) trs)) s').
Proof.
  intros Hh F. induction F as [|tr trs Ht F IH]; intros m s s' H; cbn [length seq combine map fold_res]; [exact H|]. eapply rr_bind; [apply act_turn_R; assumption|]. intros a b Hab. apply IH. exact Hab.
Qed.
End Calls.
Lemma act_flush_R fuel : forall u v h h' p ev a d s, R u v -> H2 h h' -> p < n -> rr R2 (act_flush pr umax react fuel u h p ev a d s) (act_flush pr umax react' fuel v h' (sg p) ev a d s).
Proof.
  induction fuel as [|m IH]; intros u v h h' p ev a d s H Hh O; cbn [act_flush]; [reflexivity|]. apply rr_same. intros _ _. rewrite (r_hdl _ _ _ _ _ _ H). apply rr_same. intros hd _.
  unfold u_trackers. rewrite (r_trk _ _ _ _ _ _ H p O), map_length, (r_len _ _ _ _ _ _ H), (r_len' _ _ _ _ _ _ H).
  eapply rr_bind; [apply act_turns; [exact IH|apply H2_guard; assumption|apply (r_in _ _ _ _ _ _ H p O)|split; [exact H|split; reflexivity]]|].
  intros x y (A & B & _). split; assumption.
Qed.
End W.

Theorem placing_acting : forall pr umax fuel sg schs schs' react react' m m', placed sg schs schs' -> same_trackers sg (length schs) react react' -> same_plan sg (length schs) m m' ->
  match act_run pr umax react fuel schs m with
  | Ok u => exists u', act_run pr umax react' fuel schs' m' = Ok u' /\ u_log u' = map (place_note sg) (u_log u) /\
      (forall p, p < length schs -> nth_error (u_tabs u') (sg p) = nth_error (u_tabs u) p) /\
      (forall q, (forall p, p < length schs -> sg p <> q) -> nth_error (u_tabs u') q = nth_error (map t_new schs') q)
  | Err e => act_run pr umax react' fuel schs' m' = Err e
  end.
Proof.
  intros pr umax fuel sg schs schs' react react' m m' P Re Pl. destruct (new_R _ _ _ P) as [L U]. destruct P as [_ Inj].
  pose proof (perform_R pr umax sg (length schs) (length schs') (map t_new schs') Inj L (act_flush pr umax react fuel) (act_flush pr umax react' fuel)
    (act_flush_R pr umax sg (length schs) (length schs') (map t_new schs') Inj L react react' Re fuel) None [] [] m m' Pl (H2_nil sg _ _) _ _ (unlocked_R sg _ _ _ _ _ U)) as X.
  unfold act_run. destruct (perform _ _ _ None [] m _) as [u|x], (perform _ _ (act_flush pr umax react' fuel) None [] m' _) as [v|y]; try contradiction; [|cbn in X; congruence].
  exists v. cbn in X. split; [reflexivity|]. split; [apply (r_log _ _ _ _ _ _ X)|]. split; [apply (r_tabs _ _ _ _ _ _ X)|apply (r_out _ _ _ _ _ _ X)].
Qed.
