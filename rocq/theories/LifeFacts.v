(** Proofs about programs that change tables and add saved rows. *)
From Coq Require Import List Arith Bool Lia.
From Verif Require Import Base BaseFacts Column ColumnFacts Order RowRange RowRangeFacts Table TableFacts SortedTab BagTab TableSpec Hist HistFacts TableProps RowProps
  Events Cascade CascadeSpec CascadeFacts CascadeProps Extract ExtractSpec ExtractFacts RestoreFacts ExtractProps IntegritySpec IntegrityFacts
  BackupSpec BackupFacts ImportSpec ImportFacts LifeSpec.
Import ListNotations.

(** ** A flush neither registers trackers nor makes tables *)
Section Framed.
Variables (pr : profile) (umax : nat).
Definition framed (u u' : universe) : Prop := u_trk u' = u_trk u /\ length (u_tabs u') = length (u_tabs u).
Lemma framed_trans u v w : framed u v -> framed v w -> framed u w.
Proof. unfold framed. intros [A B] [C D]. split; congruence. Qed.
Lemma framed_put u p t : framed u (u_put u p t).
Proof. split; [reflexivity|]. cbn. apply upd_length. Qed.
Section Fix.
Variable call : universe -> locks -> nat -> event -> bool -> bool -> select -> res (universe * select).
Hypothesis Call : forall u h p ev a b sel q, call u h p ev a b sel = Ok q -> framed u (fst q).
Lemma framed_flush u h p w ev u' : flush_with pr umax call u h p w ev = Ok u' -> framed u u'.
Proof.
  unfold flush_with. intro H. destruct (sel_empty (w_changes w)); [bindn H t Ht; injection H as <-; apply framed_put|].
  bindn H q Hq. apply Call in Hq. assert (F : framed u (fst q)) by (eapply framed_trans; [apply framed_put|exact Hq]).
  destruct (_ && _); [|injection H as <-; exact F]. bindn H l Hl. bindn H t Ht. bindn H w1 Hw. bindn H l2 Hl2. bindn H t2 Ht2. injection H as <-.
  eapply framed_trans; [exact F|apply framed_put].
Qed.
Lemma framed_remove u h c ev rows u' : remove_rows_with pr umax call u h c ev rows = Ok u' -> framed u u'.
Proof.
  unfold remove_rows_with. intro H. bindn H t Ht. destruct (t_kind t); try discriminate; try (injection H as <-; split; reflexivity).
  - bindn H l Hl. bindn H w Hw. eapply framed_flush; exact H.
  - bindn H l Hl. bindn H w Hw. eapply framed_flush; exact H.
Qed.
Lemma framed_auto hd u h c k key ev rows u' : auto_handle pr umax call hd u h c k key ev rows = Ok u' -> framed u u'.
Proof.
  unfold auto_handle, run_with. intro H. bindn H l Hl. bindn H t Ht. bindn H rs Hr. bindn H t2 Ht2. bindn H v Hv. bindn H l2 Hl2. bindn H q Hq. injection H as <-.
  apply Call in Hq. eapply framed_trans; [|exact Hq]. unfold handle_with in Hv. destruct hd; [eapply framed_remove; exact Hv| |discriminate].
  injection Hv as <-. split; reflexivity.
Qed.
End Fix.
Lemma framed_do n : forall u h p ev a b sel q, do_flush pr umax n u h p ev a b sel = Ok q -> framed u (fst q).
Proof.
  induction n as [|n IH]; intros u h p ev a b sel q H; cbn [do_flush] in H; [discriminate|].
  bindn H l Hl. bindn H hd0 Hh. bindn H s Hs. injection H as <-.
  eapply (fold_res_inv (fun s => framed u (fst (fst s)))) with (3 := Hs); [|split; reflexivity].
  clear s Hs Hh. intros s x s' _ G H. unfold tracker_turn in H. destruct (tracker_considers (snd x) ev); [|injection H as <-; exact G].
  bindn H u1 H1. injection H as <-. cbn [fst]. eapply framed_trans; [exact G|].
  destruct (snd x) as [c k key|]; [|injection H1 as <-; split; reflexivity].
  apply (framed_auto _ IH) in H1. destruct H1 as [H1 H2]. cbn in H1, H2. split; assumption.
Qed.
End Framed.

Section M.
Variables (pr : profile) (umax fuel : nat) (heads : nat -> header) (foreign : nat -> list (nat * nat)) (null : nat -> nat -> Prop)
  (rank : nat -> nat) (order : nat -> row -> row -> comparison).
Hypothesis Or : forall c, total_preorder (order c).
Hypothesis Rk : forall p, rank p < fuel.
Local Notation INV := (inv pr umax rank null order).

Lemma restore_all_det es ev ps : forall x y z, restore_all pr umax heads foreign order fuel es ev ps x y ->
  restore_all pr umax heads foreign order fuel es ev ps x z -> y = z.
Proof.
  induction ps as [|p ps IH]; intros x y z A B; [cbn in A, B; congruence|].
  apply restore_all_cons in A. apply restore_all_cons in B. destruct A as (a & A1 & A2), B as (b & B1 & B2).
  assert (a = b) by congruence. subst b. eapply IH; eauto.
Qed.

(** What is kept all the time ([lk]: tables the lock of whose trackers somebody may hold). *)
Record alive (lk : nat -> Prop) (x0 x : xuni) : Prop := {
  al_inv : INV (xu_u x);
  al_trk : u_trk (xu_u x) = u_trk (xu_u x0);
  al_dec : declared foreign (xu_u x);
  al_fl : forall p t, nth_error (u_tabs (xu_u x)) p = Some t ->
    exists f, nth_error (xu_fl x) p = Some f /\ (lk p \/ fs_leaked f = 0) }.

(** No ids are remapped to themselves. *)
Definition all_usual (x : xuni) : Prop := forall p t, nth_error (u_tabs (xu_u x)) p = Some t -> exists f, nth_error (xu_fl x) p = Some f /\ fs_ident f = false.
Lemma importable_addable x ps src sel es ev : all_usual x -> importable pr umax heads foreign x ps src sel es ev ->
  addable pr umax heads foreign null x ps src sel es ev.
Proof.
  intros Us (I & Cm & ND & O & HN).
  split; [|split; [|split; [exact ND|split; [|split; [exact HN|]]]]].
  - intros p Ip. pose proof (I p Ip) as Ip'. split; [exact Ip'|]. destruct Ip' as (d & E1 & _). eauto.
  - intros c k q i r Ic Ik Ii Rw. destruct (Cm c k q i r Ic Ik Ii Rw) as (a & B1 & B2). eauto.
  - intros bef c aft E k q Ik. left. exact (O bef c aft E k q Ik).
  - intros c k q i r a Ic Ik [Nq _]. exfalso. apply Nq. destruct (in_split _ _ Ic) as (l1 & l2 & Sp). rewrite Sp. apply in_or_app. left. exact (O l1 c l2 Sp k q Ik).
Qed.
Lemma addable_take lk x0 x ps src sel es ev p : alive lk x0 x -> addable pr umax heads foreign null x ps src sel es ev -> In p ps -> ~ lk p ->
  can_take pr umax x p (length (ex_sel (es p))) (t_sch (src p)).
Proof.
  intros A (I & _) Ip Nl. destruct (I p Ip) as ((d & E1 & E2 & E3 & _ & _ & _ & E4) & f & F1 & F2). destruct (al_fl _ _ _ A p d E1) as (f' & F1' & [F3|F3]); [tauto|].
  rewrite F1 in F1'. injection F1' as <-.
  destruct (i_sane _ _ _ _ _ _ (al_inv _ _ _ A) p d E1 (or_introl E3)) as [S1 S2]. rewrite E2 in S1.
  exists d, f. auto 10.
Qed.

Lemma import_lives lk x0 x ps src sel es ev : alive lk x0 x -> addable pr umax heads foreign null x ps src sel es ev -> (forall p, In p ps -> ~ lk p) ->
  exists x' f, restore_all pr umax heads foreign order fuel es ev ps x x' /\ alive lk x0 x' /\
    (forall p, In p ps -> exists d d', nth_error (u_tabs (xu_u x)) p = Some d /\ nth_error (u_tabs (xu_u x')) p = Some d' /\
       added (foreign p) f p (ex_sel (es p)) (src p) d d') /\
    (forall p, ~ In p ps -> nth_error (u_tabs (xu_u x')) p = nth_error (u_tabs (xu_u x)) p) /\
    (forall q a, stays_put x ps q -> f q a = a) /\
    (forall p, option_map fs_ident (nth_error (xu_fl x') p) = option_map fs_ident (nth_error (xu_fl x) p)).
Proof.
  intros A Im Nl. pose proof Im as (I & Cm & ND & O & HN & Th). pose proof (al_inv _ _ _ A) as V. pose proof (al_dec _ _ _ A) as (D1 & D2 & D3).
  pose proof (inv_linked pr umax rank null order _ V) as Lin.
  destruct (import_but pr umax heads foreign order (stays_put x ps) rank fuel src sel es x ev ps) as (x' & f & E & Ad & Ot & Fi & _ & _ & Eh & Et & T1 & T2); auto.
  { intros p Ip. pose proof (addable_take _ _ _ _ _ _ _ _ p A Im Ip (Nl p Ip)) as Ct. destruct (I p Ip) as ((d & E1 & E2 & E3 & E4 & E5 & E6 & E7) & _).
    split; [exact E4|]. split; [unfold t_kind in *; rewrite <- E2, E3; discriminate|]. auto 10. }
  { intros c k q _ Ik. right. exact (D3 c k q Ik). }
  exists x', f. split; [exact E|]. rewrite and_comm, !and_assoc. split; [exact Ad|]. split; [exact Ot|]. split; [exact Fi|].
  assert (Tk : forall p, In p ps -> can_take pr umax x' p 0 (t_sch (src p))).
  { intros p Ip. apply T1; [exact Ip|]. rewrite Nat.add_0_r. eapply addable_take; eauto. }
  split.
  { intro p. destruct (in_dec Nat.eq_dec p ps) as [Ip|N].
    - destruct (Tk p Ip) as (d & fs & _ & _ & _ & _ & _ & -> & B2 & _). destruct (I p Ip) as (_ & f0 & -> & F2). cbn. congruence.
    - destruct (restore_all_frame pr umax heads foreign order fuel es ev ps x x' HN E) as [_ Fr]. destruct (Fr p N) as [-> _]. reflexivity. }
  assert (Fw : forall c t, nth_error (u_tabs (xu_u x)) c = Some t -> exists t', nth_error (u_tabs (xu_u x')) c = Some t' /\ t_sch t' = t_sch t /\ keeps t t').
  { intros c t Ec. destruct (in_dec Nat.eq_dec c ps) as [Ic|N].
    - destruct (Ad c Ic) as (d & d' & A1 & A2 & (A3 & _)). rewrite Ec in A1. injection A1 as <-. exists d'. split; [exact A2|]. split; [|exact A3].
      destruct (Tk c Ic) as (d & fs & B1 & B2 & _). rewrite A2 in B1. injection B1 as <-. destruct (I c Ic) as ((d & E1 & E2 & _) & _). rewrite Ec in E1. injection E1 as <-. congruence.
    - exists t. rewrite (Ot c N). split; [exact Ec|]. split; [reflexivity|intros i r G; exact G]. }
  assert (Bw : forall c t', nth_error (u_tabs (xu_u x')) c = Some t' -> exists t, nth_error (u_tabs (xu_u x)) c = Some t /\ t_sch t' = t_sch t /\ keeps t t' /\
     (In c ps /\ t_kind t = Consistent /\ sane pr umax (t_sch t') (Free t') /\ t_len t' <= t_imax t' \/ ~ In c ps /\ t' = t)).
  { intros c t' Ec. destruct (in_dec Nat.eq_dec c ps) as [Ic|N].
    - destruct (Ad c Ic) as (d & d' & A1 & A2 & (A3 & _)). rewrite Ec in A2. injection A2 as <-. exists d. split; [exact A1|].
      destruct (Tk c Ic) as (d0 & fs & B1 & B2 & B3 & B4 & _). rewrite Ec in B1. injection B1 as <-. destruct (I c Ic) as ((d0 & E1 & E2 & E3 & _) & _). rewrite A1 in E1. injection E1 as <-.
      split; [congruence|]. split; [exact A3|]. left. rewrite B2. auto.
    - exists t'. rewrite <- (Ot c N). split; [exact Ec|]. split; [reflexivity|]. split; [intros i r G; exact G|]. right. auto. }
  assert (Ut : forall q, u_trackers (xu_u x') q = u_trackers (xu_u x) q) by (intro q; unfold u_trackers; congruence).
  destruct V as [(W1 & W2 & W3) Tg Sn Od So]. split.
  - split.
    + split; [|split; [|congruence]].
      * intros p c k key H. rewrite Ut in H. destruct (W1 _ _ _ _ H) as (R & t & b & Ec & Eb & Kd). split; [exact R|].
        destruct (Fw c t Ec) as (t' & Ec' & Es & _). exists t', b. unfold t_kind in *. rewrite Es. auto.
      * intros p t' Ec N. destruct (Bw p t' Ec) as (t & Ep & Es & _). rewrite Ut. apply (W2 p t Ep). unfold t_kind in *. congruence.
    + intros c t' Ec. destruct (Bw c t' Ec) as (t & Ep & Es & _ & [(_ & _ & S1 & _)|[_ ->]]); [|eauto].
      destruct (sane_tg _ _ _ _ S1) as (T0 & live & rows & K & _). split; [reflexivity|]. exists live, rows. split; [exact K|discriminate].
    + intros c t' Ec Wk. destruct (Bw c t' Ec) as (t & Ep & Es & _ & [(_ & _ & S1 & S2)|[_ ->]]); [auto|eauto].
    + intros c t' Ec Ks. destruct (Bw c t' Ec) as (t & Ep & Es & _ & [(_ & Kc & _)|[_ ->]]); [|eauto]. unfold t_kind in *. rewrite Es, Kc in Ks. discriminate.
    + intros p c k key t' j i Htr Hp (tc & r & Hc & Hr & Hk). rewrite Ut in Htr.
      destruct (Bw p t' Hp) as (t & Ep & _ & Kp & _).
      assert (Old : refers (xu_u x) c k j i -> (exists r, t_get_row t' i = Ok r) \/ null p i).
      { intro Rf. destruct (So _ _ _ _ _ _ _ Htr Ep Rf) as [[r0 G]|Nu]; [left; exists r0; apply Kp; exact G|right; exact Nu]. }
      destruct (in_dec Nat.eq_dec c ps) as [Ic|N]; [|apply Old; exists tc, r; rewrite <- (Ot c N); auto].
      destruct (Ad c Ic) as (d & d' & A1 & A2 & (_ & A4 & _ & A6)). rewrite Hc in A2. injection A2 as <-.
      destruct (A6 j r Hr) as [G|(j0 & Ij & ->)]; [apply Old; exists d, r; auto|].
      destruct (A4 j0 Ij) as (_ & r0 & r' & C1 & C2 & _ & C4). rewrite Hr in C2. injection C2 as <-.
      pose proof (D1 _ _ _ _ Htr) as Ik. destruct (C4 k p Ik) as (a & Ea & Ea'). rewrite Hk in Ea'. injection Ea' as ->.
      destruct (Cm c k p j0 r0 Ic Ik Ij C1) as (a' & Er & Is). rewrite Ea in Er. injection Er as <-.
      assert (Iq : In p ps \/ stays_put x ps p).
      { destruct (in_split _ _ Ic) as (l1 & l2 & Sp). destruct (O l1 c l2 Sp k p Ik) as [X|X]; [left; rewrite Sp; apply in_or_app; left; exact X|right; exact X]. }
      destruct Iq as [Iq|Iq].
      2:{ rewrite (Fi p a Iq) in *. destruct (Th c k p j0 r0 a Ic Ik Iq Ij C1 Ea) as [(tq & rq & Eq & Gq)|Nu]; [left|right; exact Nu].
          rewrite Ep in Eq. injection Eq as <-. exists rq. apply Kp. exact Gq. }
      destruct Is as [Is|Is]; [left|destruct (proj1 Is Iq)].
      destruct (Ad p Iq) as (dq & dq' & B1 & B2 & (_ & B4 & _)). rewrite Hp in B2. injection B2 as <-. destruct (B4 a Is) as (_ & _ & rq & _ & Gq & _). eauto.
  - rewrite Et. apply A.
  - split; [|split; [exact D2|]].
    + intros q c k key H. rewrite Ut in H. eauto.
    + intros c k q H. rewrite Ut. eauto.
  - intros p t' Ep. destruct (in_dec Nat.eq_dec p ps) as [Ip|N].
    + destruct (Tk p Ip) as (d & fs & _ & _ & _ & _ & _ & B1 & B2 & B3). eauto.
    + destruct (restore_all_frame pr umax heads foreign order fuel es ev ps x x' HN E) as [_ Fr]. destruct (Fr p N) as [-> _].
      rewrite (Ot p N) in Ep. exact (al_fl _ _ _ A p t' Ep).
Qed.

Theorem grows_kept x0 x : wired rank order (xu_u x0) -> all_new (xu_u x0) -> unmapped x0 -> declared foreign (xu_u x0) ->
  grows pr umax fuel heads foreign null order x0 x -> alive (fun _ => False) x0 x /\ all_usual x.
Proof.
  intros W N U D. induction 1 as [|x p t es w ev x' G IH Ca Hp He Le H|x ps src sel es ev x' G IH Im E].
  - split; [|intros p t Ep; exists fs_new; split; [eauto|reflexivity]].
    split; auto; [apply inv_new; assumption|]. intros p t Ep. exists fs_new. split; [eauto|right; reflexivity].
  - unfold x_flush in H. bindn H u Hu. injection H as <-. destruct IH as [[V Tk De Fl] Us].
    assert (V' : INV u).
    { destruct (t_kind t) eqn:Kd.
      - eapply session_other; eauto. unfold watched_kind. rewrite Kd. intros [?|?]; discriminate.
      - eapply session_cons; eauto.
      - eapply session_other; eauto. unfold watched_kind. rewrite Kd. intros [?|?]; discriminate.
      - eapply session_other; eauto. unfold watched_kind. rewrite Kd. intros [?|?]; discriminate.
      - eapply session_sorted; eauto. }
    pose proof (framed_flush pr umax _ (framed_do pr umax fuel) _ _ _ _ _ _ Hu) as [F1 F2].
    assert (Bk : forall q tq, nth_error (u_tabs u) q = Some tq -> exists t0, nth_error (u_tabs (xu_u x)) q = Some t0).
    { intros q tq Eq. apply nth_error_Some_lt in Eq. rewrite F2 in Eq. apply nth_error_lt_Some. exact Eq. }
    split; [|intros q tq Eq; destruct (Bk _ _ Eq) as [t0 E0]; exact (Us _ _ E0)].
    split; cbn [xu_u xu_fl].
    + exact V'.
    + congruence.
    + unfold declared, u_trackers in *. rewrite F1. exact De.
    + intros q tq Eq. destruct (Bk _ _ Eq) as [t0 E0]. eauto.
  - destruct IH as [A Us]. destruct (import_lives _ x0 x ps src sel es ev A (importable_addable _ _ _ _ _ _ Us Im) (fun _ _ F => F)) as (y & f & E' & A' & Ad & Ot & _ & Id).
    rewrite (restore_all_det _ _ _ _ _ _ E E'). split; [exact A'|]. intros p t' Ep. specialize (Id p).
    assert (Eo : exists t0, nth_error (u_tabs (xu_u x)) p = Some t0).
    { destruct (in_dec Nat.eq_dec p ps) as [Ip|Np]; [destruct (Ad p Ip) as (d & _ & B & _); eauto|rewrite (Ot p Np) in Ep; eauto]. }
    destruct Eo as [t0 E0]. destruct (Us p t0 E0) as (f0 & F1 & F2). rewrite F1 in Id. destruct (nth_error (xu_fl y) p) as [f1|]; [|discriminate].
    exists f1. split; [reflexivity|]. cbn in Id. congruence.
Qed.
Theorem grows_alive x0 x : wired rank order (xu_u x0) -> all_new (xu_u x0) -> unmapped x0 -> declared foreign (xu_u x0) ->
  grows pr umax fuel heads foreign null order x0 x -> alive (fun _ => False) x0 x.
Proof. intros W N U D G. apply (grows_kept x0 x W N U D G). Qed.

Theorem grows_sound x0 x : wired rank order (xu_u x0) -> all_new (xu_u x0) -> unmapped x0 -> declared foreign (xu_u x0) ->
  grows pr umax fuel heads foreign null order x0 x -> sound null (xu_u x) /\ linked pr umax rank (xu_u x).
Proof.
  intros W N U D G. pose proof (al_inv _ _ _ (grows_alive x0 x W N U D G)) as V. split; [apply V|]. eapply inv_linked. exact V.
Qed.
Theorem grows_imports x0 x ps src sel es ev : wired rank order (xu_u x0) -> all_new (xu_u x0) -> unmapped x0 -> declared foreign (xu_u x0) ->
  grows pr umax fuel heads foreign null order x0 x -> importable pr umax heads foreign x ps src sel es ev ->
  exists x' f, restore_all pr umax heads foreign order fuel es ev ps x x' /\ grows pr umax fuel heads foreign null order x0 x' /\
    (forall p, In p ps -> exists d d', nth_error (u_tabs (xu_u x)) p = Some d /\ nth_error (u_tabs (xu_u x')) p = Some d' /\
       added (foreign p) f p (ex_sel (es p)) (src p) d d') /\
    (forall p, ~ In p ps -> nth_error (u_tabs (xu_u x')) p = nth_error (u_tabs (xu_u x)) p).
Proof.
  intros W N U D G Im. destruct (grows_kept x0 x W N U D G) as [A Us].
  destruct (import_lives _ x0 x ps src sel es ev A (importable_addable _ _ _ _ _ _ Us Im) (fun _ _ F => F)) as (x' & f & E & _ & Ad & Ot & _).
  exists x', f. split; [exact E|]. split; [eapply grows_import; eauto|]. auto.
Qed.
Theorem grows_removal x0 x p t ids ev : wired rank order (xu_u x0) -> all_new (xu_u x0) -> unmapped x0 -> declared foreign (xu_u x0) ->
  grows pr umax fuel heads foreign null order x0 x ->
  nth_error (u_tabs (xu_u x)) p = Some t -> t_kind t = Consistent -> Forall (fun i => exists r, t_get_row t i = Ok r) ids -> NoDup ids ->
  plain_removal ev -> nth_error (u_hdl (xu_u x)) (ev_id ev) = Some HDelete ->
  exists w x', do_edits pr umax (w_new t) (map ODelete ids) = Ok w /\ x_flush pr umax fuel x [] p w ev = Ok x' /\
    grows pr umax fuel heads foreign null order x0 x' /\
    forall c tc, nth_error (u_tabs (xu_u x)) c = Some tc ->
      exists tc', nth_error (u_tabs (xu_u x')) c = Some tc' /\ loses (doomed (xu_u x) p ids c) tc tc'.
Proof.
  intros W N U D G Hp Kd Fl Nd PE HD. pose proof (al_inv _ _ _ (grows_alive x0 x W N U D G)) as V.
  destruct (removal_inv pr umax fuel rank null order (xu_u x) p t ids ev Rk V Hp Kd Fl Nd PE HD) as (w & u' & He & E' & Ca & Le & T).
  assert (X : x_flush pr umax fuel x [] p w ev = Ok (XU u' (xu_fl x))) by (unfold x_flush; rewrite E'; reflexivity).
  exists w, (XU u' (xu_fl x)). split; [exact He|]. split; [exact X|]. split; [eapply grows_session; eauto|exact T].
Qed.
(** Programs that add nothing are those of C80. *)
Lemma lives_grows u0 fl u : lives pr umax fuel null order u0 u -> grows pr umax fuel heads foreign null order (XU u0 fl) (XU u fl).
Proof.
  induction 1 as [|u p t es w ev u' L IH Ca Hp He Le H]; [apply grows_start|].
  eapply grows_session; [exact IH|exact Ca|exact Hp|exact He|exact Le|]. unfold x_flush. cbn [xu_u xu_fl]. rewrite H. reflexivity.
Qed.
End M.
