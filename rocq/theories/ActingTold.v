(** Proofs about trackers that act and only change tables of lower rank (for C92 and C94). *)
From Coq Require Import List Arith Bool Lia.
From Verif Require Import Base BaseFacts Column ColumnFacts RowRange Table Visit SortedTab TableSpec TableFacts Events Cascade Hist HistFacts Answers DbHist
  StableSpec StableFacts Acting ActingSpec ActingFacts.
Import ListNotations.

(** The same, with [P] if there is a result. *)
Definition twin {A} (P : A -> Prop) (x y : res A) : Prop := x = y /\ forall a, y = Ok a -> P a.
Lemma twin_bind {A B} (P : A -> Prop) (Q : B -> Prop) x y (f g : A -> res B) :
  twin P x y -> (forall a, P a -> twin Q (f a) (g a)) -> twin Q (bind x f) (bind y g).
Proof.
  intros (-> & H) F. destruct y as [a|e]; cbn; [apply F; auto|]. split; [reflexivity|]. discriminate.
Qed.
Lemma twin_ok {A} (P : A -> Prop) a : P a -> twin P (Ok a) (Ok a).
Proof. intros H. split; [reflexivity|]. intros b E. now injection E as <-. Qed.
Lemma twin_err {A} (P : A -> Prop) e : twin P (Err e) (Err e). Proof. split; [reflexivity|discriminate]. Qed.
Lemma twin_any {A} (x : res A) : twin (fun a => x = Ok a) x x. Proof. split; auto. Qed.
Lemma twin_impl {A} (P Q : A -> Prop) x y : twin P x y -> (forall a, P a -> Q a) -> twin Q x y.
Proof. intros (E & H) I. split; auto. Qed.
Lemma twin_fold {A S} (P : S -> Prop) (f g : S -> A -> res S) l : forall s, P s -> (forall s a, In a l -> P s -> twin P (f s a) (g s a)) -> twin P (fold_res f l s) (fold_res g l s).
Proof.
  induction l as [|a l IH]; intros s H F; cbn; [now apply twin_ok|]. eapply twin_bind; [apply F; cbn; auto|]. intros s' H'. apply IH; [exact H'|].
  intros; apply F; cbn; auto.
Qed.

(** Locks that differ in the trackers locked only. *)
Definition sim (N : nat) (h h' : locks) : Prop := (forall p, can_read h p = can_read h' p) /\ forall p, p < N -> can_write h p = can_write h' p.
Lemma sim_refl N h : sim N h h. Proof. split; auto. Qed.
Lemma sim_cons N x h h' : sim N h h' -> sim N (x :: h) (x :: h').
Proof. intros (R & W). split; intros p; cbn; [f_equal; apply R|]. intros L. f_equal. now apply W. Qed.
Lemma sim_trk N p h h' : sim N h h' -> sim N ((N + p, false) :: h) h'.
Proof.
  intros (R & W). split; intros q; cbn; [rewrite andb_false_r; apply R|]. intros L. replace (N + p =? q) with false by (symmetry; apply Nat.eqb_neq; lia). now apply W.
Qed.

Section Twin.
Variable pr : profile.
Variable umax N : nat.
Variable rank : nat -> nat.
Variable fc fc' : universe -> locks -> nat -> event -> bool -> bool -> select -> res (universe * select).
(** The tables that may be called for, the universes met, and how they change. *)
Variable ok : nat -> Prop.
Variable fine : universe -> Prop.
Variable low : nat -> universe -> universe -> Prop.
Hypothesis fine_len : forall u, fine u -> length (u_tabs u) = N.
Hypothesis fine_put : forall u p t, fine u -> fine (u_put u p t).
Hypothesis low_refl : forall r u, low r u u.
Hypothesis low_trans : forall r a b c, low r a b -> low r b c -> low r a c.
Hypothesis low_mono : forall r r' a b, r <= r' -> low r a b -> low r' a b.
Hypothesis low_put : forall p r u t, rank p < r -> low r u (u_put u p t).
Hypothesis Fc : forall u h h' p ev a b s, ok p -> fine u -> sim N h h' ->
  twin (fun q => fine (fst q) /\ low (rank p) u (fst q)) (fc u h p ev a b s) (fc' u h' p ev a b s).

Lemma get_lt u p t : fine u -> u_get u p = Ok t -> p < N.
Proof. intros F G. rewrite <- (fine_len u F). apply get_nth in G. eapply nth_error_Some_lt; eauto. Qed.
Lemma flush_twin u h h' p w ev : ok p -> fine u -> sim N h h' -> p < N ->
  twin (fun u' => fine u' /\ low (S (rank p)) u u') (flush_with pr umax fc u h p w ev) (flush_with pr umax fc' u h' p w ev).
Proof.
  intros O F H L. unfold flush_with. destruct (sel_empty (w_changes w)).
  - eapply twin_bind; [apply twin_any|]. intros t _. apply twin_ok. split; [now apply fine_put|]. apply low_put. lia.
  - eapply twin_bind; [apply Fc; [exact O|now apply fine_put|exact H]|]. intros q (Fq & Lq). cbv zeta.
    assert (Lu : low (S (rank p)) u (fst q)) by (apply (low_trans _ _ (u_put u p (w_tab w))); [apply low_put; lia|]; eapply low_mono; [|exact Lq]; lia).
    destruct (_ && _); [|apply twin_ok; auto]. destruct H as (Hr & Hw). rewrite (Hw _ L).
    eapply twin_bind; [apply twin_any|]. intros _ _. eapply twin_bind; [apply twin_any|]. intros t _.
    eapply twin_bind; [apply twin_any|]. intros w' _. eapply twin_bind; [apply twin_any|]. intros _ _. eapply twin_bind; [apply twin_any|]. intros t' _.
    apply twin_ok. split; [now apply fine_put|]. eapply low_trans; [exact Lu|]. apply low_put. lia.
Qed.
Lemma remove_twin u h h' c ev rows : ok c -> fine u -> sim N h h' ->
  twin (fun u' => fine u' /\ low (S (rank c)) u u') (remove_rows_with pr umax fc u h c ev rows) (remove_rows_with pr umax fc' u h' c ev rows).
Proof.
  intros O F H. unfold remove_rows_with. eapply twin_bind; [apply twin_any|]. intros t G. assert (L := get_lt _ _ _ F G).
  destruct (t_kind t); try apply twin_err; rewrite (proj2 H _ L); (eapply twin_bind; [apply twin_any|]; intros _ _; cbv zeta; eapply twin_bind; [apply twin_any|]; intros w _;
    now apply flush_twin).
Qed.
Lemma handle_twin f u h h' c ev rows : ok c -> fine u -> sim N h h' ->
  twin (fun u' => fine u' /\ low (S (rank c)) u u') (handle_with pr umax fc f u h c ev rows) (handle_with pr umax fc' f u h' c ev rows).
Proof. intros O F H. destruct f; cbn; [now apply remove_twin|apply twin_ok; auto|apply twin_err]. Qed.
Lemma run_twin f u h h' c ev rows : ok c -> fine u -> sim N h h' ->
  twin (fun u' => fine u' /\ low (S (rank c)) u u') (run_with pr umax fc f u h c ev rows) (run_with pr umax fc' f u h' c ev rows).
Proof.
  intros O F H. unfold run_with. eapply twin_bind; [apply twin_any|]. intros t _. cbv zeta. eapply twin_bind; [apply handle_twin; auto|].
  intros u1 (F1 & L1). rewrite (proj1 H). eapply twin_bind; [apply twin_any|]. intros _ _.
  eapply twin_bind; [apply Fc; [exact O|exact F1|now apply sim_cons]|]. intros q (Fq & Lq). apply twin_ok. split; [exact Fq|].
  eapply low_trans; [exact L1|]. eapply low_mono; [|exact Lq]. lia.
Qed.
Lemma auto_twin f u h h' c k key ev rows : ok c -> fine u -> sim N h h' ->
  twin (fun u' => fine u' /\ low (S (rank c)) u u') (auto_handle pr umax fc f u h c k key ev rows) (auto_handle pr umax fc' f u h' c k key ev rows).
Proof.
  intros O F H. unfold auto_handle. rewrite (proj1 H). eapply twin_bind; [apply twin_any|]. intros _ _. eapply twin_bind; [apply twin_any|]. intros t _.
  eapply twin_bind; [apply twin_any|]. intros r _. now apply run_twin.
Qed.
End Twin.

(** ** Trackers that do nothing *)
Lemma unlocked_lock u p : d_lock (unlocked u) p = None.
Proof. unfold unlocked, d_lock. cbn. revert p. induction (u_tabs u) as [|t l IH]; intros [|p]; cbn; auto. Qed.
Lemma map_res_some {A B} (f : A -> res B) l : (forall x, In x l -> exists y, f x = Ok y) -> exists ys, map_res f l = Ok ys.
Proof.
  induction l as [|x l IH]; intros H; [eexists; reflexivity|]. destruct (H x) as (y & E); [now left|]. destruct IH as (ys & Es); [intros z Z; apply H; now right|].
  exists (y :: ys). cbn. now rewrite E, Es.
Qed.
Lemma close_unlocked u : close_all (unlocked u) = Ok u.
Proof.
  unfold close_all. cbn [unlocked d_u]. fold (unlocked u).
  destruct (map_res_some (fun p => let* st := d_state (unlocked u) p in match st with Locked w _ => w_drop w | Free t => Ok t end) (seq 0 (length (u_tabs u)))) as (ts & E).
  - intros p I. apply in_seq in I. unfold d_state, u_get. rewrite unlocked_lock. cbn [unlocked d_u].
    destruct (nth_error (u_tabs u) p) as [t|] eqn:Et; [eexists; reflexivity|]. apply nth_error_None in Et. lia.
  - rewrite E. reflexivity.
Qed.
Lemma silent_flush pr umax fuel N : forall u h h' p ev a b s, True -> length (u_tabs u) = N -> sim N h h' ->
  twin (fun q => length (u_tabs (fst q)) = N /\ True) (act_flush pr umax (fun _ => PEnd) fuel u h p ev a b s) (do_flush pr umax fuel u h' p ev a b s).
Proof.
  induction fuel as [|n IH]; intros u h h' p ev a b s _ L H; cbn [act_flush do_flush]; [apply twin_err|].
  eapply twin_bind; [apply twin_any|]. intros _ _. eapply twin_bind; [apply twin_any|]. intros f _. cbv zeta.
  eapply twin_bind; [|intros s' Is; apply twin_ok; split; [exact Is|exact I]].
  apply (twin_fold (fun s => length (u_tabs (fst (fst s))) = N)); [exact L|]. intros s' x _ Ls. unfold act_turn, tracker_turn.
  destruct (tracker_considers (snd x) ev); [|now apply twin_ok]. cbv zeta. eapply twin_bind with (P := fun u => length (u_tabs u) = N); [|intros u' L'; now apply twin_ok].
  destruct (snd x) as [c k key|srt cons].
  - eapply twin_impl; [apply (auto_twin pr umax N (fun _ => 0) (act_flush pr umax (fun _ => PEnd) n) (do_flush pr umax n) (fun _ => True) (fun u => length (u_tabs u) = N) (fun _ _ _ => True)); auto|].
    + intros u1 q t E. cbn. now rewrite upd_length.
    + rewrite L. now apply sim_trk.
    + intros u' (E & _). exact E.
  - cbn [perform]. rewrite close_unlocked. now apply twin_ok.
Qed.

(** ** Trackers that act on tables of lower rank *)
Section Low.
Variable pr : profile.
Variable umax : nat.
Variable schs : list schema.
Variable rank : nat -> nat.
Definition low (r : nat) (u u' : universe) : Prop := forall q, r <= rank q -> nth_error (u_tabs u') q = nth_error (u_tabs u) q.
Definition fine (u : universe) : Prop := length (u_tabs u) = length schs /\ trk_ok schs rank u.
Lemma low_refl r u : low r u u. Proof. intros q _. reflexivity. Qed.
Lemma low_trans r a b c : low r a b -> low r b c -> low r a c.
Proof. intros A B q L. rewrite (B q L). now apply A. Qed.
Lemma low_mono r r' a b : r <= r' -> low r a b -> low r' a b. Proof. intros L A q K. apply A. lia. Qed.
Lemma low_put p r u t : rank p < r -> low r u (u_put u p t).
Proof. intros L q K. cbn. apply nth_error_upd_ne. intros ->. lia. Qed.
Lemma fine_put u p t : fine u -> fine (u_put u p t).
Proof. intros (L & T). split; [cbn; now rewrite upd_length|exact T]. Qed.
Lemma fine_say u n : fine u -> fine (u_say u n). Proof. intros F. exact F. Qed.

Definition pair_ok (k : nat) (fc fc' : universe -> locks -> nat -> event -> bool -> bool -> select -> res (universe * select)) : Prop :=
  forall u h p ev a b s, rank p < k -> fine u -> twin (fun q => fine (fst q) /\ low (rank p) u (fst q)) (fc u h p ev a b s) (fc' u h p ev a b s).

Section Code.
Variable fc fc' : universe -> locks -> nat -> event -> bool -> bool -> select -> res (universe * select).
Variable top : nat.
Hypothesis Fc : pair_ok top fc fc'.
Variable hnd : option handler.
Variable h : locks.
Lemma pair_fc u h1 h2 p ev a b s : rank p < top -> fine u -> h1 = h2 /\ sim (length schs) h1 h2 ->
  twin (fun q => fine (fst q) /\ low (rank p) u (fst q)) (fc u h1 p ev a b s) (fc' u h2 p ev a b s).
Proof. intros R F (<- & _). now apply Fc. Qed.

Lemma flush_low u h1 p w ev : rank p < top -> fine u ->
  twin (fun u' => fine u' /\ low top u u') (flush_with pr umax fc u h1 p w ev) (flush_with pr umax fc' u h1 p w ev).
Proof.
  intros R F. unfold flush_with. destruct (sel_empty (w_changes w)).
  - eapply twin_bind; [apply twin_any|]. intros t _. apply twin_ok. split; [now apply fine_put|now apply low_put].
  - eapply twin_bind; [apply Fc; [exact R|now apply fine_put]|]. intros q (Fq & Lq). cbv zeta.
    assert (Lu : low top u (fst q)) by (apply (low_trans _ _ (u_put u p (w_tab w))); [now apply low_put|]; eapply low_mono; [|exact Lq]; lia).
    destruct (_ && _); [|apply twin_ok; auto].
    eapply twin_bind; [apply twin_any|]. intros _ _. eapply twin_bind; [apply twin_any|]. intros t _.
    eapply twin_bind; [apply twin_any|]. intros w' _. eapply twin_bind; [apply twin_any|]. intros _ _. eapply twin_bind; [apply twin_any|]. intros t' _.
    apply twin_ok. split; [now apply fine_put|]. eapply low_trans; [exact Lu|]. now apply low_put.
Qed.
Lemma remove_low u h1 c ev rows : rank c < top -> fine u ->
  twin (fun u' => fine u' /\ low top u u') (remove_rows_with pr umax fc u h1 c ev rows) (remove_rows_with pr umax fc' u h1 c ev rows).
Proof.
  intros R F. unfold remove_rows_with. eapply twin_bind; [apply twin_any|]. intros t G.
  destruct (t_kind t); try apply twin_err; (eapply twin_bind; [apply twin_any|]; intros _ _; cbv zeta; eapply twin_bind; [apply twin_any|]; intros w _;
    now apply flush_low).
Qed.
Lemma handle_low f u h1 c ev rows : rank c < top -> fine u ->
  twin (fun u' => fine u' /\ low top u u') (handle_with pr umax fc f u h1 c ev rows) (handle_with pr umax fc' f u h1 c ev rows).
Proof. intros R F. destruct f; cbn; [now apply remove_low|apply twin_ok; split; [exact F|apply low_refl]|apply twin_err]. Qed.
Lemma run_low f u h1 c ev rows : rank c < top -> fine u ->
  twin (fun u' => fine u' /\ low top u u') (run_with pr umax fc f u h1 c ev rows) (run_with pr umax fc' f u h1 c ev rows).
Proof.
  intros R F. unfold run_with. eapply twin_bind; [apply twin_any|]. intros t _. cbv zeta. eapply twin_bind; [apply handle_low; auto|].
  intros u1 (F1 & L1). eapply twin_bind; [apply twin_any|]. intros _ _.
  eapply twin_bind; [apply Fc; [exact R|exact F1]|]. intros q (Fq & Lq). apply twin_ok. split; [exact Fq|].
  eapply low_trans; [exact L1|]. eapply low_mono; [|exact Lq]. lia.
Qed.
Lemma auto_low f u h1 c k key ev rows : rank c < top -> fine u ->
  twin (fun u' => fine u' /\ low top u u') (auto_handle pr umax fc f u h1 c k key ev rows) (auto_handle pr umax fc' f u h1 c k key ev rows).
Proof.
  intros R F. unfold auto_handle. eapply twin_bind; [apply twin_any|]. intros _ _. eapply twin_bind; [apply twin_any|]. intros t _.
  eapply twin_bind; [apply twin_any|]. intros r _. now apply run_low.
Qed.

Definition start (d : db) (held : option nat) (m : plan) : Prop := own d held /\ (forall p, held = Some p -> rank p < top) /\ tidy schs rank top held m.
Definition goes (u : universe) (m : answer -> plan) (q : db * answer) : Prop :=
  fine (d_u (fst q)) /\ low top u (d_u (fst q)) /\ exists held, own (fst q) held /\ (forall p, held = Some p -> rank p < top) /\ forall x, tidy schs rank top held (m x).
Lemma goes_fin u d u' m : fine u' -> low top u u' -> own d None -> (forall x, tidy schs rank top None (m x)) -> goes u m (Db u' (d_l d), ANothing).
Proof. intros F L Ho T. split; [exact F|]. split; [exact L|]. exists None. split; [exact Ho|]. split; [discriminate|exact T]. Qed.

Lemma step_free t o st' : (forall a b e, o <> ORemoveRows a b e) -> step pr umax (Free t) o = Ok st' -> (o = OLock /\ st' = Locked (w_new t) []) \/ (o <> OLock /\ st' = Free t).
Proof.
  intros Nr. unfold step. cbn [st_tab]. destruct (avail (t_kind t) o); [|discriminate].
  destruct o; intros E; try discriminate E; try (now destruct (Nr srt ev rows)); try (right; bindn E x X; injection E as <-; split; [discriminate|reflexivity]).
  left. now injection E as <-.
Qed.
Lemma on_low d p c held k : fine (d_u d) -> start d held (PThen (Call (On p c)) k) ->
  twin (goes (d_u d) k) (act_step pr umax fc hnd h d (On p c)) (act_step pr umax fc' hnd h d (On p c)).
Proof.
  intros F (Ho & Rk & T).
  assert (Main : (forall a b e, op_of c <> ORemoveRows a b e) -> twin (goes (d_u d) k)
    (let* st := d_state d p in
     let* _ := match st, op_of c with
                | Free _, OLock => lock_ok (can_write h p)
                | Free _, _ => lock_ok (can_read h p)
                | Locked _ _, _ => Ok tt
                end in
     let* st' := step pr umax st (op_of c) in
     let* a := answer_of pr umax st c in
     Ok (d_store d p st', a))
    (let* st := d_state d p in
     let* _ := match st, op_of c with
                | Free _, OLock => lock_ok (can_write h p)
                | Free _, _ => lock_ok (can_read h p)
                | Locked _ _, _ => Ok tt
                end in
     let* st' := step pr umax st (op_of c) in
     let* a := answer_of pr umax st c in
     Ok (d_store d p st', a))); [|unfold act_step; destruct c as [o|A g a|A g a|cmp rows]; [destruct o|..]; try (apply Main; discriminate); apply twin_err].
  intros Nr. eapply twin_bind; [apply twin_any|]. intros st Est. eapply twin_bind; [apply twin_any|]. intros _ _.
  eapply twin_bind; [apply twin_any|]. intros st' Es. eapply twin_bind; [apply twin_any|]. intros a _. apply twin_ok.
  unfold d_state in Est. bindn Est t Et. apply get_nth in Et.
  assert (Fs : fine (d_u (d_store d p st'))) by (destruct st'; cbn [d_store d_u]; now apply fine_put).
  split; [exact Fs|].
  destruct (d_lock d p) as [[[ch a1] b1]|] eqn:Lk; injection Est as <-.
  - assert (Hp : held = Some p) by (apply Ho; congruence). assert (Rp := Rk _ Hp). split.
    + destruct st'; cbn [fst d_store d_u]; now apply low_put.
    + cbn [fst]. destruct (is_close c) eqn:Cc.
      * exists None. destruct c as [o|A g a0|A g a0|cmp rows]; try discriminate Cc. destruct o; try discriminate Cc. cbn in T.
        unfold step in Es. cbn [op_of st_tab] in Es. destruct (avail _ _) in Es; [|discriminate Es]. bindn Es t' T1. injection Es as <-. cbn.
        split; [rewrite Hp in Ho; now apply own_upd_none|]. split; [discriminate|tauto].
      * exists (Some p). split.
        { destruct st'; cbn; eapply own_upd_some; eauto. }
        split; [congruence|]. rewrite Hp in T. destruct c as [o|A g a0|A g a0|cmp rows]; [destruct o|..]; cbn in T; try tauto; try discriminate Cc.
  - destruct (step_free _ _ _ Nr Es) as [(O1 & S1)|(O1 & S1)]; rewrite S1; cbn [d_store fst d_u w_new w_tab].
    + assert (Ec : c = Do OLock) by (destruct c as [o|A g a0|A g a0|cmp rows]; try discriminate O1; cbn in O1; congruence). rewrite Ec in T. cbn in T. destruct T as (Hn & Rp & T).
      split; [now apply low_put|]. exists (Some p). split; [eapply own_upd_some; eauto|]. split; [congruence|exact T].
    + split.
      { intros q Lq. cbn. destruct (Nat.eq_dec q p) as [Q|Q]; [|now apply nth_error_upd_ne]. rewrite Q, Et. apply nth_error_upd_eq. eapply nth_error_Some_lt; eauto. }
      destruct c as [o|A g a0|A g a0|cmp rows]; [destruct o|..]; try (now destruct O1); cbn in T;
        try (exists held; split; [now apply own_upd_keep with (x := None)|]; split; [exact Rk|exact T]).
Qed.
Lemma act_low d c held k : fine (d_u d) -> start d held (PThen (Call c) k) ->
  twin (goes (d_u d) k) (act_step pr umax fc hnd h d c) (act_step pr umax fc' hnd h d c).
Proof.
  intros F St. destruct c as [p c|p ev|p ev|p ev s|p ev s|p ev s|p tr|ev f].
  - now apply on_low with held.
  - destruct St as (Ho & Rk & T). cbn in T. destruct T as (Hp & T). cbn [act_step]. eapply twin_bind; [apply twin_any|]. intros w _. cbv zeta.
    eapply twin_bind; [apply flush_low; [now apply Rk|exact F]|]. intros u (Fu & Lu). apply twin_ok. apply goes_fin; auto.
    rewrite Hp in Ho. now apply own_upd_none.
  - destruct St as (_ & _ & T). contradiction T.
  - destruct St as (Ho & Rk & T). cbn in T. destruct T as (Hp & R & T). cbn [act_step].
    eapply twin_bind; [apply remove_low; [exact R|exact F]|]. intros u (Fu & Lu). apply twin_ok. apply goes_fin; auto. now rewrite <- Hp.
  - destruct St as (Ho & Rk & T). cbn in T. destruct T as (Hp & T). cbn [act_step]. eapply twin_bind; [apply twin_any|]. intros w _.
    eapply twin_bind; [apply twin_any|]. intros _ _. eapply twin_bind; [apply twin_any|]. intros w' _. cbv zeta.
    eapply twin_bind; [apply flush_low; [now apply Rk|exact F]|]. intros u (Fu & Lu). apply twin_ok. apply goes_fin; auto.
    rewrite Hp in Ho. now apply own_upd_none.
  - destruct St as (Ho & Rk & T). cbn in T. destruct T as (Hp & R & T). cbn [act_step]. eapply twin_bind; [apply twin_any|]. intros _ _.
    eapply twin_bind; [apply Fc; [exact R|exact F]|]. intros q (Fq & Lq). apply twin_ok. apply goes_fin; auto; [|now rewrite <- Hp]. eapply low_mono; [|exact Lq]. lia.
  - destruct St as (Ho & Rk & T). cbn in T. destruct T as (Hp & R & D & T). cbn [act_step]. cbv zeta. eapply twin_bind; [apply twin_any|]. intros t _.
    eapply twin_bind; [apply twin_any|]. intros _ _. eapply twin_bind; [apply twin_any|]. intros _ _. eapply twin_bind; [apply twin_any|]. intros _ _.
    apply twin_ok. apply goes_fin; auto; [|intros q _; reflexivity|now rewrite <- Hp]. destruct F as (Fl & Ft). split; [exact Fl|].
    intros q tr' Hin. unfold u_trackers in Hin. cbn [u_trk] in Hin. destruct (Nat.eq_dec q p) as [Q|Q].
    * rewrite Q in *. destruct (le_lt_dec (length (u_trk (d_u d))) p) as [Le|Lt].
      -- rewrite upd_oob in Hin by exact Le. exact (Ft p tr' Hin).
      -- rewrite nth_upd_eq in Hin by exact Lt. apply in_app_iff in Hin as [Hin|[<-|[]]]; [exact (Ft p tr' Hin)|]. exact D.
    * rewrite nth_upd_ne in Hin by exact Q. exact (Ft q tr' Hin).
  - destruct St as (Ho & Rk & T). cbn in T. cbn [act_step]. destruct hnd; [apply twin_err|]. cbv zeta. eapply twin_bind; [apply twin_any|]. intros q _. apply twin_ok.
    split; [exact F|]. split; [intros q' _; reflexivity|]. exists held. auto.
Qed.
Lemma deed_low d a held k : fine (d_u d) -> start d held (PThen a k) -> twin (goes (d_u d) k) (deed_step pr umax fc hnd h d a) (deed_step pr umax fc' hnd h d a).
Proof.
  intros F St. destruct a as [c|c ev rows|c ev rows]; cbn [deed_step]; [now apply act_low with held|..]; (destruct hnd as [f|]; [|apply twin_err]);
    destruct St as (Ho & Rk & T); cbn in T; destruct T as (Hp & R & T).
  - eapply twin_bind; [apply handle_low; [exact R|exact F]|]. intros u (Fu & Lu). apply twin_ok. apply goes_fin; auto. now rewrite <- Hp.
  - eapply twin_bind; [apply run_low; [exact R|exact F]|]. intros u (Fu & Lu). apply twin_ok. apply goes_fin; auto. now rewrite <- Hp.
Qed.
Lemma close_same d u : close_all d = Ok u -> u = d_u d. Proof. unfold close_all. intros E. bindn E x X. now injection E. Qed.
Lemma perform_low m : forall d held, fine (d_u d) -> start d held m ->
  twin (fun u => fine u /\ low top (d_u d) u) (perform pr umax fc hnd h m d) (perform pr umax fc' hnd h m d).
Proof.
  induction m as [| |a k IH]; intros d held F St; cbn [perform].
  - split; [reflexivity|]. intros u E. apply close_same in E. rewrite E. split; [exact F|apply low_refl].
  - apply twin_err.
  - eapply twin_bind; [apply (deed_low d a held k F St)|]. intros q (Fq & Lq & held' & Ho & Rk & T).
    eapply twin_impl; [apply (IH _ _ held'); [exact Fq|split; auto]|]. cbv beta. intros u (Fu & Lu). split; [exact Fu|]. eapply low_trans; eauto.
Qed.
End Code.

(** Looking at rows that are there changes nothing. *)
Lemma answer_is_refl r : answer_is (ARow r) r = true.
Proof.
  cbn. rewrite Nat.eqb_refl. cbn. induction r as [|v r IH]; [reflexivity|]. cbn. rewrite IH. rewrite andb_true_r. now apply val_eqb_eq.
Qed.
Lemma upd_same {A} (l : list A) p x : nth_error l p = Some x -> upd l p x = l.
Proof. revert p. induction l as [|y l IH]; intros [|p] E; cbn in *; try discriminate; [now injection E as <-|]. now rewrite IH. Qed.
Lemma upd_nth {A} (l : list A) p x : nth p l x = x -> upd l p x = l.
Proof. revert p. induction l as [|y l IH]; intros [|p] E; cbn in *; auto; [now subst|]. now rewrite IH. Qed.
Lemma look_same fc f h p t u l m : nth_error (u_tabs u) p = Some t -> can_read h p = true -> (forall i r, In (i, r) l -> t_get_row t i = Ok r) ->
  perform pr umax fc (Some f) h (look p l m) (unlocked u) = perform pr umax fc (Some f) h m (unlocked u).
Proof.
  intros Et R H. induction l as [|[i r] l IH]; [reflexivity|]. cbn [look perform deed_step act_step]. unfold d_state. rewrite unlocked_lock. unfold u_get.
  cbn [unlocked d_u]. rewrite Et. cbn [bind op_of]. rewrite R. cbn [lock_ok bind]. unfold step. cbn [avail st_tab read_op].
  rewrite (H i r) by now left. cbn [bind answer_of st_tab]. rewrite (H i r) by now left. cbn [bind fst snd]. rewrite answer_is_refl.
  replace (d_store (unlocked u) p (Free t)) with (unlocked u); [apply IH; intros; apply H; now right|].
  cbn [d_store unlocked d_u d_l]. unfold unlocked, u_put. f_equal.
  - destruct u; cbn in *. now rewrite upd_same.
  - symmetry. apply upd_nth. apply (unlocked_lock u).
Qed.

Variable react : list note -> plan.
Hypothesis Rtidy : tidy_trackers schs rank react.
Variable peek : list note -> list (nat * row).
Variable pp : nat.
Lemma turn_low n f h p ev s x : pair_ok (rank p) (act_flush pr umax (looking pp peek react) n) (act_flush pr umax react n) ->
  (p = pp -> can_read h p = true /\ exists t, nth_error (u_tabs (fst (fst s))) p = Some t /\ forall log i r, In (i, r) (peek log) -> t_get_row t i = Ok r) ->
  fine (fst (fst s)) -> leads_down schs rank p (snd x) ->
  twin (fun s' => fine (fst (fst s')) /\ low (rank p) (fst (fst s)) (fst (fst s')))
    (act_turn pr umax (looking pp peek react) (act_flush pr umax (looking pp peek react) n) f h p ev s x)
    (act_turn pr umax react (act_flush pr umax react n) f h p ev s x).
Proof.
  intros IH Hp Fs Ld. unfold act_turn. destruct (tracker_considers (snd x) ev); [|apply twin_ok; split; [exact Fs|apply low_refl]]. cbv zeta.
  match goal with |- context [u_say ?u ?m] => set (u1 := u_say u m); assert (I1 : fine u1) by exact Fs; assert (T1 : told_of (u_log u1) = Some p) by apply told_last end.
  eapply twin_bind with (P := fun u => fine u /\ low (rank p) (fst (fst s)) u); [|intros u Iu; apply twin_ok; exact Iu].
  destruct (snd x) as [c k key|srt cons] eqn:X.
  - destruct Ld as (C & R). eapply twin_impl; [apply (auto_low _ _ (rank p) IH); [exact R|exact I1]|]. intros u Hu. exact Hu.
  - assert (Tl : twin (fun u => fine u /\ low (rank p) (fst (fst s)) u)
      (perform pr umax (act_flush pr umax (looking pp peek react) n) (Some f) h (react (u_log u1)) (unlocked u1))
      (perform pr umax (act_flush pr umax react n) (Some f) h (react (u_log u1)) (unlocked u1))).
    { eapply twin_impl; [apply (perform_low _ _ (rank p) IH) with (d := unlocked u1) (held := None); [exact I1|]|intros u Hu; exact Hu]. split; [|split; [discriminate|now apply Rtidy]].
      intros q D. exfalso. apply D. apply unlocked_lock. }
    unfold looking at 2. rewrite T1. destruct (Nat.eqb_spec p pp) as [E|_]; [|exact Tl].
    destruct (Hp E) as (R & t & Et & Ht). rewrite <- E. rewrite (look_same _ f h p t u1 _ _); [|exact Et|exact R|intros i r; apply Ht].
    rewrite E. rewrite E in Tl. exact Tl.
Qed.
Lemma flush_pair n : forall u h p ev a b s, fine u ->
  rank p < rank pp \/ (p = pp /\ can_read h p = true /\ exists t, nth_error (u_tabs u) p = Some t /\ forall log i r, In (i, r) (peek log) -> t_get_row t i = Ok r) ->
  twin (fun q => fine (fst q) /\ low (rank p) u (fst q)) (act_flush pr umax (looking pp peek react) n u h p ev a b s) (act_flush pr umax react n u h p ev a b s).
Proof.
  induction n as [|n IH]; intros u h p ev a b s F Hp; cbn [act_flush]; [apply twin_err|].
  eapply twin_bind; [apply twin_any|]. intros _ _. eapply twin_bind; [apply twin_any|]. intros f _. cbv zeta.
  eapply twin_bind; [|intros s' Is; apply twin_ok; exact Is].
  apply (twin_fold (fun s => fine (fst (fst s)) /\ low (rank p) u (fst (fst s)))); [split; [exact F|apply low_refl]|].
  intros s' x Hin (Fs & Ls). eapply twin_impl; [apply turn_low|].
  - intros u1 h1 q ev1 a1 b1 s1 R1 F1. apply IH; [exact F1|]. left. destruct Hp as [Hp|(-> & _)]; lia.
  - intros E. destruct Hp as [Hp|(_ & R & t & Et & Ht)]; [rewrite E in Hp; lia|]. split.
    + cbn. rewrite andb_false_r. exact R.
    + exists t. split; [|exact Ht]. rewrite (Ls p) by lia. exact Et.
  - exact Fs.
  - apply combine_In in Hin. now apply (proj2 F).
  - cbv beta. intros s2 (F2 & L2). split; [exact F2|]. eapply low_trans; eauto.
Qed.
End Low.

(** ** Flushes *)
Lemma turn_sel pr umax react fc f h p ev s x s' : act_turn pr umax react fc f h p ev s x = Ok s' -> forall i, named (snd (fst s')) i <-> named (snd (fst s)) i.
Proof.
  unfold act_turn. destruct (tracker_considers _ _); intros E; [|injection E as <-; reflexivity]. cbv zeta in E. bindn E u1 U. injection E as <-. cbn [fst snd]. intros i.
  destruct (_ && _); [|reflexivity]. destruct (snd (fst s)) as [|l]; [reflexivity|]. apply sort_ids_In.
Qed.
Lemma turns_sel pr umax react fc f h p ev l : forall s s', fold_res (act_turn pr umax react fc f h p ev) l s = Ok s' -> forall i, named (snd (fst s')) i <-> named (snd (fst s)) i.
Proof.
  induction l as [|x l IH]; intros s s' E i; cbn in E; [now injection E as <-|]. bindn E s1 E1. rewrite (IH _ _ E). now apply turn_sel with (1 := E1).
Qed.
Lemma flush_sel pr umax react n u h p ev a b s q : act_flush pr umax react n u h p ev a b s = Ok q -> forall i, named (snd q) i <-> named s i.
Proof.
  destruct n as [|n]; cbn [act_flush]; intros E; [discriminate|]. bindn E x X. bindn E f Hf. cbv zeta in E. bindn E s' Es. injection E as <-. intros i.
  now rewrite (turns_sel _ _ _ _ _ _ _ _ _ _ _ Es).
Qed.
Lemma named_empty s : sel_empty s = true -> forall i, ~ named s i.
Proof. destruct s as [|[|x l]]; try discriminate. auto. Qed.

Lemma delete_raw_rows pr umax w i w' : t_kind (w_tab w) = Consistent -> delete_raw pr umax w i = Ok w' ->
  t_kind (w_tab w') = Consistent /\ forall j r, t_get_row (w_tab w') j = Ok r <-> t_get_row (w_tab w) j = Ok r /\ j <> i.
Proof.
  intros K H. pose proof (delete_raw_sch _ _ _ _ _ H) as S1. pose proof (delete_raw_shrinks _ _ _ _ _ K H) as (_ & Sh).
  assert (K' : t_kind (w_tab w') = Consistent) by (unfold t_kind in *; congruence). split; [exact K'|].
  unfold delete_raw in H. rewrite K in H. bindn H cs C. bindn H n N. injection H as <-. cbn [with_tab w_tab] in *.
  assert (n = i) by (unfold rid_from_usize in N; destruct (_ <=? _) in N; [congruence|discriminate]). subst n.
  assert (B : map c_base cs = map c_base (t_cols (w_tab w))).
  { clear -C. apply map_res_Forall2 in C. induction C as [|x y l m E C IH]; [reflexivity|]. cbn. rewrite IH. f_equal.
    destruct x as [b|b ix]; cbn in E; [now injection E as <-|]. bindn E o Ho. bindn E n' N'. now injection E as <-. }
  intros j r. rewrite !get_row_iff. match goal with |- context [t_len ?t] => rewrite (len_base (w_tab w) t B) at 1 end. unfold t_get_row_raw. cbn [t_cols]. rewrite (raw_base j _ _ B).
  assert (D : t_is_deleted (Tab (t_sch (w_tab w)) cs (set_insert i (t_free (w_tab w)))) j = false <-> t_is_deleted (w_tab w) j = false /\ j <> i).
  { unfold t_is_deleted. unfold t_consistent. rewrite K, K'. cbn [t_free andb kind_eqb]. rewrite <- !not_true_iff_false, !mem_In, set_insert_In. intuition. }
  rewrite D. tauto.
Qed.
Lemma raws_rows pr umax len rows : forall w w', t_kind (w_tab w) = Consistent ->
  fold_res (fun w i => let* _ := assert_ (i <? len) PRemoveRange in delete_raw pr umax w i) rows w = Ok w' ->
  forall j r, t_get_row (w_tab w') j = Ok r <-> t_get_row (w_tab w) j = Ok r /\ ~ In j rows.
Proof.
  induction rows as [|i rows IH]; intros w w' K H j r; cbn in H; [injection H as <-; cbn; tauto|]. bindn H w1 H1. bindn H1 x X.
  destruct (delete_raw_rows _ _ _ _ _ K H1) as (K1 & R1). rewrite (IH _ _ K1 H), R1. cbn. intuition.
Qed.
Lemma apply_rows pr umax t ev s w' : t_kind t = Consistent -> ev_removal ev = true -> flush_apply pr umax (w_new t) ev s = Ok w' ->
  forall j r, t_get_row (w_tab w') j = Ok r <-> t_get_row t j = Ok r /\ ~ named s j.
Proof.
  intros K R. unfold flush_apply. rewrite R. destruct (sel_empty s) eqn:Se; cbn [andb negb]; intros H j r.
  - injection H as <-. cbn. pose proof (named_empty _ Se j). tauto.
  - destruct s as [|rows]; [|exact (raws_rows pr umax _ rows (w_new t) w' K H j r)]. injection H as <-. split; [|intros (_ & N); now destruct N].
    intros G. exfalso. rewrite get_row_iff in G. destruct G as (L & _).
    destruct (clear_raw_shrinks (w_new t)) as (_ & _). revert L. unfold clear_raw, t_len. cbn. destruct (t_cols t) as [|c cs]; [cbn; lia|]. cbn.
    unfold c_len. destruct c as [[l|b]|[l|b] ix]; cbn; lia.
Qed.
Section Flushes.
Variable pr : profile.
Variable umax fuel : nat.
Variable rank : nat -> nat.
Variable react : list note -> plan.
Variable u : universe.
Notation schs := (map t_sch (u_tabs u)).
Hypothesis Rtidy : tidy_trackers schs rank react.
Hypothesis Down : forall q tr, In tr (u_trackers u q) -> leads_down schs rank q tr.
Lemma fine_here : fine schs rank u. Proof. split; [now rewrite map_length|exact Down]. Qed.
Lemma told_rows_valid h p w ev peek : p < length (u_tabs u) -> can_read h p = true -> (forall log i r, In (i, r) (peek log) -> t_get_row (w_tab w) i = Ok r) ->
  flush_with pr umax (act_flush pr umax (looking p peek react) fuel) u h p w ev = flush_with pr umax (act_flush pr umax react fuel) u h p w ev.
Proof.
  intros L R H. unfold flush_with. destruct (sel_empty (w_changes w)); [reflexivity|].
  destruct (flush_pair pr umax schs rank react Rtidy peek p fuel (u_put u p (w_tab w)) h p ev (w_pushed w) (w_delete w) (w_changes w)) as (-> & _); [|right|reflexivity].
  - apply fine_put. exact fine_here.
  - split; [reflexivity|]. split; [exact R|]. exists (w_tab w). split; [|exact H]. cbn. now apply nth_error_upd_eq.
Qed.
Lemma deleted_after h p w ev u' : p < length (u_tabs u) -> can_read h p = true -> t_kind (w_tab w) = Consistent ->
  flush_with pr umax (act_flush pr umax react fuel) u h p w ev = Ok u' ->
  (exists t, nth_error (u_tabs u') p = Some t /\ forall i r, t_get_row t i = Ok r <-> t_get_row (w_tab w) i = Ok r /\ ~ (ev_removal ev = true /\ named (w_changes w) i)) /\
  forall q, q <> p -> rank p <= rank q -> nth_error (u_tabs u') q = nth_error (u_tabs u) q.
Proof.
  intros L R K. unfold flush_with. destruct (sel_empty (w_changes w)) eqn:Se; intros E.
  - bindn E t T. injection E as <-. apply drop_same in T. cbn [u_put u_tabs]. split.
    + exists t. split; [now apply nth_error_upd_eq|]. intros i r. rewrite T. pose proof (named_empty _ Se i). tauto.
    + intros q Q _. now apply nth_error_upd_ne.
  - bindn E q Efl. cbv zeta in E.
    destruct (flush_pair pr umax schs rank react Rtidy (fun _ => []) p fuel (u_put u p (w_tab w)) h p ev (w_pushed w) (w_delete w) (w_changes w)) as (_ & Hq).
    { apply fine_put. exact fine_here. }
    { right. split; [reflexivity|]. split; [exact R|]. exists (w_tab w). split; [cbn; now apply nth_error_upd_eq|]. intros log i r []. }
    destruct (Hq _ Efl) as (_ & Lq). assert (Ep : nth_error (u_tabs (fst q)) p = Some (w_tab w)).
    { rewrite (Lq p (le_n _)). cbn. now apply nth_error_upd_eq. }
    assert (Eo : forall q', q' <> p -> rank p <= rank q' -> nth_error (u_tabs (fst q)) q' = nth_error (u_tabs u) q').
    { intros q' Q Rq. rewrite (Lq q' Rq). cbn. now apply nth_error_upd_ne. }
    pose proof (flush_sel _ _ _ _ _ _ _ _ _ _ _ _ Efl) as Ns. destruct (ev_removal ev) eqn:Re; cbn [andb] in E.
    + destruct (sel_empty (snd q)) eqn:Sq; cbn [negb] in E.
      * injection E as <-. split; [|exact Eo]. exists (w_tab w). split; [exact Ep|]. intros i r. pose proof (named_empty _ Sq i). rewrite (Ns i) in H. tauto.
      * bindn E x X. unfold u_get in E. rewrite Ep in E. cbn [bind] in E. bindn E w' Ew. bindn E y Y. bindn E t' T. injection E as <-. apply drop_same in T. split.
        -- exists t'. cbn. split; [apply nth_error_upd_eq; eapply nth_error_Some_lt; eauto|]. intros i r. rewrite T, (apply_rows _ _ _ _ _ _ K Re Ew), (Ns i). tauto.
        -- intros q' Q Rq. cbn. rewrite nth_error_upd_ne by exact Q. now apply Eo.
    + injection E as <-. split; [|exact Eo]. exists (w_tab w). split; [exact Ep|]. intros i r. split; [|tauto]. intros G. split; [exact G|]. intros (F & _). discriminate F.
Qed.
End Flushes.
Lemma acting_silent pr umax fuel u h p ev a b s :
  act_flush pr umax (fun _ => PEnd) fuel u h p ev a b s = do_flush pr umax fuel u h p ev a b s.
Proof. exact (proj1 (silent_flush pr umax fuel (length (u_tabs u)) u h h p ev a b s I eq_refl (sim_refl _ _))). Qed.

(** ** The calls of DbHist.v *)
Lemma sim_fc pr umax fuel u h p ev a b s : act_flush pr umax (fun _ => PEnd) fuel u h p ev a b s = do_flush pr umax fuel u h p ev a b s.
Proof. apply acting_silent. Qed.
Lemma bind_ext {A B} (x : res A) (f g : A -> res B) : (forall a, f a = g a) -> bind x f = bind x g.
Proof. intros H. destruct x; cbn; auto. Qed.
Lemma flush_with_ext pr umax fc fc' u h p w ev : (forall u h p ev a b s, fc u h p ev a b s = fc' u h p ev a b s) -> flush_with pr umax fc u h p w ev = flush_with pr umax fc' u h p w ev.
Proof. intros E. unfold flush_with. now rewrite E. Qed.
Lemma live_flush_with_ext pr umax fc fc' u h p w ev : (forall u h p ev a b s, fc u h p ev a b s = fc' u h p ev a b s) -> live_flush_with pr umax fc u h p w ev = live_flush_with pr umax fc' u h p w ev.
Proof. intros E. unfold live_flush_with. now rewrite E. Qed.
Lemma remove_with_ext pr umax fc fc' u h p ev s : (forall u h p ev a b s, fc u h p ev a b s = fc' u h p ev a b s) -> remove_rows_with pr umax fc u h p ev s = remove_rows_with pr umax fc' u h p ev s.
Proof.
  intros E. unfold remove_rows_with. apply bind_ext. intros t. destruct (t_kind t); auto; apply bind_ext; intros _; cbv zeta; apply bind_ext; intros w; now apply flush_with_ext.
Qed.
Lemma free_above d q : length (d_l d) <= q -> can_write (d_held d) q = true.
Proof.
  intros L. unfold can_write. apply forallb_forall. intros l Hl. unfold d_held in Hl. apply in_flat_map in Hl. destruct Hl as (p & Hp & Hl).
  apply in_seq in Hp. destruct (d_lock d p); [|contradiction]. destruct Hl as [<-|[]]. cbn [fst]. apply negb_true_iff, Nat.eqb_neq. lia.
Qed.
Lemma same_calls pr umax fuel d c : length (d_l d) = length (u_tabs (d_u d)) ->
  act_step pr umax (act_flush pr umax (fun _ => PEnd) fuel) None [] d c = db_step pr umax fuel d c.
Proof.
  intros Nt. destruct c as [p c|p ev|p ev|p ev s|p ev s|p ev s|p tr|ev f]; cbn [act_step db_step]; rewrite ?app_nil_r.
  - assert (M : (let* st := d_state d p in
      let* _ := match st, op_of c with
                | Free _, OLock => lock_ok (can_write [] p)
                | Free _, _ => lock_ok (can_read [] p)
                | Locked _ _, _ => Ok tt
                end in
      let* st' := step pr umax st (op_of c) in
      let* a := answer_of pr umax st c in
      Ok (d_store d p st', a)) =
      (let* st := d_state d p in
      let* st' := step pr umax st (op_of c) in
      let* a := answer_of pr umax st c in
      Ok (d_store d p st', a))).
    { apply bind_ext. intros st. destruct st; [|reflexivity]. destruct (op_of c); reflexivity. }
    destruct c as [o|A g a|A g a|cmp rows]; [destruct o|..]; try exact M; reflexivity.
  - apply bind_ext. intros w. cbv zeta. rewrite ?app_nil_r. unfold flush. now rewrite (flush_with_ext _ _ _ _ _ _ _ _ _ (sim_fc pr umax fuel)).
  - apply bind_ext. intros w. rewrite ?app_nil_r. unfold live_flush. now rewrite (live_flush_with_ext _ _ _ _ _ _ _ _ _ (sim_fc pr umax fuel)).
  - unfold remove_rows. now rewrite (remove_with_ext _ _ _ _ _ _ _ _ _ (sim_fc pr umax fuel)).
  - apply bind_ext. intros w. apply bind_ext. intros _. apply bind_ext. intros w'. cbv zeta. rewrite ?app_nil_r. unfold flush.
    now rewrite (flush_with_ext _ _ _ _ _ _ _ _ _ (sim_fc pr umax fuel)).
  - unfold read_select. rewrite sim_fc. apply bind_ext. intros _. destruct (do_flush _ _ _ _ _ _ _ _ _ _); reflexivity.
  - cbv zeta. apply bind_ext. intros t. apply bind_ext. intros _. rewrite free_above by lia. reflexivity.
  - reflexivity.
Qed.

(** ** Propagation by hand *)
Lemma close_none d : (forall p, d_lock d p = None) -> close_all d = Ok (d_u d).
Proof.
  intros H. unfold close_all.
  destruct (map_res_some (fun p => let* st := d_state d p in match st with Locked w _ => w_drop w | Free t => Ok t end) (seq 0 (length (u_tabs (d_u d))))) as (ts & E).
  - intros p I. apply in_seq in I. unfold d_state, u_get. rewrite H.
    destruct (nth_error (u_tabs (d_u d)) p) as [t|] eqn:Et; [eexists; reflexivity|]. apply nth_error_None in Et. lia.
  - rewrite E. reflexivity.
Qed.
Lemma unlocked_held u : d_held (unlocked u) = [].
Proof. apply own_held. intros p D. exfalso. apply D. apply unlocked_lock. Qed.
Lemma by_hand_run pr umax fc hd h u c ev s :
  perform pr umax fc (Some hd) h (PThen (Run c ev s) (fun _ => PEnd)) (unlocked u) = run_with pr umax fc hd u h c ev s.
Proof.
  cbn [perform deed_step]. rewrite unlocked_held. cbn [app unlocked d_u d_l]. destruct (run_with _ _ _ _ _ _ _ _ _) as [u'|]; [|reflexivity]. cbn [bind fst snd].
  apply close_none. intros p. exact (unlocked_lock u p).
Qed.
Lemma find_all_run pr umax fc hd h u c k ev t l : nth_error (u_tabs u) c = Some t -> can_read h c = true -> forall found,
  perform pr umax fc (Some hd) h (find_all c k l found (fun found => PThen (Run c ev (SThese found)) (fun _ => PEnd))) (unlocked u) =
  (let* ls := map_res (fun i => t_find t k (VRow i)) l in run_with pr umax fc hd u h c ev (SThese (found ++ concat ls))).
Proof.
  intros Et R. induction l as [|i l IH]; intros found.
  - cbn [find_all map_res bind concat]. rewrite app_nil_r. apply by_hand_run.
  - cbn [find_all perform deed_step act_step map_res]. unfold d_state. rewrite unlocked_lock. unfold u_get. cbn [unlocked d_u]. rewrite Et. cbn [bind op_of].
    rewrite R. cbn [lock_ok bind]. unfold step. cbn [avail st_tab read_op answer_of]. destruct (t_find t k (VRow i)) as [ids|e]; [|reflexivity]. cbn [bind fst snd].
    replace (d_store (unlocked u) c (Free t)) with (unlocked u).
    + rewrite IH. destruct (map_res (fun i0 => t_find t k (VRow i0)) l) as [ls|]; [|reflexivity]. cbn [bind concat]. now rewrite app_assoc.
    + cbn [d_store unlocked d_u d_l]. unfold unlocked, u_put. f_equal.
      * destruct u; cbn in *. now rewrite upd_same.
      * symmetry. apply upd_nth. apply (unlocked_lock u).
Qed.
Lemma by_hand_same pr umax fc hd h u c k ev rows : c < length (u_tabs u) -> can_read h c = true ->
  perform pr umax fc (Some hd) h (by_hand c k ev rows) (unlocked u) = auto_handle pr umax fc hd u h c k false ev rows.
Proof.
  intros L R. unfold auto_handle. rewrite R. cbn [lock_ok bind]. apply nth_error_Some in L. unfold u_get. destruct (nth_error (u_tabs u) c) as [t|] eqn:Et; [|congruence].
  cbn [bind]. destruct rows as [|l]; cbn [by_hand select_indexed].
  - apply by_hand_run.
  - rewrite (find_all_run _ _ _ _ _ _ _ _ _ t l Et R). cbn [app]. destruct (map_res _ l); reflexivity.
Qed.
