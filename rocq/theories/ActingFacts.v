(** Proofs about trackers that act (for C92 and C93). *)
From Coq Require Import List Arith Bool Lia.
From Verif Require Import Base BaseFacts Column ColumnFacts RowRange Table Visit SortedTab TableSpec TableFacts SortedFacts Events Cascade Hist HistFacts Answers DbHist
  Acting ActingSpec.
From Verif Require ThreadSafe.
Import ListNotations.

(** Failures: those of safe code, and if [jam] waiting for ever and running out of fuel. *)
Definition fair {A} (jam : bool) (pr : profile) (P : A -> Prop) (x : res A) : Prop :=
  match x with Ok a => P a | Err e => nice pr e \/ jam = true /\ (e = EDeadlock \/ e = EFuel) end.
Lemma fair_bind {A B} jam pr (P : A -> Prop) (Q : B -> Prop) x (f : A -> res B) :
  fair jam pr P x -> (forall a, P a -> fair jam pr Q (f a)) -> fair jam pr Q (bind x f).
Proof. destruct x as [a|e]; simpl; auto. Qed.
Lemma fair_impl {A} jam pr (P Q : A -> Prop) x : fair jam pr P x -> (forall a, P a -> Q a) -> fair jam pr Q x.
Proof. destruct x; simpl; auto. Qed.
Lemma good_fair {A} jam pr (P : A -> Prop) x : good pr P x -> fair jam pr P x.
Proof. destruct x; simpl; auto. Qed.
Lemma fair_assert jam pr b c : fair jam pr (fun _ : unit => b = true) (assert_ b c).
Proof. destruct b; simpl; auto. Qed.
Lemma fair_fold {A S} jam pr (P : S -> Prop) (f : S -> A -> res S) l : forall s,
  P s -> (forall s a, In a l -> P s -> fair jam pr P (f s a)) -> fair jam pr P (fold_res f l s).
Proof.
  induction l as [|a l IH]; intros s H F; cbn; [exact H|]. eapply fair_bind; [apply F; cbn; auto|]. intros s' H'. apply IH; [exact H'|].
  intros; apply F; cbn; auto.
Qed.
Lemma fair_lock jam pr b : jam = true \/ b = true -> fair jam pr (fun _ : unit => True) (lock_ok b).
Proof. intros H. destruct b; cbn; auto. destruct H; [auto|discriminate]. Qed.

Lemma F2_nth {A B} (P : A -> B -> Prop) l m : Forall2 P l m -> forall p y, nth_error m p = Some y -> exists x, nth_error l p = Some x /\ P x y.
Proof.
  intros F. induction F as [|x y l m K F IH]; intros [|p] z E; try discriminate; cbn in *; [|eauto]. injection E as <-. eauto.
Qed.
Lemma F2_len {A B} (P : A -> B -> Prop) l m : Forall2 P l m -> length m = length l.
Proof. intros F. induction F; cbn; auto. Qed.
Lemma F2_upd {A B} (P : A -> B -> Prop) l m : Forall2 P l m -> forall p x y, nth_error l p = Some x -> P x y -> Forall2 P l (upd m p y).
Proof.
  intros F. induction F as [|x y l m K F IH]; intros [|p] x' y' E T; cbn in *; try discriminate; constructor; auto. now injection E as <-.
  eauto.
Qed.

Lemma nth_upd_ne {A} (l : list A) p q x y : q <> p -> nth q (upd l p x) y = nth q l y.
Proof.
  intros D. revert p q D. induction l as [|z l IH]; intros [|p] [|q] D; cbn; try reflexivity; [congruence|]. apply IH. congruence.
Qed.
Lemma nth_upd_eq {A} (l : list A) p x y : p < length l -> nth p (upd l p x) y = x.
Proof. revert p. induction l as [|z l IH]; intros [|p] L; cbn in *; try lia; [reflexivity|]. apply IH. lia. Qed.
Lemma nth_upd_none {A} (l : list (option A)) p : nth p (upd l p None) None = None.
Proof. revert p. induction l as [|z l IH]; intros [|p]; cbn; auto. Qed.

Section Safe.
Variable jam : bool.
Variable pr : profile.
Variable umax : nat.
Variable schs : list schema.
Variable rank : nat -> nat.
Variable react : list note -> plan.
Hypothesis nobag : pr = Debug \/ Forall (fun s => s_kind s <> Bag) schs.
Notation "'fair'' P x" := (fair jam pr P x) (at level 10, P at level 9, x at level 9).
Let N := length schs.

Definition tabs_ok (u : universe) : Prop := Forall2 (tg false) schs (u_tabs u).
Definition trk_ok (u : universe) : Prop := forall p tr, In tr (u_trackers u p) -> leads_down schs rank p tr.
Definition inv (u : universe) : Prop := tabs_ok u /\ (jam = false -> trk_ok u).

Lemma tabs_nth u p t : tabs_ok u -> nth_error (u_tabs u) p = Some t -> exists s, nth_error schs p = Some s /\ tg false s t.
Proof. intros F. exact (F2_nth _ _ _ F p t). Qed.
Lemma tabs_len u : tabs_ok u -> length (u_tabs u) = N.
Proof. intros F. exact (F2_len _ _ _ F). Qed.
Lemma tabs_put u p s t : tabs_ok u -> nth_error schs p = Some s -> tg false s t -> tabs_ok (u_put u p t).
Proof. intros F. exact (F2_upd _ _ _ F p s t). Qed.
Lemma inv_put u p s t : inv u -> nth_error schs p = Some s -> tg false s t -> inv (u_put u p t).
Proof. intros [F T] E G. split; [now apply tabs_put with s|exact T]. Qed.
Lemma inv_say u n : inv u -> inv (u_say u n). Proof. intros [F T]. split; [exact F|exact T]. Qed.
Lemma nb p s ev : nth_error schs p = Some s -> pr = Release -> s_kind s = Bag -> ev_removal ev = false.
Proof.
  intros E P K. destruct nobag as [B|B]; [congruence|]. rewrite Forall_forall in B. exfalso. apply (B s); [|exact K]. eapply nth_error_In; eauto.
Qed.
Lemma get_fair u p : inv u -> fair' (fun t => exists s, nth_error schs p = Some s /\ tg false s t /\ p < N) (u_get u p).
Proof.
  intros [F _]. unfold u_get. destruct (nth_error (u_tabs u) p) as [t|] eqn:E; [|left; exact I]. cbn.
  destruct (tabs_nth _ _ _ F E) as (s & Es & G). exists s. split; [exact Es|]. split; [exact G|]. unfold N. eapply nth_error_Some_lt; eauto.
Qed.

(** Locks of the callers: for reading only, and of tables (or their trackers) of higher rank than that of the code called. *)
Definition lock_of (l : nat * bool) : nat := if fst l <? N then fst l else fst l - N.
Definition above (r : nat) (h : locks) : Prop := Forall (fun l => snd l = false /\ r <= rank (lock_of l)) h.
Lemma above_le r r' h : r' <= r -> above r h -> above r' h.
Proof. intros L A. eapply Forall_impl; [|exact A]. cbn. intros l (B & C). split; [exact B|]. lia. Qed.
Lemma above_free r h p : above r h -> rank (lock_of (p, true)) < r -> can_write h p = true.
Proof.
  intros A R. unfold can_write. apply forallb_forall. intros l I. unfold above in A. rewrite Forall_forall in A. destruct (A l I) as (_ & C).
  apply negb_true_iff. apply Nat.eqb_neq. intros Q. unfold lock_of in *. cbn [fst] in R. rewrite Q in C. lia.
Qed.
Lemma above_write r h p : above r h -> p < N -> rank p < r -> can_write h p = true.
Proof. intros A L R. apply above_free with (1 := A). unfold lock_of. cbn. apply Nat.ltb_lt in L. now rewrite L. Qed.
Lemma above_trackers r h p : above r h -> rank p < r -> can_write h (N + p) = true.
Proof.
  intros A R. apply above_free with (1 := A). unfold lock_of. cbn [fst]. replace (N + p <? N) with false by (symmetry; apply Nat.ltb_ge; lia).
  replace (N + p - N) with p by lia. exact R.
Qed.
Lemma above_read r h p : above r h -> can_read h p = true.
Proof.
  intros A. unfold can_read. apply forallb_forall. intros l I. unfold above in A. rewrite Forall_forall in A. destruct (A l I) as (B & _). rewrite B.
  now rewrite andb_false_r.
Qed.
Lemma lock_table p b : p < N -> lock_of (p, b) = p.
Proof. intros L. unfold lock_of. cbn. apply Nat.ltb_lt in L. now rewrite L. Qed.
Lemma lock_trackers p b : lock_of (N + p, b) = p.
Proof. unfold lock_of. cbn [fst]. replace (N + p <? N) with false by (symmetry; apply Nat.ltb_ge; lia). lia. Qed.

(** [do_flush] with fuel for tables of rank below [n] *)
Definition call_ok (n : nat) (fc : universe -> locks -> nat -> event -> bool -> bool -> select -> res (universe * select)) : Prop :=
  forall u h p ev a b s, inv u -> jam = true \/ (rank p < n /\ above (rank p) h) -> fair' (fun q => inv (fst q)) (fc u h p ev a b s).

Section With.
Variable n : nat.
Variable fc : universe -> locks -> nat -> event -> bool -> bool -> select -> res (universe * select).
Hypothesis Fc : call_ok n fc.

Definition may (h : locks) (p : nat) : Prop := jam = true \/ (rank p < n /\ above (S (rank p)) h).
Lemma may_call h p : may h p -> jam = true \/ (rank p < n /\ above (rank p) h).
Proof. intros [J|(L & A)]; [auto|]. right. split; [exact L|]. eapply above_le; [|exact A]. lia. Qed.
Lemma may_write h p : may h p -> p < N -> jam = true \/ can_write h p = true.
Proof. intros [J|(L & A)] P; [auto|]. right. apply above_write with (1 := A); [exact P|lia]. Qed.
Lemma may_read h p : may h p -> jam = true \/ can_read h p = true.
Proof. intros [J|(L & A)]; [auto|]. right. now apply above_read with (1 := A). Qed.

Lemma apply_fair p s w ev ch : nth_error schs p = Some s -> tg false s (w_tab w) -> fair' (fun w => tg false s (w_tab w)) (flush_apply pr umax w ev ch).
Proof. intros E G. apply good_fair. apply good_flush_apply_tg; auto; [|discriminate]. apply (nb _ _ _ E). Qed.
Lemma drop_fair s w : tg false s (w_tab w) -> fair' (tg false s) (w_drop w).
Proof. intros G. apply good_fair. now apply good_drop. Qed.
Lemma flush_fair u h p s w ev : inv u -> nth_error schs p = Some s -> tg false s (w_tab w) -> may h p -> fair' inv (flush_with pr umax fc u h p w ev).
Proof.
  intros Iu E G M. assert (P : p < N) by (unfold N; eapply nth_error_Some_lt; eauto).
  unfold flush_with. destruct (sel_empty (w_changes w)).
  - eapply fair_bind; [apply drop_fair; exact G|]. intros t T. cbn. now apply inv_put with s.
  - eapply fair_bind; [apply Fc; [now apply inv_put with s|exact (may_call _ _ M)]|]. intros q Iq. cbv zeta.
    destruct (_ && _); [|exact Iq]. eapply fair_bind; [apply fair_lock; now apply may_write|]. intros _ _.
    eapply fair_bind; [apply get_fair; exact Iq|]. intros t (s' & E' & G' & _). assert (s' = s) as -> by congruence.
    eapply fair_bind; [apply (apply_fair p s); [exact E|exact G']|]. intros w' G1. eapply fair_bind; [apply fair_assert|]. intros _ _.
    eapply fair_bind; [apply drop_fair; exact G1|]. intros t' T. cbn. now apply inv_put with s.
Qed.
Lemma live_fair u h p s w ev : inv u -> nth_error schs p = Some s -> tg false s (w_tab w) -> jam = true ->
  fair' (fun q => inv (fst q) /\ tg false s (w_tab (snd q))) (live_flush_with pr umax fc u h p w ev).
Proof.
  intros Iu E G J. assert (P : p < N) by (unfold N; eapply nth_error_Some_lt; eauto).
  unfold live_flush_with. destruct (sel_empty (w_changes w)).
  - cbn. split; [now apply inv_put with s|exact G].
  - eapply fair_bind; [apply Fc; [now apply inv_put with s|auto]|]. intros q Iq. cbv zeta.
    eapply fair_bind; [apply get_fair; exact Iq|]. intros t (s' & E' & G' & _). assert (s' = s) as -> by congruence.
    eapply fair_bind; [apply (apply_fair p s); [exact E|exact G']|]. intros w' G1. eapply fair_bind; [apply fair_assert|]. intros _ _.
    cbn. split; [now apply inv_put with s|exact G1].
Qed.
Lemma raws_fair s w rows : s_kind s = Consistent -> tg false s (w_tab w) ->
  fair' (fun w => tg false s (w_tab w))
    (fold_res (fun w0 i => let* _ := assert_ (i <? t_len (w_tab w)) PRemoveRange in delete_raw pr umax w0 i) rows w).
Proof.
  intros K G. apply good_fair. eapply good_impl; [apply (good_fold pr (fun w' => tg false s (w_tab w') /\ t_len (w_tab w') = t_len (w_tab w)))|intros w' [A _]; exact A].
  - auto.
  - intros w1 i _ [G1 L1]. eapply good_bind; [apply good_assert|]. cbv beta. intros _ Hi. apply Nat.ltb_lt in Hi.
    eapply good_impl; [apply (good_delete_raw_tg pr umax false s); [exact G1|lia|congruence]|].
    cbv beta. intros w2 [G2 L2]. split; [exact G2|]. rewrite L2 by exact K. exact L1.
Qed.
Lemma cleared_tg s w : tg false s (w_tab w) -> tg false s (w_tab (clear (clear_raw w))).
Proof.
  intros G. assert (G1 : tg false s (w_tab (clear_raw w))) by (apply tg_clear_raw; [discriminate|assumption]).
  unfold clear, event_cleared. destruct (t_kind (w_tab (clear_raw w))); try exact G1; apply tg_clear_raw; try discriminate; exact G1.
Qed.
Lemma remove_fair u h c ev rows : inv u -> may h c -> fair' inv (remove_rows_with pr umax fc u h c ev rows).
Proof.
  intros Iu M. unfold remove_rows_with. eapply fair_bind; [apply get_fair; exact Iu|]. intros t (s & E & G & P).
  pose proof (tg_kind _ _ _ G) as Ks. destruct (t_kind t) eqn:Kt; try (left; exact I).
  - eapply fair_bind; [apply fair_lock; now apply may_write|]. intros _ _. cbv zeta.
    eapply fair_bind with (P := fun w => tg false s (w_tab w)); [|intros w Gw; now apply flush_fair with s].
    destruct rows as [|rows]; [cbn; apply cleared_tg; exact G|]. apply raws_fair; [congruence|exact G].
  - eapply fair_bind; [apply fair_lock; now apply may_write|]. intros _ _. cbv zeta.
    eapply fair_bind with (P := fun w => tg false s (w_tab w)); [|intros w Gw; now apply flush_fair with s].
    destruct rows as [|rows]; [cbn; apply cleared_tg; exact G|].
    apply good_fair. assert (Nc : s_kind s <> Consistent) by congruence.
    apply (good_tg pr false s (fun w => w)); [exact Nc|]. apply good_sorted_remove; [exact (tg_good _ _ (w_new t) G)|exact Nc].
Qed.
Lemma handle_fair f u h c ev rows : inv u -> may h c -> fair' inv (handle_with pr umax fc f u h c ev rows).
Proof. intros Iu M. destruct f; cbn; [now apply remove_fair|exact Iu|left; exact I]. Qed.
Lemma run_fair f u h c ev rows : inv u -> may h c -> fair' inv (run_with pr umax fc f u h c ev rows).
Proof.
  intros Iu M. unfold run_with. eapply fair_bind; [apply get_fair; exact Iu|]. intros t (s & E & G & P). cbv zeta.
  eapply fair_bind; [apply handle_fair; [exact Iu|exact M]|]. intros u1 I1. eapply fair_bind; [apply fair_lock; now apply may_read|]. intros _ _.
  eapply fair_bind; [apply Fc; [exact I1|]|intros q Iq; exact Iq].
  destruct M as [J|(L & A)]; [auto|]. right. split; [exact L|]. constructor; [rewrite (lock_table _ _ P); auto|]. eapply above_le; [|exact A]. lia.
Qed.
Lemma auto_fair f u h c k key ev rows : inv u -> may h c -> fair' inv (auto_handle pr umax fc f u h c k key ev rows).
Proof.
  intros Iu M. unfold auto_handle. eapply fair_bind; [apply fair_lock; now apply may_read|]. intros _ _.
  eapply fair_bind; [apply get_fair; exact Iu|]. intros t (s & E & G & P).
  eapply fair_bind with (P := fun _ => True); [|intros r _; now apply run_fair]. apply good_fair. destruct key.
  - unfold select_sorted. destruct rows as [|rows]; [exact I|]. eapply good_bind; [apply (good_iter pr)|]. intros it [E1 E2].
    rewrite (tg_imax false _ _ G). eapply good_bind; [apply good_cons_collect; lia|]. intros ids F.
    eapply good_bind; [eapply ThreadSafe.join_good; [exact G|]|intros; exact I]. rewrite E2 in F. exact F.
  - unfold select_indexed. destruct rows as [|rows]; [exact I|]. eapply good_bind; [|intros; exact I].
    eapply good_map_res with (P := fun _ => True) (Q := fun _ => True); [apply Forall_forall; auto|]. intros i _. exact (ThreadSafe.find_good pr umax t k (VRow i) s G).
Qed.

(** What calls return *)
Lemma items_fair get l : Forall (fun o : option nat => forall x, o = Some x -> good pr (fun _ : row => True) (get x)) l -> good pr (fun _ => True) (items get l).
Proof.
  intros F. unfold items. eapply good_bind with (P := fun _ => True); [|intros; exact I]. clear Fc. induction F as [|o l Ho F IH]; cbn; [exact I|].
  eapply good_bind with (P := fun _ => True).
  - destruct o as [i|]; [apply Ho; reflexivity|exact I].
  - intros r _. eapply good_bind; [exact IH|]. intros; exact I.
Qed.
Lemma row_good s t i : tg false s t -> good pr (fun _ => True) (t_get_row t i).
Proof. intros G. pose proof (good_read_op pr umax false s t (OGet i) G) as R. cbn [read_op] in R. destruct (t_get_row t i); [exact I|exact R]. Qed.
Lemma sub_good {A B} (P : B -> Prop) (x : res A) (f : A -> B) : good pr P (let* a := x in Ok (f a)) -> good pr (fun _ => True) x.
Proof. destruct x; cbn; auto. Qed.
Lemma answer_fair s st c : tg false s (st_tab st) -> op_ty (s_cols s) (op_of c) -> avail (t_kind (st_tab st)) (op_of c) = true ->
  good pr (fun _ => True) (answer_of pr umax st c).
Proof.
  intros G T Av. pose proof (tg_imax _ _ _ G) as Im.
  assert (K : forall A B (x : res A) (f : A -> B), good pr (fun _ => True) x -> good pr (fun _ => True) (let* a := x in Ok (f a))).
  { intros A B x f H. eapply good_bind; [exact H|]. intros; exact I. }
  assert (R : forall o, good pr (fun _ => True) (read_op pr umax (st_tab st) o)) by (intros o; now apply good_read_op with (ex := false) (s := s)).
  assert (W : forall w o, tg false s (w_tab w) -> op_ty (s_cols s) o -> avail (t_kind (st_tab st)) o = true -> removal_flush o = false ->
     good pr (fun _ => True) (write_op pr umax w [] o)).
  { intros w o Gw To Ao Rf. eapply good_impl; [apply (good_write_op pr umax false s w [] o); auto; [|discriminate]|auto]. now rewrite <- (tg_kind _ _ _ G). }
  destruct c as [o|A g a0|A g a0|cmp rows]; [destruct o|..]; cbn [answer_of]; try exact I.
  - apply K. now apply row_good with s.
  - apply K. apply (sub_good _ _ (fun _ => tt) (R (OCell k i))).
  - apply K. exact (ThreadSafe.find_good pr umax _ k v s G).
  - apply K. apply (sub_good _ _ (fun _ => tt) (R OLast)).
  - apply K. pose proof (W (w_new (st_tab st)) ONextPushed G I Av) as H. cbn [write_op] in H. change (w_tab (w_new (st_tab st))) with (st_tab st) in H.
    destruct (next_pushed (st_tab st)); [exact I|apply H; intros; auto; discriminate].
  - apply K. apply (sub_good _ _ (fun _ => tt) (R ODump)).
  - rewrite Im. eapply good_bind; [apply good_range|]. intros it Hit. cbv beta in Hit. eapply good_bind; [apply good_cons_run|]. intros l Hl. apply items_fair.
    eapply Forall_impl; [|exact Hl]. cbn. intros o Ho x X. apply good_get_checked with (ex := false) (s := s); [exact G|]. specialize (Ho x X). lia.
  - rewrite Im. eapply good_bind; [apply good_iter|]. intros it [E1 E2]. eapply good_bind; [apply good_cons_run|]. intros l Hl. apply items_fair.
    eapply Forall_impl; [|exact Hl]. cbn. intros o Ho x X. apply good_get_checked with (ex := false) (s := s); [exact G|]. specialize (Ho x X). lia.
  - rewrite Im. eapply good_bind with (P := fun it => True); [unfold t_editing, t_row_range; eapply good_bind with (P := fun _ => True); [|intros; exact I];
      eapply good_bind; [apply good_from_usize|]; intros; exact I|]. intros it _.
    eapply good_bind; [apply good_cons_run|]. intros l _. apply items_fair. apply Forall_forall. intros o _ x _. now apply row_good with s.
  - destruct st as [t|w its]; [exact I|]. apply K. pose proof (W w (OPush r) G T Av) as H. cbn [write_op] in H. destruct (push w r); [exact I|apply H; reflexivity].
  - destruct st as [t|w its]; [exact I|]. apply K. pose proof (W w (OPushArray rs) G T Av) as H. cbn [write_op] in H. destruct (push_array pr w rs); [exact I|apply H; reflexivity].
  - destruct st as [t|w its]; [exact I|]. apply K. pose proof (W w (OMergeSingle cmp r) G T Av) as H. cbn [write_op] in H.
    destruct (merge_in_a_single_row pr cmp w r); [exact I|apply H; reflexivity].
  - destruct st as [t|w its]; [exact I|]. apply K. pose proof (W w (op_of (CMergeLogged cmp rows)) G T Av) as H. cbn [write_op op_of] in H.
    destruct (merge_logged pr cmp _ [] w rows); [exact I|apply H; reflexivity].
Qed.

(** ** Programs *)
(** At most the table [held] is locked. *)
Definition own (d : db) (held : option nat) : Prop := forall p, d_lock d p <> None -> held = Some p.
Definition dinv (d : db) : Prop := inv (d_u d).
Lemma own_held d : own d None -> d_held d = [].
Proof.
  intros O. unfold d_held. induction (seq 0 (length (d_l d))) as [|p l IH]; [reflexivity|]. cbn. rewrite IH.
  destruct (d_lock d p) eqn:E; [|reflexivity]. assert (D : d_lock d p <> None) by congruence. apply O in D. discriminate.
Qed.
Lemma lock_upd_ne d p x q u : q <> p -> d_lock (Db u (upd (d_l d) p x)) q = d_lock d q.
Proof. intros D. unfold d_lock. cbn. now apply nth_upd_ne. Qed.
Lemma own_upd_none d p u : own d (Some p) -> own (Db u (upd (d_l d) p None)) None.
Proof.
  intros Ho q D. exfalso. destruct (Nat.eq_dec q p) as [E|E].
  - rewrite E in D. apply D. unfold d_lock. cbn. apply nth_upd_none.
  - rewrite lock_upd_ne in D by exact E. apply Ho in D. congruence.
Qed.
Lemma own_upd_some d p x u held : own d held -> (held = None \/ held = Some p) -> own (Db u (upd (d_l d) p x)) (Some p).
Proof.
  intros Ho H q D. destruct (Nat.eq_dec q p) as [E|E]; [congruence|]. rewrite lock_upd_ne in D by exact E. apply Ho in D. destruct H; congruence.
Qed.
Lemma own_upd_keep d p x u held : own d held -> (d_lock d p = None -> x = None) -> own (Db u (upd (d_l d) p x)) held.
Proof.
  intros Ho H q D. destruct (Nat.eq_dec q p) as [E|E].
  - rewrite E in *. apply Ho. intros L. apply D. unfold d_lock. cbn. rewrite (H L). apply nth_upd_none.
  - rewrite lock_upd_ne in D by exact E. now apply Ho.
Qed.
Lemma state_fair d p : inv (d_u d) -> fair' (fun st => exists s, nth_error schs p = Some s /\ tg false s (st_tab st) /\ p < N /\
    match st with Free _ => d_lock d p = None | Locked w its => d_lock d p <> None /\ its = [] end) (d_state d p).
Proof.
  intros Iu. unfold d_state. eapply fair_bind; [apply get_fair; exact Iu|]. intros t (s & E & G & P). cbn. exists s.
  split; [exact E|]. destruct (d_lock d p) as [[[a b] c]|]; cbn; (split; [exact G|]); (split; [exact P|]); [split; [discriminate|reflexivity]|reflexivity].
Qed.
Lemma locked_fair d p : inv (d_u d) -> fair' (fun w => exists s, nth_error schs p = Some s /\ tg false s (w_tab w) /\ p < N) (locked_table d p).
Proof.
  intros Iu. unfold locked_table. eapply fair_bind; [apply state_fair; exact Iu|]. intros st (s & E & G & P & _).
  destruct st; [left; exact I|]. cbn. eauto.
Qed.
Lemma store_inv d p s st : inv (d_u d) -> nth_error schs p = Some s -> tg false s (st_tab st) -> inv (d_u (d_store d p st)).
Proof. intros Iu E G. destruct st; cbn; now apply inv_put with s. Qed.

Section Code.
Variable top : nat.
Variable hnd : option handler.
Variable h : locks.
Hypothesis Top : jam = true \/ (top <= n /\ above top h).
Lemma may_top p : jam = true \/ rank p < top -> may h p.
Proof.
  intros R. unfold may. destruct Top as [J|(T & A)]; [auto|]. destruct R as [J|R]; [auto|]. right. split; [lia|]. eapply above_le; [|exact A]. lia.
Qed.
Lemma held_may d p : jam = true \/ (rank p < top /\ own d None) -> may (d_held d ++ h) p.
Proof. intros [J|(R & Ho)]; [left; exact J|]. rewrite (own_held _ Ho). apply may_top. auto. Qed.
Lemma close_fair d : inv (d_u d) -> fair' inv (close_all d).
Proof.
  intros Iu. unfold close_all. eapply fair_bind with (P := fun _ => True); [|intros; exact Iu].
  induction (seq 0 _) as [|p l IH]; cbn; [exact I|]. eapply fair_bind with (P := fun _ => True).
  - eapply fair_bind; [apply state_fair; exact Iu|]. intros st (s & E & G & _). destruct st; [exact I|]. eapply fair_impl; [apply (drop_fair s); exact G|auto].
  - intros t _. eapply fair_bind; [exact IH|]. intros; exact I.
Qed.
Definition is_lock (c : call) : bool := match c with Do OLock => true | _ => false end.
Definition is_close (c : call) : bool := match c with Do OClose => true | _ => false end.
Lemma on_fair d p c held : inv (d_u d) -> deed_ty schs (Call (On p c)) ->
  (jam = true \/ own d held /\ (is_lock c = true -> held = None /\ rank p < top) /\ (is_close c = true -> held = Some p)) ->
  fair' (fun q => inv (d_u (fst q)) /\ (jam = true \/ own (fst q) (if is_lock c then Some p else if is_close c then None else held)))
    (act_step pr umax fc hnd h d (On p c)).
Proof.
  intros Iu Ty L.
  assert (Main : fair' (fun q => inv (d_u (fst q)) /\ (jam = true \/ own (fst q) (if is_lock c then Some p else if is_close c then None else held)))
    (let* st := d_state d p in
     let* _ := match st, op_of c with
                | Free _, OLock => lock_ok (can_write h p)
                | Free _, _ => lock_ok (can_read h p)
                | Locked _ _, _ => Ok tt
                end in
     let* st' := step pr umax st (op_of c) in
     let* a := answer_of pr umax st c in
     Ok (d_store d p st', a))); [|unfold act_step; destruct c as [o|A g a|A g a|cmp rows]; [destruct o|..]; try exact Main; left; exact I].
  eapply fair_bind; [apply state_fair; exact Iu|]. intros st (s & E & G & P & Ls).
  assert (T : op_ty (s_cols s) (op_of c)) by (apply Ty; exact E).
  eapply fair_bind with (P := fun _ => True).
  { destruct st as [t|w its]; [|exact I]. destruct (is_lock c) eqn:Ic.
    - destruct c as [o|A g a|A g a|cmp rows]; try discriminate Ic. destruct o; try discriminate Ic. cbn [op_of].
      apply fair_lock. destruct L as [J|(Ho & Lk & _)]; [auto|]. apply may_write; [|exact P]. apply may_top. right. now apply Lk.
    - assert (R : fair' (fun _ : unit => True) (lock_ok (can_read h p))).
      { apply fair_lock. destruct Top as [J|(_ & A)]; [auto|]. right. now apply above_read with (1 := A). }
      destruct c as [o|A g a|A g a|cmp rows]; [destruct o|..]; try exact R. discriminate Ic. }
  intros _ _. destruct (avail (t_kind (st_tab st)) (op_of c)) eqn:Av; [|unfold step; rewrite Av; left; exact I].
  assert (S : good pr (fun st' => tg false s (st_tab st')) (step pr umax st (op_of c))).
  { apply good_step; auto; [|discriminate]. intros Pr Kb. destruct nobag as [B|B]; [congruence|]. rewrite Forall_forall in B. exfalso.
    apply (B s); [|exact Kb]. eapply nth_error_In; eauto. }
  destruct (step pr umax st (op_of c)) as [st'|e] eqn:Es; [|left; exact S]. cbn [bind].
  eapply fair_bind; [apply good_fair; apply (answer_fair s); auto|]. intros a _. cbn [fair fst]. split; [now apply store_inv with s|].
  destruct L as [J|(Ho & Lk & Lc)]; [auto|]. right.
  destruct (is_lock c) eqn:Ic.
  { destruct (Lk eq_refl) as (-> & _). destruct st'; cbn; [|eapply own_upd_some; eauto].
    apply own_upd_keep with (x := None); [|auto]. intros q D. apply Ho in D. discriminate. }
  destruct (is_close c) eqn:Cc.
  { specialize (Lc eq_refl). rewrite Lc in Ho. destruct c as [o|A g a1|A g a1|cmp rows]; try discriminate Cc. destruct o; try discriminate Cc.
    unfold step in Es. cbn [op_of] in *. rewrite Av in Es. destruct st as [t|w [|b its]]; cbn in Es; try discriminate Es.
    bindn Es t T1. injection Es as <-. cbn. now apply own_upd_none. }
  (* anything else keeps the lock as it is *)
  assert (Sh : match st, st' with Free _, Free _ => True | Locked _ _, Locked _ _ => True | Locked _ _, Free _ => True | _, _ => False end).
  { destruct st as [t|w its], st' as [t'|w' its']; auto. unfold step in Es. rewrite Av in Es.
    destruct (op_of c) eqn:Oc; try (bindn Es x X; discriminate Es).
    - destruct c as [o|A g a1|A g a1|cmp rows]; try discriminate Oc. cbn in Oc. subst o. discriminate Ic. }
  destruct st', st; cbn in *; try contradiction; apply own_upd_keep; auto; intros; tauto.
Qed.
(** A step keeps to the discipline. *)
Definition good_end (m : answer -> plan) (q : db * answer) : Prop :=
  inv (d_u (fst q)) /\ (jam = true \/ exists held, own (fst q) held /\ (forall p, held = Some p -> rank p < top) /\ forall x, tidy schs rank top held (m x)).
Definition good_start (d : db) (held : option nat) (m : plan) : Prop :=
  jam = true \/ own d held /\ (forall p, held = Some p -> rank p < top) /\ tidy schs rank top held m.
Lemma good_fin d u m : inv u -> (jam = true \/ own d None /\ forall x, tidy schs rank top None (m x)) -> good_end m (Db u (d_l d), ANothing).
Proof.
  intros Iu [J|(Ho & T)]; (split; [exact Iu|]); [auto|]. right. exists None. split; [exact Ho|]. split; [discriminate|exact T].
Qed.
Lemma act_fair d c held m : inv (d_u d) -> deed_ty schs (Call c) -> good_start d held (PThen (Call c) m) ->
  fair' (good_end m) (act_step pr umax fc hnd h d c).
Proof.
  intros Iu Ty L.
  destruct c as [p c|p ev|p ev|p ev s|p ev s|p ev s|p tr|ev f].
  - eapply fair_impl; [apply (on_fair d p c held Iu Ty)|].
    + destruct L as [J|(Ho & Rk & T)]; [auto|]. right. split; [exact Ho|]. split.
      * intros Ic. destruct c as [o|A g a|A g a|cmp rows]; try discriminate Ic. destruct o; try discriminate Ic. cbn in T. tauto.
      * intros Cc. destruct c as [o|A g a|A g a|cmp rows]; try discriminate Cc. destruct o; try discriminate Cc. cbn in T. tauto.
    + intros q (Iq & Oq). split; [exact Iq|]. destruct L as [J|(Ho & Rk & T)]; [auto|]. destruct Oq as [J|Oq]; [auto|]. right.
      eexists. split; [exact Oq|]. destruct c as [o|A g a|A g a|cmp rows]; [destruct o|..]; cbn in T |- *; try tauto.
      * destruct T as (_ & R & T). split; [|exact T]. congruence.
      * split; [discriminate|]. tauto.
  - cbn [act_step]. eapply fair_bind; [apply locked_fair; exact Iu|]. intros w (s & E & G & P). cbv zeta.
    assert (Lr : jam = true \/ rank p < top /\ own (d_release d p) None /\ forall x, tidy schs rank top None (m x)).
    { destruct L as [J|(Ho & Rk & T)]; [auto|]. right. cbn in T. destruct T as (Hh & T). rewrite Hh in Ho. split; [now apply Rk|]. split; [|exact T]. now apply own_upd_none. }
    eapply fair_bind; [apply (flush_fair (d_u (d_release d p)) _ p s); [exact Iu|exact E|exact G|]|].
    + apply held_may. tauto.
    + intros u Iu'. cbn [fair]. apply good_fin; [exact Iu'|]. tauto.
  - destruct L as [J|(Ho & Rk & T)]; [|contradiction T].
    cbn [act_step]. eapply fair_bind; [apply locked_fair; exact Iu|]. intros w (s & E & G & P).
    eapply fair_bind; [apply (live_fair (d_u d) _ p s); [exact Iu|exact E|exact G|exact J]|].
    intros [u w'] (I1 & G1). cbn [fst snd] in *. cbn [fair]. split; [|auto]. cbn [fst]. apply store_inv with s; [exact I1|exact E|exact G1].
  - cbn [act_step]. eapply fair_bind; [apply remove_fair; [exact Iu|]|].
    + apply held_may. destruct L as [J|(Ho & Rk & T)]; [auto|]. cbn in T. destruct T as (-> & R & T). auto.
    + intros u Iu'. apply good_fin; [exact Iu'|]. destruct L as [J|(Ho & Rk & T)]; [auto|]. cbn in T. destruct T as (-> & R & T). auto.
  - cbn [act_step]. eapply fair_bind; [apply locked_fair; exact Iu|]. intros w (s' & E & G & P).
    assert (Lr : jam = true \/ rank p < top /\ own (d_release d p) None /\ forall x, tidy schs rank top None (m x)).
    { destruct L as [J|(Ho & Rk & T)]; [auto|]. right. cbn in T. destruct T as (Hh & T). rewrite Hh in Ho. split; [now apply Rk|]. split; [|exact T]. now apply own_upd_none. }
    eapply fair_bind; [apply fair_assert|]. cbv beta. intros _ Kc.
    assert (Ks : s_kind s' = Consistent) by (unfold t_consistent in Kc; rewrite (tg_kind _ _ _ G) in Kc; destruct (s_kind s'); try discriminate; reflexivity).
    eapply fair_bind with (P := fun w => tg false s' (w_tab w)).
    { destruct s as [|rows]; [cbn; apply cleared_tg; exact G|]. cbv zeta. apply raws_fair; [exact Ks|exact G]. }
    intros w' G'. cbv zeta. eapply fair_bind; [apply (flush_fair (d_u (d_release d p)) _ p s'); [exact Iu|exact E|exact G'|]|].
    + apply held_may. tauto.
    + intros u Iu'. apply good_fin; [exact Iu'|]. tauto.
  - cbn [act_step].
    assert (M : may (d_held d ++ h) p).
    { apply held_may. destruct L as [J|(Ho & Rk & T)]; [auto|]. cbn in T. destruct T as (-> & R & T). auto. }
    eapply fair_bind; [apply fair_lock; exact (may_read _ _ M)|]. intros _ _.
    eapply fair_bind; [apply Fc; [exact Iu|exact (may_call _ _ M)]|].
    intros q Iq. apply good_fin; [exact Iq|]. destruct L as [J|(Ho & Rk & T)]; [auto|]. cbn in T. destruct T as (-> & R & T). auto.
  - cbn [act_step]. cbv zeta.
    assert (M : may (d_held d ++ h) p).
    { apply held_may. destruct L as [J|(Ho & Rk & T)]; [auto|]. cbn in T. destruct T as (-> & R & T). auto. }
    eapply fair_bind; [apply get_fair; exact Iu|]. intros t (s & E & G & P). 
    eapply fair_bind; [apply fair_lock; now apply may_write|]. intros _ _.
    eapply fair_bind; [apply fair_lock|]. { destruct M as [J|(_ & A)]; [auto|]. right. rewrite (tabs_len _ (proj1 Iu)). apply above_trackers with (1 := A). lia. }
    intros _ _. eapply fair_bind; [apply fair_assert|]. intros _ _. cbn [fair]. destruct Iu as (It & Ik). split; [split; [exact It|]|].
    + cbn [fst d_u]. intros J q tr' Hin. unfold u_trackers in Hin. cbn [u_trk] in Hin. destruct L as [J'|(Ho & Rk & T)]; [congruence|]. cbn in T.
      destruct (Nat.eq_dec q p) as [Q|Q].
      * rewrite Q in *. destruct (le_lt_dec (length (u_trk (d_u d))) p) as [Le|Lt].
        -- rewrite upd_oob in Hin by exact Le. exact (Ik J p tr' Hin).
        -- rewrite nth_upd_eq in Hin by exact Lt. apply in_app_iff in Hin as [Hin|[<-|[]]]; [exact (Ik J p tr' Hin)|]. tauto.
      * rewrite nth_upd_ne in Hin by exact Q. exact (Ik J q tr' Hin).
    + destruct L as [J|(Ho & Rk & T)]; [auto|]. cbn in T. destruct T as (-> & R & _ & T). right. exists None. cbn. split; [exact Ho|]. split; [discriminate|exact T].
  - cbn [act_step]. destruct hnd; [left; exact I|]. cbv zeta. eapply fair_bind with (P := fun _ => True).
    { apply good_fair. unfold handlers_add. repeat (match goal with |- context [if ?b then _ else _] => destruct b end); try exact I.
      destruct (nth_error _ _); exact I. }
    intros q _. split; [exact Iu|]. destruct L as [J|(Ho & Rk & T)]; [auto|]. right. exists held. cbn in T. auto.
Qed.
Lemma deed_fair d a held m : inv (d_u d) -> deed_ty schs a -> good_start d held (PThen a m) -> fair' (good_end m) (deed_step pr umax fc hnd h d a).
Proof.
  intros Iu Ty L. destruct a as [c|c ev rows|c ev rows]; cbn [deed_step].
  - now apply act_fair with held.
  - destruct hnd as [f|]; [|left; exact I]. eapply fair_bind; [apply handle_fair; [exact Iu|]|].
    + apply held_may. destruct L as [J|(Ho & Rk & T)]; [auto|]. cbn in T. destruct T as (-> & R & T). auto.
    + intros u Iu'. apply good_fin; [exact Iu'|]. destruct L as [J|(Ho & Rk & T)]; [auto|]. cbn in T. destruct T as (-> & R & T). auto.
  - destruct hnd as [f|]; [|left; exact I]. eapply fair_bind; [apply run_fair; [exact Iu|]|].
    + apply held_may. destruct L as [J|(Ho & Rk & T)]; [auto|]. cbn in T. destruct T as (-> & R & T). auto.
    + intros u Iu'. apply good_fin; [exact Iu'|]. destruct L as [J|(Ho & Rk & T)]; [auto|]. cbn in T. destruct T as (-> & R & T). auto.
Qed.
Lemma perform_fair m : forall d held, inv (d_u d) -> always (deed_ty schs) m -> good_start d held m -> fair' inv (perform pr umax fc hnd h m d).
Proof.
  induction m as [| |a k IH]; intros d held Iu Ty L; cbn [perform]; [now apply close_fair|left; exact I|]. destruct Ty as (Ta & Tk).
  eapply fair_bind; [apply (deed_fair d a held k Iu Ta L)|]. intros q (Iq & E). destruct E as [J|(held' & Ho & Rk & T)].
  - apply (IH _ _ None); auto. left; exact J.
  - apply (IH _ _ held'); auto. right. auto.
Qed.
End Code.

Hypothesis Rty : forall log, always (deed_ty schs) (react log).
Hypothesis Rtidy : jam = true \/ tidy_trackers schs rank react.
Lemma told_last log x : told_of (log ++ [x]) = Some (n_table x).
Proof. unfold told_of. rewrite map_app. cbn. rewrite last_last. reflexivity. Qed.
Lemma turn_fair f h p ev s x : jam = true \/ (rank p <= n /\ above (rank p) h /\ leads_down schs rank p (snd x)) -> inv (fst (fst s)) ->
  fair' (fun s => inv (fst (fst s))) (act_turn pr umax react fc f h p ev s x).
Proof.
  intros H Is. unfold act_turn. destruct (tracker_considers (snd x) ev); [|exact Is]. cbv zeta.
  match goal with |- context [u_say ?u ?m] => set (u1 := u_say u m); assert (I1 : inv u1) by (apply inv_say; exact Is); assert (T1 : told_of (u_log u1) = Some p) by apply told_last end.
  eapply fair_bind with (P := inv); [|intros u Iu; exact Iu]. destruct (snd x) as [c k key|srt cons] eqn:X.
  - apply auto_fair; [exact I1|]. destruct H as [J|(Rp & A & (C & R))]; [left; exact J|]. right. split; [lia|]. eapply above_le; [|exact A]. lia.
  - apply (perform_fair (rank p) (Some f) h) with (held := None); [|exact I1|apply Rty|].
    + destruct H as [J|(Rp & A & _)]; auto.
    + destruct Rtidy as [J|T]; [left; exact J|]. right. split; [|split; [discriminate|now apply T]].
      intros q D. exfalso. apply D. unfold unlocked, d_lock. cbn. clear. revert q. induction (u_tabs (fst (fst s))) as [|t l IH]; intros [|q]; cbn; auto.
Qed.
End With.
Hypothesis Rty : forall log, always (deed_ty schs) (react log).
Hypothesis Rtidy : jam = true \/ tidy_trackers schs rank react.
Lemma combine_In {A} (l : list A) x : In x (combine (seq 0 (length l)) l) -> In (snd x) l.
Proof. destruct x. apply in_combine_r. Qed.
Lemma act_flush_fair n : call_ok n (act_flush pr umax react n).
Proof.
  induction n as [|n IH]; intros u h p ev a b s Iu H; cbn [act_flush].
  - destruct H as [J|(R & _)]; [|lia]. right. auto.
  - eapply fair_bind; [apply fair_assert|]. intros _ _. eapply fair_bind with (P := fun _ => True).
    { apply good_fair. unfold handlers_get. destruct (nth_error _ _); exact I. }
    intros f _. cbv zeta. eapply fair_bind; [|intros s' Is; exact Is]. apply fair_fold; [exact Iu|].
    intros s' x Hin Is. apply (turn_fair n _ IH Rty Rtidy); [|exact Is]. destruct H as [J|(R & A)]; [auto|].
    destruct (Bool.bool_dec jam true) as [J|Nj]; [auto|]; apply not_true_is_false in Nj as Ej; right. split; [lia|]. split.
    + constructor; [|exact A]. rewrite (tabs_len _ (proj1 Iu)), lock_trackers. auto.
    + apply combine_In in Hin. apply (proj2 Iu Ej). exact Hin.
Qed.
End Safe.

Lemma new_tabs schs : Forall (fun s => s_cols s <> []) schs -> Forall2 (tg false) schs (map t_new schs).
Proof.
  intros F. induction F as [|s l K F IH]; cbn; constructor; [|exact IH]. split; [reflexivity|]. exists (fun _ => true), [].
  split; [apply t_new_ok; exact K|discriminate].
Qed.
Lemma act_run_fair jam pr umax fuel schs rank react m :
  Forall (fun s => s_cols s <> []) schs -> pr = Debug \/ Forall (fun s => s_kind s <> Bag) schs ->
  (forall log, always (deed_ty schs) (react log)) -> always (deed_ty schs) m ->
  jam = true \/ (tidy_trackers schs rank react /\ tidy schs rank fuel None m) ->
  fair jam pr (fun u => Forall2 (tg false) schs (u_tabs u)) (act_run pr umax react fuel schs m).
Proof.
  intros C B Rt Mt T. unfold act_run. eapply fair_impl; [apply (perform_fair jam pr umax schs rank B fuel) with (top := fuel) (held := None)|].
  - apply act_flush_fair; auto. tauto.
  - right. split; [lia|constructor].
  - split; [now apply new_tabs|]. intros _ p tr Hin. exfalso. revert Hin. unfold u_trackers. cbn. clear. revert p.
    induction schs as [|s l IH]; intros [|p]; cbn; auto; apply IH.
  - exact Mt.
  - destruct T as [J|(_ & T)]; [left; exact J|]. right. split; [|split; [discriminate|exact T]].
    intros q D. exfalso. apply D. unfold unlocked, d_lock. cbn. rewrite map_map. clear. revert q. induction schs as [|s l IH]; intros [|q]; cbn; auto.
  - intros u (It & _). exact It.
Qed.
Lemma acting_safe pr umax fuel schs react m :
  Forall (fun s => s_cols s <> []) schs -> pr = Debug \/ Forall (fun s => s_kind s <> Bag) schs ->
  (forall log, always (deed_ty schs) (react log)) -> always (deed_ty schs) m ->
  act_run pr umax react fuel schs m <> Err EUB /\ forall u, act_run pr umax react fuel schs m = Ok u -> map t_sch (u_tabs u) = schs.
Proof.
  intros C B R M. pose proof (act_run_fair true pr umax fuel schs (fun _ => 0) react m C B R M (or_introl eq_refl)) as F.
  destruct (act_run pr umax react fuel schs m) as [u|e]; cbn in F.
  - split; [discriminate|]. intros u' E. injection E as <-. clear -F. induction F as [|s t l m (S1 & _) F IH]; [reflexivity|]. cbn. now rewrite S1, IH.
  - split; [|discriminate]. intros E. injection E as ->. destruct F as [F|(_ & [F|F])]; try discriminate. destruct pr; exact F.
Qed.
Lemma acting_no_deadlock pr umax fuel schs rank react m :
  Forall (fun s => s_cols s <> []) schs -> pr = Debug \/ Forall (fun s => s_kind s <> Bag) schs ->
  (forall log, always (deed_ty schs) (react log)) -> always (deed_ty schs) m ->
  tidy_trackers schs rank react -> tidy schs rank fuel None m -> act_run pr umax react fuel schs m <> Err EDeadlock.
Proof.
  intros C B R M T U E. pose proof (act_run_fair false pr umax fuel schs rank react m C B R M (or_intror (conj T U))) as F. rewrite E in F.
  destruct F as [F|(F & _)]; [destruct pr; exact F|discriminate].
Qed.
Lemma acting_returns umax fuel schs rank react m :
  Forall (fun s => s_cols s <> []) schs -> (forall log, always (deed_ty schs) (react log)) -> always (deed_ty schs) m ->
  tidy_trackers schs rank react -> tidy schs rank fuel None m ->
  (exists u, act_run Debug umax react fuel schs m = Ok u) \/ exists c, act_run Debug umax react fuel schs m = Err (EPanic c).
Proof.
  intros C R M T U. pose proof (act_run_fair false Debug umax fuel schs rank react m C (or_introl eq_refl) R M (or_intror (conj T U))) as F.
  destruct (act_run Debug umax react fuel schs m) as [u|e]; [eauto|]. destruct F as [F|(F & _)]; [|discriminate]. destruct e; cbn in F; try contradiction; try discriminate F; eauto.
Qed.
