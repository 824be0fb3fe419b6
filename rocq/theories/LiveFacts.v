(** Proofs about flushing without unlocking. *)
From Coq Require Import List Arith Bool Lia.
From Verif Require Import Base BaseFacts Column ColumnFacts Order RowRange RowRangeFacts Table TableFacts SortedTab BagTab TableSpec Hist HistFacts TableProps RowProps
  Events Cascade CascadeSpec CascadeFacts CascadeProps Extract ExtractSpec ExtractFacts RestoreFacts InvalidFacts IntegritySpec IntegrityFacts MirrorSpec MirrorFacts
  BackupSpec ImportSpec LifeSpec LifeFacts LiveSpec.
Import ListNotations.

(** ** A lock that no dependent table needs does not matter *)
Lemma fold_res_same {S X} (I : S -> Prop) (f g : S -> X -> res S) l : forall s, I s -> (forall s x, I s -> In x l -> f s x = g s x) ->
  (forall s x s', I s -> In x l -> g s x = Ok s' -> I s') -> fold_res f l s = fold_res g l s.
Proof.
  induction l as [|x l IH]; intros s Is E K; [reflexivity|]. cbn [fold_res]. rewrite (E s x Is (or_introl eq_refl)).
  destruct (g s x) as [s'|e] eqn:G; [|reflexivity]. cbn [bind]. apply IH.
  - exact (K s x s' Is (or_introl eq_refl) G).
  - intros s1 y I1 Iy. apply E; [exact I1|right; exact Iy].
  - intros s1 y s2 I1 Iy. apply K; [exact I1|right; exact Iy].
Qed.

(** [B]: tables that depend on [p], which does not depend on itself. *)
Section Lock.
Variables (pr : profile) (umax : nat) (B : nat -> Prop) (p : nat).
Hypothesis Bp : ~ B p.
Definition fenced (u : universe) : Prop := forall q c k key, B q \/ q = p -> In (TAuto c k key) (u_trackers u q) -> B c.
Lemma read_more a b c : B c -> can_read (a ++ (p, true) :: b) c = can_read (a ++ b) c.
Proof.
  intro N. unfold can_read. rewrite !forallb_app. cbn [forallb fst snd]. destruct (Nat.eqb_spec p c) as [->|]; [contradiction|reflexivity].
Qed.
Lemma write_more a b c : B c -> can_write (a ++ (p, true) :: b) c = can_write (a ++ b) c.
Proof.
  intro N. unfold can_write. rewrite !forallb_app. cbn [forallb fst snd]. destruct (Nat.eqb_spec p c) as [->|]; [contradiction|reflexivity].
Qed.
Lemma fenced_framed u u' : framed u u' -> fenced u -> fenced u'.
Proof. intros [F _] A q c k key Q H. unfold u_trackers in H. rewrite F in H. exact (A q c k key Q H). Qed.

Section Fix.
Variable call : universe -> locks -> nat -> event -> bool -> bool -> select -> res (universe * select).
Hypothesis Call : forall u a b q ev x y sel, fenced u -> B q \/ q = p -> call u (a ++ (p, true) :: b) q ev x y sel = call u (a ++ b) q ev x y sel.
Hypothesis Fr : forall u h q ev a b sel s, call u h q ev a b sel = Ok s -> framed u (fst s).
Lemma more_flush u a b c w ev : fenced u -> B c -> flush_with pr umax call u (a ++ (p, true) :: b) c w ev = flush_with pr umax call u (a ++ b) c w ev.
Proof.
  intros A R. unfold flush_with. destruct (sel_empty (w_changes w)); [reflexivity|].
  rewrite Call by (auto; exact A). destruct (call _ _ _ _ _ _ _) as [s|e]; [|reflexivity]. cbn [bind]. rewrite write_more by exact R. reflexivity.
Qed.
Lemma more_remove u a b c ev rows : fenced u -> B c -> remove_rows_with pr umax call u (a ++ (p, true) :: b) c ev rows = remove_rows_with pr umax call u (a ++ b) c ev rows.
Proof.
  intros A R. unfold remove_rows_with. destruct (u_get u c) as [t|e]; [|reflexivity]. cbn [bind]. rewrite write_more by exact R.
  destruct (t_kind t); try reflexivity; (destruct (lock_ok _); [|reflexivity]); cbn [bind];
    match goal with |- bind ?x _ = _ => destruct x as [w|e] end; try reflexivity; cbn [bind]; apply more_flush; assumption.
Qed.
Lemma more_auto hd0 u a b c k key ev rows : fenced u -> B c ->
  auto_handle pr umax call hd0 u (a ++ (p, true) :: b) c k key ev rows = auto_handle pr umax call hd0 u (a ++ b) c k key ev rows.
Proof.
  intros A R. unfold auto_handle, run_with. rewrite read_more by exact R. destruct (lock_ok _); [|reflexivity]. cbn [bind].
  destruct (u_get u c) as [t|e]; [|reflexivity]. cbn [bind]. match goal with |- bind ?x _ = _ => destruct x as [rs|e] end; [|reflexivity]. cbn [bind].
  set (rs' := match hd0 with HDelete => _ | _ => _ end).
  assert (Eh : handle_with pr umax call hd0 u (a ++ (p, true) :: b) c ev rs' = handle_with pr umax call hd0 u (a ++ b) c ev rs').
  { unfold handle_with. destruct hd0; try reflexivity. apply more_remove; assumption. }
  rewrite Eh. clear Eh. destruct (handle_with _ _ _ _ _ _ _ _ _) as [u1|e] eqn:E1; cbn [bind]; [|reflexivity].
  assert (A1 : fenced u1).
  { eapply fenced_framed; [|exact A]. unfold handle_with in E1. destruct hd0; [eapply framed_remove; eauto|injection E1 as <-; split; reflexivity|discriminate]. }
  change ((c, false) :: a ++ (p, true) :: b) with (((c, false) :: a) ++ (p, true) :: b). rewrite Call by (auto; exact A1). reflexivity.
Qed.
End Fix.
Lemma more_do n : forall u a b q ev x y sel, fenced u -> B q \/ q = p ->
  do_flush pr umax n u (a ++ (p, true) :: b) q ev x y sel = do_flush pr umax n u (a ++ b) q ev x y sel.
Proof.
  induction n as [|n IH]; intros u a b q ev x y sel A R; [reflexivity|]. cbn [do_flush]. destruct (assert_ _ _); [|reflexivity]. cbn [bind].
  destruct (handlers_get _ _) as [hd0|e]; [|reflexivity]. cbn [bind].
  rewrite (fold_res_same (fun s => framed u (fst (fst s))) (tracker_turn pr umax (do_flush pr umax n) hd0 (a ++ (p, true) :: b) q ev) (tracker_turn pr umax (do_flush pr umax n) hd0 (a ++ b) q ev)); [reflexivity|split; reflexivity|..].
  - intros s t F I. unfold tracker_turn. destruct (tracker_considers (snd t) ev); [|reflexivity]. destruct t as [m [c k key|]]; [|reflexivity]. cbn [snd fst].
    assert (Rc : B c). { apply in_combine_r in I. exact (A _ _ _ _ R I). }
    rewrite (more_auto (do_flush pr umax n) (fun u a b q ev x y sel => IH u a b q ev x y sel) (framed_do pr umax n)); [reflexivity|exact (fenced_framed _ _ F A)|exact Rc].
  - intros s t s' F I H. unfold tracker_turn in H. destruct (tracker_considers (snd t) ev); [|injection H as <-; exact F].
    bindn H u1 H1. injection H as <-. cbn [fst]. eapply framed_trans; [exact F|]. destruct (snd t) as [c k key|]; [|injection H1 as <-; split; reflexivity].
    apply (framed_auto pr umax _ (framed_do pr umax n)) in H1. destruct H1 as [H1 H2]. split; assumption.
Qed.
End Lock.
Lemma fence_of u p u' : framed u u' -> fenced (downstream u p) p u'.
Proof.
  intros [F _] q c k key Q H. unfold u_trackers in H. rewrite F in H. destruct Q as [Q| ->]; [eapply downstream_more; eauto|eapply downstream_one; eauto].
Qed.
Lemma downstream_rank rank u p c : acyclic rank u -> downstream u p c -> rank c < rank p.
Proof. intros A. induction 1 as [c k key H|q c k key H IH Hc]; [exact (A _ _ _ _ H)|]. apply (Nat.lt_trans _ (rank q)); [exact (A _ _ _ _ Hc)|exact IH]. Qed.

(** ** A table that depends on itself can not be flushed *)
Inductive path (u : universe) : nat -> nat -> Prop :=
| path_none q : path u 0 q
| path_step n q c k key : In (TAuto c k key) (u_trackers u q) -> path u n c -> path u (S n) q.
Lemma in_numbered {A} a (l : list A) x : In x l -> exists m, In (m, x) (combine (seq a (length l)) l).
Proof. revert a. induction l as [|y l IH]; intros a []; [subst; exists a; left; reflexivity|]. destruct (IH (S a) H) as [m Hm]. exists m. right. exact Hm. Qed.
Lemma do_path pr umax n : forall u h q ev x y sel s, do_flush pr umax n u h q ev x y sel = Ok s -> ~ path u n q.
Proof.
  induction n as [|n IH]; intros u h q ev x y sel s H Pa; [discriminate H|]. inversion Pa as [|m q' c k key Ic Pc]; subst. cbn [do_flush] in H.
  bindn H z Hz. bindn H hd0 Hh. bindn H s1 Hs. clear H.
  destruct (in_numbered 0 _ _ Ic) as [m I].
  revert Hs I. match goal with |- fold_res _ _ ?z = _ -> _ => assert (F : framed u (fst (fst z))) by (split; reflexivity); revert F; generalize z as s0 end.
  induction (combine (seq 0 (length (u_trackers u q))) (u_trackers u q)) as [|e l IHl]; intros s0 F Hs I; [destruct I|].
  cbn [fold_res] in Hs. bindn Hs s2 H2. destruct I as [->|I].
  - unfold tracker_turn in H2. cbn [snd fst tracker_considers] in H2. bindn H2 u1 H1. clear H2. unfold auto_handle, run_with in H1.
    bindn H1 x1 X1. bindn H1 t1 X2. bindn H1 r1 X3. bindn H1 t2 X6. bindn H1 u2 X4. bindn H1 x2 X7. bindn H1 q1 X5. apply IH in X5. apply X5.
    assert (F2 : framed u u2).
    { eapply framed_trans; [exact F|]. unfold handle_with in X4. destruct hd0; [|injection X4 as <-; split; reflexivity|discriminate].
      apply (framed_remove pr umax _ (framed_do pr umax n)) in X4. destruct X4 as [Y1 Y2]. split; assumption. }
    clear - Pc F2. induction Pc as [q|n q c k key I P IH]; [constructor|]. econstructor; [|exact IH]. unfold u_trackers. rewrite (proj1 F2). exact I.
  - apply (IHl s2); [|exact Hs|exact I]. unfold tracker_turn in H2. destruct (tracker_considers (snd e) ev); [|injection H2 as <-; exact F].
    bindn H2 u1 H1. injection H2 as <-. cbn [fst]. eapply framed_trans; [exact F|]. destruct (snd e) as [c1 k1 key1|]; [|injection H1 as <-; split; reflexivity].
    apply (framed_auto pr umax _ (framed_do pr umax n)) in H1. destruct H1 as [Y1 Y2]. split; assumption.
Qed.
Lemma path_long u p n : downstream u p p -> path u n p.
Proof.
  intro D. assert (G : forall n c, downstream u p c -> path u n c -> exists m, n < m /\ path u m p).
  { clear. intros n c D. revert n. induction D as [c k key H|q c k key H IH Hc]; intros n P.
    - exists (S n). split; [lia|]. econstructor; eauto.
    - destruct (IH (S n)) as (m & L & Q); [econstructor; eauto|]. exists m. split; [lia|exact Q]. }
  assert (Cut : forall m q, path u m q -> forall n, n <= m -> path u n q).
  { clear. induction 1 as [q|m q c k key I P IH]; intros n L; [replace n with 0 by lia; constructor|]. destruct n as [|n]; [constructor|]. econstructor; [exact I|apply IH; lia]. }
  induction n as [|n IH]; [constructor|]. destruct (G n p D IH) as (m & L & P). exact (Cut m p P (S n) L).
Qed.
Lemma self_stuck pr umax n u h p ev x y sel s : downstream u p p -> do_flush pr umax n u h p ev x y sel <> Ok s.
Proof. intros D H. exact (do_path pr umax n _ _ _ _ _ _ _ _ H (path_long _ _ _ D)). Qed.
Lemma downstream_put u p t q c : downstream u q c -> downstream (u_put u p t) q c.
Proof. induction 1; [eapply downstream_one|eapply downstream_more]; eauto. Qed.
Lemma self_flush pr umax fuel u h p w ev : downstream u p p -> sel_empty (w_changes w) = false ->
  (forall u', flush pr umax fuel u h p w ev <> Ok u') /\ (forall q, live_flush pr umax fuel u h p w ev <> Ok q).
Proof.
  intros D E. unfold flush, live_flush, flush_with, live_flush_with. rewrite E.
  split; intros z H; bindn H q Hq; exact (self_stuck _ _ _ _ _ _ _ _ _ _ _ (downstream_put _ _ _ _ _ D) Hq).
Qed.

(** ** Flushing is flushing without unlocking, then unlocking *)
Lemma apply_flags pr umax t a b ev sel :
  flush_apply pr umax (W t (SThese []) a b) ev sel = let* w := flush_apply pr umax (w_new t) ev sel in Ok (W (w_tab w) (w_changes w) a b).
Proof.
  unfold flush_apply. destruct (_ && _); [|reflexivity]. destruct sel as [|rows]; [reflexivity|]. cbn [w_tab w_new]. generalize (t_len t). intro n.
  change (W t (SThese []) a b) with (W (w_tab (w_new t)) (w_changes (w_new t)) a b). generalize (w_new t).
  induction rows as [|i rows IH]; intros w; [reflexivity|]. cbn [fold_res]. destruct (assert_ _ _); [|reflexivity]. cbn [bind].
  assert (D : delete_raw pr umax (W (w_tab w) (w_changes w) a b) i = let* w := delete_raw pr umax w i in Ok (W (w_tab w) (w_changes w) a b)).
  { unfold delete_raw. cbn [w_tab]. destruct (t_kind (w_tab w)); try reflexivity; repeat (match goal with |- bind ?x _ = _ => destruct x; cbn [bind]; [|reflexivity] end); reflexivity. }
  rewrite D. destruct (delete_raw pr umax w i) as [w1|e]; [|reflexivity]. cbn [bind]. apply IH.
Qed.
Lemma put_same u p t : nth_error (u_tabs u) p = Some t -> u_put u p t = u.
Proof. intro H. unfold u_put. rewrite upd_same by exact H. destruct u; reflexivity. Qed.
Lemma flush_live pr umax fuel u h p t0 w ev : ~ downstream u p p -> nth_error (u_tabs u) p = Some t0 -> can_write h p = true ->
  flush pr umax fuel u h p w ev = let* q := live_flush pr umax fuel u h p w ev in let* t := w_drop (snd q) in Ok (u_put (fst q) p t).
Proof.
  intros A N C. unfold flush, live_flush, flush_with, live_flush_with. destruct (sel_empty (w_changes w)) eqn:Em.
  - cbn [bind snd fst]. destruct (w_drop w) as [t|e]; [|reflexivity]. cbn [bind]. rewrite put_put. reflexivity.
  - change ((p, true) :: h) with ([] ++ (p, true) :: h). rewrite (more_do pr umax (downstream u p) p A) by (auto; apply fence_of, framed_put). cbn [app].
    destruct (do_flush _ _ _ _ _ _ _ _ _ _) as [q|e] eqn:E; [|reflexivity]. cbn [bind]. apply framed_do in E. destruct E as [_ L].
    cbn [u_put u_tabs] in L. rewrite upd_length in L.
    assert (Lp : p < length (u_tabs (fst q))) by (rewrite L; apply nth_error_Some; congruence).
    unfold u_get. destruct (nth_error (u_tabs (fst q)) p) as [t|] eqn:Et; [|apply nth_error_None in Et; lia]. cbn [bind]. rewrite C. cbn [lock_ok bind].
    rewrite apply_flags. destruct (ev_removal ev && negb (sel_empty (snd q))) eqn:R.
    + destruct (flush_apply _ _ _ _ _) as [w1|e]; [|reflexivity]. cbn [bind w_changes]. destruct (assert_ (sel_empty (w_changes w1)) PNotFlushed) as [|e] eqn:As; [|reflexivity].
      cbn [bind w_tab snd fst]. unfold w_drop. cbn [w_tab w_changes]. destruct (t_consistent (w_tab w1) && negb (sel_empty (w_changes w1))); [reflexivity|]. cbn [bind]. rewrite put_put. reflexivity.
    + unfold flush_apply. rewrite R. cbn [bind w_changes w_tab w_new sel_empty assert_ snd fst]. unfold w_drop. cbn [w_tab w_changes sel_empty negb].
      rewrite andb_false_r. cbn [bind]. rewrite put_put, put_same by exact Et. reflexivity.
Qed.

(** ** The lock afterwards is as one newly taken *)
Definition flagged (w : wlock) : Prop := w_pushed w = true \/ w_delete w = true -> sel_empty (w_changes w) = false.
Lemma flagged_add w i : flagged w -> flagged (event_add w i).
Proof. intros F. unfold event_add. destruct (t_kind _); try exact F. intros _. apply sel_push_full. Qed.
Lemma flagged_del w i : flagged w -> flagged (event_del w i).
Proof. intros F. unfold event_del. destruct (t_kind _); try exact F. intros _. apply sel_push_full. Qed.
Lemma flagged_cleared w : flagged w -> flagged (event_cleared w).
Proof. intros F. unfold event_cleared. destruct (t_kind _); try exact F. intros _. reflexivity. Qed.
Lemma flagged_push_end w r w' i : flagged w -> push_end_unchecked w r = Ok (w', i) -> flagged w'.
Proof.
  intros F H. unfold push_end_unchecked in H. bindn H q Hq. injection H as <- <-. apply flagged_add. unfold push_only_unchecked in Hq.
  bindn Hq cs Hc. bindn Hq l Hl. destruct l; [|discriminate]. injection Hq as <-. exact F.
Qed.
Lemma flagged_push w r w' i : flagged w -> push w r = Ok (w', i) -> flagged w'.
Proof.
  intros F H. unfold push in H. destruct (t_free (w_tab w)) as [|old l]; [eapply flagged_push_end; eauto|].
  bindn H q Hq. injection H as <- <-. unfold swap_out_row in Hq. bindn Hq i0 Hi. destruct (_ =? _); [|discriminate]. bindn Hq ps Hp. injection Hq as <-.
  exact (flagged_add (with_tab w _) old F).
Qed.
Lemma flagged_op pr umax w o w' its : flagged w -> avail Consistent o = true -> through_lock o = true -> wholesale o = false -> write_op pr umax w [] o = Ok (w', its) -> flagged w'.
Proof.
  intros F A TL Wh H.
  assert (RD : (let* _ := read_op pr umax (w_tab w) o in Ok (w, [])) = Ok (w', its) -> flagged w').
  { intro H'. bindn H' u Hu. injection H' as <- _. exact F. }
  destruct o; try discriminate A; try discriminate TL; try discriminate Wh; cbn [write_op] in H; try (apply RD; exact H); clear RD.
  - bindn H n H1. injection H as <- _. exact F.
  - bindn H n H1. bindn H n1 H2. bindn H n2 H3. injection H as <- _. exact F.
  - bindn H w1 H1. injection H as <- _. bindn H1 t Ht. injection H1 as <-. exact F.
  - bindn H w1 H1. injection H as <- _. bindn H1 q Hq. injection H1 as <-. destruct q. eapply flagged_push; eauto.
  - bindn H w1 H1. injection H as <- _. unfold push_all in H1. clear A TL Wh. revert w F H1. induction rs as [|r rs IH]; intros w F H1; cbn [fold_res] in H1; [injection H1 as <-; exact F|].
    bindn H1 w2 H2. bindn H2 q Hq. injection H2 as <-. destruct q. eapply IH; [|exact H1]. eapply flagged_push; eauto.
  - bindn H w1 H1. injection H as <- _. bindn H1 q Hq. injection H1 as <-. destruct rs as [|r rs]; unfold push_array in Hq; [injection Hq as <-; exact F|].
    bindn Hq q1 H1. bindn Hq q2 H2. bindn Hq e He. injection Hq as <-. cbn [fst]. destruct q1 as [w1 i1]. apply flagged_push_end in H1; [|exact F].
    clear He A TL Wh. change w1 with (fst (w1, i1)) in H1. revert H1 H2. generalize (w1, i1). induction rs as [|r1 rs IH]; intros q1 F1 H2; cbn [fold_res] in H2; [injection H2 as <-; exact F1|].
    bindn H2 q3 H3. apply (IH q3); [|exact H2]. destruct q3. eapply flagged_push_end; eauto.
  - bindn H w1 H1. injection H as <- _. unfold delete in H1. destruct (t_kind (w_tab w)) eqn:K; try discriminate H1.
    + bindn H1 x Hx. injection H1 as <-. apply flagged_del. exact F.
    + bindn H1 x Hx. unfold delete_raw in H1. rewrite K in H1. bindn H1 n Hn. bindn H1 cs Hc. bindn H1 cs1 Hc1. injection H1 as <-. exact F.
  - injection H as <- _. intros _. apply sel_push_full.
Qed.
Lemma empty_these s : sel_empty s = true -> s = SThese [].
Proof. destruct s as [|[|]]; cbn; congruence. Qed.
Lemma live_fresh pr umax fuel u p t es w ev u' w' : ~ downstream u p p -> nth_error (u_tabs u) p = Some t -> t_kind t = Consistent -> tg false (t_sch t) t ->
  Forall (fun o => op_ty (s_cols (t_sch t)) o /\ wholesale o = false) es -> do_edits pr umax (w_new t) es = Ok w -> live_flush pr umax fuel u [] p w ev = Ok (u', w') ->
  flush pr umax fuel u [] p w ev = Ok u' /\ exists t', nth_error (u_tabs u') p = Some t' /\ w' = w_new t'.
Proof.
  intros A N Kc G T He H.
  assert (F : flagged w).
  { set (P := fun q : wlock * list bag_pos => snd q = [] /\ tg false (t_sch t) (w_tab (fst q)) /\ flagged (fst q)). enough (X : P (w, [])) by apply X.
    eapply (edits_inv pr umax P (fun o => op_ty (s_cols (t_sch t)) o /\ wholesale o = false) es (w_new t)); [exact T| | |exact He].
    - split; [reflexivity|]. split; [exact G|]. intros [X|X]; discriminate X.
    - intros [w0 its] o [w1 its'] (Pn & Pg & Pf) (To & Wo) TL Av Wr Sp. cbn [fst snd] in *. subst its.
      pose proof (good_step pr umax false (t_sch t) (Locked w0 []) o Pg To) as X. rewrite Sp in X.
      rewrite (tg_kind _ _ _ Pg) in Av. change (s_kind (t_sch t)) with (t_kind t) in Av. rewrite Kc in Av.
      split; [eapply its_nil; eauto|]. split; [|eapply flagged_op; eauto].
      apply X; [|discriminate]. intros _ Y. change (s_kind (t_sch t)) with (t_kind t) in Y. congruence. }
  assert (Fr : exists t', nth_error (u_tabs u') p = Some t' /\ w' = w_new t').
  { unfold live_flush, live_flush_with in H. destruct (sel_empty (w_changes w)) eqn:Em.
    - injection H as <- <-. exists (w_tab w). split; [cbn; apply nth_error_upd_eq; apply nth_error_Some; congruence|].
      unfold flagged in F. rewrite Em in F. destruct w as [tw cw a b]. cbn [w_changes w_pushed w_delete w_tab] in *. apply empty_these in Em. subst cw.
      destruct a; [discriminate (F (or_introl eq_refl))|]. destruct b; [discriminate (F (or_intror eq_refl))|]. reflexivity.
    - bindn H q Hq. bindn H t1 Ht1. bindn H w1 Hw1. bindn H x Hx. injection H as <- <-. exists (w_tab w1).
      unfold u_get in Ht1. split; [cbn; apply nth_error_upd_eq; apply nth_error_Some; destruct (nth_error (u_tabs (fst q)) p); [discriminate|discriminate Ht1]|].
      unfold assert_ in Hx. destruct (sel_empty (w_changes w1)) eqn:E1; [|discriminate]. rewrite (empty_these _ E1). reflexivity. }
  split; [|exact Fr]. rewrite (flush_live pr umax fuel u [] p t w ev A N eq_refl), H. cbn [bind snd fst]. destruct Fr as (t' & N' & ->).
  unfold w_drop, w_new. cbn [w_tab w_changes sel_empty negb]. rewrite andb_false_r. cbn [bind]. rewrite put_same by exact N'. reflexivity.
Qed.

Section Works.
Variables (pr : profile) (umax fuel : nat) (rank : nat -> nat) (null : nat -> nat -> Prop) (order : nat -> row -> row -> comparison).
Hypothesis Or : forall c, total_preorder (order c).
Theorem works_lives fussy u0 u l : (forall p, rank p < fuel) -> wired rank order u0 -> all_new u0 -> works fussy pr umax fuel null order u0 u l ->
  lives pr umax fuel null order u0 u /\ (fussy = true -> tended pr umax fuel null order u0 u) /\
  match l with Some (p, w) => exists t, nth_error (u_tabs u) p = Some t /\ w = w_new t | None => True end.
Proof.
  intros Hf W0 N0 H. induction H as [|u p t H IH Hp|u p t w es w1 ev u' w' H IH Ca Hp Kc He Le Ty HF|u p t w es w1 ev u' H IH Ca Hp He Le Ty HF|u p w t H IH Hd].
  - split; [constructor|]. split; [constructor|exact I].
  - destruct IH as (L & T & _). split; [exact L|]. split; [exact T|]. eauto.
  - destruct IH as (L & T & t1 & N1 & ->). rewrite Hp in N1. injection N1 as <-. pose proof (lives_inv pr umax fuel rank null order Or u0 u Hf W0 N0 L) as V.
    destruct (live_fresh pr umax fuel u p t es w1 ev u' w') as (Fl & Fr); auto.
    + intro D. apply (downstream_rank rank) in D; [lia|]. intros q c k key I. apply (i_wired _ _ _ _ _ _ V) in I. apply I.
    + exact (i_tg _ _ _ _ _ _ V _ _ Hp).
    + pose proof (Ca t Hp) as C. rewrite Kc in C. destruct C as [C _]. eapply Forall_impl; [|exact C]. cbn. tauto.
    + split; [eapply lives_on; eauto|]. split; [|exact Fr]. intro Y. eapply tended_on; eauto.
  - destruct IH as (L & T & t1 & N1 & ->). rewrite Hp in N1. injection N1 as <-. split; [eapply lives_on; eauto|]. split; [|exact I]. intro Y. eapply tended_on; eauto.
  - destruct IH as (L & T & t1 & N1 & ->). unfold w_drop, w_new in Hd. cbn [w_tab w_changes sel_empty negb] in Hd. rewrite andb_false_r in Hd. injection Hd as <-.
    rewrite put_same by exact N1. auto.
Qed.
End Works.
