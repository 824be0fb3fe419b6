(** Lemmas behind PropsRace.v. *)
From Coq Require Import List Arith Bool Lia Sorting.Sorted Sorting.Permutation.
From Verif Require Import Base BaseFacts Column ColumnFacts RowRange Table TableSpec TableFacts Hist HistFacts TableProps
  Race RaceSpec.
Import ListNotations.

Section RF.
Variable pr : profile.
Variable umax : nat.
Variable s : schema.
Hypothesis Kc : s_kind s = Consistent.
Notation wt w := (tg false s (w_tab w)).
Notation has w i := (t_contains (w_tab w) i).

Lemma chosen_push c j i : chosen (sel_push c j) i -> chosen c i \/ i = j.
Proof. destruct c as [|l]; simpl; auto. rewrite in_app_iff. simpl. intuition. Qed.
Lemma chosen_sort (srt : bool) c i : chosen (if srt then sel_sort c else c) i <-> chosen c i.
Proof.
  destruct srt; [|tauto]. destruct c as [|l]; simpl; [tauto|].
  split; apply Permutation_in; [apply Permutation_sym|]; apply sort_ids_perm.
Qed.
Lemma event_add_changes w j : t_kind (w_tab w) = Consistent -> w_changes (event_add w j) = sel_push (w_changes w) j.
Proof. intro K. unfold event_add. rewrite K. reflexivity. Qed.

(** ** pushing *)
Definition pushes (w w' : wlock) : Prop :=
  (forall i, has w i = true -> has w' i = true) /\
  (forall i, chosen (w_changes w') i -> chosen (w_changes w) i \/ has w i = false).
Lemma pushes_refl w : pushes w w.
Proof. split; auto. Qed.
Lemma pushes_trans a b c : pushes a b -> pushes b c -> pushes a c.
Proof.
  intros [A1 A2] [B1 B2]. split; auto. intros i Hi. destruct (B2 _ Hi) as [X|X]; auto.
  right. destruct (has a i) eqn:E; auto. rewrite (A1 _ E) in X. discriminate.
Qed.
Lemma push_effect w r w' j : wt w -> row_ty (s_cols s) r -> push w r = Ok (w', j) -> pushes w w'.
Proof.
  intros G T H. pose proof G as (E & live & rows & K & _).
  pose proof (push_full_spec w live rows r K) as P. rewrite E in P. specialize (P T). rewrite H in P.
  destruct P as (P1 & _ & P2 & _). split.
  - intros i Hi. destruct (Nat.eq_dec i j) as [->|N]; [congruence|]. destruct (P2 i N) as (_ & -> & _). auto.
  - intros i Hi. assert (Q : w_changes w' = sel_push (w_changes w) j).
    { pose proof (tg_kind _ _ _ G) as Kw. rewrite Kc in Kw. clear - H Kw. unfold push in H.
      destruct (t_free (w_tab w)) as [|o f] eqn:F.
      - unfold push_end_unchecked in H. bindn H q Hq. destruct q as [w1 i1]. inv H.
        destruct (push_only_log _ _ _ _ Hq) as (t & -> & Et). simpl. rewrite event_add_changes; auto.
        simpl. unfold t_kind in *. congruence.
      - bindn H q Hq. destruct q as [w1 o']. inv H. apply swap_out_log in Hq. destruct Hq as (t & Q & Et).
        cbn [fst]. rewrite Q. simpl. rewrite event_add_changes; auto. }
    rewrite Q in Hi. destruct (chosen_push _ _ _ Hi) as [X|X]; [auto|subst; auto].
Qed.
Lemma push_end_effect w r w' j : wt w -> row_ty (s_cols s) r -> push_end_unchecked w r = Ok (w', j) -> pushes w w'.
Proof.
  intros G T H. pose proof G as (E & live & rows & K & _). rewrite <- E in T.
  pose proof (tg_kind _ _ _ G) as Kw. rewrite Kc in Kw.
  destruct (Nat.leb_spec (length rows) (t_imax (w_tab w))) as [L|L].
  - destruct (push_end_ok w live rows r K T L (up live (length rows))) as (cs & Q & K').
    { intros x Hx. unfold up. destruct (Nat.eqb_spec x (length rows)); [lia|auto]. }
    { unfold up. rewrite Nat.eqb_refl. auto. }
    rewrite Q in H. inv H. split.
    + intros i Hi. rewrite event_add_tab. apply (contains_iff _ _ _ K) in Hi. destruct Hi as [Hi Hf].
      apply (contains_iff _ _ _ K'). rewrite app_length. simpl. split; [lia|auto].
    + intros i Hi. rewrite event_add_changes in Hi by exact Kw. destruct (chosen_push _ _ _ Hi) as [X|X]; auto.
      right. destruct (has w i) eqn:C; auto. apply (contains_iff _ _ _ K) in C. lia.
  - rewrite (push_end_full w live rows r K T L) in H. discriminate.
Qed.
Lemma push_tg w r w' j : wt w -> row_ty (s_cols s) r -> push w r = Ok (w', j) -> wt w'.
Proof. intros G T H. pose proof (good_push_tg pr umax false s w r G T) as X. rewrite H in X. exact X. Qed.
Lemma push_end_tg w r w' j : wt w -> row_ty (s_cols s) r -> push_end_unchecked w r = Ok (w', j) -> wt w'.
Proof. intros G T H. pose proof (good_push_end_tg pr umax false s w r G T) as X. rewrite H in X. exact X. Qed.
Lemma push_all_effect rs : forall w w', wt w -> Forall (row_ty (s_cols s)) rs -> push_all w rs = Ok w' -> pushes w w'.
Proof.
  induction rs as [|r rs IH]; intros w w' G T H; unfold push_all in H; cbn [fold_res] in H.
  - inv H. apply pushes_refl.
  - inv T. bindn H w1 H1. bindn H1 q Hq. inv H1. destruct q as [w1 j]. cbn [fst] in *.
    eapply pushes_trans; [eapply push_effect; eauto|]. apply IH; auto. eapply push_tg; eauto.
Qed.
Lemma push_ends_effect rs : forall w i w' j, wt w -> Forall (row_ty (s_cols s)) rs ->
  fold_res (fun s r => push_end_unchecked (fst s) r) rs (w, i) = Ok (w', j) -> pushes w w'.
Proof.
  induction rs as [|r rs IH]; intros w i w' j G T H; cbn [fold_res] in H.
  - inv H. apply pushes_refl.
  - inv T. bindn H q Hq. destruct q as [w1 i1]. cbn [fst] in *.
    eapply pushes_trans; [eapply push_end_effect; eauto|]. eapply IH; eauto. eapply push_end_tg; eauto.
Qed.
Lemma push_array_effect rs w w' x : wt w -> Forall (row_ty (s_cols s)) rs -> push_array pr w rs = Ok (w', x) -> pushes w w'.
Proof.
  intros G T H. destruct rs as [|r rs]; unfold push_array in H; [inv H; apply pushes_refl|].
  inv T. bindn H q Hq. bindn H q2 Hq2. bindn H e He. inv H. destruct q as [w1 i1], q2 as [w2 i2]. cbn [fst] in *.
  eapply pushes_trans; [eapply push_end_effect; eauto|]. eapply push_ends_effect; eauto. eapply push_end_tg; eauto.
Qed.

(** ** removing *)
Lemma removal_effect w ids w' : wt w ->
  fold_res (fun w0 i => let* _ := assert_ (i <? t_len (w_tab w)) PRemoveRange in delete_raw pr umax w0 i) ids w = Ok w' ->
  wt w' /\ w_changes w' = w_changes w /\ forall i, has w' i = has w i && negb (mem i ids).
Proof.
  intros G H. pose proof G as (E & live & rows & K & _). pose proof (tg_kind _ _ _ G) as Kw. rewrite Kc in Kw.
  pose proof (delete_raws_inv _ _ _ _ _ _ H) as F. rewrite (t_len_ok _ _ _ K) in *.
  destruct (delete_raws_exact pr umax rows ids w live K Kw F) as (w1 & Q & K1 & E1 & M & Ch & _).
  rewrite Q in H. inv H. split; [|split; [auto|]].
  - split; [congruence|]. exists (down live ids), rows. split; auto. discriminate.
  - intro i. destruct (has w' i) eqn:A.
    + apply (contains_iff _ _ _ K1) in A. destruct A as [A B]. rewrite M in B. apply orb_false_iff in B.
      destruct B as [B1 B2]. rewrite B2. symmetry. rewrite andb_true_r. apply (contains_iff _ _ _ K). auto.
    + destruct (has w i) eqn:B; auto. apply (contains_iff _ _ _ K) in B. destruct B as [B1 B2].
      destruct (mem i ids) eqn:Mi; auto. exfalso.
      assert (X : has w' i = true) by (apply (contains_iff _ _ _ K1); split; auto; rewrite M, B2, Mi; auto). congruence.
Qed.
Lemma clear_raw_has w i : wt w -> has (clear_raw w) i = false.
Proof.
  intros (E & live & rows & K & _). pose proof (clear_raw_ok w live rows live K) as K'.
  destruct (has (clear_raw w) i) eqn:A; auto. apply (contains_iff _ _ _ K') in A. simpl in A. lia.
Qed.
Lemma clear_raw_tg w : wt w -> wt (clear_raw w).
Proof. intro G. apply tg_clear_raw; auto. discriminate. Qed.
Lemma apply_effect w ev ch w' : wt w -> flush_apply pr umax w ev ch = Ok w' ->
  wt w' /\ w_changes w' = w_changes w /\
  (forall i, has w' i = true -> has w i = true) /\
  (forall i, has w i = true -> has w' i = false -> ev_removal ev = true /\ chosen ch i) /\
  (forall i, ev_removal ev = true -> chosen ch i -> has w' i = false).
Proof.
  intros G H. unfold flush_apply in H. destruct (ev_removal ev) eqn:R; simpl in H.
  2:{ inv H. split; auto. split; auto. split; [auto|]. split; [intros; congruence|discriminate]. }
  destruct (negb (sel_empty ch)) eqn:Em.
  2:{ inv H. split; auto. split; auto. split; [auto|]. split; [intros; congruence|].
      intros i _ Hi. destruct ch as [|[|x l]]; simpl in Em, Hi; try discriminate. tauto. }
  destruct ch as [|ids].
  - inv H. split; [apply clear_raw_tg; auto|]. split; [reflexivity|]. split; [|split].
    + intros i Hi. rewrite clear_raw_has in Hi by auto. discriminate.
    + simpl. auto.
    + intros i _ _. apply clear_raw_has. auto.
  - cbv zeta in H. destruct (removal_effect _ _ _ G H) as (G' & Ch & X).
    split; auto. split; auto. split; [|split].
    + intros i. rewrite X. intro Y. apply andb_true_iff in Y. tauto.
    + intros i A. rewrite X, A. simpl. intro M. apply negb_false_iff in M. apply mem_In in M. auto.
    + intros i _ Hi. rewrite X. simpl in Hi. apply mem_In in Hi. rewrite Hi. apply andb_false_r.
Qed.

(** ** calls of the holder *)
Lemma write_tg w o w' its : wt w -> op_ty (s_cols s) o -> avail Consistent o = true ->
  write_op pr umax w [] o = Ok (w', its) -> wt w'.
Proof.
  intros G T A H. pose proof (good_write_op pr umax false s w [] o G T) as X. rewrite Kc, H in X.
  apply X; auto; [|discriminate]. intros _ Y. discriminate.
Qed.
Definition takes (w : wlock) (o : op) (i : nat) : Prop :=
  o = OClearRaw \/ exists srt ev, o = OLiveFlush srt ev /\ ev_removal ev = true /\ chosen (w_changes w) i.
Definition marks (w : wlock) (o : op) (i : nat) : Prop :=
  o = ODelete i \/ o = OSelect i \/ o = OClear \/ o = OSelectAll \/ (is_push o = true /\ has w i = false).
Definition effect (w : wlock) (o : op) (w' : wlock) : Prop :=
  (forall i, has w i = true -> has w' i = false -> takes w o i) /\
  (forall i, has w i = false -> has w' i = true -> is_push o = true) /\
  (forall i, chosen (w_changes w') i -> chosen (w_changes w) i \/ marks w o i).
Lemma effect_none w o w' : w_tab w' = w_tab w -> (forall i, chosen (w_changes w') i -> chosen (w_changes w) i \/ marks w o i) ->
  effect w o w'.
Proof. intros E H. split; [|split; auto]; intros i A B; rewrite E in B; congruence. Qed.
Lemma effect_pushes w o w' : is_push o = true -> pushes w w' -> effect w o w'.
Proof.
  intros P [A B]. split; [|split].
  - intros i X Y. rewrite (A _ X) in Y. discriminate.
  - auto.
  - intros i Hi. destruct (B _ Hi); auto. right. unfold marks. auto 6.
Qed.
Lemma write_effect w o w' its : wt w -> op_ty (s_cols s) o -> avail Consistent o = true ->
  write_op pr umax w [] o = Ok (w', its) -> effect w o w'.
Proof.
  intros G T A H. pose proof (tg_kind _ _ _ G) as Kw. rewrite Kc in Kw.
  assert (RD : (let* _ := read_op pr umax (w_tab w) o in Ok (w, [])) = Ok (w', its) -> effect w o w').
  { intro H'. bindn H' u Hu. inv H'. apply effect_none; auto. }
  destruct o; simpl in A; try discriminate; cbn [write_op] in H; try (apply RD; exact H); clear RD.
  - bindn H w1 H1. inv H. unfold w_live_flush in H1. destruct (sel_empty (w_changes w)) eqn:Em.
    + inv H1. apply effect_none; auto.
    + bindn H1 u Hu. bindn H1 w2 H2. bindn H1 u2 H3. inv H1. 
      apply (apply_effect (W (w_tab w) (SThese []) (w_pushed w) (w_delete w))) in H2; [|exact G]. destruct H2 as (G2 & Ch & M & R & _).
      simpl in Ch. split; [|split]; cbn [w_tab w_changes] in *.
      * intros i X Y. destruct (R i X Y) as [R1 R2]. apply chosen_sort in R2. right. eauto.
      * intros i X Y. rewrite (M i Y) in X. discriminate.
      * rewrite Ch. simpl. tauto.
  - bindn H n H1. inv H. apply effect_none; auto.
  - bindn H n H1. bindn H n1 H2. bindn H n2 H3. inv H. apply effect_none; auto.
  - bindn H w1 H1. inv H. bindn H1 t Ht. inv H1. simpl in T. pose proof G as (E & live & rows & K & _).
    assert (Sm : forall j, t_contains t j = has w j).
    { rewrite <- E in T. destruct (assign_exact _ _ _ _ _ _ _ K T Ht) as (r & Hr & K').
      assert (Fr : t_free t = t_free (w_tab w)).
      { clear - Ht. unfold t_assign in Ht. destruct (nth_error _ k) as [[b|]|]; try discriminate. bindn Ht c Hc. inv Ht. reflexivity. }
      intro j. destruct (t_contains t j) eqn:Q; symmetry.
      - apply (contains_iff _ _ _ K') in Q. rewrite upd_length, Fr in Q. apply (contains_iff _ _ _ K). exact Q.
      - destruct (has w j) eqn:Q2; auto. apply (contains_iff _ _ _ K) in Q2.
        assert (t_contains t j = true) by (apply (contains_iff _ _ _ K'); rewrite upd_length, Fr; exact Q2). congruence. }
    split; [|split; auto]; intros j X Y; simpl in Y; rewrite Sm in Y; congruence.
  - bindn H w1 H1. inv H. bindn H1 q Hq. inv H1. destruct q. apply effect_pushes; auto. eapply push_effect; eauto.
  - bindn H w1 H1. inv H. destruct rs as [|r rs]; [inv H1; apply effect_none; auto|].
    apply effect_pushes; auto. eapply push_all_effect; eauto.
  - bindn H w1 H1. inv H. bindn H1 q Hq. inv H1. destruct q as [w2 x]. destruct rs as [|r rs].
    + inv Hq. apply effect_none; auto.
    + apply effect_pushes; auto. eapply push_array_effect; eauto.
  - bindn H w1 H1. inv H. unfold delete in H1. rewrite Kw in H1. bindn H1 x Hx. inv H1.
    pose proof G as (E & live & rows & K & _). apply (t_check_inv _ _ _ K) in Hx. destruct Hx as (-> & _).
    unfold event_del. rewrite Kw. apply effect_none; auto. simpl. intros j Hj.
    destruct (chosen_push _ _ _ Hj) as [X|X]; auto. subst. right. left. auto.
  - inv H. apply effect_none; auto. simpl. intros j Hj. destruct (chosen_push _ _ _ Hj) as [X|X]; auto.
    subst. right. right. left. auto.
  - inv H. apply effect_none; auto. intros j _. right. unfold marks. auto 6.
  - inv H. unfold clear, event_cleared. rewrite Kw. apply effect_none; auto. intros j _. right. unfold marks. auto 6.
  - inv H. split; [|split].
    + intros j _ _. left. auto.
    + intros j _ X. rewrite clear_raw_has in X by auto. discriminate.
    + simpl. auto.
Qed.

(** ** one step *)
Lemma waits_cons y p x c q : waits (Sys c ((p, x) :: x_wait y)) q = if p =? q then Some x else waits y q.
Proof. unfold waits. simpl. destruct (p =? q); reflexivity. Qed.
Lemma waits_no y p c q : waits (Sys c (no_wait y p)) q = if p =? q then None else waits y q.
Proof.
  unfold waits, no_wait. simpl. induction (x_wait y) as [|[a b] l IH]; simpl; [destruct (p =? q); auto|].
  destruct (Nat.eqb_spec a p) as [->|N]; simpl.
  - rewrite IH. destruct (p =? q); auto.
  - destruct (Nat.eqb_spec a q) as [->|N2]; auto. destruct (Nat.eqb_spec p q); [congruence|auto].
Qed.
Lemma waits_same y c q : waits (Sys c (x_wait y)) q = waits y q.
Proof. reflexivity. Qed.

Lemma guarded_inv {A} y (x : res A) k y' : guarded y x k = Ok y' ->
  (exists a, x = Ok a /\ y' = k a) \/ y' = Sys CPoisoned (x_wait y).
Proof. unfold guarded. destruct x as [a|[c| | |]]; intro H; inv H; eauto. Qed.
Lemma drop_inv w t : w_drop w = Ok t -> t = w_tab w /\ (t_kind (w_tab w) = Consistent -> sel_empty (w_changes w) = true).
Proof.
  unfold w_drop. intro H. destruct (t_consistent (w_tab w)) eqn:C; simpl in H.
  - destruct (sel_empty (w_changes w)); simpl in H; [inv H; auto|discriminate].
  - inv H. split; auto. intro K. unfold t_consistent in C. rewrite K in C. discriminate.
Qed.
Lemma begin_inv y p srt ev w y' : flush_begin y p srt ev w = Ok y' ->
  y' = Sys CPoisoned (x_wait y) \/ y' = Sys (CFree (w_tab w)) (x_wait y) \/
  exists ch, y' = Sys (CFree (w_tab w)) ((p, (ev, ch)) :: x_wait y) /\ (forall i, chosen ch i <-> chosen (w_changes w) i) /\
    sel_empty (w_changes w) = false /\ ev_removal ev = true.
Proof.
  unfold flush_begin. destruct (sel_empty (w_changes w)) eqn:Em; intro H.
  - apply guarded_inv in H. destruct H as [[t [H ->]]|H]; [|auto]. apply drop_inv in H. destruct H as [-> _]. auto.
  - destruct (flush_check _ _ _) as [u|[c| | |]]; inv H; auto.
    destruct (ev_removal ev) eqn:R; cbn [andb]; [|auto].
    destruct (negb (sel_empty (if srt then _ else _))); auto. right. right. eexists. split; [reflexivity|].
    split; [intro; apply chosen_sort|auto].
Qed.
(** What each step does. *)
Definition stepped (y : sys) (a : xact) (y' : sys) : Prop :=
  y' = Sys CPoisoned (x_wait y) \/
  match a with
  | XLock p => exists t, x_cell y = CFree t /\ waits y p = None /\ y' = Sys (CHeld p (w_new t)) (x_wait y)
  | XOp p o => exists w w' its, x_cell y = CHeld p w /\ keeps_lock o = true /\ avail (t_kind (w_tab w)) o = true /\
      write_op pr umax w [] o = Ok (w', its) /\ y' = Sys (CHeld p w') (x_wait y)
  | XClose p => exists w, x_cell y = CHeld p w /\ y' = Sys (CFree (w_tab w)) (x_wait y)
  | XFlush p srt ev => exists w, x_cell y = CHeld p w /\
      (y' = Sys (CFree (w_tab w)) (x_wait y) \/
       exists ch, y' = Sys (CFree (w_tab w)) ((p, (ev, ch)) :: x_wait y) /\ (forall i, chosen ch i <-> chosen (w_changes w) i) /\ ev_removal ev = true)
  | XApply p => exists t ev ch w, x_cell y = CFree t /\ waits y p = Some (ev, ch) /\
      flush_apply pr umax (w_new t) ev ch = Ok w /\ y' = Sys (CFree (w_tab w)) (no_wait y p)
  | XRemove p srt ev (SThese rows) => exists t w, x_cell y = CFree t /\ waits y p = None /\
      fold_res (fun w i => let* _ := assert_ (i <? t_len t) PRemoveRange in delete_raw pr umax w i) rows (w_new t) = Ok w /\
      y' = Sys (CFree (w_tab w)) (x_wait y)
  | XRemove p srt ev SAll => exists t, x_cell y = CFree t /\ waits y p = None /\
      (y' = Sys (CFree (w_tab (clear_raw (w_new t)))) (x_wait y) \/
       exists ch, y' = Sys (CFree (w_tab (clear_raw (w_new t)))) ((p, (ev, ch)) :: x_wait y) /\ ev_removal ev = true)
  end.
Definition c_tg (y : sys) : Prop :=
  match x_cell y with CFree t => tg false s t | CHeld _ w => wt w | CPoisoned => True end.
Lemma step_inv y a y' : c_tg y -> xstep pr umax y a = Ok y' -> stepped y a y'.
Proof.
  intros G H. unfold c_tg in G. unfold stepped, xstep in *.
  destruct (x_cell y) as [t|q w|] eqn:Ec; destruct a as [p|p o|p|p srt ev|p|p srt ev rows]; try discriminate H.
  - destruct (waits y p) eqn:Ew; inv H. right. eauto.
  - destruct (waits y p) as [[ev ch]|] eqn:Ew; [|discriminate]. apply guarded_inv in H. destruct H as [[t' [H ->]]| ->].
    + right. unfold flush_end in H. bindn H w Hw. bindn H u Hu. apply drop_inv in H. destruct H as [-> _].
      exists t, ev, ch, w. auto.
    + left. reflexivity.
  - destruct (waits y p) eqn:Ew; [discriminate|]. assert (Kt : t_kind t = Consistent) by (rewrite (tg_kind _ _ _ G); auto).
    rewrite Kt in H. destruct rows as [|rows].
    + cbn zeta in H. apply begin_inv in H.
      assert (Et : w_tab (clear (clear_raw (w_new t))) = w_tab (clear_raw (w_new t))).
      { unfold clear, event_cleared. destruct (t_kind _) eqn:Q; try reflexivity; simpl in Q; unfold t_kind in *; simpl in Q; congruence. }
      rewrite Et in H. destruct H as [->|[->|(ch & -> & _ & _ & Er)]]; [left|right|right]; eauto 8.
    + cbn zeta in H. destruct (fold_res _ rows (w_new t)) as [w|[c| | |]] eqn:Ef; inv H.
      * destruct (removal_effect (w_new t) rows w G Ef) as (_ & Ch & _). apply begin_inv in H1.
        destruct H1 as [->|[->|(ch & -> & _ & X & _)]]; [left|right|].
        { reflexivity. }
        { exists t, w. auto. }
        { rewrite Ch in X. discriminate. }
      * left. reflexivity.
  - destruct (Nat.eqb_spec p q) as [->|]; [|discriminate]. cbn [andb] in H.
    destruct (keeps_lock o) eqn:Kl; [|discriminate]. destruct (avail _ o) eqn:A; [|discriminate]. cbn [andb] in H.
    apply guarded_inv in H. destruct H as [[[w' its] [H ->]]| ->].
    + right. exists w, w', its. auto.
    + left. reflexivity.
  - destruct (Nat.eqb_spec p q) as [->|]; [|discriminate]. apply guarded_inv in H. destruct H as [[t [H ->]]| ->].
    + right. apply drop_inv in H. destruct H as [-> _]. eauto.
    + left. reflexivity.
  - destruct (Nat.eqb_spec p q) as [->|]; [|discriminate]. apply begin_inv in H.
    destruct H as [->|[->|(ch & -> & X & _ & Er)]]; [left|right|right]; eauto 9.
Qed.

Lemma step_tg y a y' : c_tg y -> xact_ty (s_cols s) a -> xstep pr umax y a = Ok y' -> c_tg y'.
Proof.
  intros G T H. pose proof (step_inv y a y' G H) as X. unfold c_tg in *.
  destruct X as [->|X]; [exact I|].
  destruct a as [p|p o|p|p srt ev|p|p srt ev [|rows]].
  - destruct X as (t & Ec & _ & ->). rewrite Ec in G. exact G.
  - destruct X as (w & w' & its & Ec & _ & A & Hw & ->). rewrite Ec in G. simpl.
    rewrite (tg_kind _ _ _ G), Kc in A. eapply write_tg; eauto.
  - destruct X as (w & Ec & ->). rewrite Ec in G. exact G.
  - destruct X as (w & Ec & [->|(ch & -> & _)]); rewrite Ec in G; exact G.
  - destruct X as (t & ev & ch & w & Ec & _ & Hw & ->). rewrite Ec in G. simpl.
    apply (apply_effect (w_new t)) in Hw; [|exact G]. apply Hw.
  - destruct X as (t & Ec & _ & [->|(ch & -> & _)]); rewrite Ec in G; apply (clear_raw_tg (w_new t) G).
  - destruct X as (t & w & Ec & _ & Hw & ->). rewrite Ec in G. apply (removal_effect (w_new t) _ _ G Hw).
Qed.
Lemma run_tg l : forall y y', c_tg y -> Forall (xact_ty (s_cols s)) l -> xrun pr umax y l = Ok y' -> c_tg y'.
Proof.
  induction l as [|a l IH]; intros y y' G T H; unfold xrun in H; cbn [fold_res] in H; [inv H; auto|].
  inv T. bindn H y1 Hy. apply (IH y1 y'); auto. apply (step_tg y a y1); auto.
Qed.
Lemma new_tg : s_cols s <> [] -> c_tg (x_new s).
Proof. intro N. split; auto. exists (fun _ => true), []. split; [apply t_new_ok; auto|discriminate]. Qed.

(** Which steps remove rows. *)
Lemma removal_steps y a y' i : c_tg y -> xact_ty (s_cols s) a -> xstep pr umax y a = Ok y' -> removes y y' i ->
  (exists p ev ch, a = XApply p /\ waits y p = Some (ev, ch) /\ ev_removal ev = true /\ chosen ch i) \/
  (exists p w srt ev, a = XOp p (OLiveFlush srt ev) /\ x_cell y = CHeld p w /\ ev_removal ev = true /\ chosen (w_changes w) i) \/
  (exists p, a = XOp p OClearRaw) \/
  (exists p srt ev rows, a = XRemove p srt ev rows /\ chosen rows i).
Proof.
  intros G T H (L & D & Np). pose proof (step_inv y a y' G H) as X. unfold c_tg in *. unfold alive in *.
  destruct X as [->|X]; [exfalso; apply Np; reflexivity|].
  destruct a as [p|p o|p|p srt ev|p|p srt ev [|rows]].
  - destruct X as (t & Ec & _ & ->). rewrite Ec in L. simpl in D. congruence.
  - destruct X as (w & w' & its & Ec & _ & A & Hw & ->). rewrite Ec in *. simpl in D.
    rewrite (tg_kind _ _ _ G), Kc in A. destruct (write_effect w o w' its G T A Hw) as [E _].
    destruct (E i L D) as [->|(srt & ev & -> & R & C)]; [eauto|]. right. left. exists p, w, srt, ev. auto.
  - destruct X as (w & Ec & ->). rewrite Ec in L. simpl in D. congruence.
  - destruct X as (w & Ec & [->|(ch & -> & _)]); rewrite Ec in L; simpl in D; congruence.
  - destruct X as (t & ev & ch & w & Ec & Ew & Hw & ->). rewrite Ec in *. simpl in D.
    apply (apply_effect (w_new t)) in Hw; [|exact G]. destruct Hw as (_ & _ & _ & R & _).
    destruct (R i L D) as [R1 R2]. left. exists p, ev, ch. auto.
  - right. right. right. exists p, srt, ev, SAll. simpl. auto.
  - destruct X as (t & w & Ec & _ & Hw & ->). rewrite Ec in *. simpl in D.
    destruct (removal_effect (w_new t) _ _ G Hw) as (_ & _ & R). rewrite R in D. simpl in D. rewrite L in D. simpl in D.
    apply negb_false_iff, mem_In in D. right. right. right. exists p, srt, ev, (SThese rows). auto.
Qed.
(** Which steps make rows appear. *)
Lemma appear_steps y a y' i : c_tg y -> xact_ty (s_cols s) a -> xstep pr umax y a = Ok y' ->
  alive y i = false -> alive y' i = true -> exists p o, a = XOp p o /\ is_push o = true.
Proof.
  intros G T H D L. pose proof (step_inv y a y' G H) as X. unfold c_tg in *. unfold alive in *.
  destruct X as [->|X]; [discriminate L|].
  destruct a as [p|p o|p|p srt ev|p|p srt ev [|rows]].
  - destruct X as (t & Ec & _ & ->). rewrite Ec in D. simpl in L. congruence.
  - destruct X as (w & w' & its & Ec & _ & A & Hw & ->). rewrite Ec in *. simpl in L.
    rewrite (tg_kind _ _ _ G), Kc in A. destruct (write_effect w o w' its G T A Hw) as (_ & E & _). eauto.
  - destruct X as (w & Ec & ->). rewrite Ec in D. simpl in L. congruence.
  - destruct X as (w & Ec & [->|(ch & -> & _)]); rewrite Ec in D; simpl in L; congruence.
  - destruct X as (t & ev & ch & w & Ec & Ew & Hw & ->). rewrite Ec in *. simpl in L.
    apply (apply_effect (w_new t)) in Hw; [|exact G]. destruct Hw as (_ & _ & M & _). rewrite M in D; auto. discriminate.
  - destruct X as (t & Ec & _ & [->|(ch & -> & _)]); rewrite Ec in *; cbn [x_cell] in L;
      rewrite (clear_raw_has (w_new t) i G) in L; discriminate.
  - destruct X as (t & w & Ec & _ & Hw & ->). rewrite Ec in *. simpl in L.
    destruct (removal_effect (w_new t) _ _ G Hw) as (_ & _ & R). rewrite R in L. simpl in L. rewrite D in L. discriminate.
Qed.

(** ** whole runs *)
Lemma xrun_snoc y l a y1 y' : xrun pr umax y l = Ok y1 -> xstep pr umax y1 a = Ok y' -> xrun pr umax y (l ++ [a]) = Ok y'.
Proof. intros H1 H2. unfold xrun in *. rewrite fold_res_app, H1. simpl. rewrite H2. reflexivity. Qed.
Lemma asked_app y0 l a p i : listed pr umax y0 l p i -> listed pr umax y0 (l ++ [a]) p i.
Proof.
  intros (l1 & b & l2 & y1 & -> & R & A). exists l1, b, (l2 ++ [a]), y1. split; [|auto].
  rewrite <- app_assoc. reflexivity.
Qed.
Lemma asked_now y0 l a y p i : xrun pr umax y0 l = Ok y -> lists y a p i -> listed pr umax y0 (l ++ [a]) p i.
Proof. intros R A. exists l, a, [], y. auto. Qed.
Lemma deserved_now y0 l a y y' p i : xrun pr umax y0 l = Ok y -> xstep pr umax y a = Ok y' -> lists y a p i ->
  alive y' i = true -> ever_since pr umax (fun y b => lists y b p i) y0 (l ++ [a]) i.
Proof.
  intros R St A L. exists l, a, [], y, y'. split; auto. split; auto. split; auto. split; auto.
  intros l1 l2 z E Z. destruct l1; [|discriminate]. inv Z. exact L.
Qed.
Lemma snoc_split {A} (l l1 l2 : list A) a : l ++ [a] = l1 ++ l2 -> l1 = l ++ [a] \/ exists l3, l = l1 ++ l3.
Proof.
  intro E. destruct l2 as [|b l2] using rev_ind.
  - rewrite app_nil_r in E. auto.
  - rewrite app_assoc in E. apply app_inj_tail in E. destruct E as [-> ->]. eauto.
Qed.
Lemma deserved_app y0 l a y y' p i : xrun pr umax y0 l = Ok y -> xstep pr umax y a = Ok y' ->
  ever_since pr umax (fun y b => lists y b p i) y0 l i -> alive y' i = true -> ever_since pr umax (fun y b => lists y b p i) y0 (l ++ [a]) i.
Proof.
  intros R St (l1 & b & l2 & y1 & y2 & -> & R1 & S1 & A & Th) L.
  exists l1, b, (l2 ++ [a]), y1, y2. split; [rewrite <- app_assoc; reflexivity|]. split; auto. split; auto. split; auto.
  intros m1 m2 z E Z. destruct (snoc_split _ _ _ _ E) as [->|[m3 ->]].
  - assert (Z2 : xrun pr umax y0 (l1 ++ b :: l2) = Ok y) by exact R.
    unfold xrun in *. rewrite fold_res_app, R1 in Z2. cbn [bind fold_res] in Z2. rewrite S1 in Z2. cbn [bind] in Z2.
    rewrite fold_res_app, Z2 in Z. cbn [bind fold_res] in Z. rewrite St in Z. cbn [bind] in Z. inv Z. exact L.
  - eapply Th; eauto.
Qed.
Lemma undisturbed_app y0 l a : undisturbed pr umax y0 (l ++ [a]) -> undisturbed pr umax y0 l.
Proof.
  intros U l1 b l2 y y' p ev ch i -> R. intros. eapply (U l1 b (l2 ++ [a])); eauto. rewrite <- app_assoc. reflexivity.
Qed.

Record inv_x (y0 : sys) (l : list xact) (y : sys) : Prop := {
  ix_hold : forall p w, x_cell y = CHeld p w -> waits y p = None;
  ix_held : forall p w i, x_cell y = CHeld p w -> chosen (w_changes w) i ->
    listed pr umax y0 l p i /\ (has w i = true -> ever_since pr umax (fun y b => lists y b p i) y0 l i);
  ix_wait : forall p ev ch i, waits y p = Some (ev, ch) -> chosen ch i -> listed pr umax y0 l p i;
  ix_calm : undisturbed pr umax y0 l -> forall p ev ch i, waits y p = Some (ev, ch) -> chosen ch i -> alive y i = true ->
    ever_since pr umax (fun y b => lists y b p i) y0 l i }.

Lemma alive_held y p w i : x_cell y = CHeld p w -> alive y i = has w i.
Proof. intro E. unfold alive. rewrite E. reflexivity. Qed.

Lemma inv_step y0 l y a y' : c_tg y -> xact_ty (s_cols s) a -> xrun pr umax y0 l = Ok y -> inv_x y0 l y ->
  xstep pr umax y a = Ok y' -> inv_x y0 (l ++ [a]) y'.
Proof.
  intros G T R I H. pose proof (step_inv y a y' G H) as X.
  (* a thread waiting before and after *)
  assert (OLD : forall q ev ch i, waits y q = Some (ev, ch) -> chosen ch i -> listed pr umax y0 (l ++ [a]) q i).
  { intros q ev ch i Hq Hi. apply asked_app. eapply (ix_wait _ _ _ I); eauto. }
  assert (OLDC : undisturbed pr umax y0 (l ++ [a]) -> forall q ev ch i, actor a <> q -> waits y q = Some (ev, ch) ->
     chosen ch i -> alive y' i = true -> ever_since pr umax (fun y b => lists y b q i) y0 (l ++ [a]) i).
  { intros U q ev ch i Nq Hq Hi L. eapply deserved_app; eauto. eapply (ix_calm _ _ _ I); eauto.
    - eapply undisturbed_app; eauto.
    - rewrite <- L. symmetry. eapply (U l a []); eauto. }
  (* nothing new about waiting *)
  assert (SAME : x_wait y' = x_wait y -> waits y (actor a) = None \/ x_cell y' = CPoisoned ->
    (forall p ev ch i, waits y' p = Some (ev, ch) -> chosen ch i -> listed pr umax y0 (l ++ [a]) p i) /\
    (undisturbed pr umax y0 (l ++ [a]) -> forall p ev ch i, waits y' p = Some (ev, ch) -> chosen ch i -> alive y' i = true ->
      ever_since pr umax (fun y b => lists y b p i) y0 (l ++ [a]) i)).
  { intros Ew Na. assert (Wq : forall q, waits y' q = waits y q) by (intro; unfold waits; rewrite Ew; reflexivity).
    split.
    - intros p ev ch i Hp Hi. rewrite Wq in Hp. eauto.
    - intros U p ev ch i Hp Hi L. rewrite Wq in Hp. destruct Na as [Na|Na].
      + eapply OLDC; eauto. intro; subst; congruence.
      + unfold alive in L. rewrite Na in L. discriminate. }
  destruct X as [E|X].
  { destruct (SAME) as [S1 S2]; [rewrite E; reflexivity|right; rewrite E; reflexivity|].
    constructor; auto; rewrite E; simpl; discriminate. }
  destruct a as [p|p o|p|p srt ev|p|p srt ev [|rows]]; cbn [actor] in *.
  - destruct X as (t & Ec & Ew & E). destruct SAME as [S1 S2]; [rewrite E; reflexivity|auto|].
    constructor; auto; rewrite E; simpl; intros q w; [|intro i]; intro Q; inv Q; auto. simpl. tauto.
  - destruct X as (w & w' & its & Ec & Kl & A & Hw & E). 
    pose proof (ix_hold _ _ _ I _ _ Ec) as Nw.
    destruct SAME as [S1 S2]; [rewrite E; reflexivity|auto|].
    unfold c_tg in G. rewrite Ec in G. rewrite (tg_kind _ _ _ G), Kc in A.
    destruct (write_effect w o w' its G T A Hw) as (E1 & E2 & E3).
    assert (MK : forall i, marks w o i -> lists y (XOp p o) p i).
    { intros i M. unfold marks in M. destruct M as [->|[->|[->|[->|[P D]]]]]; [left; unfold deletes; auto 6 ..|].
      right. exists o. rewrite (alive_held _ _ _ _ Ec). auto. }
    constructor; auto; rewrite E; simpl; intros q w1; [|intro i]; intro Q; inv Q; [exact Nw|].
    intro Hi. split.
    + destruct (E3 i Hi) as [C|M]; [apply asked_app; apply (ix_held _ _ _ I _ _ _ Ec C)|eapply asked_now; eauto].
    + intro L. assert (L' : alive (Sys (CHeld q w1) (x_wait y)) i = true) by exact L.
      destruct (has w i) eqn:Lw.
      * destruct (E3 i Hi) as [C|M]; [|eapply deserved_now; eauto].
        eapply deserved_app; eauto. apply (ix_held _ _ _ I _ _ _ Ec C). exact Lw.
      * eapply deserved_now; eauto. apply MK. unfold marks. pose proof (E2 i Lw L). auto 6.
  - destruct X as (w & Ec & E). pose proof (ix_hold _ _ _ I _ _ Ec) as Nw.
    destruct SAME as [S1 S2]; [rewrite E; reflexivity|auto|].
    constructor; auto; rewrite E; simpl; discriminate.
  - destruct X as (w & Ec & X). pose proof (ix_hold _ _ _ I _ _ Ec) as Nw. destruct X as [E|(ch & E & Eq & _)].
    + destruct SAME as [S1 S2]; [rewrite E; reflexivity|auto|]. constructor; auto; rewrite E; simpl; discriminate.
    + constructor.
      * rewrite E; simpl; discriminate.
      * rewrite E; simpl; discriminate.
      * intros q ev' ch' i Hq Hi. rewrite E, waits_cons in Hq. destruct (Nat.eqb_spec p q) as [->|N]; [|eauto].
        inv Hq. apply asked_app. apply Eq in Hi. eapply (ix_held _ _ _ I); eauto.
      * intros U q ev' ch' i Hq Hi L. rewrite E, waits_cons in Hq. destruct (Nat.eqb_spec p q) as [->|N]; [|eauto].
        inv Hq. apply Eq in Hi. eapply deserved_app; eauto. apply (ix_held _ _ _ I _ _ _ Ec Hi). exact L.
  - destruct X as (t & ev & ch & w & Ec & Ew & Hw & E). constructor.
    + rewrite E; simpl; discriminate.
    + rewrite E; simpl; discriminate.
    + intros q ev' ch' i Hq Hi. rewrite E, waits_no in Hq. destruct (Nat.eqb_spec p q); [discriminate|eauto].
    + intros U q ev' ch' i Hq Hi L. rewrite E, waits_no in Hq. destruct (Nat.eqb_spec p q); [discriminate|eauto].
  - destruct X as (t & Ec & Ew & X). destruct X as [E|(ch & E & _)].
    + destruct SAME as [S1 S2]; [rewrite E; reflexivity|auto|]. constructor; auto; rewrite E; simpl; discriminate.
    + constructor.
      * rewrite E; simpl; discriminate.
      * rewrite E; simpl; discriminate.
      * intros q ev' ch' i Hq Hi. rewrite E, waits_cons in Hq. destruct (Nat.eqb_spec p q) as [->|N]; [|eauto].
        eapply asked_now; eauto. left. unfold deletes. eauto 8.
      * intros U q ev' ch' i Hq Hi L. rewrite E, waits_cons in Hq. destruct (Nat.eqb_spec p q) as [->|N]; [|eauto].
        exfalso. unfold c_tg in G. rewrite Ec in G. rewrite E in L. unfold alive in L. cbn [x_cell] in L.
        rewrite (clear_raw_has (w_new t) i G) in L. discriminate.
  - destruct X as (t & w & Ec & Ew & Hw & E). destruct SAME as [S1 S2]; [rewrite E; reflexivity|auto|].
    constructor; auto; rewrite E; simpl; discriminate.
Qed.
Lemma inv_run l : s_cols s <> [] -> forall y, Forall (xact_ty (s_cols s)) l -> xrun pr umax (x_new s) l = Ok y ->
  c_tg y /\ inv_x (x_new s) l y.
Proof.
  intros N. induction l as [|a l IH] using rev_ind; intros y T H.
  - inv H. split; [apply new_tg; auto|]. constructor; simpl; discriminate.
  - apply Forall_app in T. destruct T as [T1 T2]. inv T2.
    unfold xrun in H. rewrite fold_res_app in H. bindn H y1 H1. cbn [fold_res] in H. bindn H y2 Hy. inv H.
    destruct (IH _ T1 H1) as [G I]. split; [eapply step_tg; eauto|]. eapply inv_step; eauto.
Qed.

Lemma asked_removal l a y y' i : s_cols s <> [] -> Forall (xact_ty (s_cols s)) (l ++ [a]) ->
  xrun pr umax (x_new s) l = Ok y -> xstep pr umax y a = Ok y' -> removes y y' i ->
  (exists srt ev rows, a = XRemove (actor a) srt ev rows /\ chosen rows i) \/ a = XOp (actor a) OClearRaw \/
  listed pr umax (x_new s) l (actor a) i.
Proof.
  intros N T R H Rm. apply Forall_app in T. destruct T as [T1 T2]. inv T2.
  destruct (inv_run l N y T1 R) as [G I].
  destruct (removal_steps y a y' i G H2 H Rm) as [(p & ev & ch & -> & Ew & Er & C)|[(p & w & srt & ev & -> & Ec & Er & C)|[(p & ->)|(p & srt & ev & rows & -> & C)]]]; simpl.
  - right. right. eapply (ix_wait _ _ _ I); eauto.
  - right. right. eapply (ix_held _ _ _ I); eauto.
  - auto.
  - eauto 8.
Qed.
Lemma deserved_removal l a y y' i : s_cols s <> [] -> Forall (xact_ty (s_cols s)) (l ++ [a]) ->
  xrun pr umax (x_new s) l = Ok y -> xstep pr umax y a = Ok y' -> removes y y' i ->
  undisturbed pr umax (x_new s) l \/ a <> XApply (actor a) ->
  (exists srt ev rows, a = XRemove (actor a) srt ev rows /\ chosen rows i) \/ a = XOp (actor a) OClearRaw \/
  ever_since pr umax (fun y b => lists y b (actor a) i) (x_new s) l i.
Proof.
  intros N T R H Rm U. apply Forall_app in T. destruct T as [T1 T2]. inv T2.
  destruct (inv_run l N y T1 R) as [G I]. pose proof Rm as (L & _).
  destruct (removal_steps y a y' i G H2 H Rm) as [(p & ev & ch & -> & Ew & Er & C)|[(p & w & srt & ev & -> & Ec & Er & C)|[(p & ->)|(p & srt & ev & rows & -> & C)]]]; simpl in *.
  - right. right. destruct U as [U|U]; [|congruence]. eapply (ix_calm _ _ _ I); eauto.
  - right. right. apply (ix_held _ _ _ I _ _ _ Ec C). rewrite <- (alive_held _ _ _ _ Ec). exact L.
  - auto.
  - eauto 8.
Qed.

(** ** the second half of a flush *)
Lemma wait_removal l : s_cols s <> [] -> forall y, Forall (xact_ty (s_cols s)) l -> xrun pr umax (x_new s) l = Ok y ->
  forall p ev ch, waits y p = Some (ev, ch) -> ev_removal ev = true.
Proof.
  intros N. induction l as [|a l IH] using rev_ind; intros y T H.
  - inv H. discriminate.
  - apply Forall_app in T. destruct T as [T1 T2]. inv T2.
    unfold xrun in H. rewrite fold_res_app in H. bindn H y1 H1. cbn [fold_res] in H. bindn H y2 Hy. inv H.
    specialize (IH _ T1 H1). destruct (inv_run _ N _ T1 H1) as [G _].
    pose proof (step_inv y1 a y G Hy) as X. intros q ev0 ch0.
    destruct X as [->|X]; [apply IH|].
    destruct a as [p|p o|p|p srt ev|p|p srt ev [|rows]].
    + destruct X as (t & Ec & _ & ->). apply IH.
    + destruct X as (w & w' & its & Ec & _ & A & Hw & ->). apply IH.
    + destruct X as (w & Ec & ->). apply IH.
    + destruct X as (w & Ec & [->|(ch & -> & _ & Er)]); [apply IH|]. rewrite waits_cons.
      destruct (p =? q); [intro Q; inv Q; auto|apply IH].
    + destruct X as (t & ev & ch & w & Ec & _ & Hw & ->). rewrite waits_no. destruct (p =? q); [discriminate|apply IH].
    + destruct X as (t & Ec & _ & [->|(ch & -> & Er)]); [apply IH|]. rewrite waits_cons.
      destruct (p =? q); [intro Q; inv Q; auto|apply IH].
    + destruct X as (t & w & Ec & _ & Hw & ->). apply IH.
Qed.
Lemma removal_panics rows ids : forall w live, t_ok (w_tab w) live rows -> t_kind (w_tab w) = Consistent ->
  forall i, In i ids -> length rows <= i ->
  fold_res (fun w i => let* _ := assert_ (i <? length rows) PRemoveRange in delete_raw pr umax w i) ids w = panic PRemoveRange.
Proof.
  induction ids as [|x ids IH]; intros w live K Kw i Hi Li; [destruct Hi|]. cbn [fold_res].
  destruct (Nat.ltb_spec x (length rows)) as [L|L]; [|reflexivity].
  destruct (delete_raws_exact pr umax rows [x] w live K Kw) as (w1 & Q & K1 & E1 & _); [constructor; auto|].
  cbn [fold_res] in Q. apply Nat.ltb_lt in L. rewrite L in Q. cbn [assert_ bind] in *.
  destruct (delete_raw pr umax w x) as [w2|]; [|discriminate]. inv Q. cbn [bind].
  apply (IH w1 _ K1) with (i := i); auto.
  - unfold t_kind in *. congruence.
  - destruct Hi as [->|Hi]; auto. apply Nat.ltb_lt in L. lia.
Qed.
Lemma apply_outcome l y t p ev ch : s_cols s <> [] -> Forall (xact_ty (s_cols s)) l -> xrun pr umax (x_new s) l = Ok y ->
  x_cell y = CFree t -> waits y p = Some (ev, ch) ->
  exists y', xstep pr umax y (XApply p) = Ok y' /\
    (x_cell y' = CPoisoned <-> ch <> SAll /\ exists i, chosen ch i /\ t_len t <= i) /\
    (x_cell y' <> CPoisoned -> forall i, alive y' i = true <-> alive y i = true /\ ~ chosen ch i).
Proof.
  intros N T R Ec Ew. destruct (inv_run l N y T R) as [G _]. pose proof (wait_removal l N y T R _ _ _ Ew) as Er.
  unfold c_tg in G. rewrite Ec in G. unfold xstep. rewrite Ec, Ew.
  assert (Kt : t_kind t = Consistent) by (rewrite (tg_kind _ _ _ G); auto).
  unfold flush_end. pose proof G as (E & live & rows & K & _).
  destruct (flush_apply pr umax (w_new t) ev ch) as [w|e] eqn:A.
  - cbn [bind]. pose proof (apply_effect (w_new t) ev ch w G A) as (G' & Ch & M1 & M2 & M3). rewrite Ch. cbn [w_new w_changes sel_empty assert_ bind].
    unfold w_drop. rewrite Ch. cbn [w_new w_changes sel_empty negb]. rewrite andb_false_r. cbn [guarded].
    eexists. split; [reflexivity|]. cbn [x_cell]. split.
    + split; [discriminate|]. intros [Na (i & Ci & Li)]. exfalso. destruct ch as [|ids]; [congruence|].
      unfold flush_apply in A. rewrite Er in A. destruct ids as [|x ids]; [destruct Ci|].
      cbn [andb sel_empty negb] in A. apply delete_raws_inv in A. rewrite Forall_forall in A. apply A in Ci. simpl in Ci. lia.
    + intros _ i. unfold alive. rewrite Ec. cbn [x_cell]. specialize (M1 i). specialize (M2 i). specialize (M3 i Er). simpl in *.
      split.
      * intro X. split; auto. intro C. rewrite (M3 C) in X. discriminate.
      * intros [X Y]. destruct (t_contains (w_tab w) i) eqn:Q; auto. destruct (M2 X eq_refl). contradiction.
  - unfold flush_apply in A. rewrite Er in A. destruct (sel_empty ch) eqn:Em; [discriminate|]. cbn [andb negb] in A.
    destruct ch as [|ids]; [discriminate|]. cbv zeta in A. cbn [w_new w_tab] in A.
    assert (X : exists i, In i ids /\ t_len t <= i).
    { destruct (Forall_dec (fun i => i < t_len t) (fun i => lt_dec i (t_len t)) ids) as [F|F].
      - exfalso. rewrite (t_len_ok _ _ _ K) in *. destruct (delete_raws_exact pr umax rows ids (w_new t) live K Kt F) as (w1 & Q & _). congruence.
      - apply neg_Forall_Exists_neg in F; [|intro i; apply lt_dec]. apply Exists_exists in F. destruct F as (i & Hi & Hl).
        exists i. split; auto. lia. }
    assert (P : exists c, e = EPanic c).
    { destruct X as (i & Hi & Li). rewrite (t_len_ok _ _ _ K) in *.
      rewrite (removal_panics rows ids (w_new t) live K Kt i Hi Li) in A. inv A. eauto. }
    destruct P as [c ->]. cbn [bind guarded]. eexists. split; [reflexivity|]. cbn [x_cell]. split.
    + split; auto. intros _. split; [discriminate|]. exact X.
    + congruence.
Qed.

(** ** nobody in between *)
Lemma no_wait_id y p : waits y p = None -> no_wait y p = x_wait y.
Proof.
  unfold waits, no_wait. induction (x_wait y) as [|[q x] l IH]; simpl; auto.
  destruct (q =? p); simpl; [discriminate|]. intro H. rewrite IH; auto.
Qed.
Lemma flush_alone y p w srt ev t : x_cell y = CHeld p w -> waits y p = None -> w_flush pr umax srt w ev = Ok t ->
  exists l, (l = [XFlush p srt ev] \/ l = [XFlush p srt ev; XApply p]) /\
    xrun pr umax y l = Ok (Sys (CFree t) (x_wait y)).
Proof.
  clear Kc. intros Ec Ew H. unfold w_flush in H. unfold xrun.
  assert (ST : xstep pr umax y (XFlush p srt ev) = flush_begin y p srt ev w).
  { unfold xstep. rewrite Ec, Nat.eqb_refl. reflexivity. }
  destruct (sel_empty (w_changes w)) eqn:Em.
  - exists [XFlush p srt ev]. split; auto. cbn [fold_res]. rewrite ST. unfold flush_begin. rewrite Em, H. reflexivity.
  - bindn H u Hu. set (ch := if srt then sel_sort (w_changes w) else w_changes w) in *.
    destruct (ev_removal ev && negb (sel_empty ch)) eqn:Rm.
    + exists [XFlush p srt ev; XApply p]. split; auto. cbn [fold_res]. rewrite ST. unfold flush_begin. rewrite Em, Hu.
      fold ch. rewrite Rm. cbn [bind]. unfold xstep. cbn [x_cell]. rewrite waits_cons, Nat.eqb_refl.
      unfold flush_end. rewrite H. cbn [guarded bind]. unfold no_wait. cbn [x_wait filter fst]. rewrite Nat.eqb_refl. cbn [negb].
      fold (no_wait y p). rewrite no_wait_id; auto.
    + exists [XFlush p srt ev]. split; auto. cbn [fold_res]. rewrite ST. unfold flush_begin. rewrite Em, Hu. fold ch. rewrite Rm.
      cbn [bind]. bindn H w1 Hw. unfold flush_apply in Hw. rewrite Rm in Hw. inv Hw. bindn H u2 Hu2. apply drop_inv in H.
      destruct H as [-> _]. reflexivity.
Qed.

(** ** concrete runs *)
Section Check.
Variable f : sys -> xact -> bool.
Variable i : nat.
Fixpoint through_b (y : sys) (l : list xact) : bool :=
  alive y i && match l with
               | [] => true
               | a :: l => match xstep pr umax y a with Ok y => through_b y l | Err _ => true end
               end.
Fixpoint since_b (y : sys) (l : list xact) : bool :=
  match l with
  | [] => false
  | a :: l => match xstep pr umax y a with
              | Ok y' => (f y a && through_b y' l) || since_b y' l
              | Err _ => false
              end
  end.
Lemma through_check l : forall y, alive_through pr umax y l i -> through_b y l = true.
Proof.
  induction l as [|a l IH]; intros y H; simpl.
  - rewrite (H [] [] y eq_refl eq_refl). reflexivity.
  - rewrite (H [] (a :: l) y eq_refl eq_refl). simpl. destruct (xstep pr umax y a) as [y'|] eqn:E; auto. apply IH.
    intros l1 l2 z -> Z. apply (H (a :: l1) l2 z); auto. unfold xrun. cbn [fold_res]. rewrite E. exact Z.
Qed.
Lemma since_check (R : sys -> xact -> Prop) y l : (forall y a, R y a -> f y a = true) -> ever_since pr umax R y l i -> since_b y l = true.
Proof.
  intros F (l1 & a & l2 & y1 & y2 & -> & R1 & S1 & A & Th). revert y R1.
  induction l1 as [|b l1 IH]; intros y R1; unfold xrun in R1; cbn [fold_res] in R1.
  - inv R1. simpl. rewrite S1, (F _ _ A), (through_check _ _ Th). reflexivity.
  - bindn R1 y' Hy. simpl. rewrite Hy, (IH y' R1). apply orb_true_r.
Qed.
End Check.
End RF.

(** Whether anybody asked for row [i] to go. *)
Definition deletes_b (i : nat) (_ : sys) (a : xact) : bool :=
  match a with
  | XOp _ (ODelete j) | XOp _ (OSelect j) => j =? i
  | XOp _ OClear | XOp _ OSelectAll | XRemove _ _ _ SAll => true
  | _ => false
  end.
Definition bad_b (s : schema) (l : list xact) (i : nat) : bool :=
  match xrun Debug 255 (x_new s) l with
  | Ok y => match xstep Debug 255 y (XApply 0) with
            | Ok y' => alive y i && negb (alive y' i) && match x_cell y' with CPoisoned => false | _ => true end &&
                       negb (since_b Debug 255 (deletes_b i) i (x_new s) l)
            | Err _ => false
            end
  | Err _ => false
  end.
Lemma refuted_by s l i ev ch : Forall (xact_ty (s_cols s)) l -> bad_b s l i = true ->
  match xrun Debug 255 (x_new s) l with Ok y => waits y 0 | Err _ => None end = Some (ev, ch) -> exists l y y' i,
  Forall (xact_ty (s_cols s)) l /\ xrun Debug 255 (x_new s) l = Ok y /\ waits y 0 = Some (ev, ch) /\
  xstep Debug 255 y (XApply 0) = Ok y' /\ removes y y' i /\
  forall p, ~ ever_since Debug 255 (fun _ a => deletes a p i) (x_new s) l i.
Proof.
  intros T B Wt. unfold bad_b in B. destruct (xrun _ _ _ l) as [y|] eqn:R; [|discriminate].
  destruct (xstep _ _ y _) as [y'|] eqn:St; [|discriminate].
  apply andb_true_iff in B. destruct B as [B1 B2]. apply andb_true_iff in B1. destruct B1 as [B1 B3].
  apply andb_true_iff in B1. destruct B1 as [B1 B4]. apply negb_true_iff in B2, B4.
  exists l, y, y', i. split; [auto|]. split; [auto|]. split; [auto|]. split; [auto|]. split.
  { split; auto. split; auto. intro E. rewrite E in B3. discriminate. }
  intros p E. rewrite (since_check Debug 255 (deletes_b i) i (fun _ a => deletes a p i) _ _) in B2; [discriminate| |exact E].
  intros y0 a [->|[->|[->|[->|(srt & ev0 & ->)]]]]; simpl; try reflexivity; apply Nat.eqb_refl.
Qed.

(** Whether the others leave the rows alone a flush is about to remove. *)
Fixpoint calm_b (y : sys) (l : list xact) : bool :=
  match l with
  | [] => true
  | a :: l => match xstep Debug 255 y a with
              | Ok y' => forallb (fun q => (fst q =? actor a) ||
                           match snd (snd q) with
                           | SAll => false
                           | SThese ids => forallb (fun i => Bool.eqb (alive y' i) (alive y i)) ids
                           end) (x_wait y) && calm_b y' l
              | Err _ => true
              end
  end.
Lemma calm_check l : forall y, calm_b y l = true -> undisturbed Debug 255 y l.
Proof.
  induction l as [|b l IH]; intros y C l1 a l2 z z' p ev ch i E R St Ew Na Ci; [destruct l1; discriminate|].
  cbn [calm_b] in C. destruct l1 as [|b' l1].
  - inv E. inv R. rewrite St in C. apply andb_true_iff in C. destruct C as [C _]. rewrite forallb_forall in C.
    unfold waits in Ew. destruct (find _ (x_wait z)) as [[q x]|] eqn:F; [|discriminate]. apply find_some in F.
    destruct F as [F1 F2]. simpl in Ew, F2. inv Ew. apply Nat.eqb_eq in F2. subst q.
    specialize (C _ F1). simpl in C. destruct (Nat.eqb_spec p (actor a)); [congruence|]. simpl in C.
    destruct ch as [|ids]; [discriminate|]. rewrite forallb_forall in C. apply C in Ci. apply Bool.eqb_prop in Ci. exact Ci.
  - inv E. unfold xrun in R. cbn [fold_res] in R. bindn R y1 Hy. rewrite Hy in C. apply andb_true_iff in C. destruct C as [_ C].
    eapply (IH y1 C l1 a l2); eauto.
Qed.

(** ** The statements of PropsRace.v *)
Lemma steps_removing pr umax s l a y y' i :
  s_kind s = Consistent -> s_cols s <> [] -> Forall (xact_ty (s_cols s)) (l ++ [a]) ->
  xrun pr umax (x_new s) l = Ok y -> xstep pr umax y a = Ok y' -> removes y y' i ->
  (exists p ev ch, a = XApply p /\ waits y p = Some (ev, ch) /\ ev_removal ev = true /\ chosen ch i) \/
  (exists p w srt ev, a = XOp p (OLiveFlush srt ev) /\ x_cell y = CHeld p w /\ ev_removal ev = true /\ chosen (w_changes w) i) \/
  (exists p, a = XOp p OClearRaw) \/
  (exists p srt ev rows, a = XRemove p srt ev rows /\ chosen rows i).
Proof.
  intros Kc N T R St Rm. apply Forall_app in T. destruct T as [T1 T2]. inv T2.
  destruct (inv_run pr umax s Kc l N y T1 R) as [G _]. eapply removal_steps; eauto.
Qed.
Lemma listed_removal pr umax s l a y y' i :
  s_kind s = Consistent -> s_cols s <> [] -> Forall (xact_ty (s_cols s)) (l ++ [a]) ->
  xrun pr umax (x_new s) l = Ok y -> xstep pr umax y a = Ok y' -> removes y y' i ->
  (exists srt ev rows, a = XRemove (actor a) srt ev rows /\ chosen rows i) \/ a = XOp (actor a) OClearRaw \/
  listed pr umax (x_new s) l (actor a) i.
Proof. intros. eapply asked_removal; eauto. Qed.
Lemma undisturbed_removal pr umax s l a y y' i :
  s_kind s = Consistent -> s_cols s <> [] -> Forall (xact_ty (s_cols s)) (l ++ [a]) ->
  xrun pr umax (x_new s) l = Ok y -> xstep pr umax y a = Ok y' -> removes y y' i ->
  undisturbed pr umax (x_new s) l \/ a <> XApply (actor a) ->
  (exists srt ev rows, a = XRemove (actor a) srt ev rows /\ chosen rows i) \/ a = XOp (actor a) OClearRaw \/
  ever_since pr umax (fun y b => lists y b (actor a) i) (x_new s) l i.
Proof. intros. eapply deserved_removal; eauto. Qed.
Lemma outcome_of_apply pr umax s l y t p ev ch :
  s_kind s = Consistent -> s_cols s <> [] -> Forall (xact_ty (s_cols s)) l ->
  xrun pr umax (x_new s) l = Ok y -> x_cell y = CFree t -> waits y p = Some (ev, ch) ->
  exists y', xstep pr umax y (XApply p) = Ok y' /\
    (x_cell y' = CPoisoned <-> ch <> SAll /\ exists i, chosen ch i /\ t_len t <= i) /\
    (x_cell y' <> CPoisoned -> forall i, alive y' i = true <-> alive y i = true /\ ~ chosen ch i).
Proof. intros. eapply apply_outcome; eauto. Qed.
