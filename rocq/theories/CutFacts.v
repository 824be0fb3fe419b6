(** Proofs about tables with and without their last columns. *)
From Coq Require Import List Arith Bool Lia.
From Verif Require Import Base BaseFacts Column RowRange Table Visit SortedTab BagTab ColumnFacts TableFacts TableSpec Hist HistFacts Answers IndexedSpec IndexedFacts CutSpec.
Import ListNotations.

(** If the first succeeds, so does the second, with the result cut. *)
Definition cuts {A B} (F : A -> B) (x : res A) (y : res B) : Prop := forall a, x = Ok a -> y = Ok (F a).
Lemma cuts_bind {A B C D} (F : A -> B) (G : C -> D) x y f g : cuts F x y -> (forall a, x = Ok a -> cuts G (f a) (g (F a))) -> cuts G (bind x f) (bind y g).
Proof. intros H K c E. destruct x as [a|]; [|discriminate E]. rewrite (H a eq_refl). exact (K a eq_refl c E). Qed.
Lemma cuts_same {A C D} (G : C -> D) (x : res A) f g : (forall a, x = Ok a -> cuts G (f a) (g a)) -> cuts G (bind x f) (bind x g).
Proof. intros K c E. destruct x as [a|]; [|discriminate E]. exact (K a eq_refl c E). Qed.
Lemma cuts_ok {A B} (F : A -> B) a b : b = F a -> cuts F (Ok a) (Ok b). Proof. intros -> c [= <-]. reflexivity. Qed.
Lemma cuts_panic {A B} (F : A -> B) c y : cuts F (panic c) y. Proof. intros a E. discriminate E. Qed.
Lemma cuts_err {A B} (F : A -> B) c y : cuts F (Err c) y. Proof. intros a E. discriminate E. Qed.
Lemma cuts_fold {A B C D} (F : A -> B) (h : C -> D) f g l : (forall a r, cuts F (f a r) (g (F a) (h r))) -> forall a, cuts F (fold_res f l a) (fold_res g (map h l) (F a)).
Proof. intro H. induction l as [|r l IH]; intro a; [apply cuts_ok; reflexivity|]. cbn [fold_res map]. apply cuts_bind with (F := F); [apply H|]. intros; apply IH. Qed.
Lemma cuts_fold1 {A B C} (F : A -> B) (f : A -> C -> res A) g l : (forall a r, cuts F (f a r) (g (F a) r)) -> forall a, cuts F (fold_res f l a) (fold_res g l (F a)).
Proof. intros H a. pose proof (cuts_fold F (fun x : C => x) f g l H a) as X. rewrite map_id in X. exact X. Qed.
Lemma map_firstn {A B} (f : A -> res B) n l : cuts (firstn n) (map_res f l) (map_res f (firstn n l)).
Proof.
  revert n. induction l as [|x l IH]; intros n l' E; [cbn in E; injection E as <-; destruct n; reflexivity|]. cbn in E. bindn E y Ey. bindn E ys Eys. injection E as <-.
  destruct n as [|n]; [reflexivity|]. cbn [firstn map_res]. rewrite Ey. cbn [bind]. rewrite (IH n _ Eys). reflexivity.
Qed.
Lemma map_map_res {A B C} (F : B -> C) (f : A -> res B) g l : (forall x, cuts F (f x) (g x)) -> cuts (map F) (map_res f l) (map_res g l).
Proof.
  intro H. induction l as [|x l IH]; intros l' E; [cbn in E; injection E as <-; reflexivity|]. cbn in E. bindn E y Ey. bindn E ys Eys. injection E as <-.
  cbn [map_res map]. rewrite (H _ _ Ey). cbn [bind]. rewrite (IH _ Eys). reflexivity.
Qed.
Lemma nth_firstn {A} n (l : list A) k : k < n -> nth_error (firstn n l) k = nth_error l k.
Proof. revert l k. induction n as [|n IH]; intros [|x l] [|k] H; try lia; try reflexivity. cbn. apply IH. lia. Qed.
Lemma upd_firstn {A} n (l : list A) k x : firstn n (upd l k x) = upd (firstn n l) k x.
Proof. revert l k. induction n as [|n IH]; intros [|y l] [|k]; try reflexivity. cbn. f_equal. apply IH. Qed.
Lemma upd_beyond {A} n (l : list A) k x : n <= k -> firstn n (upd l k x) = firstn n l.
Proof. revert l k. induction n as [|n IH]; intros [|y l] [|k] H; try lia; try reflexivity. cbn. f_equal. apply IH. lia. Qed.
Lemma step_index c i : i < c_len c -> exists v, c_index c i = Ok v.
Proof. unfold c_index, c_len. destruct c; cbn; apply index_in. Qed.

Section Cut.
Variables (pr : profile) (umax n : nat).
Hypothesis N : 1 <= n.
Local Notation ct := (cut_tab n).
Local Notation cw := (cut_w n).
Local Notation cr := (firstn n).
Local Notation cp := (fun p : wlock * nat => (cw (fst p), snd p)).
Lemma cut_len t : t_len (ct t) = t_len t. Proof. unfold t_len. cbn. destruct n as [|m]; [lia|]. destruct (t_cols t); reflexivity. Qed.
Lemma cut_check t i : t_check (ct t) i = t_check t i. Proof. unfold t_check. rewrite cut_len. reflexivity. Qed.
Lemma cut_range t r : t_range (ct t) r = t_range t r. Proof. unfold t_range. rewrite cut_len. reflexivity. Qed.
Lemma cut_row_range t : t_row_range (ct t) = t_row_range t. Proof. unfold t_row_range. rewrite cut_len. reflexivity. Qed.
Lemma cut_iter t : t_iter (ct t) = t_iter t. Proof. unfold t_iter. rewrite cut_row_range. destruct (t_row_range t); [|reflexivity]. cbn [bind]. apply cut_range. Qed.
Lemma cut_editing t : t_editing (ct t) = t_editing t. Proof. unfold t_editing. rewrite cut_row_range. reflexivity. Qed.
Lemma cut_last t : t_last (ct t) = t_last t. Proof. unfold t_last. rewrite cut_len. reflexivity. Qed.
Lemma cut_next t : next_pushed (ct t) = next_pushed t. Proof. unfold next_pushed. rewrite cut_len. reflexivity. Qed.
Lemma cut_raw t i : cuts cr (t_get_row_raw t i) (t_get_row_raw (ct t) i). Proof. apply map_firstn. Qed.
Lemma cut_get t i : cuts cr (t_get_row t i) (t_get_row (ct t) i). Proof. unfold t_get_row. rewrite cut_check. apply cuts_same. intros. apply cut_raw. Qed.
Lemma cut_getc t i : cuts cr (t_get_row_checked t i) (t_get_row_checked (ct t) i). Proof. apply cut_raw. Qed.
Lemma cut_read t k i : k < n -> t_read (ct t) k i = t_read t k i. Proof. intro H. unfold t_read. cbn. rewrite nth_firstn by exact H. reflexivity. Qed.
Lemma cut_find t k v : k < n -> t_find (ct t) k v = t_find t k v. Proof. intro H. unfold t_find. cbn. rewrite nth_firstn by exact H. reflexivity. Qed.
Lemma cut_assign t k i v : k < n -> cuts ct (t_assign t k i v) (t_assign (ct t) k i v).
Proof.
  intro H. unfold t_assign. cbn [cut_tab t_cols]. rewrite nth_firstn by exact H. destruct (nth_error (t_cols t) k) as [[b|]|]; try apply cuts_panic. apply cuts_same. intros c _. apply cuts_ok.
  unfold cut_tab. cbn. rewrite upd_firstn. reflexivity.
Qed.
Lemma extra_assign t k i v t1 : n <= k -> t_assign t k i v = Ok t1 -> ct t1 = ct t.
Proof. intros H E. unfold t_assign in E. destruct (nth_error (t_cols t) k) as [[b|]|]; try discriminate E. bindn E c Ec. injection E as <-. unfold cut_tab. cbn. rewrite upd_beyond by exact H. reflexivity. Qed.
Lemma len_firstn {A B} (a : list A) (b : list B) : length a = length b -> length (firstn n a) = length (firstn n b).
Proof. intro H. rewrite !firstn_length, H. reflexivity. Qed.
Lemma cut_cols_push imax cs r : cuts cr (cols_push imax cs r) (cols_push imax (cr cs) (cr r)).
Proof.
  unfold cols_push. destruct (Nat.eqb_spec (length cs) (length r)) as [E|]; [|apply cuts_panic]. rewrite (len_firstn _ _ E), Nat.eqb_refl, <- combine_firstn. apply map_firstn.
Qed.
Lemma cut_add w i : event_add (cw w) i = cw (event_add w i). Proof. unfold event_add. cbn. destruct (t_kind (w_tab w)) eqn:K; unfold t_kind in *; cbn in *; rewrite K; reflexivity. Qed.
Lemma cut_del w i : event_del (cw w) i = cw (event_del w i). Proof. unfold event_del. cbn. destruct (t_kind (w_tab w)) eqn:K; unfold t_kind in *; cbn in *; rewrite K; reflexivity. Qed.
Lemma cut_clear_raw w : clear_raw (cw w) = cw (clear_raw w). Proof. unfold clear_raw, cut_w, cut_tab. cbn. rewrite firstn_map. reflexivity. Qed.
Lemma cut_clear w : clear (cw w) = cw (clear w).
Proof. unfold clear, event_cleared. change (t_kind (w_tab (cw w))) with (t_kind (w_tab w)). destruct (t_kind (w_tab w)); try reflexivity; apply cut_clear_raw. Qed.
Lemma cut_only w r : cuts cp (push_only_unchecked w r) (push_only_unchecked (cw w) (cr r)).
Proof.
  unfold push_only_unchecked. apply cuts_bind with (F := cr); [apply cut_cols_push|]. intros cs _.
  change (with_cols (w_tab (cw w)) (cr cs)) with (ct (with_cols (w_tab w) cs)). cbv zeta. rewrite cut_last. apply cuts_same. intros [i|] _; [apply cuts_ok; reflexivity|apply cuts_panic].
Qed.
Lemma cut_push_end w r : cuts cp (push_end_unchecked w r) (push_end_unchecked (cw w) (cr r)).
Proof. unfold push_end_unchecked. apply cuts_bind with (F := cp); [apply cut_only|]. intros p _. apply cuts_ok. cbn [fst snd]. rewrite cut_add. reflexivity. Qed.
Lemma cut_swap_out w i r : cuts (fun p => (cw (fst p), cr (snd p))) (swap_out_row w i r) (swap_out_row (cw w) i (cr r)).
Proof.
  unfold swap_out_row. change (w_tab (cw w)) with (ct (w_tab w)). rewrite cut_check. apply cuts_same. intros j _. cbv zeta. cbn [cut_tab t_cols].
  destruct (Nat.eqb_spec (length (t_cols (w_tab w))) (length r)) as [E|]; [|apply cuts_panic]. rewrite (len_firstn _ _ E), Nat.eqb_refl, <- combine_firstn.
  eapply cuts_bind; [apply map_firstn|]. intros ps _. apply cuts_ok. unfold cut_w, cut_tab. cbn. rewrite !firstn_map. reflexivity.
Qed.
Lemma cut_truncate w k : cuts cw (truncate w k) (truncate (cw w) k).
Proof. unfold truncate. eapply cuts_bind; [apply map_firstn|]. intros cs _. apply cuts_ok. reflexivity. Qed.
Lemma cut_delete_raw w i : cuts cw (delete_raw pr umax w i) (delete_raw pr umax (cw w) i).
Proof.
  unfold delete_raw. change (t_kind (w_tab (cw w))) with (t_kind (w_tab w)). cbv zeta. destruct (t_kind (w_tab w)); try apply cuts_panic.
  - eapply cuts_bind; [apply map_firstn|]. intros cs _. apply cuts_same. intros j _. apply cuts_ok. reflexivity.
  - change (w_tab (cw w)) with (ct (w_tab w)). rewrite cut_len. apply cuts_same. intros l _. apply cuts_bind with (F := cr); [destruct (i <? l); [apply map_firstn|apply cuts_ok; reflexivity]|].
    intros cs _. eapply cuts_bind; [apply map_firstn|]. intros cs1 _. apply cuts_ok. reflexivity.
Qed.
Lemma cut_push w r : cuts cp (push w r) (push (cw w) (cr r)).
Proof.
  unfold push. change (t_free (w_tab (cw w))) with (t_free (w_tab w)). destruct (t_free (w_tab w)) as [|old fr] eqn:Ef; [apply (cut_push_end w r)|]. cbv zeta.
  set (w1 := with_tab w (Tab (t_sch (w_tab w)) (t_cols (w_tab w)) (set_remove old (old :: fr)))).
  match goal with |- cuts _ _ (bind (swap_out_row (event_add ?x old) _ _) _) => change x with (cw w1) end.
  rewrite cut_add. eapply cuts_bind; [apply cut_swap_out|]. intros p _. apply cuts_ok. reflexivity.
Qed.
Lemma cut_push_all w rs : cuts cw (push_all w rs) (push_all (cw w) (map cr rs)).
Proof. unfold push_all. apply cuts_fold. intros a r. eapply cuts_bind; [apply cut_push|]. intros p _. apply cuts_ok. reflexivity. Qed.
Lemma cut_push_array w rs : cuts (fun p => (cw (fst p), snd p)) (push_array pr w rs) (push_array pr (cw w) (map cr rs)).
Proof.
  unfold push_array. destruct rs as [|r rs]; [apply cuts_ok; reflexivity|]. cbn [map]. eapply cuts_bind; [apply cut_push_end|]. intros p _. eapply cuts_bind.
  - apply (cuts_fold cp cr (fun s r => push_end_unchecked (fst s) r) (fun s r => push_end_unchecked (fst s) r)). intros a r0. apply cut_push_end.
  - intros q _. apply cuts_same. intros e _. apply cuts_ok. reflexivity.
Qed.
Lemma cut_delete w i : cuts cw (delete pr umax w i) (delete pr umax (cw w) i).
Proof.
  unfold delete. change (t_kind (w_tab (cw w))) with (t_kind (w_tab w)). change (w_tab (cw w)) with (ct (w_tab w)). rewrite cut_check. destruct (t_kind (w_tab w)); try apply cuts_panic.
  - apply cuts_same. intros j _. apply cuts_ok. apply cut_del.
  - apply cuts_same. intros j _. apply cut_delete_raw.
Qed.
Lemma cut_drop w : cuts ct (w_drop w) (w_drop (cw w)).
Proof. unfold w_drop. change (t_consistent (w_tab (cw w))) with (t_consistent (w_tab w)). cbn [cut_w w_changes]. destruct (_ && _); [apply cuts_panic|apply cuts_ok; reflexivity]. Qed.
Lemma cut_removals w rows len : cuts cw (fold_res (fun w i => let* _ := assert_ (i <? len) PRemoveRange in delete_raw pr umax w i) rows w)
  (fold_res (fun w i => let* _ := assert_ (i <? len) PRemoveRange in delete_raw pr umax w i) rows (cw w)).
Proof. apply cuts_fold1. intros a r. apply cuts_same. intros _ _. apply cut_delete_raw. Qed.
Lemma cut_apply w ev ch : cuts cw (flush_apply pr umax w ev ch) (flush_apply pr umax (cw w) ev ch).
Proof.
  unfold flush_apply. destruct (_ && _); [|apply cuts_ok; reflexivity]. destruct ch as [|rows]; [apply cuts_ok, cut_clear_raw|].
  change (w_tab (cw w)) with (ct (w_tab w)). rewrite cut_len. apply cut_removals.
Qed.
Lemma cut_flush srt w ev : cuts ct (w_flush pr umax srt w ev) (w_flush pr umax srt (cw w) ev).
Proof.
  unfold w_flush. cbn [cut_w w_changes w_pushed w_delete w_tab]. destruct (sel_empty (w_changes w)); [apply (cut_drop w)|]. apply cuts_same. intros _ _. cbv zeta.
  apply cuts_bind with (F := cw); [apply (cut_apply (w_new (w_tab w)))|]. intros w1 _. apply cuts_same. intros _ _. apply cut_drop.
Qed.
Lemma cut_live srt w ev : cuts cw (w_live_flush pr umax srt w ev) (w_live_flush pr umax srt (cw w) ev).
Proof.
  unfold w_live_flush. cbn [cut_w w_changes w_pushed w_delete w_tab]. destruct (sel_empty (w_changes w)); [apply cuts_ok; reflexivity|]. apply cuts_same. intros _ _. cbv zeta.
  apply cuts_bind with (F := cw); [apply (cut_apply (W (w_tab w) (SThese []) (w_pushed w) (w_delete w)))|]. intros w1 _. apply cuts_same. intros _ _. apply cuts_ok. reflexivity.
Qed.
Lemma cut_remove srt w ev rows : cuts ct (w_remove_rows pr umax srt w ev rows) (w_remove_rows pr umax srt (cw w) ev rows).
Proof.
  unfold w_remove_rows. apply cuts_bind with (F := cw); [|intros; apply cut_flush]. destruct rows as [|rows]; [apply cuts_ok; rewrite cut_clear_raw, cut_clear; reflexivity|].
  change (w_tab (cw w)) with (ct (w_tab w)). rewrite cut_len. apply cut_removals.
Qed.
Lemma cut_dump t : cuts (map cr) (t_dump pr t) (t_dump pr (ct t)).
Proof. unfold t_dump. rewrite cut_iter, cut_len. apply cuts_same. intros it _. apply cuts_same. intros ids _. apply map_map_res. intro. apply cut_getc. Qed.
Lemma cut_sorted_remove w rows : cuts cw (sorted_remove_rows w rows) (sorted_remove_rows (cw w) rows).
Proof.
  unfold sorted_remove_rows. destruct rows as [|r rows]; [apply cuts_ok; reflexivity|]. cbv zeta. change (w_tab (cw w)) with (ct (w_tab w)). rewrite cut_len.
  apply cuts_same. intros _ _. apply cuts_same. intros _ _. eapply cuts_bind; [apply map_firstn|]. intros cs _. apply cuts_ok. reflexivity.
Qed.
Lemma cut_table_remove srt t ev rows : cuts ct (sorted_table_remove_rows pr umax srt t ev rows) (sorted_table_remove_rows pr umax srt (ct t) ev rows).
Proof.
  unfold sorted_table_remove_rows. cbv zeta. change (w_new (ct t)) with (cw (w_new t)). apply cuts_bind with (F := cw); [|intros; apply cut_flush].
  destruct rows as [|rows]; [apply cuts_ok; rewrite cut_clear_raw, cut_clear; reflexivity|apply cut_sorted_remove].
Qed.
Lemma cut_bag_next w p : cuts (fun q => (cw (bg_w (fst q)), pos_of (fst q), snd q)) (bag_next pr umax (bag_of w p))
  (let* q := bag_next pr umax (bag_of (cw w) p) in Ok (bg_w (fst q), pos_of (fst q), snd q)).
Proof.
  destruct p as [[m i] l]. unfold bag_next, bag_of. cbn [bg_w bg_mark bg_i bg_last fst snd]. change (w_tab (cw w)) with (ct (w_tab w)). rewrite cut_len. cbv zeta.
  destruct (_ <=? _); [cbn [bind]; apply cuts_ok; reflexivity|]. destruct m.
  - destruct l as [l|]; [|apply cuts_panic]. intros q E. change (t_imax (ct (w_tab w))) with (t_imax (w_tab w)). destruct (rid_from_usize (t_imax (w_tab w)) l) as [j|] eqn:Ej; [|discriminate E]. cbn [bind] in E |- *.
    bindn E b Eb. destruct (delete pr umax w j) as [w1|] eqn:Ed; [|discriminate Eb]. cbn [bind] in Eb. injection Eb as <-. rewrite (cut_delete _ _ _ Ed). cbn [bind bg_last] in E |- *.
    rewrite Ej in E |- *. cbn [bind] in E |- *. injection E as <-. reflexivity.
  - cbn [bind bg_last]. intros q E. change (t_imax (ct (w_tab w))) with (t_imax (w_tab w)). destruct (rid_from_usize (t_imax (w_tab w)) i) as [j|] eqn:Ej; [|discriminate E]. cbn [bind] in E |- *. injection E as <-. reflexivity.
Qed.
Lemma cut_bag_drop w p : cuts cw (bag_drop pr umax (bag_of w p)) (bag_drop pr umax (bag_of (cw w) p)).
Proof.
  destruct p as [[m i] l]. unfold bag_drop, bag_of. cbn [bg_w bg_mark bg_i bg_last fst snd]. destruct l as [l|]; [|apply cuts_ok; reflexivity]. destruct m; [|apply cuts_ok; reflexivity].
  apply cuts_same. intros j _. apply cut_delete.
Qed.

(** ** Columns of one length *)
Lemma step_swap_out w i r p : in_step (w_tab w) -> swap_out_row w i r = Ok p -> in_step (w_tab (fst p)).
Proof.
  intros [m H] E. unfold swap_out_row in E. bindn E j Ej. cbv zeta in E. destruct (_ =? _); [|discriminate E]. bindn E ps Eps. injection E as <-. exists m. cbn [fst with_tab w_tab with_cols t_cols].
  revert r Eps H. generalize (t_cols (w_tab w)). intros cs r. revert ps r. induction cs as [|c cs IH]; intros ps [|v r] E H; cbn in E; try (injection E as <-; constructor).
  bindn E q Eqq. bindn E qs Eqs. injection E as <-. inversion H; subst. cbn [map]. constructor; [rewrite (swap_out_len _ _ _ _ _ Eqq); reflexivity|eapply IH; eauto].
Qed.
Lemma step_push_end w r p : in_step (w_tab w) -> push_end_unchecked w r = Ok p -> in_step (w_tab (fst p)).
Proof.
  intros [m H] E. unfold push_end_unchecked, push_only_unchecked in E. bindn E q Eqq. injection E as <-. bindn Eqq cs Ecs. cbv zeta in Eqq. bindn Eqq l El. destruct l; [|discriminate Eqq]. injection Eqq as <-.
  exists (S m). cbn [fst snd]. unfold event_add. cbn [with_tab w_tab]. destruct (t_kind _); cbn; eapply cols_push_len; eauto.
Qed.
Lemma cut_shown w i : in_step (w_tab w) -> shown (cw w) i = cr (shown w i).
Proof.
  intros [m H]. unfold shown. change (w_tab (cw w)) with (ct (w_tab w)). unfold t_get_row. rewrite cut_check. destruct (t_check (w_tab w) i) as [j|] eqn:Ej; cbn [bind]; [|destruct n; reflexivity].
  assert (X : exists r, t_get_row_raw (w_tab w) j = Ok r).
  { assert (Lj : t_cols (w_tab w) = [] \/ j < m).
    { unfold t_check in Ej. destruct (Nat.leb_spec (t_len (w_tab w)) i) as [|Li]; [discriminate Ej|]. destruct (t_is_deleted _ _); [discriminate Ej|]. injection Ej as <-. unfold t_len in Li.
      destruct (t_cols (w_tab w)) as [|c cs]; [left; reflexivity|right]. inversion H; subst. exact Li. }
    unfold t_get_row_raw. destruct Lj as [->|Lj]; [eexists; reflexivity|]. revert H Lj. generalize (t_cols (w_tab w)). clear. induction l as [|c cs IH]; intros H L; [eexists; reflexivity|].
    inversion H; subst. destruct (step_index c j) as [v Ev]; [lia|]. destruct (IH ltac:(assumption) L) as [r Er]. cbn. rewrite Ev. cbn [bind]. rewrite Er. cbn [bind]. eauto. }
  destruct X as [r Er]. rewrite Er, (cut_raw _ _ _ Er). reflexivity.
Qed.
Lemma tg_step b s t : tg b s t -> in_step t.
Proof.
  intros (_ & live & rows & K & _). exists (length rows). destruct K as [_ K _ _ _ _ _]. revert K. generalize (s_cols (t_sch t)) (t_cols t). intro ts. revert rows.
  induction ts as [|ty ts IH]; intros rows [|c cs] H; try contradiction; constructor.
  - cbn in H. destruct H as (_ & _ & D & _). apply (f_equal (@length val)) in D. rewrite map_length in D. rewrite <- D. apply c_len_data.
  - cbn in H. destruct H as (_ & _ & _ & D). rewrite <- (map_length (@tl val) rows). apply IH. exact D.
Qed.

(** ** Visiting *)
Definition cut_rug (x : rug_item) : rug_item := match x with RRow r => RRow (cr r) | RIter l => RIter (map cr l) end.
Lemma cut_pull rug : pull_rug (map cut_rug rug) = option_map (fun p => (cr (fst p), map cut_rug (snd p))) (pull_rug rug).
Proof. induction rug as [|[r|[|x l]] rug IH]; cbn; try reflexivity. exact IH. Qed.
Lemma cut_fill k : forall w rug a b, cuts (fun q => (cw (fst (fst q)), map cut_rug (snd (fst q)), snd q)) (fill_rug pr k w rug a b) (fill_rug pr k (cw w) (map cut_rug rug) a b).
Proof.
  induction k as [|k IH]; intros w rug a b; [apply cuts_ok; reflexivity|]. cbn [fill_rug]. destruct (a <? b); [|apply cuts_ok; reflexivity]. rewrite cut_pull.
  destruct (pull_rug rug) as [[r rug']|]; cbn [option_map fst snd]; [|apply cuts_ok; reflexivity]. eapply cuts_bind; [apply cut_swap_out|]. intros p _. apply cuts_same. intros a1 _. apply IH.
Qed.
Lemma step_fill k : forall w rug a b q, in_step (w_tab w) -> fill_rug pr k w rug a b = Ok q -> in_step (w_tab (fst (fst q))).
Proof.
  induction k as [|k IH]; intros w rug a b q I E; cbn [fill_rug] in E; [injection E as <-; exact I|]. destruct (a <? b); [|injection E as <-; exact I].
  destruct (pull_rug rug) as [[r rug']|]; [|injection E as <-; exact I]. bindn E p Ep. bindn E a1 Ea. eapply IH; [|exact E]. eapply step_swap_out; eauto.
Qed.
Lemma cut_rows rug : rug_rows (map cut_rug rug) = map cr (rug_rows rug).
Proof. induction rug as [|[r|l] rug IH]; cbn; rewrite ?IH, ?map_app; reflexivity. Qed.
Section V.
Context {A : Type} (f f' : A -> wlock -> nat -> A * action).
Hypothesis Hf : forall a w i, in_step (w_tab w) -> i < t_len (w_tab w) -> f' a (cw w) i = (fst (f a w i), cut_act n (snd (f a w i))).
Local Notation cq := (fun q : A * wlock * option (list rug_item * nat) => (fst (fst q), cw (snd (fst q)), option_map (fun p => (map cut_rug (fst p), snd p)) (snd q))).
Lemma cut_loop k : forall s w rug a b st, in_step (w_tab w) -> cuts cq (rug_loop pr f k s w rug a b st) (rug_loop pr f' k s (cw w) (map cut_rug rug) a b st).
Proof.
  induction k as [|k IH]; intros s w rug a b st I; cbn [rug_loop]; change (w_tab (cw w)) with (ct (w_tab w)); rewrite cut_len; destruct (Nat.ltb_spec b (t_len (w_tab w))) as [L|L];
    [apply cuts_err|apply cuts_ok; reflexivity| |apply cuts_ok; reflexivity]. cbv zeta.
  assert (X : (if st then (s, Break) else f' s (cw w) b) = (fst (if st then (s, Break) else f s w b), cut_act n (snd (if st then (s, Break) else f s w b)))).
  { destruct st; [reflexivity|]. apply Hf; assumption. }
  rewrite X. clear X. destruct (if st then (s, Break) else f s w b) as [s1 [rm add|]]; cbn [fst snd cut_act].
  - apply cuts_bind with (F := cr); [apply cut_get|]. intros r _. apply cuts_same. intros b1 _.
    replace ((if rm then map cut_rug rug else map cut_rug rug ++ [RRow (cr r)]) ++ [RIter (map cr add)]) with (map cut_rug ((if rm then rug else rug ++ [RRow r]) ++ [RIter add])) by (destruct rm; rewrite !map_app; reflexivity).
    eapply cuts_bind; [apply cut_fill|]. intros q Eqq. apply IH. eapply step_fill; eauto.
  - replace (match map cut_rug rug with [] => true | _ => false end) with (match rug with [] => true | _ => false end) by (destruct rug; reflexivity).
    destruct (_ && _); [apply cuts_ok; reflexivity|]. apply cuts_bind with (F := cr); [apply cut_get|]. intros r _. apply cuts_same. intros b1 _.
    replace (map cut_rug rug ++ [RRow (cr r)]) with (map cut_rug (rug ++ [RRow r])) by (rewrite map_app; reflexivity).
    eapply cuts_bind; [apply cut_fill|]. intros q Eqq. apply IH. eapply step_fill; eauto.
Qed.
Lemma cut_visit s w : in_step (w_tab w) -> cuts (fun p => (fst p, cw (snd p))) (visit pr f s w) (visit pr f' s (cw w)).
Proof.
  intro I. unfold visit, merge0. change (w_tab (cw w)) with (ct (w_tab w)). rewrite cut_len. eapply cuts_bind; [apply (cut_loop _ s w [] 0 0 false I)|].
  intros [[s1 w1] [[rug fr]|]] _; cbn [fst snd option_map]; [|apply cuts_ok; reflexivity]. eapply cuts_bind; [apply cut_truncate|]. intros w2 _. rewrite cut_rows.
  eapply cuts_bind; [apply (cuts_fold cw cr (fun w r => let* p := push_end_unchecked w r in Ok (fst p)) (fun w r => let* p := push_end_unchecked w r in Ok (fst p)))|].
  - intros w3 r. eapply cuts_bind; [apply cut_push_end|]. intros p _. apply cuts_ok. reflexivity.
  - intros w3 _. apply cuts_ok. reflexivity.
Qed.
End V.

(** ** Merging *)
Section M.
Variables (cmp cmp' : row -> row -> comparison).
Hypothesis Hc : forall x y, cmp' (cr x) (cr y) = cmp x y.
Lemma cut_sort l : sort_rows cmp' (map cr l) = map cr (sort_rows cmp l).
Proof.
  induction l as [|x l IH]; [reflexivity|]. cbn [sort_rows fold_right map] in *. unfold sort_rows in IH. rewrite IH. generalize (fold_right (ins_row cmp) [] l). clear - Hc. induction l as [|y l IH]; [reflexivity|].
  cbn [map ins_row]. rewrite Hc. destruct (cmp x y); cbn [map]; try reflexivity. rewrite IH. reflexivity.
Qed.
Lemma cut_skip k t first : forall c, cuts (fun x => x) (merge_skip pr cmp k t first c) (merge_skip pr cmp' k (ct t) (cr first) c).
Proof.
  induction k as [|k IH]; intro c; cbn [merge_skip]; rewrite cut_len; destruct (_ <? _); try apply cuts_err; try (apply cuts_ok; reflexivity).
  apply cuts_bind with (F := cr); [apply cut_get|]. intros r _. rewrite Hc. destruct (cmp r first); try (apply cuts_ok; reflexivity). apply cuts_same. intros c1 _. apply IH.
Qed.
Lemma cut_take rug it : take cmp' (map cr rug) (map cr it) = option_map (fun x => (fst (fst (fst x)), cr (snd (fst (fst x))), map cr (snd (fst x)), map cr (snd x))) (take cmp rug it).
Proof. unfold take, choose. destruct rug as [|r rug], it as [|i it]; cbn; try reflexivity. rewrite Hc. destruct (cmp r i); reflexivity. Qed.
Context {A : Type} (log log' : A -> wlock -> nat -> A).
Hypothesis Hl : forall a w i, in_step (w_tab w) -> log' a (cw w) i = log a w i.
Local Notation cq := (fun q : A * wlock * list row * list row => (fst (fst (fst q)), cw (snd (fst (fst q))), map cr (snd (fst q)), map cr (snd q))).
Lemma cut_shift ids : forall s w rug it, in_step (w_tab w) -> cuts cq (merge_shift cmp log ids s w rug it) (merge_shift cmp' log' ids s (cw w) (map cr rug) (map cr it)).
Proof.
  induction ids as [|c ids IH]; intros s w rug it I; cbn [merge_shift]; [apply cuts_ok; reflexivity|]. rewrite cut_take. destruct (take cmp rug it) as [[[[sd v] rug'] it']|]; cbn [option_map fst snd]; [|apply cuts_panic].
  eapply cuts_bind; [apply cut_swap_out|]. intros p Ep. cbv zeta. cbn [fst snd]. assert (I1 : in_step (w_tab (fst p))) by (eapply step_swap_out; eauto).
  replace (match sd with Rug => s | Iter => log' s (cw (fst p)) c end) with (match sd with Rug => s | Iter => log s (fst p) c end) by (destruct sd; [reflexivity|rewrite Hl by exact I1; reflexivity]).
  replace (map cr rug' ++ [cr (snd p)]) with (map cr (rug' ++ [snd p])) by (rewrite map_app; reflexivity). apply IH. exact I1.
Qed.
Lemma step_shift ids : forall s w rug it q, in_step (w_tab w) -> merge_shift cmp log ids s w rug it = Ok q -> in_step (w_tab (snd (fst (fst q)))).
Proof.
  induction ids as [|c ids IH]; intros s w rug it q I E; cbn [merge_shift] in E; [injection E as <-; exact I|]. destruct (take cmp rug it) as [[[[sd v] rug'] it']|]; [|discriminate E].
  bindn E p Ep. cbv zeta in E. eapply IH; [|exact E]. eapply step_swap_out; eauto.
Qed.
Lemma cut_tail k : forall s w rug it, in_step (w_tab w) -> cuts (fun p => (fst p, cw (snd p))) (merge_tail cmp log k s w rug it) (merge_tail cmp' log' k s (cw w) (map cr rug) (map cr it)).
Proof.
  induction k as [|k IH]; intros s w rug it I; cbn [merge_tail]; [apply cuts_ok; reflexivity|]. rewrite cut_take. destruct (take cmp rug it) as [[[[sd v] rug'] it']|]; cbn [option_map fst snd]; [|apply cuts_ok; reflexivity].
  eapply cuts_bind; [apply cut_push_end|]. intros p Ep. cbv zeta. cbn [fst snd]. assert (I1 : in_step (w_tab (fst p))) by (eapply step_push_end; eauto).
  replace (match sd with Rug => s | Iter => log' s (cw (fst p)) (snd p) end) with (match sd with Rug => s | Iter => log s (fst p) (snd p) end) by (destruct sd; [reflexivity|rewrite Hl by exact I1; reflexivity]).
  apply IH. exact I1.
Qed.
Lemma cut_logged s w rows : in_step (w_tab w) -> cuts (fun p => (fst p, cw (snd p))) (merge_logged pr cmp log s w rows) (merge_logged pr cmp' log' s (cw w) (map cr rows)).
Proof.
  intro I. unfold merge_logged. destruct rows as [|first rows]; [apply cuts_ok; reflexivity|]. cbn [map]. change (w_tab (cw w)) with (ct (w_tab w)). rewrite cut_len.
  apply cuts_bind with (F := fun x => x); [apply cut_skip|]. intros c _. apply cuts_same. intros e _. apply cuts_same. intros ids _. eapply cuts_bind; [apply (cut_shift ids s w [] (first :: rows) I)|].
  intros q Eqq. cbv zeta. cbn [fst snd]. rewrite !map_length. apply cut_tail. eapply step_shift; eauto.
Qed.
End M.
Lemma cut_merge cmp cmp' w rows : (forall x y, cmp' (cr x) (cr y) = cmp x y) -> in_step (w_tab w) -> cuts cw (merge_vec pr cmp w rows) (merge_vec pr cmp' (cw w) (map cr rows)).
Proof.
  intros Hc I. unfold merge_vec, merge. rewrite (cut_sort _ _ Hc). eapply cuts_bind; [apply (cut_logged cmp cmp' Hc (fun _ _ _ => tt) (fun _ _ _ => tt)); auto|]. intros p _. apply cuts_ok. reflexivity.
Qed.
Lemma cut_single cmp cmp' w r : (forall x y, cmp' (cr x) (cr y) = cmp x y) -> in_step (w_tab w) -> cuts cp (merge_in_a_single_row pr cmp w r) (merge_in_a_single_row pr cmp' (cw w) (cr r)).
Proof.
  intros Hc I. unfold merge_in_a_single_row. eapply cuts_bind; [apply (cut_logged cmp cmp' Hc (fun got _ i => got ++ [i]) (fun got _ i => got ++ [i]) ltac:(reflexivity) [] w [r] I)|].
  intros [[|i [|]] w1] _; cbn [fst snd]; try apply cuts_panic. apply cuts_ok. reflexivity.
Qed.

(** ** Programs *)
Definition cut_st (st : state) : state := match st with Free t => Free (ct t) | Locked w its => Locked (cw w) its end.
Local Notation cx := (fun p : wlock * list bag_pos => (cw (fst p), snd p)).
Local Notation cu := (fun _ : unit => tt).
Lemma cut_items (get get' : nat -> res row) l : (forall i, cuts cr (get i) (get' i)) -> cuts (map cr) (map_res (fun o => match o with Some i => get i | None => Ok [] end) l)
  (map_res (fun o => match o with Some i => get' i | None => Ok [] end) l).
Proof. intro H. apply map_map_res. intros [i|]; [apply H|apply cuts_ok; destruct n; reflexivity]. Qed.
Lemma cut_readc t l : cuts cu (read_checked t l) (read_checked (ct t) l).
Proof. unfold read_checked. eapply cuts_bind; [apply cut_items; intro; apply cut_getc|]. intros _ _. apply cuts_ok. reflexivity. Qed.
Lemma cut_readp t l : cuts cu (read_plain t l) (read_plain (ct t) l).
Proof. unfold read_plain. eapply cuts_bind; [apply cut_items; intro; apply cut_get|]. intros _ _. apply cuts_ok. reflexivity. Qed.
Lemma cut_read_op t o o' : fewer_op n o o' -> cuts cu (read_op pr umax t o) (read_op pr umax (ct t) o').
Proof.
  intro H. destruct H as [o H| | | | | | | | ]; try apply cuts_panic. destruct o; try contradiction; try apply cuts_panic; cbn [read_op].
  - eapply cuts_bind; [apply cut_get|]. intros _ _. apply cuts_ok. reflexivity.
  - rewrite cut_read by exact H. intros [] E. exact E.
  - rewrite cut_find by exact H. intros [] E. exact E.
  - rewrite cut_last. intros [] E. exact E.
  - eapply cuts_bind; [apply cut_dump|]. intros _ _. apply cuts_ok. reflexivity.
  - rewrite cut_range. apply cuts_same. intros it _. apply cuts_same. intros l _. apply cut_readc.
  - rewrite cut_iter. apply cuts_same. intros it _. apply cuts_same. intros l _. apply cut_readc.
Qed.
Lemma cut_keep (its : list bag_pos) x y : cuts cw x y -> cuts cx (let* w := x in Ok (w, its)) (let* w := y in Ok (w, its)).
Proof. intro H. eapply cuts_bind; [exact H|]. intros w _. apply cuts_ok. reflexivity. Qed.
Lemma cut_fst {B C} (F : wlock * B -> wlock * C) x y : (forall p, fst (F p) = cw (fst p)) -> cuts F x y -> cuts cw (let* p := x in Ok (fst p)) (let* p := y in Ok (fst p)).
Proof. intros HF H. eapply cuts_bind; [exact H|]. intros p _. apply cuts_ok. apply HF. Qed.
Lemma cut_snd {B C} (F : B * wlock -> C * wlock) x y : (forall p, snd (F p) = cw (snd p)) -> cuts F x y -> cuts cw (let* p := x in Ok (snd p)) (let* p := y in Ok (snd p)).
Proof. intros HF H. eapply cuts_bind; [exact H|]. intros p _. apply cuts_ok. apply HF. Qed.
Lemma cut_write w its o o' : in_step (w_tab w) -> fewer_op n o o' -> cuts cx (write_op pr umax w its o) (write_op pr umax (cw w) its o').
Proof.
  intros I H. assert (R : cuts cx (let* _ := read_op pr umax (w_tab w) o in Ok (w, its)) (let* _ := read_op pr umax (w_tab (cw w)) o' in Ok (cw w, its))).
  { eapply cuts_bind; [exact (cut_read_op (w_tab w) o o' H)|]. intros _ _. apply cuts_ok. reflexivity. }
  destruct H as [o H|r|rs|rs|A f f' s H|A f f' s H|cmp cmp' A log log' s rows Hc Hl|cmp cmp' rows Hc|cmp cmp' r Hc].
  - destruct o; try contradiction; try exact R; cbn [write_op]; change (w_tab (cw w)) with (ct (w_tab w)); clear R.
    all: try solve [apply cut_keep, cut_delete | apply cut_keep, cuts_ok; reflexivity | apply cut_keep, cuts_ok, cut_clear | apply cut_keep, cuts_ok, cut_clear_raw | apply cut_keep, cut_live | apply cut_keep, cut_sorted_remove | apply cuts_ok; reflexivity].
    all: try solve [rewrite cut_editing; apply cuts_same; intros it _; apply cuts_same; intros l _; eapply cuts_bind; [apply cut_readp|]; intros _ _; apply cuts_ok; reflexivity].
    all: try solve [rewrite cut_next; apply cuts_same; intros i0 _; apply cuts_ok; reflexivity].
    all: try solve [apply cut_keep; eapply cuts_bind; [apply cut_assign; exact H|]; intros t _; apply cuts_ok; reflexivity].
    all: destruct (nth_error its k) as [p|]; [|apply cuts_panic].
    + intros x E. bindn E q Eqq. injection E as <-. pose proof (cut_bag_next w p q Eqq) as Y. cbv beta in Y.
      bindn Y q' Eq'. injection Y as Y1 Y2 Y3 Y4 _. rewrite Eq'. cbn [bind fst snd]. unfold pos_of. rewrite Y1, Y2, Y3, Y4. reflexivity.
    + apply cuts_ok. reflexivity.
    + eapply cuts_bind; [apply cut_bag_drop|]. intros w1 _. apply cuts_ok. reflexivity.
  - apply cut_keep. eapply cut_fst; [|apply cut_push]. reflexivity.
  - apply cut_keep, cut_push_all.
  - apply cut_keep. eapply cut_fst; [|apply cut_push_array]. reflexivity.
  - apply cut_keep. eapply cut_snd; [|unfold retain; eapply cut_visit; [|exact I]]. reflexivity.
    intros a w0 i I0 L. cbv zeta. rewrite (H a w0 i I0 L). reflexivity.
  - apply cut_keep. eapply cut_snd; [|eapply cut_visit; [exact H|exact I]]. reflexivity.
  - apply cut_keep. eapply cut_snd; [|apply cut_logged; eassumption]. reflexivity.
  - apply cut_keep, cut_merge; assumption.
  - apply cut_keep. eapply cut_fst; [|apply cut_single; eassumption]. reflexivity.
Qed.
Lemma fewer_avail o o' k : fewer_op n o o' -> avail k o' = avail k o.
Proof. intro H. destruct H; reflexivity. Qed.
Lemma cut_step st o o' : in_step (st_tab st) -> fewer_op n o o' -> cuts cut_st (step pr umax st o) (step pr umax (cut_st st) o').
Proof.
  intros I H. unfold step. replace (t_kind (st_tab (cut_st st))) with (t_kind (st_tab st)) by (destruct st; reflexivity). rewrite (fewer_avail _ _ _ H). destruct (avail _ _); [|apply cuts_panic].
  destruct st as [t|w its]; cbn [st_tab cut_st] in *.
  - pose proof (cut_read_op t o o' H) as R0. assert (R : cuts cut_st (let* _ := read_op pr umax t o in Ok (Free t)) (let* _ := read_op pr umax (ct t) o' in Ok (Free (ct t)))).
    { eapply cuts_bind; [exact R0|]. intros _ _. apply cuts_ok. reflexivity. }
    destruct H as [o H| | | | | | | | ]; try exact R. destruct o; try exact R; try contradiction; clear R R0.
    + apply cuts_ok. reflexivity.
    + change (t_kind (ct t)) with (t_kind t). apply cuts_bind with (F := ct); [|intros t1 _; apply cuts_ok; reflexivity].
      destruct (t_kind t); try apply (cut_remove srt (w_new t)). apply cut_table_remove.
  - pose proof (cut_write w its o o' I H) as R0. assert (R : cuts cut_st (let* p := write_op pr umax w its o in Ok (Locked (fst p) (snd p))) (let* p := write_op pr umax (cw w) its o' in Ok (Locked (fst p) (snd p)))).
    { eapply cuts_bind; [exact R0|]. intros p _. apply cuts_ok. reflexivity. }
    destruct H as [o H| | | | | | | | ]; try (destruct its; exact R). destruct o; try contradiction; try (destruct its; exact R); clear R R0; destruct its as [|p its]; try apply cuts_panic.
    + eapply cuts_bind; [apply cut_drop|]. intros t _. apply cuts_ok. reflexivity.
    + eapply cuts_bind; [apply cut_flush|]. intros t _. apply cuts_ok. reflexivity.
    + change (t_kind (w_tab (cw w))) with (t_kind (w_tab w)). destruct (t_kind (w_tab w)); try apply cuts_panic. eapply cuts_bind; [apply cut_remove|]. intros t _. apply cuts_ok. reflexivity.
Qed.
Lemma fewer_call c c' : fewer n c c' -> fewer_op n (op_of c) (op_of c').
Proof.
  intros [o o' H|A g g' s H|A g g' s H|cmp cmp' rows H]; cbn [op_of]; [exact H| | |].
  - apply fo_retain. intros a w i I _. rewrite cut_shown by exact I. apply H.
  - apply fo_visit. intros a w i I _. rewrite cut_shown by exact I. apply H.
  - apply fo_logged; [exact H|]. reflexivity.
Qed.
Lemma cut_ans_items get get' l : (forall i, cuts cr (get i) (get' i)) -> cuts (cut_answer n) (items get l) (items get' l).
Proof. intro H. unfold items. eapply cuts_bind; [apply cut_items; exact H|]. intros rs _. apply cuts_ok. reflexivity. Qed.
Lemma cut_answers st c c' : in_step (st_tab st) -> fewer n c c' -> cuts (cut_answer n) (answer_of pr umax st c) (answer_of pr umax (cut_st st) c').
Proof.
  intros I H. assert (T : st_tab (cut_st st) = ct (st_tab st)) by (destruct st; reflexivity).
  destruct H as [o o' H|A g g' s H|A g g' s H|cmp cmp' rows H]; try (destruct st; apply cuts_ok; reflexivity).
  - destruct H as [o H|r|rs|rs|A f f' s H|A f f' s H|cmp cmp' A log log' s rows Hc Hl|cmp cmp' rows Hc|cmp cmp' r Hc]; try (destruct st; apply cuts_ok; reflexivity).
    + destruct o; try contradiction; try (destruct st; apply cuts_ok; reflexivity); unfold answer_of; cbv zeta; rewrite T.
      all: solve [eapply cuts_bind; [apply cut_get|]; intros r _; apply cuts_ok; reflexivity
        | rewrite cut_read by exact H; apply cuts_same; intros v _; apply cuts_ok; reflexivity
        | rewrite cut_find by exact H; apply cuts_same; intros v0 _; apply cuts_ok; reflexivity
        | rewrite cut_last; apply cuts_same; intros v _; apply cuts_ok; reflexivity
        | eapply cuts_bind; [apply cut_dump|]; intros l _; apply cuts_ok; reflexivity
        | rewrite cut_range; apply cuts_same; intros it _; apply cuts_same; intros l _; apply cut_ans_items; intro; apply cut_getc
        | rewrite cut_iter; apply cuts_same; intros it _; apply cuts_same; intros l _; apply cut_ans_items; intro; apply cut_getc
        | rewrite cut_editing; apply cuts_same; intros it _; apply cuts_same; intros l _; apply cut_ans_items; intro; apply cut_get
        | rewrite cut_next; apply cuts_same; intros v _; apply cuts_ok; reflexivity].
    + destruct st as [t|w its]; [apply cuts_ok; reflexivity|]. cbn [answer_of cut_st]. eapply cuts_bind; [apply cut_push|]. intros p _. apply cuts_ok. reflexivity.
    + destruct st as [t|w its]; [apply cuts_ok; reflexivity|]. cbn [answer_of cut_st]. eapply cuts_bind; [apply cut_push_array|]. intros p _. apply cuts_ok. reflexivity.
    + destruct st as [t|w its]; [apply cuts_ok; reflexivity|]. cbn [answer_of cut_st]. eapply cuts_bind; [apply cut_single; eassumption|]. intros p _. apply cuts_ok. reflexivity.
  - destruct st as [t|w its]; [apply cuts_ok; reflexivity|]. cbn [answer_of cut_st]. eapply cuts_bind; [apply (cut_logged cmp cmp' H (fun got _ i => got ++ [i]) (fun got _ i => got ++ [i]) ltac:(reflexivity) [] w rows I)|].
    intros p _. apply cuts_ok. reflexivity.
Qed.
Lemma extra_step st c st' : only_extra n c -> step pr umax st (op_of c) = Ok st' -> cut_st st' = cut_st st.
Proof.
  intros X E. destruct c as [o| | |]; try contradiction. cbn [op_of] in E. unfold step in E. destruct (avail _ _); [|discriminate E].
  destruct o; try contradiction; cbn in X; destruct st as [t|w its]; cbn [read_op write_op] in E; try discriminate E.
  - bindn E u Eu. injection E as <-. reflexivity.
  - destruct its as [|p its]; bindn E q Eqq; bindn Eqq u Eu; injection Eqq as <-; injection E as <-; reflexivity.
  - bindn E u Eu. injection E as <-. reflexivity.
  - destruct its as [|p its]; bindn E q Eqq; bindn Eqq u Eu; injection Eqq as <-; injection E as <-; reflexivity.
  - assert (Y : exists t, t_assign (w_tab w) k i v = Ok t /\ st' = Locked (with_tab w t) its).
    { destruct its as [|p its]; bindn E q Eqq; bindn Eqq w1 Ew; bindn Ew t Et; injection Ew as <-; injection Eqq as <-; injection E as <-; eauto. }
    destruct Y as (t & Et & ->). cbn [cut_st]. unfold cut_w. cbn [with_tab w_tab w_changes w_pushed w_delete]. rewrite (extra_assign _ _ _ _ _ X Et). reflexivity.
Qed.
Theorem cut_talks s ps l : s_cols s <> [] -> Forall (fun x => op_ty (s_cols s) (op_of (fst x))) ps -> cut_program n ps ->
  talks pr umax (Free (t_new s)) (map fst ps) = Ok l -> talks pr umax (Free (t_new (cut_sch n s))) (left_calls ps) = Ok (left_answers n ps l).
Proof.
  intros Z Ty F. assert (G : tg false s (st_tab (Free (t_new s)))). { split; auto. exists (fun _ => true), []. split; [apply t_new_ok; auto|discriminate]. }
  replace (Free (t_new (cut_sch n s))) with (cut_st (Free (t_new s))) by (unfold cut_st, cut_tab, t_new; cbn; rewrite firstn_map; reflexivity).
  revert G. generalize (Free (t_new s)). revert l. induction ps as [|[c o] ps IH]; intros l st G E; [cbn in E; injection E as <-; reflexivity|].
  inversion Ty as [|? ? T1 T2]; subst. inversion F as [|? ? F1 F2]; subst. cbn [map fst snd talks] in *. bindn E st1 Es. bindn E a Ea. bindn E l1 El. injection E as <-.
  assert (G1 : tg false s (st_tab st1)) by (eapply step_tg; [exact G|exact T1|discriminate|exact Es]).
  assert (I : in_step (st_tab st)) by (eapply tg_step; exact G).
  destruct o as [c'|].
  - unfold left_calls, left_answers. cbn [flat_map combine fst snd app]. cbn [talks]. rewrite (cut_step st _ _ I (fewer_call _ _ F1) _ Es). cbn [bind]. rewrite (cut_answers st _ _ I F1 _ Ea). cbn [bind].
    fold (left_calls ps). fold (left_answers n ps l1). rewrite (IH T2 F2 l1 st1 G1 El). reflexivity.
  - unfold left_calls, left_answers. cbn [flat_map combine fst snd app]. rewrite <- (extra_step _ _ _ F1 Es). apply IH; auto.
Qed.
End Cut.

(** Sorting comes first in [merge]. *)
Lemma merge_first pr umax cmp rows cs : forall pre st, talks pr umax st (pre ++ Do (OMerge cmp rows) :: cs) =
  talks pr umax st (pre ++ Do (OMergeLogged cmp unit (fun _ _ _ => tt) tt (sort_rows cmp rows)) :: cs).
Proof.
  induction pre as [|c pre IH]; intro st; cbn [app talks].
  - replace (step pr umax st (op_of (Do (OMerge cmp rows)))) with (step pr umax st (op_of (Do (OMergeLogged cmp unit (fun _ _ _ => tt) tt (sort_rows cmp rows))))) by (destruct st; reflexivity).
    destruct st; reflexivity.
  - destruct (step pr umax st (op_of c)); [|reflexivity]. cbn [bind]. destruct (answer_of pr umax st c); [|reflexivity]. cbn [bind]. rewrite IH. reflexivity.
Qed.
