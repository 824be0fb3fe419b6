(** Lemmas behind PropsIntegrity.v. *)
From Coq Require Import List Arith Bool Lia Sorting.Sorted Sorting.Permutation.
From Verif Require Import Base BaseFacts Column ColumnFacts Order RowRange Table Visit VisitFacts SortedTab SortedFacts BagTab TableSpec
  TableFacts Hist HistFacts TableProps RowProps Events Cascade CascadeSpec CascadeFacts CascadeProps Extract RaceFacts IntegritySpec.
Import ListNotations.

(** ** Calls through a lock are steps of Hist.v *)
Section Edits.
Variables (pr : profile) (umax : nat).
Lemma edit_step q o q' : do_edit pr umax q o = Ok q' -> through_lock o = true /\ avail (t_kind (w_tab (fst q))) o = true /\
  write_op pr umax (fst q) (snd q) o = Ok q' /\ step pr umax (Locked (fst q) (snd q)) o = Ok (Locked (fst q') (snd q')).
Proof.
  unfold do_edit, step. cbn [st_tab]. destruct (through_lock o) eqn:T; [|discriminate]. destruct (avail _ o) eqn:A; [|discriminate].
  cbn [andb]. intro H. split; auto. split; auto. split; auto.
  destruct (snd q) as [|b its]; destruct o; try discriminate T; rewrite H; reflexivity.
Qed.
(** Induction over the calls. *)
Lemma edits_inv (P : wlock * list bag_pos -> Prop) (R : op -> Prop) es w0 w :
  Forall R es -> P (w0, []) ->
  (forall q o q', P q -> R o -> through_lock o = true -> avail (t_kind (w_tab (fst q))) o = true ->
     write_op pr umax (fst q) (snd q) o = Ok q' -> step pr umax (Locked (fst q) (snd q)) o = Ok (Locked (fst q') (snd q')) -> P q') ->
  do_edits pr umax w0 es = Ok w -> P (w, []).
Proof.
  intros F P0 St H. unfold do_edits in H. bindn H q Hq. destruct q as [w1 its]. cbn [snd fst] in H. destruct its; [|discriminate].
  injection H as <-. revert F P0 Hq. generalize (w0, @nil bag_pos). induction es as [|o es IH]; intros q F P0 Hq; cbn [fold_res] in Hq.
  - injection Hq as ->. exact P0.
  - inv F. bindn Hq q1 Hq1. destruct (edit_step _ _ _ Hq1) as (T & A & W & Sp). eapply IH; [assumption| |exact Hq]. eapply St; eauto.
Qed.
End Edits.

(** ** Consistent tables *)
Section Cons.
Variables (pr : profile) (umax : nat) (s : schema) (Q : row -> Prop).
Hypothesis Kc : s_kind s = Consistent.
(** [Q] does not look at columns that can be assigned to. *)
Hypothesis Qa : forall r k v b, nth_error (s_cols s) k = Some (Plain b) -> Q r -> Q (upd r k v).
Definition filled (t : table) : Prop := forall j r, t_get_row t j = Ok r -> Q r.
Notation wt w := (tg false s (w_tab w)).
Notation has w i := (t_contains (w_tab w) i).

Lemma get_has t live rows i : t_ok t live rows -> (exists r, t_get_row t i = Ok r) <-> t_contains t i = true.
Proof.
  intro K. rewrite (contains_iff _ _ _ K). split.
  - intros [r H]. apply (t_get_row_inv _ _ _ K) in H. rewrite (t_deleted_iff _ _ _ K) in H. split; [eapply nth_error_Some_lt|]; apply H.
  - intros [L M]. destruct (nth_error_lt_Some _ _ L) as [r Hr]. exists r. apply (t_get_row_inv _ _ _ K). rewrite (t_deleted_iff _ _ _ K). auto.
Qed.
Lemma push_filled w r w' j : wt w -> row_ty (s_cols s) r -> filled (w_tab w) -> Q r -> push w r = Ok (w', j) -> filled (w_tab w').
Proof.
  intros G T F Qr H. pose proof G as (E & live & rows & K & _).
  pose proof (push_full_spec w live rows r K) as P. rewrite E in P. specialize (P T). cbv zeta in P. rewrite H in P.
  destruct P as (P1 & P3 & P2 & _). intros i r' Hr. destruct (Nat.eq_dec i j) as [->|N].
  - rewrite P3 in Hr. injection Hr as <-. exact Qr.
  - destruct (P2 i N) as [E' _]. rewrite E' in Hr. eauto.
Qed.
Lemma push_end_filled w r w' j : wt w -> row_ty (s_cols s) r -> filled (w_tab w) -> Q r -> push_end_unchecked w r = Ok (w', j) -> filled (w_tab w').
Proof.
  intros G T F Qr H. pose proof G as (E & live & rows & K & _). rewrite <- E in T.
  destruct (Nat.leb_spec (length rows) (t_imax (w_tab w))) as [L|L].
  - destruct (push_end_ok w live rows r K T L (up live (length rows))) as (cs & P & K').
    { intros x Hx. unfold up. destruct (Nat.eqb_spec x (length rows)); [lia|auto]. }
    { unfold up. rewrite Nat.eqb_refl. auto. }
    rewrite P in H. inv H. rewrite event_add_tab. intros i r' Hr. apply (t_get_row_inv _ _ _ K') in Hr. destruct Hr as [Hr D].
    destruct (Nat.lt_ge_cases i (length rows)) as [Li|Li].
    + rewrite nth_error_app1 in Hr by auto. apply (F i). apply (t_get_row_inv _ _ _ K). split; [exact Hr|].
      rewrite (t_deleted_iff _ _ _ K') in D. rewrite (t_deleted_iff _ _ _ K). exact D.
    + rewrite nth_error_app2 in Hr by auto. destruct (i - length rows) as [|n]; [injection Hr as <-; exact Qr|destruct n; discriminate].
  - rewrite (push_end_full w live rows r K T L) in H. discriminate.
Qed.
Lemma push_all_filled rs : forall w w', wt w -> Forall (row_ty (s_cols s)) rs -> Forall Q rs -> filled (w_tab w) -> push_all w rs = Ok w' -> filled (w_tab w').
Proof.
  induction rs as [|r rs IH]; intros w w' G T Qs F H; unfold push_all in H; cbn [fold_res] in H.
  - inv H. auto.
  - inv T. inv Qs. bindn H w1 H1. bindn H1 q Hq. inv H1. destruct q as [w1 j]. cbn [fst] in *.
    apply IH in H; auto; [eapply push_tg; eauto|eapply push_filled; eauto].
Qed.
Lemma push_ends_filled rs : forall w i w' j, wt w -> Forall (row_ty (s_cols s)) rs -> Forall Q rs -> filled (w_tab w) ->
  fold_res (fun s r => push_end_unchecked (fst s) r) rs (w, i) = Ok (w', j) -> filled (w_tab w').
Proof.
  induction rs as [|r rs IH]; intros w i w' j G T Qs F H; cbn [fold_res] in H.
  - inv H. auto.
  - inv T. inv Qs. bindn H q Hq. destruct q as [w1 i1]. cbn [fst] in *. apply IH in H; auto; [eapply push_end_tg; eauto|eapply push_end_filled; eauto].
Qed.
Lemma assign_filled t k i v t' : tg false s t -> (forall ct, nth_error (s_cols s) k = Some ct -> v_ty (ct_base ct) v) -> filled t ->
  t_assign t k i v = Ok t' -> filled t' /\ t_free t' = t_free t /\ t_len t' = t_len t.
Proof.
  intros (E & live & rows & K & _) T F H. rewrite <- E in T. destruct (assign_exact _ _ _ _ _ _ _ K T H) as (r & Hr & K').
  assert (Fr : t_free t' = t_free t /\ exists b, nth_error (s_cols s) k = Some (Plain b)).
  { unfold t_assign in H. destruct (nth_error (t_cols t) k) as [[b|]|] eqn:Ek; try discriminate. bindn H c Hc. inv H. split; [reflexivity|].
    destruct (nth_error_lt_Some (s_cols (t_sch t)) k) as [ct Hk].
    { rewrite <- (cols_len_eq _ _ _ K). eapply nth_error_Some_lt; eauto. }
    destruct (cols_nth _ _ _ _ _ _ _ _ (ok_cols _ _ _ K) Ek Hk) as [Wf _]. destruct ct as [ct|ct]; [eauto|simpl in Wf; tauto]. }
  destruct Fr as [Fr [b Hb]]. split; [|split; [exact Fr|rewrite (t_len_ok _ _ _ K), (t_len_ok _ _ _ K'), upd_length; reflexivity]].
  intros j r' Hj. apply (t_get_row_inv _ _ _ K') in Hj. destruct Hj as [Hj D].
  rewrite (t_deleted_iff _ _ _ K'), Fr, <- (t_deleted_iff _ _ _ K) in D. rewrite nth_error_upd in Hj.
  destruct (Nat.eqb_spec j i) as [->|N]; cbn [andb] in Hj.
  - destruct (Nat.ltb_spec i (length rows)) as [L|L]; [|apply (F i); apply (t_get_row_inv _ _ _ K); auto]. injection Hj as <-.
    eapply Qa; [exact Hb|]. apply (F i). apply (t_get_row_inv _ _ _ K). auto.
  - apply (F j). apply (t_get_row_inv _ _ _ K). auto.
Qed.
Lemma write_filled w o w' its : wt w -> op_ty (s_cols s) o -> avail Consistent o = true -> through_lock o = true ->
  wholesale o = false -> Forall Q (new_rows o) -> filled (w_tab w) ->
  write_op pr umax w [] o = Ok (w', its) -> filled (w_tab w').
Proof.
  intros G T A TL Wh Qs F H. pose proof (tg_kind _ _ _ G) as Kw. rewrite Kc in Kw.
  assert (RD : (let* _ := read_op pr umax (w_tab w) o in Ok (w, [])) = Ok (w', its) -> filled (w_tab w')).
  { intro H'. bindn H' u Hu. inv H'. exact F. }
  destruct o; try discriminate A; try discriminate TL; try discriminate Wh; cbn [write_op new_rows op_ty] in *; try (apply RD; exact H); clear RD.
  - bindn H n H1. inv H. exact F.
  - bindn H n H1. bindn H n1 H2. bindn H n2 H3. inv H. exact F.
  - bindn H w1 H1. inv H. bindn H1 t Ht. inv H1. cbn [with_tab w_tab]. eapply assign_filled; eauto.
  - bindn H w1 H1. inv H. bindn H1 q Hq. inv H1. destruct q. inv Qs. eapply push_filled; eauto.
  - bindn H w1 H1. inv H. eapply push_all_filled; eauto.
  - bindn H w1 H1. inv H. bindn H1 q Hq. inv H1. destruct q as [w2 x]. cbn [fst]. destruct rs as [|r rs]; unfold push_array in Hq; [inv Hq; exact F|].
    inv T. inv Qs. bindn Hq q Hq1. bindn Hq q2 Hq2. bindn Hq e He. inv Hq. destruct q as [w3 i1], q2 as [w4 i2]. cbn [fst] in *.
    eapply push_ends_filled; [|eassumption|eassumption| |exact Hq2]; [eapply push_end_tg; eauto|eapply push_end_filled; eauto].
  - bindn H w1 H1. inv H. unfold delete in H1. rewrite Kw in H1. bindn H1 x Hx. inv H1. unfold event_del. rewrite Kw. exact F.
  - inv H. exact F.
Qed.
(** Without pushing and selecting, the lock's list is what was deleted. *)
Lemma write_marks w o w' its ids : wt w -> op_ty (s_cols s) o -> avail Consistent o = true -> through_lock o = true ->
  wholesale o = false -> deletes_only o = true -> w_changes w = SThese ids -> w_pushed w = false -> Forall (fun i => i < t_len (w_tab w)) ids ->
  write_op pr umax w [] o = Ok (w', its) -> w_changes w' = SThese (ids ++ deleted [o]) /\ w_pushed w' = false /\
    Forall (fun i => i < t_len (w_tab w')) (ids ++ deleted [o]).
Proof.
  intros G T A TL Wh Do Ch Pu Fi H. pose proof (tg_kind _ _ _ G) as Kw. rewrite Kc in Kw.
  assert (RD : deleted [o] = [] -> (let* _ := read_op pr umax (w_tab w) o in Ok (w, [])) = Ok (w', its) ->
    w_changes w' = SThese (ids ++ deleted [o]) /\ w_pushed w' = false /\ Forall (fun i => i < t_len (w_tab w')) (ids ++ deleted [o])).
  { intros -> H'. bindn H' u Hu. inv H'. rewrite app_nil_r. auto. }
  destruct o; try discriminate A; try discriminate TL; try discriminate Wh; try discriminate Do; cbn [write_op op_ty] in *; try (apply RD; [reflexivity|exact H]); clear RD;
    cbn [deleted flat_map app]; rewrite ?app_nil_r.
  - bindn H n H1. inv H. auto.
  - bindn H n H1. bindn H n1 H2. bindn H n2 H3. inv H. auto.
  - bindn H w1 H1. inv H. bindn H1 t Ht. inv H1. cbn [with_tab w_tab w_changes w_pushed]. split; [exact Ch|]. split; [exact Pu|].
    destruct G as (E & live & rows & K & _). rewrite <- E in T. destruct (assign_exact _ _ _ _ _ _ _ K T Ht) as (r & Hr & K').
    rewrite (t_len_ok _ _ _ K'), upd_length, <- (t_len_ok _ _ _ K). exact Fi.
  - bindn H w1 H1. inv H. unfold delete in H1. rewrite Kw in H1. bindn H1 x Hx. inv H1. destruct G as (E & live & rows & K & _).
    apply (t_check_inv _ _ _ K) in Hx. destruct Hx as (-> & L & _). unfold event_del. rewrite Kw. cbn. rewrite Ch. cbn. split; [reflexivity|]. split; [exact Pu|].
    apply Forall_app. split; [exact Fi|]. repeat constructor. rewrite (t_len_ok _ _ _ K). exact L.
Qed.
End Cons.

(** ** Sorted tables *)
Lemma without_In {A} (l : list A) ids x : forall i, In x (without i l ids) -> In x l.
Proof. induction l as [|a l IH]; intro i; cbn [without]; [auto|]. destruct (mem i ids); cbn; [eauto|]. intros [H|H]; eauto. Qed.
Section Srt.
Variables (pr : profile) (umax : nat) (sc : schema) (cmp : row -> row -> comparison) (Q : row -> Prop).
Hypothesis Ks : s_kind sc = Sorted.
Definition shelf (t : table) : Prop := t_sch t = sc /\ exists rows, t_ok t (fun _ => true) rows /\ Forall Q rows.
Lemma shelf_kind t : shelf t -> t_kind t = Sorted.
Proof. intros (E & _). unfold t_kind. congruence. Qed.
Lemma shelf_clear w : shelf (w_tab w) -> shelf (w_tab (clear_raw w)).
Proof. intros (E & rows & K & _). split; [exact E|]. exists []. split; [|constructor]. apply (clear_raw_ok w _ rows _ K). Qed.
Lemma shelf_frame w w' rows : shelf (w_tab w) -> frame w w' -> t_ok (w_tab w') (fun _ => true) rows -> Forall Q rows -> shelf (w_tab w').
Proof. intros (E & _) (F & _) K A. split; [congruence|]. eauto. Qed.
Lemma merge_shelf S (log : S -> wlock -> nat -> S) s w new q : shelf (w_tab w) -> Forall Q new ->
  Forall (row_ty (s_cols sc)) new -> merge_logged pr cmp log s w new = Ok q -> shelf (w_tab (snd q)).
Proof.
  intros G A T H. destruct new as [|first rest]; [inv H; exact G|]. pose proof G as (E & rows & K & Ar).
  assert (Nk : t_kind (w_tab w) <> Consistent) by (rewrite (shelf_kind _ G); discriminate).
  destruct (Nat.le_gt_cases (length rows) (t_imax (w_tab w))) as [L|L].
  - pose proof (merge_logged_ok pr cmp log s w rows first rest Nk K L) as M. rewrite E in M. specialize (M T).
    destruct (_ <=? _); [|rewrite H in M; discriminate]. destruct M as (w' & tr & M & Fr & K' & _). rewrite H in M. inv M. simpl.
    eapply shelf_frame; eauto. rewrite <- (merged_perm cmp rows first rest). apply Forall_app. auto.
  - unfold merge_logged in H. bindn H c Hc. bindn H e He. unfold rid_from_usize in He. rewrite (t_len_ok _ _ _ K) in He.
    destruct (Nat.leb_spec (length rows) (t_imax (w_tab w))); [lia|discriminate].
Qed.
Lemma retain_shelf S (f : S -> wlock -> nat -> S * bool) s w q : shelf (w_tab w) -> retain pr f s w = Ok q -> shelf (w_tab (snd q)).
Proof.
  intros G H. pose proof G as (E & rows & K & Ar). unfold retain in H.
  assert (Nk : t_kind (w_tab w) <> Consistent) by (rewrite (shelf_kind _ G); discriminate).
  set (F := fun s w i => let p := f s w i in (fst p, Continue (negb (snd p)) [])) in H.
  destruct (Nat.le_gt_cases (length rows) (t_imax (w_tab w))) as [L|L].
  - destruct (merge0_ok pr F w rows s) as (s' & tr & C & _ & A & X); auto.
    { intros s1 w1 i s2 rm add Z. unfold F in Z. inv Z. constructor. }
    assert (FA : Forall (fun a => match a with Continue _ add => add = [] | Break => True end) (map tr_act tr)).
    { eapply calls_acts; [|exact C]. intros. reflexivity. }
    destruct (visit_spec_sub (le_by cmp) rows _ FA) as (V & _ & VL). cbv zeta in X.
    destruct (Nat.leb_spec (length (visit_spec rows (map tr_act tr))) (Datatypes.S (t_imax (w_tab w)))); [|lia].
    destruct X as (w' & X & Fr & K'). rewrite H in X. inv X. simpl. eapply shelf_frame; eauto. rewrite Forall_forall in *. auto.
  - pose proof (ok_len _ _ _ K) as L2. unfold merge0 in H. bindn H q0 Hq.
    assert (Ei : t_imax (w_tab w) = s_imax sc) by (unfold t_imax; congruence).
    apply (rug_loop_full pr F sc) in Hq; [destruct Hq| | | | |].
    + intros. eexists. reflexivity.
    + split; auto. exists (fun _ => true), rows. split; auto. lia.
    + constructor.
    + rewrite (t_len_ok _ _ _ K). lia.
    + rewrite (t_len_ok _ _ _ K). lia.
Qed.
Lemma assign_shelf t k i v t' : shelf t -> op_ty (s_cols sc) (OAssign k i v) -> (forall r, Q r -> Q (upd r k v)) ->
  t_assign t k i v = Ok t' -> shelf t'.
Proof.
  intros (E & rows & K & Ar) T O H. simpl in T.
  assert (E' : t_sch t' = t_sch t).
  { unfold t_assign in H. destruct (nth_error (t_cols t) k) as [[b|]|]; try discriminate. bindn H c Hc. inv H. reflexivity. }
  destruct (assign_exact t k i v t' _ rows K) as (r & Hr & K'); [rewrite E; exact T|exact H|].
  split; [congruence|]. exists (upd rows i (upd r k v)). split; auto. rewrite Forall_forall in *. intros x Hx.
  apply In_nth_error in Hx. destruct Hx as [j Hj]. rewrite nth_error_upd in Hj. destruct ((j =? i) && (i <? length rows)).
  - injection Hj as <-. apply O. apply Ar. eapply nth_error_In; eauto.
  - apply Ar. eapply nth_error_In; eauto.
Qed.
Lemma remove_shelf w ids w' : shelf (w_tab w) -> sorted_remove_rows w ids = Ok w' -> shelf (w_tab w').
Proof.
  intros G H. pose proof G as (E & rows & K & Ar).
  assert (Nk : t_kind (w_tab w) <> Consistent) by (rewrite (shelf_kind _ G); discriminate).
  destruct (sorted_remove_rows_ok w _ rows ids K Nk) as [X Y].
  destruct ids as [|i ids]; [inv H; exact G|]. destruct (ids_dec (i :: ids) (length rows)) as [[D1 D2]|D].
  - destruct (X D1 D2) as (w2 & Z & Fr & K'). rewrite H in Z. inv Z. eapply shelf_frame; eauto. rewrite Forall_forall in *. intros x Hx. apply Ar. eapply without_In; eauto.
  - destruct Y as [c Z]; [discriminate|auto|]. rewrite H in Z. discriminate.
Qed.
Lemma write_shelf w its o q : shelf (w_tab w) -> op_ty (s_cols sc) o -> keeps_order cmp o -> avail Sorted o = true -> through_lock o = true ->
  Forall Q (new_rows o) -> (forall k i v r, o = OAssign k i v -> Q r -> Q (upd r k v)) ->
  write_op pr umax w its o = Ok q -> shelf (w_tab (fst q)).
Proof.
  intros G T O A TL Qs Qa H. pose proof (shelf_kind _ G) as Kd.
  assert (RD : (let* _ := read_op pr umax (w_tab w) o in Ok (w, its)) = Ok q -> shelf (w_tab (fst q))).
  { intro H'. bindn H' u Hu. inv H'. exact G. }
  destruct o; try discriminate A; try discriminate TL; cbn [write_op new_rows op_ty] in *; try (apply RD; exact H); cbv zeta in H;
    bindn H w1 H1; try (inversion H; subst q; clear H; cbn [fst]).
  - bindn H w2 H3. bindn H u Hu. inv H. exact G.
  - bindn H1 t Ht. inv H1. cbn [with_tab w_tab]. eapply assign_shelf; eauto.
  - inv H1. exact G.
  - inv H1. exact G.
  - inv H1. unfold clear, event_cleared. rewrite Kd. exact G.
  - inv H1. apply shelf_clear. auto.
  - eapply remove_shelf; eauto.
  - bindn H1 p Hp. inv H1. eapply retain_shelf; eauto.
  - bindn H1 p Hp. inv H1. destruct O as [-> Oa]. eapply merge_shelf; eauto.
  - simpl in O. subst cmp0. unfold merge_vec, merge in H1. bindn H1 p Hp. inv H1. eapply merge_shelf; [| | |exact Hp]; auto; rewrite <- (sort_rows_perm cmp rows); auto.
  - simpl in O. subst cmp0. bindn H1 p Hp. inv H1. unfold merge_in_a_single_row in Hp. bindn Hp p1 Hp1.
    assert (shelf (w_tab (snd p1))) by (eapply merge_shelf; [| | |exact Hp1]; auto).
    destruct (fst p1) as [|? [|]]; try discriminate. inv Hp. exact H.
Qed.
End Srt.

(** ** Flushing a table nobody watches *)
Lemma put_put u p t t' : u_put (u_put u p t) p t' = u_put u p t'.
Proof. unfold u_put. cbn [u_tabs u_trk u_hdl u_log]. f_equal. generalize (u_tabs u). induction p as [|p IH]; intros [|x l]; cbn; congruence. Qed.
Lemma flush_alone pr umax fuel u p w ev u' : u_trackers u p = [] -> length (u_hdl u) = max_event_types ->
  nth_error (u_tabs u) p <> None -> flush pr umax fuel u [] p w ev = Ok u' ->
  exists t', w_flush pr umax false w ev = Ok t' /\ u_tabs u' = upd (u_tabs u) p t' /\ u_trk u' = u_trk u /\ u_hdl u' = u_hdl u.
Proof.
  intros Tr Hl Hp H. unfold flush, flush_with in H. unfold w_flush. destruct (sel_empty (w_changes w)) eqn:Em.
  - bindn H t Ht. injection H as <-. exists t. auto.
  - bindn H q Hq. destruct fuel as [|n]; [discriminate|]. cbn [do_flush] in Hq. bindn Hq x Hx. bindn Hq hh Hh.
    replace (u_trackers (u_put u p (w_tab w)) p) with (@nil tracker) in Hq by (unfold u_trackers in *; cbn; congruence).
    cbn [length seq combine fold_res bind fst] in Hq. injection Hq as <-. cbn [fst snd] in H.
    assert (Ck : flush_check (w_pushed w) (w_delete w) ev = Ok tt).
    { unfold flush_check. rewrite Hx. cbn [bind]. unfold handlers_get in Hh. cbn [u_put u_hdl] in Hh.
      destruct (nth_error (u_hdl u) (ev_id ev)) eqn:Eh; [|discriminate]. apply nth_error_Some_lt in Eh. rewrite Hl in Eh.
      destruct x. rewrite (proj2 (Nat.ltb_lt _ _) Eh). reflexivity. }
    rewrite Ck. cbn [bind]. destruct (ev_removal ev && negb (sel_empty (w_changes w))) eqn:Er.
    + cbn [can_write forallb lock_ok bind] in H. bindn H t0 Ht0. unfold u_get in Ht0. cbn [u_put u_tabs] in Ht0.
      rewrite nth_error_upd_eq in Ht0 by (destruct (nth_error (u_tabs u) p) eqn:E; [eapply nth_error_Some_lt; eauto|congruence]). injection Ht0 as <-.
      bindn H w1 Hw1. bindn H y Hy. bindn H t Ht. injection H as <-. exists t. rewrite Hw1. cbn [bind]. rewrite Hy. cbn [bind].
      rewrite Ht. rewrite put_put. cbn. auto.
    + injection H as <-. exists (w_tab w). unfold flush_apply. rewrite Er. cbn. unfold w_drop. cbn. rewrite andb_false_r. auto.
Qed.

(** ** One session keeps everything in order *)
Section Sound.
Variables (pr : profile) (umax : nat) (rank : nat -> nat) (null : nat -> nat -> Prop) (u : universe) (p : nat) (w : wlock) (ids : list nat) (ev : event).
Hypothesis L0 : linked pr umax rank u.
Hypothesis PE : plain_removal ev.
Hypothesis HD : nth_error (u_hdl u) (ev_id ev) = Some HDelete.
Hypothesis Ep : nth_error (u_tabs u) p = Some (w_tab w).
Hypothesis Sp : sane pr umax (t_sch (w_tab w)) (Locked w []).
Hypothesis Kp : t_kind (w_tab w) = Consistent.
Hypothesis Cp : w_changes w = SThese ids.
Hypothesis PD : w_pushed w && w_delete w = false.
Hypothesis Fp : Forall (fun i => i < t_len (w_tab w)) ids.
Hypothesis NR : no_repeats u ids.
(** [flush_integrity] with references to nothing. *)
Lemma flush_sound fuel u' : sound null u -> rank p < fuel -> flush pr umax fuel u [] p w ev = Ok u' -> sound null u'.
Proof.
  intros I Hf E. destruct (flush_cascade pr umax rank u p w ids ev L0 PE HD Ep Sp Kp Cp PD Fp NR fuel Hf) as (u'' & E' & T1 & _ & T3 & T). rewrite E in E'. inversion E'; subst u''. clear E'.
  assert (Tb : forall c t', nth_error (u_tabs u') c = Some t' -> exists t, nth_error (u_tabs u) c = Some t /\ t_sch t' = t_sch t /\
     loses (doomed u p ids c) t t').
  { intros c t' H. destruct (nth_error_lt_Some (u_tabs u) c) as [t Ht].
    { rewrite <- T3. eapply nth_error_Some_lt; eauto. }
    destruct (T _ _ Ht) as (t2 & H2 & Es & Ls & _). rewrite H in H2. inv H2. eauto. }
  intros q c k key t' j i Htr Hq (tc' & r & Hc & Hr & Hk). unfold u_trackers in Htr. rewrite T1 in Htr. fold (u_trackers u q) in Htr.
  destruct (Tb _ _ Hq) as (t & Ht & Es & Ls). destruct (Tb _ _ Hc) as (tc & Htc & Esc & Lc).
  destruct L0 as [L1 L2].
  assert (Ok0 : exists j0, t_get_row tc j0 = Ok r /\ ~ doomed u p ids c j0).
  { destruct (L1 _ _ _ _ Htr) as (_ & t0 & b & H0 & S0 & _ & _ & Kd). rewrite Htc in H0. inv H0.
    assert (Kd' : t_kind t0 = Consistent \/ t_kind t0 = Sorted) by (destruct key; tauto).
    unfold loses in Lc. destruct Kd' as [Kd'|Kd']; rewrite Kd' in Lc.
    - exists j. apply Lc. auto.
    - destruct Lc as (dead & D1 & D2). destruct (sane_exact _ _ _ S0) as [rows [K0 _]]; [congruence|].
      assert (Hn : t_kind t0 <> Consistent) by congruence.
      pose proof (holds_of _ _ _ K0 Hn) as H0. pose proof (D2 _ H0) as H1. destruct H1 as [H1 H1'].
      assert (Lj : j < t_len tc').
      { assert (Sn : sane pr umax (t_sch t0) (Free tc')).
        { destruct (T _ _ Htc) as (t2 & H2 & _ & _ & S2). rewrite Hc in H2. inv H2. auto. }
        rewrite <- Esc in Sn. destruct (sane_exact _ _ _ Sn) as [rows' [K' _]]; [unfold t_kind in *; congruence|].
        apply (t_get_row_inv _ _ _ K') in Hr. rewrite (t_len_ok _ _ _ K'). eapply nth_error_Some_lt; apply Hr. }
      rewrite H1 in Lj. destruct (nth_error_lt_Some _ _ Lj) as [r' Hr']. pose proof (H1' _ _ Hr') as Hr2. rewrite Hr in Hr2. inv Hr2.
      destruct (without_nth _ _ _ _ Hr') as [G1 G2]. exists (nth j (surv (length rows) dead) 0). split; [apply H0; auto|].
      rewrite <- D1; auto. rewrite (proj1 H0). eapply nth_error_Some_lt; eauto. }
  destruct Ok0 as (j0 & Hj0 & Nd).
  assert (Hr0 : refers u c k j0 i) by (exists tc, r; auto).
  destruct (I _ _ _ _ _ _ _ Htr Ht Hr0) as [[ri Ct]|Nu]; [left|right; exact Nu].
  assert (Nq : ~ doomed u p ids q i).
  { intro H. apply Nd. eapply doomed_dependent; eauto. }
  assert (Kq : t_kind t = Consistent).
  { destruct (t_kind t) eqn:Kq; auto; rewrite (L2 _ _ Ht) in Htr by congruence; destruct Htr. }
  unfold loses in Ls. rewrite Kq in Ls. destruct Ls as [Ll Lg].
  exists ri. apply Lg. auto.
Qed.
End Sound.

Section Main.
Variables (pr : profile) (umax fuel : nat) (rank : nat -> nat) (null : nat -> nat -> Prop) (order : nat -> row -> row -> comparison).
Hypothesis Or : forall c, total_preorder (order c).
Definition watched_kind (t : table) : Prop := t_kind t = Consistent \/ t_kind t = Sorted.
Record inv (u : universe) : Prop := {
  i_wired : wired rank order u;
  i_tg : forall c t, nth_error (u_tabs u) c = Some t -> tg false (t_sch t) t;
  i_sane : forall c t, nth_error (u_tabs u) c = Some t -> watched_kind t -> sane pr umax (t_sch t) (Free t) /\ t_len t <= t_imax t;
  i_ord : forall c t, nth_error (u_tabs u) c = Some t -> t_kind t = Sorted -> ordered (t_sch t) (order c) t;
  i_int : sound null u }.

Lemma inv_new u : wired rank order u -> all_new u -> inv u.
Proof.
  intros W N. assert (G : forall c t, nth_error (u_tabs u) c = Some t -> t_ok t (fun _ => true) []).
  { intros c t H. destruct (N _ _ H) as [C E]. rewrite E. apply t_new_ok. auto. }
  split; auto.
  - intros c t H. split; [reflexivity|]. exists (fun _ => true), []. split; [eauto|discriminate].
  - intros c t H _. destruct (N _ _ H) as [C E]. split; [rewrite E at 2; apply sane_new; auto|]. rewrite (t_len_ok _ _ _ (G _ _ H)). cbn. lia.
  - intros c t H _. split; [reflexivity|]. exists []. split; [eauto|constructor].
  - intros p c k key t j i _ _ (t' & r & Hc & Hr & _). exfalso. apply (t_get_row_inv _ _ _ (G _ _ Hc)) in Hr. destruct Hr as [Hr _]. destruct j; discriminate.
Qed.
Lemma inv_same u u' : inv u -> u_tabs u' = u_tabs u -> u_trk u' = u_trk u -> length (u_hdl u') = length (u_hdl u) -> inv u'.
Proof.
  intros [W T S O I] Et Ek Eh. destruct u as [a b h l], u' as [a' b' h' l']. cbn in *. subst. split; auto.
  destruct W as (W1 & W2 & W3). split; auto. split; auto. cbn in *. congruence.
Qed.
Lemma ordered_column s cmp t k : s_kind s = Sorted -> sorts_by cmp k -> ordered s cmp t -> ascending_column t k.
Proof.
  intros _ Sb (E & rows & K & A) i j r r' a b L Hr Hr' Ha Hb. apply (t_get_row_inv _ _ _ K) in Hr. apply (t_get_row_inv _ _ _ K) in Hr'.
  eapply Sb; [exact Ha|exact Hb|]. destruct Hr as [Hr _], Hr' as [Hr' _]. clear - A L Hr Hr'. revert i j L Hr Hr'. induction A as [|x l A IH F]; intros i j L Hr Hr'; [destruct i; discriminate|].
  destruct j as [|j]; [lia|]. destruct i as [|i]; cbn in *.
  - injection Hr as ->. rewrite Forall_forall in F. apply F. eapply nth_error_In; eauto.
  - eapply IH; [|exact Hr|exact Hr']. lia.
Qed.
Lemma inv_linked u : inv u -> linked pr umax rank u.
Proof.
  intros [(W1 & W2 & _) T S O I]. split; [|exact W2]. intros p c k key H. destruct (W1 _ _ _ _ H) as (R & t & b & Ec & Eb & Kd). split; [exact R|].
  exists t, b. assert (Wk : watched_kind t) by (unfold watched_kind; destruct key; tauto). destruct (S _ _ Ec Wk) as [S1 S2].
  split; auto. split; auto. split; auto. split; auto. destruct key; [|exact Kd]. destruct Kd as [Ks Sb]. split; [exact Ks|].
  eapply ordered_column; [exact Ks|exact Sb|eauto].
Qed.
Lemma inv_put u u' p t t' : inv u -> u_tabs u' = upd (u_tabs u) p t' -> u_trk u' = u_trk u -> length (u_hdl u') = length (u_hdl u) ->
  nth_error (u_tabs u) p = Some t -> t_sch t' = t_sch t -> tg false (t_sch t) t' ->
  (watched_kind t -> sane pr umax (t_sch t) (Free t') /\ t_len t' <= t_imax t' /\ forall j r, t_get_row t' j = Ok r -> refs_ok null u p r) ->
  (t_kind t = Sorted -> ordered (t_sch t) (order p) t') ->
  (t_kind t = Consistent -> forall i, (exists r, t_get_row t i = Ok r) -> exists r, t_get_row t' i = Ok r) -> inv u'.
Proof.
  intros [(W1 & W2 & W3) T S O I] Et Ek Eh Hp Es G Sn Od Kp.
  assert (Kd : t_kind t' = t_kind t) by (unfold t_kind; congruence).
  assert (Up : forall c x, nth_error (u_tabs u') c = Some x -> c = p /\ x = t' \/ c <> p /\ nth_error (u_tabs u) c = Some x).
  { intros c x H. rewrite Et in H. destruct (Nat.eq_dec c p) as [->|N].
    - rewrite nth_error_upd_eq in H by (eapply nth_error_Some_lt; eauto). left. split; congruence.
    - rewrite nth_error_upd_ne in H by auto. auto. }
  assert (Ut : forall q, u_trackers u' q = u_trackers u q) by (intro q; unfold u_trackers; congruence).
  split.
  - split; [|split; [|congruence]].
    + intros q c k key H. rewrite Ut in H. destruct (W1 _ _ _ _ H) as (R & tc & b & Ec & Eb & Kc). split; [exact R|].
      destruct (Nat.eq_dec c p) as [->|N].
      * exists t', b. assert (tc = t) by congruence. subst tc. split; [rewrite Et; apply nth_error_upd_eq; eapply nth_error_Some_lt; eauto|].
        split; [congruence|]. rewrite Kd. exact Kc.
      * exists tc, b. split; [rewrite Et, nth_error_upd_ne; auto|]. auto.
    + intros q x H Nk. rewrite Ut. destruct (Up _ _ H) as [[-> ->]|[_ H']]; [apply (W2 _ _ Hp); congruence|eauto].
  - intros c x H. destruct (Up _ _ H) as [[-> ->]|[_ H']]; [rewrite Es; exact G|eauto].
  - intros c x H Wk. destruct (Up _ _ H) as [[-> ->]|[_ H']]; [|eauto]. rewrite Es. destruct Sn as (S1 & S2 & _); [unfold watched_kind in *; rewrite <- Kd; exact Wk|auto].
  - intros c x H Kx. destruct (Up _ _ H) as [[-> ->]|[_ H']]; [|eauto]. rewrite Es. apply Od. congruence.
  - intros q c k key x j i Htr Hq (tc & r & Hc & Hr & Hk). rewrite Ut in Htr. destruct (W1 _ _ _ _ Htr) as (R & tc0 & b & Ec & Eb & Kc).
    assert (Wc : watched_kind tc0) by (unfold watched_kind; destruct key; tauto).
    assert (Old : forall y, nth_error (u_tabs u) q = Some y -> (exists r', t_get_row y i = Ok r') -> exists r', t_get_row x i = Ok r').
    { intros y Hy Hr'. destruct (Up _ _ Hq) as [[-> ->]|[_ H']]; [|assert (y = x) by congruence; subst; exact Hr']. assert (y = t) by congruence. subst y. apply Kp; [|exact Hr'].
      destruct (t_kind t) eqn:Q; auto; rewrite (W2 _ _ Hp) in Htr by congruence; destruct Htr. }
    assert (Hy : exists y, nth_error (u_tabs u) q = Some y) by (destruct (Up _ _ Hq) as [[-> _]|[_ H']]; eauto). destruct Hy as [y Hy].
    assert (D : (exists r', t_get_row y i = Ok r') \/ null q i); [|destruct D as [D|D]; [left; exact (Old y Hy D)|right; exact D]].
    destruct (Up _ _ Hc) as [[-> ->]|[_ H']].
    + assert (tc0 = t) by congruence. subst tc0. destruct (Sn Wc) as (_ & _ & Rf). eapply Rf; eauto.
    + apply (I _ _ _ _ _ j _ Htr Hy). exists tc, r. auto.
Qed.

(** *** Consistent tables *)
Lemma its_nil w o w' its : avail Consistent o = true -> write_op pr umax w [] o = Ok (w', its) -> its = [].
Proof. destruct o; intros A H; try discriminate A; cbn [write_op] in H; repeat (match type of H with bind ?x _ = _ => destruct x; cbn [bind] in H; [|discriminate H] end); injection H as <-; congruence. Qed.
Lemma sane_free s w : s_kind s <> Bag -> sane pr umax s (Locked w []) -> sel_empty (w_changes w) = true \/ w_pushed w && w_delete w = false -> sane pr umax s (Free (w_tab w)).
Proof.
  intros Nb S H. eapply sane_step with (o := OFlush false (Ev 0 false false)); [exact S|exact I|intro E; discriminate E|].
  unfold step. cbn [st_tab]. assert (A : avail (t_kind (w_tab w)) (OFlush false (Ev 0 false false)) = true) by (destruct (t_kind (w_tab w)); reflexivity). rewrite A.
  unfold w_flush. destruct (sel_empty (w_changes w)) eqn:Em.
  - unfold w_drop. rewrite Em. cbn. rewrite andb_false_r. reflexivity.
  - destruct H as [H|H]; [discriminate|]. unfold flush_check. rewrite H. cbn. unfold w_drop. cbn. rewrite andb_false_r. reflexivity.
Qed.
Lemma refs_stable u p t : wired rank order u -> nth_error (u_tabs u) p = Some t -> t_kind t = Consistent ->
  forall r k v b, nth_error (s_cols (t_sch t)) k = Some (Plain b) -> refs_ok null u p r -> refs_ok null u p (upd r k v).
Proof.
  intros (W & _) Hp Kd r k v b Hb Rf q k' key x i Htr Hq Hk. destruct (W _ _ _ _ Htr) as (_ & t0 & b0 & E0 & Eb & Kc).
  assert (t0 = t) by congruence. subst t0. destruct key; [destruct Kc; congruence|]. destruct Kc as (_ & ty & ->).
  destruct (Nat.eq_dec k' k) as [->|N]; [congruence|]. rewrite nth_error_upd_ne in Hk by auto. eapply Rf; eauto.
Qed.
Lemma edits_cons u p t es w : inv u -> nth_error (u_tabs u) p = Some t -> t_kind t = Consistent ->
  Forall (fun o => op_ty (s_cols (t_sch t)) o /\ Forall (refs_ok null u p) (new_rows o) /\ wholesale o = false) es ->
  do_edits pr umax (w_new t) es = Ok w ->
  sane pr umax (t_sch t) (Locked w []) /\ filled (refs_ok null u p) (w_tab w) /\ (forall i, t_contains t i = true -> t_contains (w_tab w) i = true).
Proof.
  intros V Hp Kd F H. destruct (i_sane _ V _ _ Hp (or_introl Kd)) as [Sn _]. assert (Ks : s_kind (t_sch t) = Consistent) by exact Kd.
  assert (X : (fun q : wlock * list bag_pos => snd q = [] /\ sane pr umax (t_sch t) (Locked (fst q) []) /\ filled (refs_ok null u p) (w_tab (fst q)) /\
    (forall i, t_contains t i = true -> t_contains (w_tab (fst q)) i = true)) (w, [])); [|apply X].
  eapply edits_inv; [exact F| | |exact H].
  - cbn [fst snd]. split; [reflexivity|]. split; [|split; auto].
    + eapply sane_step with (o := OLock); [exact Sn|exact I|intro E; discriminate E|]. unfold step. cbn [st_tab]. unfold avail. reflexivity.
    + cbn [w_new w_tab]. intros j r Hr q k key x i Htr Hq Hk. apply (i_int _ V _ _ _ _ _ j _ Htr Hq). exists t, r. auto.
  - intros [w1 its] o [w2 its2] (Ei & S1 & F1 & H1) (Ty & Rf & Wh) TL A W Sp. cbn [fst snd] in *. subst its.
    pose proof (sane_tg _ _ _ _ S1) as G. apply tg_weak in G. cbn [st_tab] in G. rewrite (tg_kind _ _ _ G), Ks in A.
    pose proof (its_nil _ _ _ _ A W) as ->. split; [reflexivity|]. split; [|split].
    + eapply sane_step; [exact S1|exact Ty| |exact Sp]. intro E. destruct o; try discriminate E; try discriminate TL; discriminate Wh.
    + eapply (write_filled pr umax (t_sch t)); [exact Ks|eapply refs_stable; eauto; apply V|exact G|exact Ty|exact A|exact TL|exact Wh|exact Rf|exact F1|exact W].
    + intros i Hi. apply H1 in Hi. destruct (write_effect pr umax (t_sch t) Ks w1 o w2 [] G Ty A W) as (E1 & _).
      destruct (t_contains (w_tab w2) i) eqn:C; [reflexivity|]. destruct (E1 i Hi C) as [->|(srt & ev & -> & _)]; discriminate.
Qed.
Lemma deleted_snoc es o : deleted (es ++ [o]) = deleted es ++ deleted [o].
Proof. unfold deleted. rewrite flat_map_app. reflexivity. Qed.
Lemma edits_marks s es : forall w w', s_kind s = Consistent -> tg false s (w_tab w) -> w_changes w = SThese [] -> w_pushed w = false ->
  Forall (op_ty (s_cols s)) es -> Forall (fun o => wholesale o = false) es -> Forall (fun o => deletes_only o = true) es ->
  do_edits pr umax w es = Ok w' ->
  w_changes w' = SThese (deleted es) /\ w_pushed w' = false /\ Forall (fun i => i < t_len (w_tab w')) (deleted es).
Proof.
  intros w w' Ks G Ch Pu Ty Wh Do H. unfold do_edits in H. bindn H q Hq. destruct q as [w1 its]. cbn [snd fst] in H. destruct its; [|discriminate]. injection H as <-.
  assert (Gen : forall es ids w, tg false s (w_tab w) -> w_changes w = SThese ids -> w_pushed w = false -> Forall (fun i => i < t_len (w_tab w)) ids ->
    Forall (op_ty (s_cols s)) es -> Forall (fun o => wholesale o = false) es -> Forall (fun o => deletes_only o = true) es ->
    fold_res (do_edit pr umax) es (w, []) = Ok (w1, []) ->
    w_changes w1 = SThese (ids ++ deleted es) /\ w_pushed w1 = false /\ Forall (fun i => i < t_len (w_tab w1)) (ids ++ deleted es)).
  2:{ apply (Gen es [] w); auto. }
  clear - Ks. induction es as [|o es IH]; intros ids w G Ch Pu Fi Ty Wh Do H; cbn [fold_res] in H.
  - injection H as <-. cbn [deleted flat_map]. rewrite app_nil_r. auto.
  - apply Forall_cons_iff in Ty, Wh, Do. destruct Ty as [T1 T2], Wh as [W1 W2], Do as [D1 D2]. bindn H q Hq. destruct q as [w2 its]. destruct (edit_step _ _ _ _ _ Hq) as (TL & A & W & Sp). cbn [fst snd] in *.
    rewrite (tg_kind _ _ _ G), Ks in A. pose proof (its_nil _ _ _ _ A W) as ->.
    destruct (write_marks pr umax s Ks w o w2 [] ids G T1 A TL W1 D1 Ch Pu Fi W) as (C' & P' & F').
    replace (deleted (o :: es)) with (deleted [o] ++ deleted es) by (unfold deleted; cbn [flat_map]; rewrite app_nil_r; reflexivity). rewrite app_assoc. apply (IH _ w2); auto. eapply (write_tg pr umax s Ks); eauto.
Qed.

Lemma session_cons u p t es w ev u' : inv u -> nth_error (u_tabs u) p = Some t -> t_kind t = Consistent -> careful null order u p es ev ->
  do_edits pr umax (w_new t) es = Ok w -> t_len (w_tab w) <= t_imax (w_tab w) -> rank p < fuel ->
  flush pr umax fuel u [] p w ev = Ok u' -> inv u'.
Proof.
  intros V Hp Kd Ca He Le Hf H. specialize (Ca t Hp). rewrite Kd in Ca. destruct Ca as [F Ca].
  destruct (edits_cons u p t es w V Hp Kd F He) as (Sn & Fi & Hs). assert (Ks : s_kind (t_sch t) = Consistent) by exact Kd.
  pose proof (sane_tg _ _ _ _ Sn) as G. cbn [st_tab] in G. assert (Es : t_sch (w_tab w) = t_sch t) by apply G.
  pose proof (tg_weak _ _ _ G) as G0. assert (Kw : t_kind (w_tab w) = Consistent) by (unfold t_kind; congruence).
  assert (PD : sel_empty (w_changes w) = true \/ w_pushed w && w_delete w = false).
  { destruct (sel_empty (w_changes w)) eqn:Em; [auto|right]. destruct (w_pushed w && w_delete w) eqn:E; [|reflexivity]. exfalso.
    unfold flush, flush_with in H. rewrite Em in H. destruct fuel; [discriminate|]. cbn [do_flush] in H. rewrite E in H. discriminate. }
  set (u1 := u_put u p (w_tab w)).
  assert (H1 : nth_error (u_tabs u1) p = Some (w_tab w)) by (apply nth_error_upd_eq; eapply nth_error_Some_lt; eauto).
  assert (Sf : sane pr umax (t_sch t) (Free (w_tab w))) by (apply sane_free; [congruence|exact Sn|exact PD]).
  assert (V1 : inv u1).
  { eapply (inv_put u u1 p t (w_tab w)); auto.
    - intros K. congruence.
    - intros _ i Hi. destruct (i_tg _ V _ _ Hp) as (_ & live & rows & K & _). apply (get_has t live rows i K) in Hi. apply Hs in Hi.
      destruct G0 as (_ & live' & rows' & K' & _). apply (get_has _ live' rows' i K'). exact Hi. }
  assert (H' : flush pr umax fuel u1 [] p w ev = Ok u').
  { unfold flush, flush_with in *. unfold u1. rewrite !put_put. destruct (sel_empty (w_changes w)); [|exact H].
    bindn H t0 Ht0. injection H as <-. rewrite Ht0. cbn [bind]. rewrite put_put. reflexivity. }
  clear H. rename H' into H.
  assert (Dr : w_changes w = SThese [] -> u' = u1).
  { intro Em. unfold flush, flush_with in H. rewrite Em in H. cbn [sel_empty] in H. unfold w_drop in H. rewrite Em in H. cbn [sel_empty negb] in H. rewrite andb_false_r in H.
    cbn [bind] in H. injection H as <-. unfold u1. apply put_put. }
  destruct Ca as [[Nr Hd]|(PE & HD & Do & NR)].
  - destruct (sel_empty (w_changes w)) eqn:Em.
    { rewrite Dr; [exact V1|]. destruct (w_changes w) as [|[|]]; try discriminate Em. reflexivity. }
    destruct PD as [PD|PD]; [discriminate|]. destruct Hd as [Hd|Hd].
    + destruct (flush_quiet pr umax rank u1 ev (inv_linked _ V1)) with (fuel := fuel) (p := p) (w := w) as (u2 & E2 & T2 & K2 & D2); auto.
      { rewrite Nr. reflexivity. }
      rewrite H in E2. injection E2 as <-. eapply inv_same; eauto. congruence.
    + destruct (flush_alone pr umax fuel u1 p w ev u') as (t' & Ht' & T2 & K2 & D2); auto.
      { apply (i_wired _ V1). }
      { congruence. }
      assert (t' = w_tab w).
      { unfold w_flush in Ht'. rewrite Em in Ht'. bindn Ht' x Hx. unfold flush_apply in Ht'. rewrite Nr in Ht'. cbn [andb bind w_new w_changes] in Ht'. cbn in Ht'. unfold w_drop in Ht'. cbn in Ht'. rewrite andb_false_r in Ht'.
        injection Ht' as <-. reflexivity. }
      subst t'. eapply inv_same; [exact V1| |exact K2|congruence]. rewrite T2. apply upd_same. exact H1.
  - assert (Fw : Forall (op_ty (s_cols (t_sch t))) es /\ Forall (fun o => wholesale o = false) es).
    { split; (eapply Forall_impl; [|exact F]; cbv beta; tauto). }
    destruct (edits_marks (t_sch t) es (w_new t) w Ks (i_tg _ V _ _ Hp) eq_refl eq_refl (proj1 Fw) (proj2 Fw) Do He) as (Ch & Pu & Lt).
    assert (NR1 : no_repeats u1 (deleted es)).
    { destruct NR as [NR|NR]; [left; exact NR|right]. intros q c k tc Htr Hc. destruct (Nat.eq_dec c p) as [->|N].
      - rewrite H1 in Hc. injection Hc as <-. congruence.
      - apply (NR q c k tc Htr). unfold u1 in Hc. cbn [u_put u_tabs] in Hc. rewrite nth_error_upd_ne in Hc by auto. exact Hc. }
    assert (PD' : w_pushed w && w_delete w = false) by (rewrite Pu; reflexivity).
    assert (Sn1 : sane pr umax (t_sch (w_tab w)) (Locked w [])) by (rewrite Es; exact Sn).
    assert (HD1 : nth_error (u_hdl u1) (ev_id ev) = Some HDelete) by exact HD.
    destruct (flush_cascade pr umax rank u1 p w (deleted es) ev (inv_linked _ V1) PE HD1 H1 Sn1 Kw Ch PD' Lt NR1 fuel Hf) as (u2 & E2 & K2 & D2 & L2 & T2).
    pose proof (flush_sound pr umax rank null u1 p w (deleted es) ev (inv_linked _ V1) PE HD1 H1 Sn1 Kw Ch PD' Lt NR1 fuel u' (i_int _ V1) Hf H) as I'.
    rewrite H in E2. injection E2 as <-.
    assert (Bk : forall c t', nth_error (u_tabs u') c = Some t' -> exists t0, nth_error (u_tabs u1) c = Some t0 /\ t_sch t' = t_sch t0 /\
      loses (doomed u1 p (deleted es) c) t0 t' /\ (watched_kind t0 -> sane pr umax (t_sch t0) (Free t'))).
    { intros c t' Hc. destruct (nth_error_lt_Some (u_tabs u1) c) as [t0 H0]; [rewrite <- L2; eapply nth_error_Some_lt; eauto|].
      destruct (T2 _ _ H0) as (t2 & Hc2 & E & Ls & S2). rewrite Hc in Hc2. injection Hc2 as <-. exists t0. split; auto. split; auto. split; auto.
      intro Wk. apply S2. right. apply (i_sane _ V1 _ _ H0 Wk). }
    assert (Ut : forall q, u_trackers u' q = u_trackers u1 q) by (intro q; unfold u_trackers; congruence).
    destruct (i_wired _ V1) as (W1 & W2 & W3).
    assert (Tg : forall c t', nth_error (u_tabs u') c = Some t' -> tg false (t_sch t') t').
    { intros c t' Hc. destruct (Bk _ _ Hc) as (t0 & H0 & E & Ls & S2). rewrite E.
      assert (D : watched_kind t0 \/ t' = t0) by (unfold loses, watched_kind in *; destruct (t_kind t0); auto). destruct D as [Wk| ->].
      - apply tg_weak with (ex := true). exact (sane_tg _ _ _ _ (S2 Wk)).
      - apply (i_tg _ V1 _ _ H0). }
    split; auto.
    + split; [|split; [|congruence]].
      * intros q c k key Htr. rewrite Ut in Htr. destruct (W1 _ _ _ _ Htr) as (R & tc & b & Ec & Eb & Kc). split; [exact R|].
        destruct (T2 _ _ Ec) as (t2 & Hc2 & E & _). exists t2, b. split; auto. split; [congruence|]. unfold t_kind in *. rewrite E. exact Kc.
      * intros q x Hq Nk. rewrite Ut. destruct (Bk _ _ Hq) as (t0 & H0 & E & _). apply (W2 _ _ H0). unfold t_kind in *. congruence.
    + intros c t' Hc Wk. destruct (Bk _ _ Hc) as (t0 & H0 & E & Ls & S2).
      assert (Wk0 : watched_kind t0) by (unfold watched_kind, t_kind in *; rewrite <- E; exact Wk). rewrite E. split; [auto|].
      destruct (i_sane _ V1 _ _ H0 Wk0) as [_ L0]. unfold t_imax. rewrite E. fold (t_imax t0). unfold loses in Ls. destruct Wk0 as [Kt|Kt]; rewrite Kt in Ls; [destruct Ls; lia|].
      destruct Ls as (dead & _ & D). destruct (i_tg _ V1 _ _ H0) as (_ & live & rows & K & _).
      assert (Ho : holds t0 rows) by (eapply holds_of; [exact K|congruence]). specialize (D _ Ho). destruct D as [D _]. rewrite D.
      rewrite (t_len_ok _ _ _ K) in L0. clear - L0. enough (length (without 0 rows dead) <= length rows) by lia. generalize 0. induction rows; intro i; cbn; [lia|].
      destruct (mem i dead); cbn; specialize (IHrows ltac:(cbn in L0; lia) (S i)); lia.
    + intros c t' Hc Kc. destruct (Bk _ _ Hc) as (t0 & H0 & E & Ls & S2). assert (Kt : t_kind t0 = Sorted) by (unfold t_kind in *; congruence).
      unfold loses in Ls. rewrite Kt in Ls. destruct Ls as (dead & _ & D). destruct (i_ord _ V1 _ _ H0 Kt) as (_ & rows & K & As).
      assert (Ho : holds t0 rows) by (eapply holds_of; [exact K|congruence]). specialize (D _ Ho).
      destruct (Tg _ _ Hc) as (_ & live & rows' & K' & _). split; [reflexivity|]. exists (without 0 rows dead). split; [|apply without_asc; exact As].
      assert (Nc : t_kind t' <> Consistent) by congruence. rewrite (holds_unique t' (without 0 rows dead) rows' D (holds_of _ _ _ K' Nc)). apply (t_ok_all_live _ _ _ Nc K').
Qed.

(** *** The other tables *)
Lemma sorted_present t rows : t_kind t <> Consistent -> t_ok t (fun _ => true) rows -> all_present t.
Proof.
  intros Nc K i Hi. apply (contains_iff _ _ _ K). rewrite (ok_free_kind _ _ _ K Nc). rewrite <- (t_len_ok _ _ _ K). auto.
Qed.
Lemma session_sorted u p t es w ev u' : inv u -> nth_error (u_tabs u) p = Some t -> t_kind t = Sorted -> careful null order u p es ev ->
  do_edits pr umax (w_new t) es = Ok w -> t_len (w_tab w) <= t_imax (w_tab w) ->
  flush pr umax fuel u [] p w ev = Ok u' -> inv u'.
Proof.
  intros V Hp Kd Ca He Le H. specialize (Ca t Hp). rewrite Kd in Ca. assert (Ks : s_kind (t_sch t) = Sorted) by exact Kd.
  destruct (i_sane _ V _ _ Hp (or_intror Kd)) as [Sn _].
  assert (X : (fun q : wlock * list bag_pos => sane pr umax (t_sch t) (Locked (fst q) (snd q)) /\ ordered (t_sch t) (order p) (w_tab (fst q)) /\
    shelf (t_sch t) (refs_ok null u p) (w_tab (fst q))) (w, [])).
  { eapply edits_inv; [exact Ca| | |exact He].
    - cbn [fst snd w_new w_tab]. split; [|split].
      + eapply sane_step with (o := OLock); [exact Sn|exact I|intro E; discriminate E|]. reflexivity.
      + apply (i_ord _ V _ _ Hp Kd).
      + destruct (i_ord _ V _ _ Hp Kd) as (_ & rows & K & _). split; [reflexivity|]. exists rows. split; [exact K|]. rewrite Forall_forall. intros r Hr.
        apply In_nth_error in Hr. destruct Hr as [j Hj]. intros q k key x i Htr Hq Hk. apply (i_int _ V _ _ _ _ _ j _ Htr Hq). exists t, r. split; auto. split; auto.
        apply (t_get_row_inv _ _ _ K). split; [exact Hj|]. rewrite (t_deleted_iff _ _ _ K), (ok_free_kind _ _ _ K) by congruence. reflexivity.
    - intros q o q' (S1 & O1 & Sh) (Ty & Rf & Ko & As) TL A W Sp. assert (Kw : t_kind (w_tab (fst q)) = Sorted) by (eapply shelf_kind; [exact Ks|exact Sh]). rewrite Kw in A. split; [|split].
      + eapply sane_step; [exact S1|exact Ty| |exact Sp]. intros _. split; [|destruct o; try exact I; discriminate TL].
        cbn [st_tab]. destruct O1 as (_ & rows & K & _). eapply sorted_present; [congruence|exact K].
      + eapply write_ordered; [apply Or|exact Ks|exact O1|exact Ty|exact Ko|exact A|exact W].
      + eapply (write_shelf pr umax (t_sch t) (order p)); [exact Ks|exact Sh|exact Ty|exact Ko|exact A|exact TL|exact Rf| |exact W].
        intros k i v r -> Qr q0 k' key x j Htr Hq Hk. destruct (Nat.eq_dec k' k) as [->|N]; [exfalso; eapply As; eauto|].
        rewrite nth_error_upd_ne in Hk by auto. eapply Qr; eauto. }
  cbn [fst snd] in X. destruct X as (S1 & O1 & Sh).
  assert (Kw : t_kind (w_tab w) = Sorted) by (eapply shelf_kind; [exact Ks|exact Sh]).
  destruct (i_wired _ V) as (W1 & W2 & W3).
  destruct (flush_alone pr umax fuel u p w ev u') as (t' & Ht' & T2 & K2 & D2); auto.
  { apply (W2 _ _ Hp). congruence. }
  { congruence. }
  assert (Tc : shelf (t_sch t) (refs_ok null u p) t' /\ t_len t' <= t_imax t').
  { destruct (flush_sorted _ _ _ _ _ _ Kw Ht') as [->| ->]; [auto|]. split; [eapply shelf_clear; eauto|].
    destruct Sh as (_ & rows & K & _). pose proof (clear_raw_ok w _ _ (fun _ => true) K) as K'. rewrite (t_len_ok _ _ _ K'). cbn. lia. }
  destruct Tc as [Sh' Le']. assert (Es : t_sch t' = t_sch t) by apply Sh'.
  assert (S' : sane pr umax (t_sch t) (Free t')).
  { eapply sane_step with (o := OFlush false ev); [exact S1|exact I| |].
    - intros _. split; [|exact I]. cbn [st_tab]. destruct Sh as (_ & rows & K & _). eapply sorted_present; [congruence|exact K].
    - unfold step. cbn [st_tab]. rewrite Kw. cbn [avail]. rewrite Ht'. reflexivity. }
  eapply (inv_put u u' p t t'); auto; try congruence.
  - apply tg_weak with (ex := true). exact (sane_tg _ _ _ _ S').
  - intros _. split; [exact S'|]. split; [exact Le'|]. intros j r Hr. destruct Sh' as (_ & rows & K & Q). apply (t_get_row_inv _ _ _ K) in Hr. destruct Hr as [Hr _].
    rewrite Forall_forall in Q. apply Q. eapply nth_error_In; eauto.
  - intros _. eapply flush_ordered; [exact Ks|exact O1|exact Ht'].
Qed.
Lemma session_other u p t es w ev u' : inv u -> nth_error (u_tabs u) p = Some t -> ~ watched_kind t -> careful null order u p es ev ->
  do_edits pr umax (w_new t) es = Ok w -> flush pr umax fuel u [] p w ev = Ok u' -> inv u'.
Proof.
  intros V Hp Nk Ca He H. specialize (Ca t Hp).
  assert (C : Forall (op_ty (s_cols (t_sch t))) es /\ (t_kind t = Bag -> ev_removal ev = false)).
  { unfold watched_kind in Nk. destruct (t_kind t); try (split; [exact Ca|discriminate]); try tauto. }
  destruct C as [Ty Bg].
  assert (G : (fun q : wlock * list bag_pos => tg false (t_sch t) (w_tab (fst q))) (w, [])).
  { eapply (edits_inv pr umax (fun q : wlock * list bag_pos => tg false (t_sch t) (w_tab (fst q))) _ es (w_new t)); [exact Ty|exact (i_tg _ V _ _ Hp)| |exact He]. intros q o q' G T TL A W Sp.
    pose proof (good_step pr umax false (t_sch t) (Locked (fst q) (snd q)) o G T) as X. rewrite Sp in X. apply X; [|discriminate].
    intros _ _. destruct o; try reflexivity; discriminate TL. }
  cbn [fst] in G. destruct (i_wired _ V) as (W1 & W2 & W3).
  assert (Nc : t_kind t <> Consistent) by (unfold watched_kind in Nk; tauto).
  destruct (flush_alone pr umax fuel u p w ev u') as (t' & Ht' & T2 & K2 & D2); auto.
  { apply (W2 _ _ Hp Nc). }
  { congruence. }
  assert (G' : tg false (t_sch t) t').
  { pose proof (good_flush_tg pr umax false (t_sch t) false w ev G) as X. rewrite Ht' in X. apply X. split; [intros _; exact Bg|discriminate]. }
  eapply (inv_put u u' p t t'); auto; try congruence; try tauto.
  - apply G'.
  - intro K. exfalso. apply Nk. right. exact K.
Qed.
Theorem lives_inv u0 u : (forall p, rank p < fuel) -> wired rank order u0 -> all_new u0 -> lives pr umax fuel null order u0 u -> inv u.
Proof.
  intros Hf W N. induction 1 as [|u p t es w ev u' L IH Ca Hp He Le H]; [apply inv_new; auto|].
  destruct (t_kind t) eqn:Kd.
  - eapply session_other; eauto. unfold watched_kind. rewrite Kd. intros [?|?]; discriminate.
  - eapply session_cons; eauto.
  - eapply session_other; eauto. unfold watched_kind. rewrite Kd. intros [?|?]; discriminate.
  - eapply session_other; eauto. unfold watched_kind. rewrite Kd. intros [?|?]; discriminate.
  - eapply session_sorted; eauto.
Qed.
Lemma deleted_map ids : deleted (map ODelete ids) = ids.
Proof. induction ids as [|i ids IH]; [reflexivity|]. unfold deleted in *. cbn [map flat_map app]. rewrite IH. reflexivity. Qed.
Lemma deletes_done t live rows ids : t_ok t live rows -> t_kind t = Consistent -> Forall (fun i => t_contains t i = true) ids ->
  exists w, do_edits pr umax (w_new t) (map ODelete ids) = Ok w /\ w_tab w = t.
Proof.
  intros K Kc F. destruct (delete_marks pr umax t live rows K Kc ids (w_new t) eq_refl F) as (w & Q & Ew & _). exists w. split; [|exact Ew].
  unfold do_edits. enough (G : forall ids w0 w, w_tab w0 = t -> fold_res (delete pr umax) ids w0 = Ok w ->
    fold_res (do_edit pr umax) (map ODelete ids) (w0, []) = Ok (w, [])) by (rewrite (G ids (w_new t) w eq_refl Q); reflexivity).
  clear - Kc. induction ids as [|i ids IH]; intros w0 w E H; cbn [map fold_res] in *; [injection H as <-; reflexivity|].
  bindn H w1 H1. assert (E1 : w_tab w1 = t).
  { unfold delete in H1. rewrite E, Kc in H1. bindn H1 x Hx. injection H1 as <-. rewrite event_del_tab. exact E. }
  unfold do_edit at 1. cbn [through_lock fst snd]. rewrite E, Kc. cbn [avail andb write_op]. rewrite H1. cbn [bind]. apply IH; auto.
Qed.
Lemma removal_full u p t ids ev : (forall p, rank p < fuel) -> inv u ->
  nth_error (u_tabs u) p = Some t -> t_kind t = Consistent -> Forall (fun i => exists r, t_get_row t i = Ok r) ids -> NoDup ids ->
  plain_removal ev -> nth_error (u_hdl u) (ev_id ev) = Some HDelete ->
  exists w u', do_edits pr umax (w_new t) (map ODelete ids) = Ok w /\ flush pr umax fuel u [] p w ev = Ok u' /\
    careful null order u p (map ODelete ids) ev /\ t_len (w_tab w) <= t_imax (w_tab w) /\
    u_trk u' = u_trk u /\ u_hdl u' = u_hdl u /\
    forall c tc, nth_error (u_tabs u) c = Some tc -> exists tc', nth_error (u_tabs u') c = Some tc' /\ t_sch tc' = t_sch tc /\ loses (doomed u p ids c) tc tc'.
Proof.
  intros Hf V Hp Kd Fl Nd PE HD.
  destruct (i_tg _ V _ _ Hp) as (_ & live & rows & K & _).
  assert (Fc : Forall (fun i => t_contains t i = true) ids).
  { eapply Forall_impl; [|exact Fl]. cbv beta. intros i. apply (get_has t live rows i K). }
  destruct (deletes_done t live rows ids K Kd Fc) as (w & He & Ew).
  assert (Ca : careful null order u p (map ODelete ids) ev).
  { intros x Hx. rewrite Hp in Hx. injection Hx as <-. rewrite Kd. split.
    - apply Forall_map. apply Forall_forall. intros i _. cbn. auto.
    - right. split; [exact PE|]. split; [exact HD|]. split; [apply Forall_map, Forall_forall; reflexivity|]. rewrite deleted_map. left. exact Nd. }
  pose proof (Ca t Hp) as Cp. rewrite Kd in Cp. destruct Cp as [F _].
  destruct (edits_cons u p t _ w V Hp Kd F He) as (Sn & _ & _).
  assert (Fw : Forall (op_ty (s_cols (t_sch t))) (map ODelete ids) /\ Forall (fun o => wholesale o = false) (map ODelete ids)).
  { split; (eapply Forall_impl; [|exact F]; cbv beta; tauto). }
  destruct (edits_marks (t_sch t) (map ODelete ids) (w_new t) w Kd (i_tg _ V _ _ Hp) eq_refl eq_refl (proj1 Fw) (proj2 Fw)) as (Ch & Pu & Lt); auto.
  { apply Forall_map, Forall_forall. reflexivity. }
  rewrite deleted_map in Ch, Lt.
  destruct (flush_cascade pr umax rank u p w ids ev) with (fuel := fuel) as (u' & E' & Tk & Hd & _ & T'); auto; try (rewrite ?Ew; auto; fail).
  { apply inv_linked. exact V. }
  { rewrite Pu. reflexivity. }
  { left. exact Nd. }
  exists w, u'. split; [exact He|]. split; [exact E'|]. split; [exact Ca|]. split; [rewrite Ew; apply (i_sane _ V _ _ Hp (or_introl Kd))|].
  split; [exact Tk|]. split; [exact Hd|]. intros c tc Hc. destruct (T' _ _ Hc) as (tc' & Hc' & Es & Ls & _). eauto.
Qed.
Lemma removal_inv u p t ids ev : (forall p, rank p < fuel) -> inv u ->
  nth_error (u_tabs u) p = Some t -> t_kind t = Consistent -> Forall (fun i => exists r, t_get_row t i = Ok r) ids -> NoDup ids ->
  plain_removal ev -> nth_error (u_hdl u) (ev_id ev) = Some HDelete ->
  exists w u', do_edits pr umax (w_new t) (map ODelete ids) = Ok w /\ flush pr umax fuel u [] p w ev = Ok u' /\
    careful null order u p (map ODelete ids) ev /\ t_len (w_tab w) <= t_imax (w_tab w) /\
    forall c tc, nth_error (u_tabs u) c = Some tc -> exists tc', nth_error (u_tabs u') c = Some tc' /\ loses (doomed u p ids c) tc tc'.
Proof.
  intros Hf V Hp Kd Fl Nd PE HD. destruct (removal_full u p t ids ev Hf V Hp Kd Fl Nd PE HD) as (w & u' & He & E' & Ca & Le & _ & _ & T).
  exists w, u'. split; [exact He|]. split; [exact E'|]. split; [exact Ca|]. split; [exact Le|]. intros c tc Hc. destruct (T _ _ Hc) as (tc' & Hc' & _ & Ls). eauto.
Qed.
Theorem removal_done u0 u p t ids ev : (forall p, rank p < fuel) -> wired rank order u0 -> all_new u0 -> lives pr umax fuel null order u0 u ->
  nth_error (u_tabs u) p = Some t -> t_kind t = Consistent -> Forall (fun i => exists r, t_get_row t i = Ok r) ids -> NoDup ids ->
  plain_removal ev -> nth_error (u_hdl u) (ev_id ev) = Some HDelete ->
  exists w u', do_edits pr umax (w_new t) (map ODelete ids) = Ok w /\ flush pr umax fuel u [] p w ev = Ok u' /\
    lives pr umax fuel null order u0 u' /\
    forall c tc, nth_error (u_tabs u) c = Some tc -> exists tc', nth_error (u_tabs u') c = Some tc' /\ loses (doomed u p ids c) tc tc'.
Proof.
  intros Hf W N L Hp Kd Fl Nd PE HD. pose proof (lives_inv _ _ Hf W N L) as V.
  destruct (removal_inv u p t ids ev Hf V Hp Kd Fl Nd PE HD) as (w & u' & He & E' & Ca & Le & T). exists w, u'.
  split; [exact He|]. split; [exact E'|]. split; [|exact T]. eapply lives_on; eauto.
Qed.
End Main.
