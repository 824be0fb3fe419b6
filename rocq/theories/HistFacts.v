From Coq Require Import List Arith Bool Lia Sorting.Sorted Sorting.Permutation.
From Verif Require Import Base BaseFacts Column ColumnFacts RowRange RowRangeFacts Table Visit SortedTab BagTab
  TableSpec TableFacts VisitFacts SortedFacts BagFacts Hist.
Import ListNotations.

(** The table is well formed; with [ex] its free list is that of its rows. *)
Definition tg (ex : bool) (s : schema) (t : table) : Prop :=
  t_sch t = s /\ exists live rows, t_ok t live rows /\
    (ex = true -> (forall i, i < length rows -> live i = live_of t i) /\ Forall (fun i => i < length rows) (t_free t)).

Lemma tg_exact s t : tg true s t -> t_sch t = s /\ exists rows, t_exact t rows.
Proof.
  intros (E & live & rows & K & X). destruct (X eq_refl) as [A B]. split; auto. exists rows. split; auto.
  eapply t_ok_ext; [|exact K]. intros i Hi. symmetry. auto.
Qed.
Lemma tg_weak ex s t : tg ex s t -> tg false s t.
Proof. intros (E & live & rows & K & X). split; auto. exists live, rows. split; auto. discriminate. Qed.
Lemma tg_good ex s w : tg ex s (w_tab w) -> w_good s w.
Proof. intros (E & live & rows & K & X). split; eauto. Qed.
Lemma tg_nc ex s w : s_kind s <> Consistent -> w_good s w -> tg ex s (w_tab w).
Proof.
  intros Nc (E & live & rows & K). split; auto. exists live, rows. split; auto. intros _.
  assert (Nk : t_kind (w_tab w) <> Consistent) by (unfold t_kind; congruence).
  pose proof (ok_free_kind _ _ _ K Nk) as F. unfold live_of. rewrite F. split; [|constructor].
  intros i Hi. simpl. apply (ok_live_kind _ _ _ K); auto.
Qed.
Lemma tg_kind ex s t : tg ex s t -> t_kind t = s_kind s.
Proof. intros (E & _). unfold t_kind. congruence. Qed.

Section HF.
Variables (pr : profile) (umax : nat) (ex : bool) (s : schema).
Notation ts := (s_cols s).
Notation wt := (fun w => tg ex s (w_tab w)).

Lemma good_tg {A} (g : A -> wlock) (x : res A) : s_kind s <> Consistent ->
  good pr (fun a => w_good s (g a)) x -> good pr (fun a => tg ex s (w_tab (g a))) x.
Proof. intros Nc H. eapply good_impl; [exact H|]. intros a Ha. apply tg_nc; auto. Qed.

Lemma mem_set_insert i x l : StronglySorted lt l -> mem i (set_insert x l) = (i =? x) || mem i l.
Proof.
  intro S. apply eq_true_iff_eq. rewrite mem_In, orb_true_iff, Nat.eqb_eq, mem_In, set_insert_In; auto. tauto.
Qed.
Lemma mem_set_remove i x l : StronglySorted lt l -> mem i (set_remove x l) = negb (i =? x) && mem i l.
Proof.
  intro S. apply eq_true_iff_eq. rewrite mem_In, andb_true_iff, negb_true_iff, Nat.eqb_neq, mem_In, set_remove_In; auto. tauto.
Qed.

Lemma good_push_end_tg w r : wt w -> row_ty ts r -> good pr (fun p => wt (fst p)) (push_end_unchecked w r).
Proof.
  intros (E & live & rows & K & X) T. destruct (le_lt_dec (length rows) (t_imax (w_tab w))) as [L|L].
  - destruct (push_end_ok w live rows r K) with (live' := fun j => if j =? length rows then true else live j)
      as (cs & Q & H); auto; [rewrite E; auto| |rewrite Nat.eqb_refl; auto|].
    { intros i Hi. destruct (Nat.eqb_spec i (length rows)); [lia|auto]. }
    rewrite Q. simpl. rewrite event_add_tab. simpl. split; auto. eexists _, _. split; [exact H|].
    intro Y. destruct (X Y) as [A B]. unfold live_of in *; simpl. rewrite app_length; simpl. split.
    + intros i Hi. destruct (Nat.eqb_spec i (length rows)) as [->|Ni]; [|apply A; lia].
      symmetry. apply negb_true_iff. apply mem_nIn. intro C. rewrite Forall_forall in B. apply B in C. lia.
    + eapply Forall_impl; [|exact B]. simpl. intros; lia.
  - rewrite (push_end_full w live rows r) by (auto; rewrite E; auto). simpl. auto.
Qed.

Lemma good_push_tg w r : wt w -> row_ty ts r -> good pr (fun p => wt (fst p)) (push w r).
Proof.
  intros G T. unfold push. destruct (t_free (w_tab w)) as [|old f] eqn:F; [apply good_push_end_tg; auto|].
  pose proof G as (E & live & rows & K & X).
  assert (Kd : t_kind (w_tab w) = Consistent).
  { destruct (t_kind (w_tab w)) eqn:Kd; auto; rewrite (ok_free_kind _ _ _ K) in F; congruence. }
  rewrite <- F.
  pose proof (ok_free_sorted _ _ _ K) as Ss.
  set (t1 := Tab _ _ (set_remove old (t_free (w_tab w)))).
  assert (K1 : t_ok t1 live rows).
  { apply t_ok_free; auto; [apply set_remove_sorted; auto|].
    eapply Forall_forall. intros i Hi. apply set_remove_In in Hi; auto. destruct Hi as [_ Hi].
    pose proof (ok_free_max _ _ _ K) as M. rewrite Forall_forall in M. auto. }
  set (w1 := event_add _ old). assert (W1 : w_tab w1 = t1) by (unfold w1; rewrite event_add_tab; reflexivity).
  destruct (le_lt_dec (length rows) old) as [L|L].
  - unfold swap_out_row. rewrite W1. unfold t_check. rewrite (t_len_ok _ _ _ K1).
    destruct (Nat.leb_spec (length rows) old); [|lia]. simpl. auto.
  - destruct (nth_error_lt_Some _ _ L) as [o Ho].
    destruct (swap_out_row_ok w1 live rows) with (i := old) (r := r) (old := o)
      (live' := fun j => if j =? old then true else live j) as (cs & Q & H).
    + rewrite W1; auto.
    + rewrite W1. change (t_sch t1) with (t_sch (w_tab w)). rewrite E. auto.
    + auto.
    + rewrite W1, (t_deleted_iff _ _ _ K1). unfold t1; simpl. rewrite mem_set_remove by auto.
      rewrite Nat.eqb_refl. reflexivity.
    + intros j Nj. destruct (Nat.eqb_spec j old); [contradiction|auto].
    + rewrite Nat.eqb_refl. auto.
    + rewrite Q. simpl. rewrite W1 in *. split; auto. eexists _, _. split; [exact H|].
      intro Y. destruct (X Y) as [A B]. rewrite upd_length. split.
      * intros i Hi. unfold live_of, t1; simpl. rewrite mem_set_remove by auto.
        destruct (Nat.eqb_spec i old) as [->|Ni]; auto. simpl. apply A; auto.
      * simpl. apply Forall_forall. intros i Hi. apply set_remove_In in Hi; auto. destruct Hi as [_ Hi].
        rewrite Forall_forall in B. auto.
Qed.

Lemma good_push_all_tg rs : forall w, wt w -> Forall (row_ty ts) rs -> good pr wt (push_all w rs).
Proof.
  intros w G T. unfold push_all. apply good_fold; auto. intros w1 r Hr G1. rewrite Forall_forall in T.
  eapply good_bind; [apply good_push_tg; auto|]. intros p Hp. exact Hp.
Qed.
Lemma good_push_array_tg w rs : wt w -> Forall (row_ty ts) rs -> good pr (fun p => wt (fst p)) (push_array pr w rs).
Proof.
  intros G T. unfold push_array. destruct rs as [|r rs]; [exact G|]. inv T.
  eapply good_bind; [apply good_push_end_tg; auto|]. intros p Gp.
  eapply good_bind.
  { apply (good_fold pr (fun q => wt (fst q))); [exact Gp|]. intros q a Ha Gq. rewrite Forall_forall in *.
    apply good_push_end_tg; auto. }
  intros q Gq. eapply good_bind; [apply good_rid_next|]. intros e _. exact Gq.
Qed.

Lemma good_delete_raw_tg w i : wt w -> (s_kind s = Consistent -> i < t_len (w_tab w)) ->
  (pr = Release -> s_kind s = Bag -> 0 < t_len (w_tab w)) ->
  good pr (fun w' => wt w' /\ (s_kind s = Consistent -> t_len (w_tab w') = t_len (w_tab w))) (delete_raw pr umax w i).
Proof.
  intros G Hi Hb. destruct (kind_eqb (s_kind s) Consistent) eqn:Kc.
  - assert (Ks : s_kind s = Consistent) by (destruct (s_kind s); simpl in Kc; congruence).
    pose proof G as (E & live & rows & K & X).
    assert (Kd : t_kind (w_tab w) = Consistent) by (unfold t_kind; congruence).
    specialize (Hi Ks). rewrite (t_len_ok _ _ _ K) in *.
    pose proof (ok_free_sorted _ _ _ K) as Ss.
    destruct (delete_raw_cons_ok w live rows K pr umax i Kd Hi) with (live' := fun j => if j =? i then false else live j)
      as (cs & Q & H); auto.
    { intros j Hj. destruct (Nat.eqb_spec j i); [contradiction|auto]. } { rewrite Nat.eqb_refl. auto. }
    rewrite Q. simpl. split; [|intros _; erewrite t_len_ok; eauto].
    split; auto. eexists _, _. split; [exact H|]. intro Y. destruct (X Y) as [A B]. split.
    + intros j Hj. unfold live_of; simpl. rewrite mem_set_insert by auto.
      destruct (Nat.eqb_spec j i); simpl; auto. apply A; auto.
    + simpl. apply Forall_forall. intros j Hj. apply set_insert_In in Hj. destruct Hj as [->|Hj]; auto.
      rewrite Forall_forall in B. auto.
  - assert (Nc : s_kind s <> Consistent) by (intro C; rewrite C in Kc; discriminate).
    eapply good_impl; [apply (good_delete_raw pr umax s); auto; exact (tg_good _ _ _ G)|].
    intros w' [H1 H2]. split; auto. apply tg_nc; auto.
Qed.

(** The columns of an empty table cannot be swapped. *)
Lemma b_swap_empty b i j b' : b_len b = 0 -> b_swap b i j = Ok b' -> False.
Proof.
  intros L H. destruct b as [l|b]; simpl in *.
  - destruct l; [|discriminate]. destruct i; discriminate.
  - assert (D : bc_data (bc_flush b) = []).
    { unfold bc_flush. unfold bc_len in L. destruct (bc_data b) eqn:E; [|discriminate].
      destruct (bc_idx b); simpl; rewrite ?E; reflexivity. }
    unfold bc_swap in H. rewrite D in H. destruct i; discriminate.
Qed.
Lemma c_swap_empty imax c i j c' : c_len c = 0 -> c_swap imax c i j = Ok c' -> False.
Proof.
  intros L H. destruct c as [b|b ix]; simpl in H.
  - bindn H b' Q. eapply b_swap_empty; [exact L|exact Q].
  - bindn H x1 Q1. bindn H x2 Q2. bindn H x3 Q3. bindn H x4 Q4. bindn H b' Q. eapply b_swap_empty; [exact L|exact Q].
Qed.
(** What runs to the end is harmless in any case. *)
Lemma delete_raw_tg w i w' : wt w -> (s_kind s = Consistent -> i < t_len (w_tab w)) -> delete_raw pr umax w i = Ok w' ->
  wt w' /\ (s_kind s = Consistent -> t_len (w_tab w') = t_len (w_tab w)).
Proof.
  intros G Hi H.
  assert (Hd : (pr = Release -> s_kind s = Bag -> 0 < t_len (w_tab w)) \/ (s_kind s = Bag /\ t_len (w_tab w) = 0)).
  { destruct (t_len (w_tab w)) eqn:L; [|left; lia]. destruct (s_kind s) eqn:Ks; try (left; intros; discriminate). right; auto. }
  destruct Hd as [Hd|[Ks L]].
  { pose proof (good_delete_raw_tg w i G Hi Hd) as X. rewrite H in X. exact X. }
  split; [|congruence].
  assert (Kt : t_kind (w_tab w) = Bag) by (rewrite (tg_kind _ _ _ G); exact Ks).
  unfold delete_raw in H. rewrite Kt in H. bindn H len1 U.
  pose proof G as (E & live & rows & K & X). pose proof (t_len_ok _ _ _ K) as Lr.
  assert (Z : rows = []) by (destruct rows; auto; simpl in Lr; lia). subst rows.
  bindn H cs Q. bindn H cs2 Q2. inv H.
  assert (Ecs : cs = t_cols (w_tab w)).
  { destruct (i <? len1); [|inv Q; reflexivity]. exfalso.
    pose proof (ok_ncols _ _ _ K) as N. pose proof (ok_cols _ _ _ K) as C.
    destruct (s_cols (t_sch (w_tab w))) as [|ct cts], (t_cols (w_tab w)) as [|c l]; simpl in C; try tauto.
    simpl in Q. bindn Q c1 Q1. destruct C as (_ & _ & D & _).
    eapply c_swap_empty; [|exact Q1]. rewrite c_len_data, D. reflexivity. }
  subst cs. destruct (truncate_cols_ok w live [] K len1) as (cs' & Q' & H'). rewrite Q' in Q2. inv Q2.
  rewrite firstn_nil in H'. apply tg_nc; [congruence|]. split; [reflexivity|]. eauto.
Qed.

Lemma tg_clear_raw w : (ex = true -> t_free (w_tab w) = []) -> wt w -> wt (clear_raw w).
Proof.
  intros F (E & live & rows & K & X). split; [exact E|]. exists live, []. split; [eapply clear_raw_ok; eauto|].
  intro Y. simpl. rewrite (F Y). split; [lia|constructor].
Qed.

Lemma good_flush_apply_tg w ev ch : wt w ->
  (pr = Release -> s_kind s = Bag -> ev_removal ev = false) ->
  (ex = true -> ev_removal ev = true -> ch = SAll -> t_free (w_tab w) = []) ->
  good pr wt (flush_apply pr umax w ev ch).
Proof.
  intros G Hb F. unfold flush_apply. destruct (ev_removal ev) eqn:Er; simpl; auto.
  destruct ch as [|l]; simpl.
  - apply tg_clear_raw; auto.
  - destruct l as [|i0 l0]; simpl negb; cbv iota; auto.
    eapply good_impl; [apply (good_fold pr (fun w' => wt w' /\ (s_kind s = Consistent -> t_len (w_tab w') = t_len (w_tab w))))|].
    + auto.
    + intros w1 i _ [G1 L1]. eapply good_bind; [apply good_assert|]. simpl. intros _ Hi.
      apply Nat.ltb_lt in Hi. eapply good_impl; [apply good_delete_raw_tg; auto|].
      * intro Kc. rewrite L1; auto.
      * intros P Kb. specialize (Hb P Kb). discriminate.
      * intros w2 [G2 L2]. split; auto. intro Kc. rewrite L2, L1; auto.
    + intros w' [H _]. exact H.
Qed.

Definition flush_cond (w : wlock) (ev : event) : Prop :=
  (pr = Release -> s_kind s = Bag -> ev_removal ev = false) /\
  (ex = true -> ev_removal ev = true -> w_changes w = SAll -> t_free (w_tab w) = []).

Lemma good_drop w : wt w -> good pr (tg ex s) (w_drop w).
Proof. intro G. unfold w_drop. destruct (_ && _); simpl; auto. Qed.
Lemma sel_sort_all (srt : bool) c : (if srt then sel_sort c else c) = SAll -> c = SAll.
Proof. destruct srt, c; simpl; auto; discriminate. Qed.
Lemma good_flush_tg srt w ev : wt w -> flush_cond w ev -> good pr (tg ex s) (w_flush pr umax srt w ev).
Proof.
  intros G [C1 C2]. unfold w_flush. destruct (sel_empty _); [apply good_drop; auto|].
  eapply good_bind with (P := fun _ => True).
  { unfold flush_check. eapply good_bind; [apply good_assert|]. intros _ _. eapply good_impl; [apply good_assert|auto]. }
  intros _ _. eapply good_bind; [apply good_flush_apply_tg; auto|].
  { intros Y1 Y2 Y3. apply C2; auto. eapply sel_sort_all; eauto. }
  intros w' G'. eapply good_bind; [apply good_assert|]. intros _ _. apply good_drop; auto.
Qed.
Lemma good_live_flush_tg srt w ev : wt w -> flush_cond w ev -> good pr wt (w_live_flush pr umax srt w ev).
Proof.
  intros G [C1 C2]. unfold w_live_flush. destruct (sel_empty _); [exact G|].
  eapply good_bind with (P := fun _ => True).
  { unfold flush_check. eapply good_bind; [apply good_assert|]. intros _ _. eapply good_impl; [apply good_assert|auto]. }
  intros _ _. eapply good_bind; [apply good_flush_apply_tg; auto|].
  { intros Y1 Y2 Y3. apply C2; auto. eapply sel_sort_all; eauto. }
  intros w' G'. eapply good_bind; [apply good_assert|]. intros _ _. exact G'.
Qed.

(** ** Reads *)
Lemma good_it_next it : good pr (fun p => it_end (fst p) = it_end it /\
    (forall x, snd p = Some x -> (x < it_end it /\ x = it_i it) /\ (pr = Debug -> it_i (fst p) = S (it_i it))) /\
    (snd p = None -> it_end it <= it_i it)) (it_next pr (s_imax s) it).
Proof.
  unfold it_next. destruct (Nat.leb_spec (it_end it) (it_i it)).
  - simpl. repeat split; auto; discriminate.
  - pose proof (good_rid_next pr (s_imax s) (it_i it)) as R. destruct (rid_next pr (s_imax s) (it_i it)); simpl in *; auto.
    split; auto. split; [|discriminate]. intros x Hx. inv Hx. split; auto. apply R.
Qed.
Lemma good_cons_loop fuel : forall c, (pr = Debug -> it_end (ci_rows c) - it_i (ci_rows c) < fuel) ->
  good pr (fun p => it_end (ci_rows (fst p)) = it_end (ci_rows c) /\
    (forall x, snd p = Some x -> x < it_end (ci_rows c) /\
       (pr = Debug -> it_i (ci_rows c) < it_i (ci_rows (fst p)) /\ it_i (ci_rows c) <= x)))
    (cons_loop pr (s_imax s) fuel c).
Proof.
  induction fuel as [|n IH]; intros c L; cbn [cons_loop].
  - simpl. destruct pr; auto. specialize (L eq_refl). lia.
  - eapply good_bind; [apply good_it_next|]. intros p (E & N & _).
    destruct (snd p) as [x|] eqn:Ep; [|simpl; split; auto; discriminate].
    destruct (N x eq_refl) as [[Lx Ex] Ix].
    destruct (fst (join Nat.compare x (ci_del c))) eqn:J; simpl.
    + split; auto. intros y Hy. inv Hy. split; auto. intro P. rewrite Ix; auto.
    + split; auto. intros y Hy. inv Hy. split; auto. intro P. rewrite Ix; auto.
    + eapply good_impl; [apply IH; simpl; intro P; specialize (L P); rewrite E, Ix by auto; lia|].
      simpl. intros q [E2 N2]. split; [congruence|]. intros y Hy. destruct (N2 y Hy) as [A B]. split; [congruence|].
      intro P. specialize (B P). simpl in B. rewrite Ix in B by auto. lia.
Qed.
Lemma good_cons_run ops : forall c,
  good pr (Forall (fun o => forall x, o = Some x -> x < it_end (ci_rows c))) (cons_run pr (s_imax s) umax ops c).
Proof.
  induction ops as [|o ops IH]; intros c; cbn [cons_run]; [constructor|]. destruct o as [|n].
  - eapply good_bind; [apply good_cons_loop; lia|]. intros p [E N].
    eapply good_bind; [apply IH|]. intros l Hl. simpl. constructor.
    + intros x Hx. apply N; auto.
    + rewrite E in Hl. exact Hl.
  - unfold cons_skip_fast, it_skip_fast. eapply good_bind with (P := fun c' => it_end (ci_rows c') = it_end (ci_rows c)).
    + eapply good_bind with (P := fun r => it_end r = it_end (ci_rows c)).
      * eapply good_bind with (P := fun _ => True).
        { unfold uadd. destruct (_ <=? _); simpl; auto. destruct pr; simpl; auto. }
        intros a _. eapply good_bind; [apply good_from_usize|]. intros b _. reflexivity.
      * intros r Hr. exact Hr.
    + intros c' Hc. rewrite <- Hc. apply IH.
Qed.
Lemma good_cons_collect fuel : forall c, (pr = Debug -> it_end (ci_rows c) - it_i (ci_rows c) < fuel) ->
  good pr (Forall (fun x => x < it_end (ci_rows c))) (cons_collect pr (s_imax s) fuel c).
Proof.
  induction fuel as [|n IH]; intros c L; cbn [cons_collect].
  - simpl. destruct pr; auto. specialize (L eq_refl). lia.
  - eapply good_bind; [apply good_cons_loop; lia|]. intros p [E N].
    destruct (snd p) as [x|] eqn:Ep; [|constructor]. destruct (N x eq_refl) as [Lx Ix].
    eapply good_bind; [apply IH; intro P; specialize (L P); specialize (Ix P); lia|].
    intros l Hl. simpl. rewrite E in Hl. constructor; auto.
Qed.

Lemma good_map_res {A B} (P : A -> Prop) (Q : B -> Prop) (f : A -> res B) l :
  Forall P l -> (forall a, P a -> good pr Q (f a)) -> good pr (Forall Q) (map_res f l).
Proof.
  intros H Hf. induction H as [|a l Ha Hl IH]; simpl; [constructor|].
  eapply good_bind; [apply Hf; exact Ha|]. intros b Hb. eapply good_bind; [exact IH|]. intros bs Hbs. simpl. auto.
Qed.

Lemma good_get_checked t i : tg ex s t -> i < t_len t -> good pr (fun _ => True) (t_get_row_checked t i).
Proof.
  intros (E & live & rows & K & _) L. rewrite (t_len_ok _ _ _ K) in L. destruct (nth_error_lt_Some _ _ L) as [r Hr].
  unfold t_get_row_checked, t_check_checked. simpl. rewrite (t_get_row_raw_ok _ _ _ K _ _ Hr). simpl. auto.
Qed.
Lemma good_read_checked t l e : tg ex s t -> e <= t_len t -> Forall (fun o : option nat => forall x, o = Some x -> x < e) l ->
  good pr (fun _ => True) (read_checked t l).
Proof.
  intros G L F. unfold read_checked. eapply good_bind; [|intros; exact I].
  eapply good_map_res with (Q := fun _ => True); [exact F|]. intros [x|] Hx; simpl; auto.
  apply good_get_checked; auto. specialize (Hx x eq_refl). lia.
Qed.
Lemma good_read_plain t l : tg ex s t -> good pr (fun _ => True) (read_plain t l).
Proof.
  intros G. unfold read_plain. eapply good_bind; [|intros; exact I].
  eapply good_map_res with (P := fun _ => True) (Q := fun _ => True); [apply Forall_forall; auto|].
  intros [x|] Hx; simpl; auto. eapply good_impl; [apply (good_get_row pr s (w_new t)); exact (tg_good _ _ (w_new t) G)|auto].
Qed.
Lemma good_range t r : good pr (fun it => it_end (ci_rows it) <= t_len t) (t_range t r).
Proof.
  unfold t_range, ci_from. eapply good_bind with (P := fun it => it_end it <= t_len t).
  - eapply good_bind; [apply good_assert|]. intros _ _. eapply good_bind; [apply good_assert|].
    intros u H. simpl. apply Nat.leb_le. exact H.
  - intros it H. exact H.
Qed.
Lemma good_iter t : good pr (fun it => it_i (ci_rows it) = 0 /\ it_end (ci_rows it) = t_len t) (t_iter t).
Proof.
  unfold t_iter, t_row_range, rid_from_usize. destruct (_ <=? _); simpl; auto.
  unfold t_range, ci_from; cbn [r_start r_end]. rewrite Nat.leb_refl.
  replace ((0 <? t_len t) || (0 =? t_len t)) with true; [simpl; auto|].
  destruct (t_len t); auto.
Qed.
Lemma tg_imax t : tg ex s t -> t_imax t = s_imax s.
Proof. intros (E & _). unfold t_imax. congruence. Qed.

Lemma good_read_op t o : tg ex s t -> good pr (fun _ => True) (read_op pr umax t o).
Proof.
  intros G. pose proof G as (E & live & rows & K & _). pose proof (tg_imax t G) as Im.
  destruct o; cbn [read_op]; try exact I.
  - eapply good_bind; [apply (good_get_row pr s (w_new t)); exact (tg_good _ _ (w_new t) G)|]. intros; exact I.
  - unfold t_read. destruct (nth_error (t_cols t) k) as [c|] eqn:Ek; [|exact I].
    assert (Hk : exists ct, nth_error ts k = Some ct).
    { apply nth_error_lt_Some. rewrite <- E, <- (cols_len_eq _ _ _ K). eapply nth_error_Some_lt; eauto. }
    destruct Hk as [ct Hk]. rewrite <- E in Hk.
    destruct (cols_nth _ _ _ _ _ _ _ _ (ok_cols _ _ _ K) Ek Hk) as [Wf Dt].
    destruct (le_lt_dec (c_len c) i) as [Lc|Lc].
    + unfold c_get. destruct (Nat.leb_spec (c_len c) i); [exact I|lia].
    + rewrite c_len_data in Lc. destruct (nth_error_lt_Some _ _ Lc) as [v Hv].
      erewrite c_get_ok by eauto. exact I.
  - unfold t_find. destruct (nth_error (t_cols t) k) as [c|] eqn:Ek; [|exact I].
    assert (Hk : exists ct, nth_error ts k = Some ct).
    { apply nth_error_lt_Some. rewrite <- E, <- (cols_len_eq _ _ _ K). eapply nth_error_Some_lt; eauto. }
    destruct Hk as [ct Hk]. rewrite <- E in Hk.
    destruct (cols_nth _ _ _ _ _ _ _ _ (ok_cols _ _ _ K) Ek Hk) as [Wf Dt].
    destruct c as [b|b ix]; [exact I|]. destruct ct as [ct|ct]; [simpl in Wf; tauto|].
    erewrite c_find_ok by eauto. exact I.
  - rewrite (t_last_eq _ _ _ K). destruct rows; [exact I|]. destruct (_ <=? _); exact I.
  - unfold t_dump. eapply good_bind; [|intros; exact I].
    eapply good_bind; [apply good_iter|]. intros it [E1 E2]. rewrite Im.
    eapply good_bind; [apply good_cons_collect; lia|]. intros ids Hids.
    eapply good_map_res with (Q := fun _ => True); [exact Hids|]. intros i Hi. apply good_get_checked; auto. simpl in Hi; lia.
  - eapply good_bind; [apply good_range|]. intros it Hit. rewrite Im. eapply good_bind; [apply good_cons_run|].
    intros l Hl. apply (good_read_checked t l _ G Hit Hl).
  - eapply good_bind; [apply good_iter|]. intros it [E1 E2]. rewrite Im. eapply good_bind; [apply good_cons_run|].
    intros l Hl. apply (good_read_checked t l (it_end (ci_rows it))); auto. lia.
Qed.

Lemma good_assign w k i v : wt w -> (forall t, nth_error ts k = Some t -> v_ty (ct_base t) v) ->
  good pr (tg ex s) (t_assign (w_tab w) k i v).
Proof.
  intros (E & live & rows & K & X) T. unfold t_assign.
  destruct (nth_error (t_cols (w_tab w)) k) as [[b|b ix]|] eqn:Ek; try exact I.
  assert (Hk : exists ct, nth_error (s_cols (t_sch (w_tab w))) k = Some ct).
  { apply nth_error_lt_Some. rewrite <- (cols_len_eq _ _ _ K). eapply nth_error_Some_lt; eauto. }
  destruct Hk as [ct Hk].
  destruct (cols_nth _ _ _ _ _ _ _ _ (ok_cols _ _ _ K) Ek Hk) as [Wf Dt].
  destruct ct as [ct|ct]; [|simpl in Wf; tauto].
  unfold c_set. rewrite c_len_data, Dt, map_length. destruct (Nat.leb_spec (length rows) i) as [L|L]; [exact I|].
  destruct (nth_error_lt_Some _ _ L) as [r Hr].
  destruct (cols_assign_ok _ _ _ k i _ _ r v b ct (ok_cols _ _ _ K) Ek Hk) as (c & Q & _ & C); auto.
  { rewrite E in Hk. apply (T _ Hk). }
  rewrite Q. simpl. split; auto. exists live, (upd rows i (upd r k v)). split.
  - change (t_ok (with_cols (w_tab w) (upd (t_cols (w_tab w)) k c)) live (upd rows i (upd r k v))).
    eapply with_cols_ok; eauto; rewrite upd_length; auto. apply K.
  - rewrite upd_length. exact X.
Qed.

Lemma good_delete w i : wt w -> good pr wt (delete pr umax w i).
Proof.
  intros G. pose proof G as (E & live & rows & K & X). unfold delete.
  destruct (t_kind (w_tab w)) eqn:Kd; try exact I.
  - eapply good_bind; [apply (good_check pr s); exact (tg_good _ _ _ G)|]. intros x _. simpl. rewrite event_del_tab. exact G.
  - destruct (t_check (w_tab w) i) as [x|e] eqn:C.
    + apply (t_check_inv _ _ _ K) in C. destruct C as (-> & L & _). simpl.
      eapply good_impl; [apply good_delete_raw_tg; auto|].
      * rewrite (t_len_ok _ _ _ K). auto.
      * rewrite (t_len_ok _ _ _ K). lia.
      * intros w' H. apply H.
    + destruct (t_check_err _ _ _ C) as [c ->]. exact I.
Qed.

Lemma good_bag_next w p : wt w -> good pr (fun q => wt (bg_w (fst q))) (bag_next pr umax (bag_of w p)).
Proof.
  intros G. unfold bag_next, bag_of. cbn [bg_w bg_i bg_mark bg_last]. destruct (_ <=? _); [exact G|].
  eapply good_bind with (P := fun b => wt (bg_w b)).
  - destruct (fst (fst p)); [|exact G]. destruct (snd p); [|exact I].
    eapply good_bind; [apply good_from_usize|]. intros a _.
    eapply good_bind; [apply good_delete; auto|]. intros w' G'. exact G'.
  - intros b Gb. destruct (bg_last b); [|exact I].
    eapply good_bind; [apply good_from_usize|]. intros a _. exact Gb.
Qed.
Lemma good_bag_drop w p : wt w -> good pr wt (bag_drop pr umax (bag_of w p)).
Proof.
  intros G. unfold bag_drop, bag_of. cbn [bg_w bg_i bg_mark bg_last]. destruct (snd p); [|exact G].
  destruct (fst (fst p)); [|exact G].
  eapply good_bind; [apply good_from_usize|]. intros a _. apply good_delete; auto.
Qed.

Lemma good_remove_rows srt w ev rows : wt w -> s_kind s = Consistent ->
  (ex = true -> (rows = SAll \/ (ev_removal ev = true /\ w_changes w = SAll)) ->
     t_free (w_tab w) = [] /\ (rows = SAll \/ rows = SThese [])) ->
  good pr (tg ex s) (w_remove_rows pr umax srt w ev rows).
Proof.
  intros G Kc C. unfold w_remove_rows. destruct rows as [|rows].
  - cbn [bind]. apply good_flush_tg.
    + assert (G1 : wt (clear_raw w)) by (apply tg_clear_raw; auto; intro Y; apply C; auto).
      unfold clear, event_cleared. rewrite (tg_kind _ _ _ G1), Kc. exact G1.
    + split; [congruence|]. intros Y _ _. unfold clear, event_cleared.
      assert (t_kind (w_tab (clear_raw w)) = Consistent) as -> by (rewrite <- Kc; apply (tg_kind _ _ _ G)).
      simpl. apply C; auto.
  - eapply good_bind with (P := fun w' => (wt w' /\ t_len (w_tab w') = t_len (w_tab w)) /\ w_changes w' = w_changes w /\
        (rows = [] -> w' = w)).
    + destruct rows as [|i0 rows]; [simpl; auto|].
      apply (good_fold pr (fun w' => (wt w' /\ t_len (w_tab w') = t_len (w_tab w)) /\ w_changes w' = w_changes w /\
        (i0 :: rows = [] -> w' = w))).
      { split; [split; auto|]. split; auto. }
      intros w1 i _ [[G1 L1] [H1 _]]. eapply good_bind; [apply good_assert|]. simpl. intros _ Hi.
      apply Nat.ltb_lt in Hi.
      pose proof (good_delete_raw_tg w1 i G1) as D. destruct (delete_raw pr umax w1 i) as [w2|e] eqn:Q.
      * destruct D as [G2 L2]; [intro; lia|congruence|]. split; [split; auto; rewrite L2; auto|].
        split; [|discriminate]. rewrite <- H1. unfold delete_raw in Q. rewrite (tg_kind _ _ _ G1), Kc in Q.
        bindn Q cs Q1. bindn Q n Q2. inv Q. reflexivity.
      * apply D; [intro; lia|congruence].
    + intros w' [[G' L'] [H' E']]. apply good_flush_tg; auto. split; [congruence|].
      intros Y1 Y2 Y3. rewrite H' in Y3. destruct (C Y1 (or_intror (conj Y2 Y3))) as [F [Q|Q]]; [discriminate|].
      inv Q. rewrite E'; auto.
Qed.
Lemma good_sorted_table_remove srt t ev rows : tg ex s t -> s_kind s = Sorted ->
  good pr (tg ex s) (sorted_table_remove_rows pr umax srt t ev rows).
Proof.
  intros G Kc. assert (Nc : s_kind s <> Consistent) by congruence. unfold sorted_table_remove_rows.
  eapply good_bind with (P := wt).
  - destruct rows as [|rows].
    + simpl. unfold clear, event_cleared. assert (t_kind (w_tab (clear_raw (w_new t))) = Sorted) as -> by (rewrite <- Kc; exact (tg_kind _ _ _ G)).
      apply tg_nc; auto. apply good_clear_raw. exact (tg_good _ _ (w_new t) G).
    + apply (good_tg (fun w => w)); auto. apply good_sorted_remove; auto. exact (tg_good _ _ (w_new t) G).
  - intros w Gw. apply good_flush_tg; auto. split; [congruence|]. intros Y1 Y2 Y3.
    destruct Gw as (E & live & rs & K & _). apply (ok_free_kind _ _ _ K). unfold t_kind. congruence.
Qed.

Lemma sort_rows_ty cmp rs : Forall (row_ty ts) rs -> Forall (row_ty ts) (sort_rows cmp rs).
Proof.
  intro H. eapply Permutation_Forall; [|exact H]. apply sort_rows_perm.
Qed.

Lemma all_present_free t : tg true s t -> all_present t -> t_free t = [].
Proof.
  intros (E & live & rows & K & X) A. destruct (X eq_refl) as [_ B].
  destruct (t_free t) as [|i f] eqn:F; auto. exfalso.
  assert (Kd : t_kind t = Consistent).
  { destruct (t_kind t) eqn:Kd; auto; rewrite (ok_free_kind _ _ _ K) in F; congruence. }
  inv B. specialize (A i). rewrite (t_len_ok _ _ _ K) in A. specialize (A H1).
  unfold t_contains, t_consistent in A. rewrite Kd, F in A. simpl in A. rewrite Nat.eqb_refl in A. simpl in A.
  rewrite andb_false_r in A. discriminate.
Qed.

Lemma good_write_op w its o : wt w -> op_ty ts o ->
  avail (s_kind s) o = true ->
  (pr = Release -> s_kind s = Bag -> removal_flush o = false) ->
  (ex = true -> empties (Locked w its) o = true -> t_free (w_tab w) = []) ->
  good pr (fun p => wt (fst p)) (write_op pr umax w its o).
Proof.
  intros G T A Hb F. pose proof (tg_kind _ _ _ G) as Kk. pose proof (tg_good _ _ _ G) as Gw.
  assert (KEEP : forall x, good pr wt x -> good pr (fun p => wt (fst p)) (let* w := x in Ok (w, its))).
  { intros x Hx. eapply good_bind; [exact Hx|]. intros a Ha. exact Ha. }
  assert (RD : good pr (fun p => wt (fst p)) (let* _ := read_op pr umax (w_tab w) o in Ok (w, its))).
  { eapply good_bind; [apply good_read_op; auto|]. intros _ _. exact G. }
  destruct o; cbn [write_op]; try exact RD; try apply KEEP; clear RD KEEP.
  - apply good_live_flush_tg; auto. split; [exact Hb|].
    intros Y1 Y2 Y3. apply F; auto. simpl. rewrite Y2, Y3. reflexivity.
  - unfold next_pushed. eapply good_bind with (P := fun _ => True).
    { eapply good_bind; [apply good_from_usize|]. intros; exact I. }
    intros _ _. exact G.
  - unfold t_editing. eapply good_bind with (P := fun _ => True).
    { unfold t_row_range. eapply good_bind with (P := fun _ => True); [|intros; exact I].
      eapply good_bind; [apply good_from_usize|]. intros; exact I. }
    intros it _. rewrite (tg_imax _ G). eapply good_bind; [apply good_cons_run|]. intros l _.
    eapply good_bind; [apply good_read_plain; exact G|]. intros _ _. exact G.
  - eapply good_bind; [apply good_assign; eauto|]. intros t Ht. exact Ht.
  - eapply good_bind; [apply good_push_tg; auto|]. intros p Hp. exact Hp.
  - apply good_push_all_tg; auto.
  - eapply good_bind; [apply good_push_array_tg; auto|]. intros p Hp. exact Hp.
  - apply good_delete; auto.
  - exact G.
  - exact G.
  - simpl. unfold clear, event_cleared. rewrite Kk. destruct (s_kind s) eqn:Ks; try exact G.
    + apply tg_nc; [congruence|]. apply good_clear_raw; auto.
    + apply tg_nc; [congruence|]. apply good_clear_raw; auto.
  - apply tg_clear_raw; auto.
  - assert (Nc : s_kind s <> Consistent) by (destruct (s_kind s); simpl in A; congruence).
    apply (good_tg (fun w => w)); auto. apply good_sorted_remove; auto.
  - assert (Nc : s_kind s <> Consistent) by (destruct (s_kind s); simpl in A; congruence).
    apply (good_tg (fun w => w)); auto. eapply good_bind; [apply good_merge0 with (sc := s); auto|].
    { intros s1 w1 i s' rm add Hf. inv Hf. constructor. }
    intros q Hq. exact Hq.
  - assert (Nc : s_kind s <> Consistent) by (destruct (s_kind s); simpl in A; congruence).
    apply (good_tg (fun w => w)); auto. eapply good_bind; [apply good_merge0 with (sc := s); auto|].
    intros q Hq. exact Hq.
  - assert (Nc : s_kind s <> Consistent) by (destruct (s_kind s); simpl in A; congruence).
    apply (good_tg (fun w => w)); auto. eapply good_bind; [apply good_merge_logged with (sc := s); auto|].
    intros q Hq. exact Hq.
  - assert (Nc : s_kind s <> Consistent) by (destruct (s_kind s); simpl in A; congruence).
    apply (good_tg (fun w => w)); auto. unfold merge_vec, merge.
    eapply good_bind; [apply good_merge_logged with (sc := s); auto; apply sort_rows_ty; auto|].
    intros q Hq. exact Hq.
  - assert (Nc : s_kind s <> Consistent) by (destruct (s_kind s); simpl in A; congruence).
    apply (good_tg (fun w => w)); auto. unfold merge_in_a_single_row.
    eapply good_bind with (P := fun p => w_good s (fst p)); [|intros p Hp; exact Hp].
    eapply good_bind; [apply good_merge_logged with (sc := s); auto|].
    intros q Hq. destruct (fst q) as [|i [|j l]]; try exact I. exact Hq.
  - exact G.
  - destruct (nth_error its k); [|exact I]. eapply good_bind; [apply good_bag_next; auto|]. intros q Hq. exact Hq.
  - destruct (nth_error its k); [|exact I]. exact G.
  - destruct (nth_error its k); [|exact I]. eapply good_bind; [apply good_bag_drop; auto|]. intros q Hq. exact Hq.
Qed.

Lemma good_step st o : tg ex s (st_tab st) -> op_ty ts o ->
  (pr = Release -> s_kind s = Bag -> removal_flush o = false) ->
  (ex = true -> sane_op st o) ->
  good pr (fun st' => tg ex s (st_tab st')) (step pr umax st o).
Proof.
  intros G T Hb Hs. unfold step. rewrite (tg_kind _ _ _ G). destruct (avail (s_kind s) o) eqn:A; [|exact I].
  assert (F : ex = true -> empties st o = true -> t_free (st_tab st) = []).
  { intros Y H. destruct (Hs Y H) as [P _]. apply all_present_free; auto. rewrite <- Y. exact G. }
  destruct st as [t|w its].
  - assert (RD : good pr (fun st' => tg ex s (st_tab st')) (let* _ := read_op pr umax t o in Ok (Free t))).
    { eapply good_bind; [apply good_read_op; auto|]. intros _ _. exact G. }
    destruct o; try exact RD.
    + exact G.
    + change (t_kind t) with (t_kind (st_tab (Free t))). rewrite (tg_kind _ _ _ G). eapply good_bind with (P := tg ex s); [|intros t' Ht; exact Ht].
      destruct (s_kind s) eqn:Ks; simpl in A; try discriminate.
      * apply good_remove_rows; auto. intros Y [->|[Y1 Y2]]; [|discriminate]. split; auto.
      * apply good_sorted_table_remove; auto.
  - assert (WR : good pr (fun st' => tg ex s (st_tab st')) (let* p := write_op pr umax w its o in Ok (Locked (fst p) (snd p)))).
    { eapply good_bind; [apply good_write_op; auto|]. intros p Hp. exact Hp. }
    destruct its as [|b its]; destruct o; try exact WR; try exact I.
    + eapply good_bind; [apply good_drop; exact G|]. intros t Ht. exact Ht.
    + eapply good_bind; [apply good_flush_tg; [exact G|]|intros t Ht; exact Ht]. split; [exact Hb|].
      intros Y1 Y2 Y3. apply F; auto. simpl. rewrite Y2, Y3. reflexivity.
    + change (t_kind (w_tab w)) with (t_kind (st_tab (Locked w []))). rewrite (tg_kind _ _ _ G). destruct (s_kind s) eqn:Ks; try exact I.
      eapply good_bind; [apply good_remove_rows; auto|intros t Ht; exact Ht].
      intros Y H. assert (Em : empties (Locked w []) (ORemoveRows srt ev rows) = true).
      { destruct H as [->|[H1 H2]]; auto. destruct rows; auto. simpl. rewrite H1, H2. reflexivity. }
      split; [apply F; auto|]. destruct (Hs Y Em) as [_ M]. destruct rows as [|[|i l]]; auto. contradiction.
Qed.
Lemma flush_apply_tg w ev ch w' : wt w -> s_kind s = Bag -> flush_apply pr umax w ev ch = Ok w' -> wt w'.
Proof.
  intros G Kb H. unfold flush_apply in H. destruct (_ && _); [|inv H; exact G].
  destruct ch as [|l].
  - inv H. apply tg_clear_raw; auto. intros _. destruct G as (E & live & rows & K & _). apply (ok_free_kind _ _ _ K).
    unfold t_kind. congruence.
  - revert H. generalize (t_len (w_tab w)). intro n. revert w G. induction l as [|i l IH]; intros w G H; simpl in H; [inv H; exact G|].
    bindn H w1 Q. bindn Q u Q0. apply delete_raw_tg in Q; auto; [|congruence]. destruct Q as [Q _]. exact (IH _ Q H).
Qed.
Lemma drop_tg w t : wt w -> w_drop w = Ok t -> tg ex s t.
Proof. intros G H. pose proof (good_drop w G) as X. rewrite H in X. exact X. Qed.
(** A call that returns leaves a proper table, even where another might have led to undefined behaviour. *)
Lemma step_tg st o st' : tg ex s (st_tab st) -> op_ty ts o -> (ex = true -> sane_op st o) -> step pr umax st o = Ok st' ->
  tg ex s (st_tab st').
Proof.
  intros G T Hs H.
  assert (D : (pr = Release -> s_kind s = Bag -> removal_flush o = false) \/ (s_kind s = Bag /\ removal_flush o = true)).
  { destruct (removal_flush o); auto. destruct (s_kind s) eqn:Ks; try (left; intros; discriminate). right; auto. }
  destruct D as [D|[Kb R]].
  { pose proof (good_step st o G T D Hs) as X. rewrite H in X. exact X. }
  unfold step in H. rewrite (tg_kind _ _ _ G) in H. destruct (avail (s_kind s) o); [|discriminate].
  destruct o; try discriminate R.
  - destruct st as [t|w [|b its]]; try discriminate H.
    + bindn H t Q. inv H. unfold w_flush in Q. destruct (sel_empty _); [eapply drop_tg; eauto|].
      bindn Q x Q1. bindn Q w' Q2. bindn Q y Q3. eapply drop_tg; [|exact Q]. eapply flush_apply_tg; [|exact Kb|exact Q2]. exact G.
  - destruct st as [t|w its]; try discriminate H.
    + assert (Q : exists w', w_live_flush pr umax srt w ev = Ok w' /\ st_tab st' = w_tab w').
      { assert (H' : (let* p := write_op pr umax w its (OLiveFlush srt ev) in Ok (Locked (fst p) (snd p))) = Ok st') by (destruct its; exact H).
        clear H. apply bind_Ok in H'. destruct H' as (q & Q & H'). inv H'. simpl in Q. bindn Q w' Q1. inv Q. eexists; split; [exact Q1|reflexivity]. }
      destruct Q as (w' & Q & ->). unfold w_live_flush in Q. destruct (sel_empty _); [inv Q; exact G|].
      bindn Q x Q1. bindn Q w2 Q2. bindn Q y Q3. inv Q. simpl. eapply flush_apply_tg; [|exact Kb|exact Q2]. exact G.
Qed.
End HF.

Theorem reachable_tg pr umax sch st : reachable pr umax sch st -> tg false sch (st_tab st).
Proof.
  intros (N & ops & T & R). unfold run in R.
  assert (G0 : tg false sch (st_tab (Free (t_new sch)))).
  { split; auto. exists (fun _ => true), []. split; [apply t_new_ok; auto|discriminate]. }
  revert R G0. generalize (Free (t_new sch)). induction T as [|o ops To T IH]; intros st0 R G0; simpl in R; [inv R; exact G0|].
  bindn R st1 Q. eapply IH; [exact R|]. eapply step_tg; [exact G0|exact To|discriminate|exact Q].
Qed.
Theorem sane_tg pr umax sch st : sane pr umax sch st -> tg true sch (st_tab st).
Proof.
  intro H. induction H as [N|st o st' H IH T S E].
  - split; auto. exists (fun _ => true), []. split; [apply t_new_ok; auto|]. intros _. split; [simpl; lia|constructor].
  - eapply step_tg; eauto.
Qed.
