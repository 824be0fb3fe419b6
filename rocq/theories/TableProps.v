(** Lemmas behind PropsTable.v. *)
From Coq Require Import List Arith Bool Lia Sorting.Sorted Sorting.Permutation.
From Verif Require Import Base BaseFacts Column ColumnFacts RowRange RowRangeFacts Table Visit SortedTab BagTab
  TableSpec TableFacts VisitFacts SortedFacts BagFacts Hist HistFacts.
Import ListNotations.

(** ** C11 *)
Lemma cols_ok_lengths imax live ts : forall cs rows, cols_ok imax live ts cs rows -> Forall (fun c => c_len c = length rows) cs.
Proof.
  induction ts as [|t ts IH]; intros [|c cs] rows H; simpl in H; try tauto; try constructor.
  - destruct H as (_ & _ & D & _). rewrite c_len_data, D, map_length. reflexivity.
  - destruct H as (_ & _ & _ & H). apply IH in H. rewrite map_length in H. exact H.
Qed.
Lemma run_good pr umax sch ops : s_cols sch <> [] -> Forall (op_ty (s_cols sch)) ops -> harmless pr sch ops ->
  good pr (fun st => tg false sch (st_tab st)) (run pr umax (Free (t_new sch)) ops).
Proof.
  intros N T B. apply good_fold.
  - split; auto. exists (fun _ => true), []. split; [apply t_new_ok; auto|discriminate].
  - intros st1 o Ho G. rewrite Forall_forall in T. apply good_step; auto; [|discriminate].
    intros P Kb. destruct B as [B|[B|B]]; try congruence. rewrite Forall_forall in B. auto.
Qed.
Lemma run_safe pr umax sch ops : s_cols sch <> [] -> Forall (op_ty (s_cols sch)) ops -> harmless pr sch ops ->
  match run pr umax (Free (t_new sch)) ops with
  | Ok st => length (t_cols (st_tab st)) = length (s_cols sch) /\
             forall c, In c (t_cols (st_tab st)) -> c_len c = t_len (st_tab st)
  | Err (EPanic _) => True
  | Err EFuel => pr = Release
  | Err _ => False
  end.
Proof.
  intros N T B. pose proof (run_good pr umax sch ops N T B) as H. destruct (run pr umax _ ops) as [st|e]; simpl in H.
  - destruct H as (E & live & rows & K & _). split; [rewrite (cols_len_eq _ _ _ K); congruence|].
    pose proof (cols_ok_lengths _ _ _ _ _ (ok_cols _ _ _ K)) as F. rewrite Forall_forall in F.
    intros c Hc. rewrite (t_len_ok _ _ _ K). auto.
  - destruct e; simpl in H; auto.
Qed.

(** ** C10 *)
Section T.
Variables (t : table) (live : nat -> bool) (rows : list row).
Hypothesis K : t_ok t live rows.
Lemma contains_iff i : t_contains t i = true <-> i < length rows /\ mem i (t_free t) = false.
Proof.
  unfold t_contains. rewrite (t_len_ok _ _ _ K), andb_true_iff, Nat.ltb_lt.
  rewrite <- (t_deleted_iff _ _ _ K). unfold t_is_deleted.
  destruct (t_consistent t), (mem i (t_free t)); simpl; intuition congruence.
Qed.
Lemma contains_get i : t_contains t i = true <-> exists r, t_get_row t i = Ok r.
Proof.
  rewrite contains_iff. split.
  - intros [L D]. destruct (nth_error_lt_Some _ _ L) as [r Hr]. exists r. apply (t_get_row_ok _ _ _ K); auto.
    rewrite (t_deleted_iff _ _ _ K). auto.
  - intros [r H]. apply (t_get_row_inv _ _ _ K) in H. rewrite (t_deleted_iff _ _ _ K) in H. destruct H as [H D].
    split; auto. eapply nth_error_Some_lt; eauto.
Qed.
Lemma contains_false_get i : t_contains t i = false <-> exists c, t_get_row t i = panic c.
Proof.
  split.
  - intro H. destruct (t_get_row t i) as [r|e] eqn:E.
    + assert (t_contains t i = true) by (apply contains_get; eauto). congruence.
    + destruct (t_get_row_err _ _ _ K _ _ E) as [c ->]. exists c. reflexivity.
  - intros [c H]. destruct (t_contains t i) eqn:E; auto. apply contains_get in E. destruct E as [r E]. rewrite E in H. discriminate.
Qed.
Lemma filter_contains a e : e <= length rows ->
  filter (t_contains t) (seq a (e - a)) = filter (fun i => negb (mem i (t_free t))) (seq a (e - a)).
Proof.
  intro L. apply filter_ext_in. intros i Hi. apply in_seq in Hi.
  apply eq_true_iff_eq. rewrite contains_iff, negb_true_iff. split; [tauto|]. split; auto. lia.
Qed.
Lemma walk_cons umax ops : forall a e, e <= length rows ->
  walk (t_imax t) umax (t_contains t) ops a e = cons_spec (t_imax t) umax (t_free t) ops a e.
Proof.
  induction ops as [|[|n] ops IH]; intros a e L; cbn [walk cons_spec]; auto.
  - rewrite filter_contains by auto. unfold live_rows. destruct (filter _ _); rewrite IH by auto; reflexivity.
  - rewrite IH by auto. reflexivity.
Qed.

Lemma iterates_new pr umax a e : e <= length rows -> e <= t_imax t ->
  iterates t pr umax (cons_new (RI a e) (t_free t)) a e.
Proof.
  intros L1 L2. assert (I : cons_inv (t_imax t) (t_free t) (cons_new (RI a e) (t_free t))).
  { apply cons_new_inv; auto. apply K. }
  split.
  - intros fuel Hf. rewrite (cons_collect_ok pr (t_imax t) (t_free t)) by auto. rewrite filter_contains by auto. reflexivity.
  - intro ops. rewrite walk_cons by auto. exact (cons_run_ok (t_imax t) umax (t_free t) ops _ I).
Qed.
Lemma free_sel : (if t_consistent t then t_free t else []) = t_free t.
Proof.
  unfold t_consistent. destruct (t_kind t) eqn:Kd; simpl; auto; rewrite (ok_free_kind _ _ _ K); congruence.
Qed.
Lemma t_range_spec r : t_range t r = Ok (cons_new (RI (r_start r) (r_end r)) (t_free t)) /\ r_end r <= length rows \/
  (exists c, t_range t r = panic c) /\ (r_start r <= r_end r -> length rows < r_end r).
Proof.
  unfold t_range, ci_from. rewrite (t_len_ok _ _ _ K), free_sel. unfold assert_.
  destruct (Nat.ltb_spec (r_start r) (length rows)); simpl.
  - destruct (Nat.leb_spec (r_end r) (length rows)); simpl; [left; auto|]. right. split; [eexists; reflexivity|]. lia.
  - destruct (Nat.eqb_spec (r_start r) (r_end r)); simpl.
    + destruct (Nat.leb_spec (r_end r) (length rows)); simpl; [left; auto|]. right. split; [eexists; reflexivity|]. lia.
    + right. split; [eexists; reflexivity|]. lia.
Qed.
Lemma t_iter_ok : length rows <= t_imax t -> t_iter t = Ok (cons_new (RI 0 (length rows)) (t_free t)).
Proof.
  intro L. unfold t_iter, t_row_range. rewrite (t_len_ok _ _ _ K). unfold rid_from_usize.
  destruct (Nat.leb_spec (length rows) (t_imax t)); [|lia]. simpl.
  destruct (t_range_spec (RR 0 (length rows))) as [[H1 _]|[_ H1]]; auto. simpl in H1. lia.
Qed.
Lemma t_editing_ok : length rows <= t_imax t -> t_editing t = Ok (cons_new (RI 0 (length rows)) (t_free t)).
Proof.
  intro L. unfold t_editing, t_row_range. rewrite (t_len_ok _ _ _ K). unfold rid_from_usize.
  destruct (Nat.leb_spec (length rows) (t_imax t)); [|lia]. reflexivity.
Qed.
End T.

Lemma ss_filter (p : nat -> bool) l : StronglySorted lt l -> StronglySorted lt (filter p l).
Proof. apply filter_sorted. Qed.

Lemma iteration_exact pr umax sch st : reachable pr umax sch st ->
  let t := st_tab st in
  t_len t <= t_imax t ->
  (forall i, t_contains t i = true <-> exists r, t_get_row t i = Ok r) /\
  (forall i, t_contains t i = true -> i < t_len t) /\
  (exists it, t_iter t = Ok it /\ iterates t pr umax it 0 (t_len t)) /\
  (exists it, t_editing t = Ok it /\ iterates t pr umax it 0 (t_len t)) /\
  (forall r, r_start r <= r_end r -> 
     (r_end r <= t_len t -> exists it, t_range t r = Ok it /\ iterates t pr umax it (r_start r) (r_end r)) /\
     (t_len t < r_end r -> exists c, t_range t r = panic c)).
Proof.
  intros R t L. destruct (reachable_tg _ _ _ _ R) as (E & live & rows & K & _). fold t in K, E.
  rewrite (t_len_ok _ _ _ K) in *.
  split; [apply (contains_get _ _ _ K)|]. split; [intros i Hi; apply (contains_iff _ _ _ K) in Hi; tauto|].
  split; [exists (cons_new (RI 0 (length rows)) (t_free t)); split; [eapply t_iter_ok; eauto|eapply iterates_new; eauto]|].
  split; [exists (cons_new (RI 0 (length rows)) (t_free t)); split; [eapply t_editing_ok; eauto|eapply iterates_new; eauto]|].
  intros r Hr. destruct (t_range_spec _ _ _ K r) as [[H1 H2]|[H1 H2]].
  - split; [|lia]. intros _. eexists. split; [exact H1|]. eapply iterates_new; eauto. lia.
  - split; [lia|auto].
Qed.

(** ** push *)
Definition up (live : nat -> bool) (i : nat) : nat -> bool := fun j => if j =? i then true else live j.
Lemma push_exact w live rows r : t_ok (w_tab w) live rows -> row_ty (s_cols (t_sch (w_tab w))) r ->
  match t_free (w_tab w) with
  | [] => if length rows <=? t_imax (w_tab w)
          then exists w', push w r = Ok (w', length rows) /\ t_ok (w_tab w') (up live (length rows)) (rows ++ [r]) /\
               t_free (w_tab w') = [] /\ t_sch (w_tab w') = t_sch (w_tab w)
          else push w r = panic PRowIdRange
  | old :: _ => if old <? length rows
          then exists w', push w r = Ok (w', old) /\ t_ok (w_tab w') (up live old) (upd rows old r) /\
               t_free (w_tab w') = set_remove old (t_free (w_tab w)) /\ t_sch (w_tab w') = t_sch (w_tab w)
          else push w r = panic PIndexOOB
  end.
Proof.
  intros K T. unfold push. destruct (t_free (w_tab w)) as [|old f] eqn:F.
  - destruct (Nat.leb_spec (length rows) (t_imax (w_tab w))) as [L|L].
    + destruct (push_end_ok w live rows r K T L (up live (length rows))) as (cs & Q & H).
      { intros j Hj. unfold up. destruct (Nat.eqb_spec j (length rows)); [lia|auto]. }
      { unfold up. rewrite Nat.eqb_refl. auto. }
      eexists. split; [exact Q|]. rewrite event_add_tab. simpl. auto.
    + eapply push_end_full; eauto.
  - assert (Kd : t_kind (w_tab w) = Consistent).
    { destruct (t_kind (w_tab w)) eqn:Kd; auto; rewrite (ok_free_kind _ _ _ K) in F; congruence. }
    rewrite <- F. pose proof (ok_free_sorted _ _ _ K) as Ss.
    set (t1 := Tab _ _ (set_remove old (t_free (w_tab w)))).
    assert (K1 : t_ok t1 live rows).
    { apply t_ok_free; auto; [apply set_remove_sorted; auto|].
      eapply Forall_forall. intros i Hi. apply set_remove_In in Hi; auto. destruct Hi as [_ Hi].
      pose proof (ok_free_max _ _ _ K) as M. rewrite Forall_forall in M. auto. }
    set (w1 := event_add _ old). assert (W1 : w_tab w1 = t1) by (unfold w1; rewrite event_add_tab; reflexivity).
    destruct (Nat.ltb_spec old (length rows)) as [L|L].
    + destruct (nth_error_lt_Some _ _ L) as [o Ho].
      destruct (swap_out_row_ok w1 live rows) with (i := old) (r := r) (old := o) (live' := up live old) as (cs & Q & H).
      * rewrite W1; auto.
      * rewrite W1. exact T.
      * auto.
      * rewrite W1, (t_deleted_iff _ _ _ K1). unfold t1; simpl. rewrite mem_set_remove by auto.
        rewrite Nat.eqb_refl. reflexivity.
      * intros j Nj. unfold up. destruct (Nat.eqb_spec j old); [contradiction|auto].
      * unfold up. rewrite Nat.eqb_refl. auto.
      * rewrite Q. simpl. eexists. split; [reflexivity|]. simpl. rewrite W1 in *. auto.
    + unfold swap_out_row. rewrite W1. unfold t_check. rewrite (t_len_ok _ _ _ K1).
      destruct (Nat.leb_spec (length rows) old); [|lia]. reflexivity.
Qed.

Lemma same_row_of t t' live live' rows rows' j : t_ok t live rows -> t_ok t' live' rows' ->
  mem j (t_free t') = mem j (t_free t) -> nth_error rows' j = nth_error rows j -> same_row t t' j.
Proof.
  intros K K' F N. split; [|split].
  - intro x. rewrite (t_get_row_inv _ _ _ K'), (t_get_row_inv _ _ _ K), (t_deleted_iff _ _ _ K'), (t_deleted_iff _ _ _ K), F, N. tauto.
  - apply eq_true_iff_eq. rewrite (contains_iff _ _ _ K'), (contains_iff _ _ _ K), F.
    rewrite <- !nth_error_Some, N. tauto.
  - rewrite (t_deleted_iff _ _ _ K'), (t_deleted_iff _ _ _ K). auto.
Qed.

Lemma least_deleted_head t live rows i f : t_ok t live rows -> t_free t = i :: f -> least_deleted t i.
Proof.
  intros K F. split; [rewrite (t_deleted_iff _ _ _ K), F; simpl; rewrite Nat.eqb_refl; auto|].
  intros j Hj. rewrite (t_deleted_iff _ _ _ K), F in Hj. apply mem_In in Hj.
  pose proof (ok_free_sorted _ _ _ K) as S. rewrite F in S. inv S. destruct Hj as [->|Hj]; auto.
  rewrite Forall_forall in H2. apply H2 in Hj. lia.
Qed.
Lemma least_deleted_unique t i j : least_deleted t i -> least_deleted t j -> i = j.
Proof. intros [A B] [C D]. apply Nat.le_antisymm; auto. Qed.

Lemma push_full_spec w live rows r : t_ok (w_tab w) live rows -> row_ty (s_cols (t_sch (w_tab w))) r ->
  let t := w_tab w in
  match push w r with
  | Ok (w', i) =>
      t_contains t i = false /\ t_get_row (w_tab w') i = Ok r /\ (forall j, j <> i -> same_row t (w_tab w') j) /\
      (least_deleted t i \/ (forall j, t_is_deleted t j = false) /\ i = t_len t) /\
      (t_len t <= t_imax t -> next_pushed t = Ok i)
  | Err e => (exists c, e = EPanic c) /\
      ((exists i, least_deleted t i /\ t_len t <= i) \/
       (forall j, t_is_deleted t j = false) /\ t_imax t < t_len t)
  end.
Proof.
  intros K T t. pose proof (push_exact w live rows r K T) as P. subst t. pose proof (ok_free_sorted _ _ _ K) as Ss.
  destruct (t_free (w_tab w)) as [|old f] eqn:F.
  - assert (ND : forall j, t_is_deleted (w_tab w) j = false).
    { intro j. rewrite (t_deleted_iff _ _ _ K), F. reflexivity. }
    destruct (Nat.leb_spec (length rows) (t_imax (w_tab w))) as [L|L].
    + destruct P as (w' & -> & K' & F' & E'). split; [|split; [|split; [|split]]].
      * destruct (t_contains (w_tab w) (length rows)) eqn:C; auto. apply (contains_iff _ _ _ K) in C. lia.
      * apply (t_get_row_ok _ _ _ K'); [rewrite nth_error_app2, Nat.sub_diag by lia; reflexivity|].
        rewrite (t_deleted_iff _ _ _ K'), F'. reflexivity.
      * intros j Hj. eapply same_row_of; eauto; [rewrite F', F; auto|].
        destruct (Nat.lt_ge_cases j (length rows)) as [Lj|Lj]; [apply nth_error_app1; auto|].
        rewrite nth_error_app2 by auto. rewrite (proj2 (nth_error_None rows j)) by auto.
        apply nth_error_None. simpl. lia.
      * right. split; auto. symmetry. eapply t_len_ok; eauto.
      * intros _. unfold next_pushed. rewrite F, (t_len_ok _ _ _ K). unfold rid_from_usize.
        destruct (Nat.leb_spec (length rows) (t_imax (w_tab w))); [reflexivity|lia].
    + rewrite P. simpl. split; [eauto|]. right. split; auto. rewrite (t_len_ok _ _ _ K). auto.
  - pose proof (least_deleted_head _ _ _ _ _ K F) as LD.
    destruct (Nat.ltb_spec old (length rows)) as [L|L].
    + destruct P as (w' & -> & K' & F' & E'). split; [|split; [|split; [|split]]].
      * destruct (t_contains (w_tab w) old) eqn:C; auto. apply (contains_iff _ _ _ K) in C. destruct C as [_ C].
        rewrite <- (t_deleted_iff _ _ _ K) in C. destruct LD. congruence.
      * apply (t_get_row_ok _ _ _ K'); [apply nth_error_upd_eq; auto|].
        rewrite (t_deleted_iff _ _ _ K'), F', mem_set_remove, Nat.eqb_refl by auto. reflexivity.
      * intros j Hj. eapply same_row_of; eauto.
        -- rewrite F', mem_set_remove by auto. destruct (Nat.eqb_spec j old); [contradiction|]. rewrite F. reflexivity.
        -- apply nth_error_upd_ne. auto.
      * left. auto.
      * intros Lt. unfold next_pushed. rewrite F. unfold rid_from_usize.
        destruct (Nat.leb_spec (t_len (w_tab w)) (t_imax (w_tab w))); [reflexivity|lia].
    + rewrite P. simpl. split; [eauto|]. left. exists old. split; auto. rewrite (t_len_ok _ _ _ K). auto.
Qed.

(** ** push_array *)
Lemma push_end_exact w live rows r : t_ok (w_tab w) live rows -> row_ty (s_cols (t_sch (w_tab w))) r ->
  length rows <= t_imax (w_tab w) ->
  exists w', push_end_unchecked w r = Ok (w', length rows) /\ t_ok (w_tab w') (up live (length rows)) (rows ++ [r]) /\
    t_free (w_tab w') = t_free (w_tab w) /\ t_sch (w_tab w') = t_sch (w_tab w).
Proof.
  intros K T L.
  destruct (push_end_ok w live rows r K T L (up live (length rows))) as (cs & Q & H).
  { intros j Hj. unfold up. destruct (Nat.eqb_spec j (length rows)); [lia|auto]. }
  { unfold up. rewrite Nat.eqb_refl. auto. }
  eexists. split; [exact Q|]. rewrite event_add_tab. simpl. auto.
Qed.
Lemma push_ends_exact rs : forall w i live rows, t_ok (w_tab w) live rows -> Forall (row_ty (s_cols (t_sch (w_tab w)))) rs ->
  length rows + length rs <= S (t_imax (w_tab w)) -> length rows = S i ->
  exists w' live', fold_res (fun s r => push_end_unchecked (fst s) r) rs (w, i) = Ok (w', i + length rs) /\
    t_ok (w_tab w') live' (rows ++ rs) /\
    t_free (w_tab w') = t_free (w_tab w) /\ t_sch (w_tab w') = t_sch (w_tab w).
Proof.
  induction rs as [|r rs IH]; intros w i live rows K T L Li; cbn [fold_res].
  - rewrite app_nil_r, Nat.add_0_r. exists w, live. auto.
  - inv T. simpl in L. destruct (push_end_exact w live rows r K) as (w1 & Q & K1 & F1 & E1); auto; [lia|].
    cbn [fst]. rewrite Q. cbn [bind].
    assert (I1 : t_imax (w_tab w1) = t_imax (w_tab w)) by (unfold t_imax; congruence).
    destruct (IH w1 (length rows) _ _ K1) as (w' & live' & Q' & K' & F' & E'); auto.
    + rewrite E1. auto.
    + rewrite app_length, I1. simpl. lia.
    + rewrite app_length. simpl. lia.
    + exists w', live'. rewrite <- app_assoc in K'. cbn [app] in K'.
      replace (i + length (r :: rs)) with (length rows + length rs) by (simpl; lia).
      split; [exact Q'|]. split; [exact K'|]. split; congruence.
Qed.
Lemma push_array_exact pr w live rows rs : t_ok (w_tab w) live rows ->
  Forall (row_ty (s_cols (t_sch (w_tab w)))) rs -> rs <> [] -> length rows + length rs <= t_imax (w_tab w) ->
  exists w' live', push_array pr w rs = Ok (w', RR (length rows) (length rows + length rs)) /\
    t_ok (w_tab w') live' (rows ++ rs) /\ t_free (w_tab w') = t_free (w_tab w) /\ t_sch (w_tab w') = t_sch (w_tab w).
Proof.
  intros K T N L. destruct rs as [|r rs]; [congruence|]. inv T. simpl in L. unfold push_array.
  destruct (push_end_exact w live rows r K) as (w1 & Q & K1 & F1 & E1); auto; [lia|]. rewrite Q. cbn [bind snd fst].
  assert (I1 : t_imax (w_tab w1) = t_imax (w_tab w)) by (unfold t_imax; congruence).
  destruct (push_ends_exact rs w1 (length rows) _ _ K1) as (w' & live' & Q' & K' & F' & E').
  { rewrite E1. auto. } { rewrite app_length, I1. simpl. lia. } { rewrite app_length. simpl. lia. }
  rewrite Q'. cbn [bind snd fst]. unfold rid_next.
  destruct (Nat.ltb_spec (length rows + length rs) (t_imax (w_tab w))); [|lia]. cbn [bind].
  exists w', live'. rewrite <- app_assoc in K'. cbn [app] in K'.
  replace (length rows + length (r :: rs)) with (S (length rows + length rs)) by (simpl; lia).
  split; [reflexivity|]. split; [exact K'|]. split; congruence.
Qed.
Lemma push_array_spec pr umax sch w its rs : sane pr umax sch (Locked w its) ->
  Forall (row_ty (s_cols sch)) rs -> rs <> [] ->
  let t := w_tab w in
  t_len t + length rs <= t_imax t ->
  exists w', push_array pr w rs = Ok (w', RR (t_len t) (t_len t + length rs)) /\
    t_len (w_tab w') = t_len t + length rs /\
    (forall k r, nth_error rs k = Some r -> t_get_row (w_tab w') (t_len t + k) = Ok r) /\
    (forall j, j < t_len t -> same_row t (w_tab w') j) /\
    (exists it, t_range (w_tab w') (RR (t_len t) (t_len t + length rs)) = Ok it /\
       forall fuel, length rs < fuel ->
         cons_collect pr (t_imax t) fuel it = Ok (seq (t_len t) (length rs))).
Proof.
  intros R T N t L. pose proof (sane_tg _ _ _ _ R) as G. destruct G as (E & live & rows & K & X). simpl in *.
  destruct (X eq_refl) as [X1 X2]. subst t. rewrite (t_len_ok _ _ _ K) in *.
  destruct (push_array_exact pr w live rows rs K) as (w' & live' & Q & K' & F' & E'); auto; [rewrite E; auto|].
  assert (FR : forall j, length rows <= j -> mem j (t_free (w_tab w')) = false).
  { intros j Hj. apply mem_nIn. rewrite F'. intro C. rewrite Forall_forall in X2. apply X2 in C. lia. }
  exists w'. split; [exact Q|]. split; [rewrite (t_len_ok _ _ _ K'), app_length; auto|]. split; [|split].
  - intros k r Hk. apply (t_get_row_ok _ _ _ K').
    + rewrite nth_error_app2 by lia. rewrite <- Hk. f_equal. lia.
    + rewrite (t_deleted_iff _ _ _ K'). apply FR. lia.
  - intros j Hj. eapply same_row_of; eauto; [rewrite F'; auto|]. apply nth_error_app1; auto.
  - assert (I1 : t_imax (w_tab w') = t_imax (w_tab w)) by (unfold t_imax; congruence).
    destruct (t_range_spec _ _ _ K' (RR (length rows) (length rows + length rs))) as [[H1 H2]|[_ H2]].
    + eexists. split; [exact H1|]. intros fuel Hf. cbn [r_start r_end] in *.
      destruct (iterates_new _ _ _ K' pr umax (length rows) (length rows + length rs)) as [I2 _]; auto; [lia|].
      rewrite <- I1, I2 by lia. f_equal. replace (length rows + length rs - length rows) with (length rs) by lia.
      rewrite <- (filter_ext_in (fun _ => true)) with (g := t_contains (w_tab w')).
      * clear. induction (seq _ _) as [|x l IH]; simpl; congruence.
      * intros i Hi. apply in_seq in Hi. symmetry. apply (contains_iff _ _ _ K'). rewrite app_length. split; [lia|apply FR; lia].
    + cbn [r_start r_end] in H2. rewrite app_length in H2. lia.
Qed.

(** ** delete and flush *)
Lemma delete_marks pr umax t live rows : t_ok t live rows -> t_kind t = Consistent ->
  forall ids w, w_tab w = t -> Forall (fun i => t_contains t i = true) ids ->
  exists w', fold_res (delete pr umax) ids w = Ok w' /\ w_tab w' = t /\
    w_pushed w' = w_pushed w /\ w_delete w' = match ids with [] => w_delete w | _ => true end /\
    w_changes w' = match w_changes w with SAll => SAll | SThese l => SThese (l ++ ids) end.
Proof.
  intros K Kc. induction ids as [|i ids IH]; intros w Ew F; cbn [fold_res].
  - exists w. destruct (w_changes w) eqn:C; rewrite ?app_nil_r; auto.
  - inv F. assert (Q : delete pr umax w i = Ok (event_del w i)).
    { unfold delete. rewrite Kc. apply (contains_iff _ _ _ K) in H1. destruct H1 as [L D].
      rewrite (t_check_ok _ _ _ K) by (auto; rewrite (t_deleted_iff _ _ _ K); auto). reflexivity. }
    rewrite Q. cbn [bind].
    destruct (IH (event_del w i)) as (w' & Q' & E' & P' & D' & C'); auto; [apply event_del_tab|].
    exists w'. split; auto. split; auto. rewrite P', D', C'. unfold event_del. rewrite Kc. simpl.
    split; auto. split; [destruct ids; auto|]. destruct (w_changes w); simpl; auto. rewrite <- app_assoc. reflexivity.
Qed.

Definition down (live : nat -> bool) (ids : list nat) : nat -> bool := fun j => live j && negb (mem j ids).
Lemma delete_raws_exact pr umax rows ids : forall w live, t_ok (w_tab w) live rows -> t_kind (w_tab w) = Consistent ->
  Forall (fun i => i < length rows) ids ->
  exists w', fold_res (fun w i => let* _ := assert_ (i <? length rows) PRemoveRange in delete_raw pr umax w i) ids w = Ok w' /\
    t_ok (w_tab w') (down live ids) rows /\ t_sch (w_tab w') = t_sch (w_tab w) /\
    (forall j, mem j (t_free (w_tab w')) = mem j (t_free (w_tab w)) || mem j ids) /\
    w_changes w' = w_changes w /\ w_pushed w' = w_pushed w /\ w_delete w' = w_delete w.
Proof.
  induction ids as [|i ids IH]; intros w live K Kc F; cbn [fold_res].
  - exists w. split; auto. split; [eapply t_ok_ext; [|exact K]; intros j _; unfold down; simpl; rewrite andb_true_r; auto|].
    split; auto. split; auto. intro j. simpl. rewrite orb_false_r. auto.
  - inv F. unfold assert_ at 1. destruct (Nat.ltb_spec i (length rows)); [|lia]. cbn [bind].
    destruct (delete_raw_cons_ok w live rows K pr umax i Kc H1) with (live' := fun j => if j =? i then false else live j)
      as (cs & Q & H0); auto.
    { intros j Hj. destruct (Nat.eqb_spec j i); [contradiction|auto]. } { rewrite Nat.eqb_refl. auto. }
    rewrite Q. cbn [bind].
    destruct (IH (with_tab w (Tab (t_sch (w_tab w)) cs (set_insert i (t_free (w_tab w))))) _ H0) as (w' & Q' & K' & E' & F' & C'); auto.
    exists w'. split; [exact Q'|]. split; [|split; [|split; [|exact C']]].
    + eapply t_ok_ext; [|exact K']. intros j _. unfold down. simpl.
      destruct (Nat.eqb_spec j i) as [->|Nj]; simpl; [|reflexivity].
      rewrite andb_false_r. reflexivity.
    + exact E'.
    + intro j. rewrite F'. simpl. rewrite mem_set_insert by apply K.
      destruct (j =? i), (mem j (t_free (w_tab w))), (mem j ids); reflexivity.
Qed.
Lemma mem_sort j l : mem j (sort_ids l) = mem j l.
Proof. apply eq_true_iff_eq. rewrite !mem_In. apply sort_ids_In. Qed.

(** ** flush *)
Lemma flush_check_ok ev p d : ev_id ev < max_event_types -> p && d = false -> ev_removal ev && ev_creation ev = false ->
  flush_check p d ev = Ok tt.
Proof.
  intros L A B. unfold flush_check. rewrite A, B. simpl.
  destruct (Nat.ltb_spec (ev_id ev) max_event_types); [reflexivity|lia].
Qed.
Lemma sel_sort_empty (srt : bool) c : sel_empty (if srt then sel_sort c else c) = sel_empty c.
Proof.
  destruct srt; auto. destruct c as [|[|i l]]; auto. cbn [sel_sort].
  destruct (sort_ids (i :: l)) eqn:E; auto. pose proof (Permutation_length (sort_ids_perm (i :: l))) as P.
  rewrite E in P. discriminate.
Qed.

Lemma w_flush_these pr umax srt w live rows ev ids : t_ok (w_tab w) live rows -> t_kind (w_tab w) = Consistent ->
  w_changes w = SThese ids -> Forall (fun i => i < length rows) ids ->
  w_pushed w && w_delete w = false -> plain_removal ev ->
  exists t', w_flush pr umax srt w ev = Ok t' /\ t_ok t' (down live ids) rows /\ t_sch t' = t_sch (w_tab w) /\
    (forall j, mem j (t_free t') = mem j (t_free (w_tab w)) || mem j ids).
Proof.
  intros K Kc C F PD (R1 & R2 & R3). unfold w_flush. rewrite C. destruct ids as [|i0 ids].
  - simpl sel_empty. cbv iota. unfold w_drop. rewrite C. simpl. rewrite andb_false_r. eexists. split; [reflexivity|].
    split; [eapply t_ok_ext; [|exact K]; intros j _; unfold down; simpl; rewrite andb_true_r; auto|].
    split; auto. intro j. simpl. rewrite orb_false_r. auto.
  - simpl sel_empty. cbv iota. rewrite flush_check_ok by (auto; rewrite R2, andb_false_r; auto). cbn [bind].
    set (ids0 := i0 :: ids) in *.
    assert (EX : exists ids', (if srt then sel_sort (SThese ids0) else SThese ids0) = SThese ids' /\
      (forall j, mem j ids' = mem j ids0) /\ sel_empty (SThese ids') = false).
    { destruct srt.
      - exists (sort_ids ids0). split; auto. split; [intro; apply mem_sort|].
        exact (sel_sort_empty true (SThese ids0)).
      - exists ids0. auto. }
    destruct EX as (ids' & E' & M' & N'). rewrite E'. unfold flush_apply. rewrite R1, N'. cbn [andb negb].
    simpl w_tab. rewrite (t_len_ok _ _ _ K).
    destruct (delete_raws_exact pr umax rows ids' (w_new (w_tab w)) live) as (w' & Q & K' & Es & Fr & Ch & _); auto.
    { apply Forall_forall. intros x Hx. apply mem_In in Hx. rewrite M' in Hx. apply mem_In in Hx.
      rewrite Forall_forall in F. auto. }
    rewrite Q. cbn [bind]. rewrite Ch. simpl sel_empty. cbn [assert_ bind]. unfold w_drop. rewrite Ch. simpl.
    rewrite andb_false_r. eexists. split; [reflexivity|].
    split; [eapply t_ok_ext; [|exact K']; intros j _; unfold down; rewrite M'; auto|].
    split; [exact Es|]. intro j. rewrite Fr, M'. reflexivity.
Qed.

Lemma find_down t t' live rows ids k v : t_ok t live rows -> t_ok t' (down live ids) rows -> t_sch t' = t_sch t ->
  match t_find t k v with
  | Ok l => t_find t' k v = Ok (filter (fun i => negb (mem i ids)) l)
  | Err e => t_find t' k v = Err e
  end.
Proof.
  intros K K' E. unfold t_find.
  pose proof (cols_len_eq _ _ _ K) as L. pose proof (cols_len_eq _ _ _ K') as L'. rewrite E in L'.
  destruct (nth_error (t_cols t) k) as [c|] eqn:Ek.
  - pose proof (nth_error_Some_lt _ _ _ Ek) as Lk.
    destruct (nth_error_lt_Some (s_cols (t_sch t)) k) as [ct Hct]; [congruence|].
    destruct (nth_error_lt_Some (t_cols t') k) as [c' Ek']; [congruence|]. rewrite Ek'.
    destruct (cols_nth _ _ _ _ _ _ _ _ (ok_cols _ _ _ K) Ek Hct) as [W D].
    pose proof (ok_cols _ _ _ K') as CO. rewrite E in CO.
    destruct (cols_nth _ _ _ _ _ _ _ _ CO Ek' Hct) as [W' D'].
    replace (t_imax t') with (t_imax t) in * by (unfold t_imax; congruence).
    destruct ct as [ct|ct].
    + destruct c; [|simpl in W; tauto]. destruct c'; [|simpl in W'; tauto]. reflexivity.
    + rewrite (c_find_ok _ _ _ _ _ W), (c_find_ok _ _ _ _ _ W'). rewrite D, D'. f_equal.
      clear. induction (seq _ _) as [|x l IH]; simpl; auto. unfold down at 1.
      destruct (x <? t_imax t), (live x), (val_at _ _ _), (mem x ids) eqn:M; simpl; rewrite ?M; simpl; rewrite ?IH; auto.
  - assert (nth_error (t_cols t') k = None) as ->; [|reflexivity]. apply nth_error_None. apply nth_error_None in Ek. congruence.
Qed.

Lemma contains_down t t' live live' rows ids i : t_ok t live rows -> t_ok t' live' rows ->
  (forall j, mem j (t_free t') = mem j (t_free t) || mem j ids) ->
  t_contains t' i = t_contains t i && negb (mem i ids).
Proof.
  intros K K' F. apply eq_true_iff_eq. rewrite andb_true_iff, (contains_iff _ _ _ K), (contains_iff _ _ _ K'), F, negb_true_iff, orb_false_iff. tauto.
Qed.
Lemma get_down t t' live live' rows ids i r : t_ok t live rows -> t_ok t' live' rows ->
  (forall j, mem j (t_free t') = mem j (t_free t) || mem j ids) ->
  (t_get_row t' i = Ok r <-> t_get_row t i = Ok r /\ ~ In i ids).
Proof.
  intros K K' F. rewrite (t_get_row_inv _ _ _ K), (t_get_row_inv _ _ _ K'), (t_deleted_iff _ _ _ K), (t_deleted_iff _ _ _ K'), F, orb_false_iff, <- mem_nIn. tauto.
Qed.

Lemma delete_flush_spec pr umax sch t srt ev ids : reachable pr umax sch (Free t) -> s_kind sch = Consistent ->
  Forall (fun i => t_contains t i = true) ids -> plain_removal ev ->
  exists w t', fold_res (delete pr umax) ids (w_new t) = Ok w /\
    (forall i, t_get_row (w_tab w) i = t_get_row t i) /\
    w_flush pr umax srt w ev = Ok t' /\ t_len t' = t_len t /\
    (forall i, t_contains t' i = t_contains t i && negb (mem i ids)) /\
    (forall i r, t_get_row t' i = Ok r <-> t_get_row t i = Ok r /\ ~ In i ids) /\
    (forall k v l, t_find t k v = Ok l -> t_find t' k v = Ok (filter (fun i => negb (mem i ids)) l)).
Proof.
  intros R Kc F P. destruct (reachable_tg _ _ _ _ R) as (E & live & rows & K & _). simpl in *.
  assert (Kd : t_kind t = Consistent) by (unfold t_kind; congruence).
  destruct (delete_marks pr umax t live rows K Kd ids (w_new t) eq_refl F) as (w & Q & Ew & Pw & Dw & Cw).
  simpl in Cw, Pw.
  destruct (w_flush_these pr umax srt w live rows ev ids) as (t' & Q' & K' & E' & F'); auto; try (rewrite Ew; auto).
  { eapply Forall_impl; [|exact F]. intros i Hi. apply (contains_iff _ _ _ K) in Hi. tauto. }
  { rewrite Pw. reflexivity. }
  rewrite Ew in *.
  exists w, t'. split; auto. split; [rewrite Ew; auto|]. split; auto.
  split; [rewrite (t_len_ok _ _ _ K), (t_len_ok _ _ _ K'); auto|].
  split; [intro i; eapply contains_down; eauto|]. split; [intros i r; eapply get_down; eauto|].
  intros k v l Hl. pose proof (find_down t t' live rows ids k v K K' E') as FD. rewrite Hl in FD. exact FD.
Qed.

Lemma delete_raws_inv pr umax n ids : forall w w',
  fold_res (fun w i => let* _ := assert_ (i <? n) PRemoveRange in delete_raw pr umax w i) ids w = Ok w' ->
  Forall (fun i => i < n) ids.
Proof.
  induction ids as [|i ids IH]; intros w w' H; constructor; cbn [fold_res] in H; unfold assert_ in H at 1;
    destruct (Nat.ltb_spec i n); auto; try discriminate.
  cbn [bind] in H. bindn H w1 H1. eapply IH; eauto.
Qed.
Lemma drop_inv w t : w_drop w = Ok t -> t = w_tab w /\ (t_kind (w_tab w) = Consistent -> w_changes w = SThese []).
Proof.
  unfold w_drop, t_consistent. destruct (t_kind (w_tab w)) eqn:Kd, (w_changes w) as [|[|i l]]; simpl; intro H; inv H; auto; split; auto; congruence.
Qed.
Lemma w_flush_inv pr umax srt w live rows ev t' : t_ok (w_tab w) live rows -> t_kind (w_tab w) = Consistent ->
  w_flush pr umax srt w ev = Ok t' ->
  if ev_removal ev then
    match w_changes w with
    | SAll => t' = w_tab (clear_raw w)
    | SThese ids => t_ok t' (down live ids) rows /\ t_sch t' = t_sch (w_tab w) /\
        (forall j, mem j (t_free t') = mem j (t_free (w_tab w)) || mem j ids)
    end
  else t' = w_tab w.
Proof.
  intros K Kc H. unfold w_flush in H.
  destruct (sel_empty (w_changes w)) eqn:Em.
  - apply drop_inv in H. destruct H as [-> C]. specialize (C Kc). rewrite C. destruct (ev_removal ev); auto.
    split; [eapply t_ok_ext; [|exact K]; intros j _; unfold down; simpl; rewrite andb_true_r; auto|].
    split; auto. intro j. simpl. rewrite orb_false_r. auto.
  - bindn H u Hu. bindn H w' Hw. bindn H u2 Hu2. apply drop_inv in H. destruct H as [-> _].
    unfold flush_apply in Hw. destruct (ev_removal ev); [|inv Hw; reflexivity].
    rewrite sel_sort_empty, Em in Hw. cbn [andb negb] in Hw.
    destruct (w_changes w) as [|ids] eqn:C; cbn [sel_sort] in Hw.
    + destruct srt; inv Hw; reflexivity.
    + simpl w_tab in Hw. rewrite (t_len_ok _ _ _ K) in Hw.
      assert (EX : exists ids', (if srt then SThese (sort_ids ids) else SThese ids) = SThese ids' /\ (forall j, mem j ids' = mem j ids)).
      { destruct srt; eexists; split; eauto. intro j. apply mem_sort. }
      destruct EX as (ids' & E' & M'). rewrite E' in Hw. pose proof (delete_raws_inv _ _ _ _ _ _ Hw) as F.
      destruct (delete_raws_exact pr umax rows ids' (w_new (w_tab w)) live) as (w2 & Q & K' & Es & Fr & _); auto.
      rewrite Q in Hw. inv Hw.
      split; [eapply t_ok_ext; [|exact K']; intros j _; unfold down; rewrite M'; auto|].
      split; [exact Es|]. intro j. rewrite Fr, M'. reflexivity.
Qed.

(** ** C16 *)
Lemma deletion_lost_iff pr umax sch w its srt ev i w1 t' : reachable pr umax sch (Locked w its) -> s_kind sch = Consistent ->
  delete pr umax w i = Ok w1 -> w_flush pr umax srt w1 ev = Ok t' ->
  (t_contains t' i = false <-> ev_removal ev = true) /\
  (ev_removal ev = false -> forall j, same_row (w_tab w) t' j).
Proof.
  intros R Kc D H. destruct (reachable_tg _ _ _ _ R) as (E & live & rows & K & _). simpl in *.
  assert (Kd : t_kind (w_tab w) = Consistent) by (unfold t_kind; congruence).
  unfold delete in D. rewrite Kd in D. bindn D x Dx. inv D. apply (t_check_inv _ _ _ K) in Dx. destruct Dx as (-> & L & De).
  assert (T1 : w_tab (event_del w i) = w_tab w) by apply event_del_tab.
  pose proof (w_flush_inv pr umax srt (event_del w i) live rows ev t') as X. rewrite T1 in X. specialize (X K Kd H).
  assert (Ci : t_contains (w_tab w) i = true).
  { apply (contains_iff _ _ _ K). rewrite <- (t_deleted_iff _ _ _ K). auto. }
  destruct (ev_removal ev).
  - split; [split; auto; intros _|discriminate].
    destruct (w_changes (event_del w i)) as [|ids] eqn:C.
    + subst t'. pose proof (clear_raw_ok (event_del w i) live rows live) as K0. rewrite T1 in K0. specialize (K0 K).
      destruct (t_contains (w_tab (clear_raw (event_del w i))) i) eqn:C2; auto. apply (contains_iff _ _ _ K0) in C2. simpl in C2. lia.
    + destruct X as (K' & Es & Fr). rewrite (contains_down _ _ _ _ _ _ i K K' Fr), Ci.
      assert (mem i ids = true) as ->; auto. apply mem_In.
      unfold event_del in C. rewrite Kd in C. simpl in C. destruct (w_changes w); inv C. apply in_app_iff. simpl; auto.
  - subst t'. split; [split; [congruence|discriminate]|]. intros _ j. split; [tauto|auto].
Qed.

(** ** C17, C18 *)
Lemma clear_flush_exact pr umax sch t srt ev : reachable pr umax sch (Free t) -> s_kind sch = Consistent -> plain_removal ev ->
  exists t', w_flush pr umax srt (clear (w_new t)) ev = Ok t' /\ t_sch t' = sch /\ t_free t' = t_free t /\
    t_ok t' (fun _ => true) [].
Proof.
  intros R Kc (R1 & R2 & R3). destruct (reachable_tg _ _ _ _ R) as (E & live & rows & K & _). simpl in *.
  assert (Kd : t_kind t = Consistent) by (unfold t_kind; congruence).
  unfold clear, event_cleared. simpl. rewrite Kd. unfold w_flush. simpl sel_empty. cbv iota. cbn [w_pushed w_delete w_tab w_changes].
  rewrite flush_check_ok by (auto; rewrite R2, andb_false_r; auto). cbn [bind].
  unfold flush_apply. rewrite R1. assert ((if srt then sel_sort SAll else SAll) = SAll) as -> by (destruct srt; auto).
  simpl. unfold w_drop. simpl. rewrite andb_false_r. eexists. split; [reflexivity|]. simpl. split; auto. split; auto.
  exact (clear_raw_ok (w_new t) live rows (fun _ => true) K).
Qed.
Lemma cleared_spec pr umax sch t srt ev : reachable pr umax sch (Free t) -> s_kind sch = Consistent -> plain_removal ev ->
  exists t', w_flush pr umax srt (clear (w_new t)) ev = Ok t' /\ t_len t' = 0 /\
    (forall i, t_is_deleted t' i = t_is_deleted t i) /\
    ((exists i, t_is_deleted t i = true) -> forall r, row_ty (s_cols sch) r -> push (w_new t') r = panic PIndexOOB) /\
    ((forall i, t_is_deleted t i = false) ->
       forall rs, Forall (row_ty (s_cols sch)) rs -> length rs <= S (s_imax sch) ->
       exists w, push_all (w_new t') rs = Ok w /\ holds (w_tab w) rs).
Proof.
  intros R Kc P. destruct (reachable_tg _ _ _ _ R) as (E & live & rows & K & _). simpl in *.
  destruct (clear_flush_exact pr umax sch t srt ev R Kc P) as (t' & Q & E' & F' & K').
  exists t'. split; auto. split; [apply (t_len_ok _ _ _ K')|].
  split; [intro i; rewrite (t_deleted_iff _ _ _ K'), (t_deleted_iff _ _ _ K), F'; auto|]. split.
  - intros [i Hi] r T. rewrite (t_deleted_iff _ _ _ K) in Hi.
    pose proof (push_exact (w_new t') _ [] r K') as PE. simpl in PE. rewrite E', F' in PE. specialize (PE T).
    destruct (t_free t) as [|o f]; [discriminate|]. exact PE.
  - intro ND. assert (Ff : t_free t' = []).
    { rewrite F'. destruct (t_free t) as [|o f] eqn:Fo; auto. specialize (ND o). rewrite (t_deleted_iff _ _ _ K), Fo in ND.
      simpl in ND. rewrite Nat.eqb_refl in ND. discriminate. }
    assert (G : forall rs w live rows, t_ok (w_tab w) live rows -> t_free (w_tab w) = [] -> t_sch (w_tab w) = sch ->
       Forall (row_ty (s_cols sch)) rs -> length rows + length rs <= S (s_imax sch) ->
       exists w' live', push_all w rs = Ok w' /\ t_ok (w_tab w') live' (rows ++ rs) /\ t_free (w_tab w') = []).
    { induction rs as [|r rs IH]; intros w l0 rws K0 F0 E0 T0 L0; unfold push_all; cbn [fold_res].
      - exists w, l0. rewrite app_nil_r. auto.
      - inv T0. simpl in L0. pose proof (push_exact w l0 rws r K0) as PE. rewrite F0 in PE.
        destruct (Nat.leb_spec (length rws) (t_imax (w_tab w))) as [Lw|Lw]; [|unfold t_imax in Lw; rewrite E0 in Lw; lia].
        destruct PE as (w1 & Q1 & K1 & F1 & E1); [rewrite E0; auto|]. rewrite Q1. cbn [bind fst].
        destruct (IH w1 _ _ K1 F1) as (w' & live' & Q2 & K2 & F2); auto; [congruence|rewrite app_length; simpl; lia|].
        exists w', live'. rewrite <- app_assoc in K2. auto. }
    intros rs T L. destruct (G rs (w_new t') _ [] K' Ff E' T L) as (w & l1 & Q1 & K1 & F1).
    exists w. split; auto. split; [apply (t_len_ok _ _ _ K1)|]. intros i r Hi. apply (t_get_row_ok _ _ _ K1); auto.
    rewrite (t_deleted_iff _ _ _ K1), F1. auto.
Qed.

Lemma clear_spec pr umax sch w its : reachable pr umax sch (Locked w its) ->
  match s_kind sch with
  | Append | Bag => t_len (w_tab (clear w)) = 0
  | Consistent => forall srt ev, plain_removal ev -> w_pushed w = false ->
      exists t', w_flush pr umax srt (clear w) ev = Ok t' /\ t_len t' = 0
  | List_ | Sorted => clear w = w
  end.
Proof.
  intros R. destruct (reachable_tg _ _ _ _ R) as (E & live & rows & K & _). simpl in *.
  assert (Kd : t_kind (w_tab w) = s_kind sch) by (unfold t_kind; congruence).
  pose proof (clear_raw_ok w live rows (fun _ => true) K) as K0.
  unfold clear, event_cleared. rewrite Kd. destruct (s_kind sch); auto; try (rewrite (t_len_ok _ _ _ K0); reflexivity).
  intros srt ev (R1 & R2 & R3) P. unfold w_flush. simpl sel_empty. cbv iota. cbn [w_pushed w_delete w_tab w_changes]. rewrite P.
  rewrite flush_check_ok by (auto; rewrite R2, andb_false_r; auto). cbn [bind].
  unfold flush_apply. rewrite R1. assert ((if srt then sel_sort SAll else SAll) = SAll) as -> by (destruct srt; auto).
  simpl. unfold w_drop. simpl. rewrite andb_false_r. eexists. split; [reflexivity|]. exact (t_len_ok _ _ _ K0).
Qed.

(** ** C19 *)
Lemma since_app p ops o : since p (ops ++ [o]) = if resets o then false else since p ops || p o.
Proof. unfold since. rewrite fold_left_app. reflexivity. Qed.

Definition log_of (w : wlock) (p d c : bool) : Prop :=
  w_pushed w = p /\ w_delete w = d /\ sel_empty (w_changes w) = negb c.
Lemma sel_push_nonempty s i : sel_empty (sel_push s i) = false.
Proof. destruct s as [|[|x l]]; reflexivity. Qed.
Lemma push_only_log w r w' i : push_only_unchecked w r = Ok (w', i) -> exists t, w' = with_tab w t /\ t_sch t = t_sch (w_tab w).
Proof.
  unfold push_only_unchecked. intro H. bindn H cs H1. bindn H l H2. destruct l; inv H. eexists. split; reflexivity.
Qed.
Lemma swap_out_log w i r w' o : swap_out_row w i r = Ok (w', o) -> exists t, w' = with_tab w t /\ t_sch t = t_sch (w_tab w).
Proof.
  unfold swap_out_row. intro H. bindn H x H1. destruct (_ =? _); [|discriminate]. bindn H ps H2. inv H.
  eexists. split; reflexivity.
Qed.
Lemma push_end_log w r w' i p d c : t_kind (w_tab w) = Consistent -> log_of w p d c -> push_end_unchecked w r = Ok (w', i) ->
  log_of w' true d true /\ t_kind (w_tab w') = Consistent.
Proof.
  intros Kc (A & B & C) H. unfold push_end_unchecked in H. bindn H q H1. destruct q as [w1 i1]. inv H.
  destruct (push_only_log _ _ _ _ H1) as (t & -> & Et). simpl. unfold event_add. simpl.
  assert (t_kind t = Consistent) as Kt by (unfold t_kind in *; congruence). rewrite Kt. simpl.
  split; [|auto]. split; [reflexivity|]. split; [auto|]. simpl. apply sel_push_nonempty.
Qed.
Lemma push_log w r w' i p d c : t_kind (w_tab w) = Consistent -> log_of w p d c -> push w r = Ok (w', i) ->
  log_of w' true d true /\ t_kind (w_tab w') = Consistent.
Proof.
  intros Kc L H. unfold push in H. destruct (t_free (w_tab w)) as [|o f]; [eapply push_end_log; eauto|].
  bindn H q H1. destruct q as [w1 o']. inv H. destruct L as (A & B & C).
  apply swap_out_log in H1. destruct H1 as (t & E & Et). cbn [fst]. rewrite E.
  assert (X : forall t0, t_sch t0 = t_sch (w_tab w) ->
    event_add (with_tab w t0) i = W t0 (sel_push (w_changes w) i) true (w_delete w)).
  { intros t0 E0. unfold event_add. simpl. unfold t_kind in *. rewrite E0, Kc. reflexivity. }
  rewrite X in * by reflexivity. simpl in *. split.
  - split; [reflexivity|]. split; [auto|]. simpl. apply sel_push_nonempty.
  - unfold t_kind in *. congruence.
Qed.
Lemma push_all_log rs : forall w w' p d c, t_kind (w_tab w) = Consistent -> log_of w p d c -> push_all w rs = Ok w' ->
  log_of w' (p || is_push (OPushAll rs)) d (c || is_push (OPushAll rs)).
Proof.
  induction rs as [|r rs IH]; intros w w' p d c Kc L H; unfold push_all in H; cbn [fold_res] in H.
  - inv H. simpl. rewrite !orb_false_r. exact L.
  - bindn H w1 H1. bindn H1 q H2. inv H1. destruct q as [w1 i]. destruct (push_log _ _ _ _ _ _ _ Kc L H2) as [L1 K1].
    specialize (IH _ _ _ _ _ K1 L1 H). simpl. rewrite !orb_true_r. exact IH.
Qed.
Lemma push_ends_log rs : forall w i w' j p d c, t_kind (w_tab w) = Consistent -> log_of w p d c ->
  fold_res (fun s r => push_end_unchecked (fst s) r) rs (w, i) = Ok (w', j) ->
  p = true -> c = true -> log_of w' true d true.
Proof.
  induction rs as [|r rs IH]; intros w i w' j p d c Kc L H -> ->; cbn [fold_res] in H.
  - inv H. exact L.
  - bindn H q H1. destruct q as [w1 i1]. cbn [fst] in H1. destruct (push_end_log _ _ _ _ _ _ _ Kc L H1) as [L1 K1].
    eapply IH; eauto.
Qed.
Lemma push_array_log pr rs w w' r p d c : t_kind (w_tab w) = Consistent -> log_of w p d c -> push_array pr w rs = Ok (w', r) ->
  log_of w' (p || is_push (OPushArray rs)) d (c || is_push (OPushArray rs)).
Proof.
  intros Kc L H. destruct rs as [|x rs]; unfold push_array in H.
  - inv H. simpl. rewrite !orb_false_r. exact L.
  - bindn H q H1. bindn H q2 H2. bindn H e H3. inv H. destruct q as [w1 i1], q2 as [w2 i2].
    destruct (push_end_log _ _ _ _ _ _ _ Kc L H1) as [L1 K1]. simpl. rewrite !orb_true_r.
    eapply push_ends_log; eauto.
Qed.
Lemma live_flush_log pr umax srt w ev w' : w_live_flush pr umax srt w ev = Ok w' ->
  (sel_empty (w_changes w) = true -> w' = w) /\ (sel_empty (w_changes w) = false -> log_of w' false false false).
Proof.
  unfold w_live_flush. destruct (sel_empty (w_changes w)); intro H; [inv H; split; auto; discriminate|].
  split; [discriminate|]. intros _. bindn H u H1. bindn H w1 H2. bindn H u2 H3. inv H.
  split; [reflexivity|]. split; [reflexivity|]. simpl. unfold assert_ in H3. destruct (sel_empty (w_changes w1)); auto. discriminate.
Qed.

Definition log_inv (ops : list op) (st : state) : Prop :=
  let p := since is_push ops in let d := since is_del ops in let c := since is_change ops in
  (p = true -> c = true) /\ (d = true -> c = true) /\
  match st with Free _ => c = false | Locked w _ => log_of w p d c end.

Lemma write_log pr umax w its o w' its' p d c : t_kind (w_tab w) = Consistent -> avail Consistent o = true ->
  log_of w p d c -> (p = true -> c = true) -> (d = true -> c = true) ->
  write_op pr umax w its o = Ok (w', its') ->
  if resets o then log_of w' false false false
  else log_of w' (p || is_push o) (d || is_del o) (c || is_change o).
Proof.
  intros Kc A L P D H.
  assert (RD : (let* _ := read_op pr umax (w_tab w) o in Ok (w, its)) = Ok (w', its') -> 
     is_push o = false -> is_del o = false -> is_change o = false ->
     log_of w' (p || is_push o) (d || is_del o) (c || is_change o)).
  { intros H' E1 E2 E3. bindn H' u Hu. inv H'. rewrite E1, E2, E3, !orb_false_r. auto. }
  destruct o; simpl in A; try discriminate; cbn [write_op resets] in *; try (apply RD; auto; fail); try discriminate; clear RD;
    cbn [is_push is_del is_select is_change orb]; rewrite ?orb_false_r.
  - bindn H w1 H1. inv H. apply live_flush_log in H1. destruct H1 as [H1 H2].
    destruct (sel_empty (w_changes w)) eqn:Em; auto. rewrite H1 by auto. destruct L as (A1 & A2 & A3).
    rewrite Em in A3. destruct c; [discriminate|]. destruct p; [specialize (P eq_refl); discriminate|].
    destruct d; [specialize (D eq_refl); discriminate|]. repeat split; auto.
  - bindn H n H1. inv H. auto.
  - bindn H n H1. bindn H n1 H2. bindn H n2 H3. inv H. auto.
  - bindn H w1 H1. inv H. bindn H1 t H2. inv H1. exact L.
  - bindn H w1 H1. inv H. bindn H1 q H2. inv H1. destruct q as [w2 i]. rewrite !orb_true_r.
    apply (push_log _ _ _ _ _ _ _ Kc L H2).
  - bindn H w1 H1. inv H. pose proof (push_all_log _ _ _ _ _ _ Kc L H1) as X. simpl in X. destruct rs; exact X.
  - bindn H w1 H1. inv H. bindn H1 q H2. inv H1. destruct q as [w2 i]. pose proof (push_array_log _ _ _ _ _ _ _ _ Kc L H2) as X.
    simpl in X. destruct rs; exact X.
  - bindn H w1 H1. inv H. unfold delete in H1. rewrite Kc in H1. bindn H1 x H2. inv H1. unfold event_del. rewrite Kc.
    destruct L as (A1 & A2 & A3). rewrite !orb_true_r. split; auto. split; auto. simpl. apply sel_push_nonempty.
  - inv H. destruct L as (A1 & A2 & A3). rewrite !orb_true_r. split; auto. split; auto. simpl. apply sel_push_nonempty.
  - inv H. destruct L as (A1 & A2 & A3). rewrite !orb_true_r. split; auto.
  - inv H. destruct L as (A1 & A2 & A3). unfold clear, event_cleared. rewrite Kc. rewrite !orb_true_r. repeat split; auto.
  - inv H. exact L.
Qed.

Lemma log_step pr umax sch st o st' ops : s_kind sch = Consistent -> tg false sch (st_tab st) ->
  log_inv ops st -> step pr umax st o = Ok st' -> log_inv (ops ++ [o]) st'.
Proof.
  intros Kc G (P & D & I) H. unfold log_inv. rewrite !since_app. unfold step in H.
  pose proof (tg_kind _ _ _ G) as Kk. rewrite Kk, Kc in H.
  destruct (avail Consistent o) eqn:A; [|discriminate].
  destruct st as [t|w its].
  - rewrite I in *.
    assert (Pf : since is_push ops = false) by (destruct (since is_push ops); auto; specialize (P eq_refl); congruence).
    assert (Df : since is_del ops = false) by (destruct (since is_del ops); auto; specialize (D eq_refl); congruence).
    rewrite Pf, Df. destruct o; simpl in A, H; try discriminate; cbn [resets];
      try (bindn H u Hu; inv H; simpl; auto; fail); try (inv H; simpl; repeat split; auto; discriminate).
  - simpl in Kk. assert (Kw : t_kind (w_tab w) = Consistent) by congruence.
    assert (WR : (let* p := write_op pr umax w its o in Ok (Locked (fst p) (snd p))) = Ok st' ->
      ((if resets o then false else since is_push ops || is_push o) = true -> (if resets o then false else since is_change ops || is_change o) = true) /\
      ((if resets o then false else since is_del ops || is_del o) = true -> (if resets o then false else since is_change ops || is_change o) = true) /\
      match st' with
      | Free _ => (if resets o then false else since is_change ops || is_change o) = false
      | Locked w _ => log_of w (if resets o then false else since is_push ops || is_push o) (if resets o then false else since is_del ops || is_del o) (if resets o then false else since is_change ops || is_change o)
      end).
    { intro H'. bindn H' q Hq. inv H'. destruct q as [w' its'].
      pose proof (write_log _ _ _ _ _ _ _ _ _ _ Kw A I P D Hq) as X.
      destruct (resets o); [split; [auto|split; [auto|exact X]]|].
      split; [|split; [|exact X]]; unfold is_change at 2; rewrite !orb_true_iff; tauto. }
    destruct its, o; simpl in A; try discriminate; try (exact (WR H)); clear WR; cbn [resets];
      try rewrite Kw in H; try discriminate; bindn H t Ht; inv H; split; auto.
Qed.

Lemma run_log pr umax sch ops : s_kind sch = Consistent -> s_cols sch <> [] -> Forall (op_ty (s_cols sch)) ops ->
  forall st, run pr umax (Free (t_new sch)) ops = Ok st -> log_inv ops st.
Proof.
  intros Kc N. induction ops as [|o ops IH] using rev_ind; intros T st H.
  - inv H. repeat split; discriminate.
  - apply Forall_app in T. destruct T as [T1 T2]. inv T2.
    unfold run in H. rewrite fold_res_app in H. bindn H st1 H0. cbn [fold_res] in H. bindn H st2 Hs. inv H.
    eapply log_step; eauto.
    pose proof (run_good pr umax sch ops N T1) as G. unfold run in *. rewrite H0 in G. apply G. right. left. congruence.
Qed.
Lemma unflushed_panics pr umax sch ops w its : s_kind sch = Consistent -> s_cols sch <> [] -> Forall (op_ty (s_cols sch)) ops ->
  run pr umax (Free (t_new sch)) ops = Ok (Locked w its) ->
  (w_drop w = panic PNotFlushed <-> since is_change ops = true) /\
  (since is_change ops = false -> w_drop w = Ok (w_tab w)) /\
  (since is_push ops = true -> since is_del ops = true -> forall srt ev, w_flush pr umax srt w ev = panic PInterleave).
Proof.
  intros Kc N T H. destruct (run_log _ _ _ _ Kc N T _ H) as (P & D & A1 & A2 & A3).
  pose proof (run_good pr umax sch ops N T) as G. rewrite H in G.
  assert (Kw : t_kind (w_tab w) = Consistent).
  { rewrite <- Kc. apply (tg_kind false sch). apply G. right. left. congruence. }
  unfold w_drop, t_consistent. rewrite Kw, A3. simpl. rewrite negb_involutive.
  split; [destruct (since is_change ops); split; auto; discriminate|].
  split; [intros ->; reflexivity|]. intros P1 D1 srt ev. unfold w_flush. rewrite A3, (P P1). simpl.
  unfold flush_check. rewrite A1, A2, P1, D1. reflexivity.
Qed.

(** ** C55 *)
Lemma check_exact pr umax sch st i j : reachable pr umax sch st ->
  (t_check (st_tab st) i = Ok j <-> j = i /\ t_contains (st_tab st) i = true) /\
  (t_check (st_tab st) i = Ok j -> exists r, t_get_row_checked (st_tab st) j = Ok r).
Proof.
  intros R. destruct (reachable_tg _ _ _ _ R) as (E & live & rows & K & _).
  rewrite (contains_iff _ _ _ K). split; [split|].
  - intro H. apply (t_check_inv _ _ _ K) in H. rewrite (t_deleted_iff _ _ _ K) in H. tauto.
  - intros (-> & L & D). apply (t_check_ok _ _ _ K); auto. rewrite (t_deleted_iff _ _ _ K); auto.
  - intro H. apply (t_check_inv _ _ _ K) in H. destruct H as (-> & L & D). destruct (nth_error_lt_Some _ _ L) as [r Hr].
    exists r. unfold t_get_row_checked, t_check_checked. simpl. apply (t_get_row_raw_ok _ _ _ K); auto.
Qed.

(** ** find *)
Lemma find_exact pr umax sch st k b v : sane pr umax sch st ->
  nth_error (s_cols sch) k = Some (Indexed b) ->
  let t := st_tab st in
  exists l, t_find t k v = Ok l /\ StronglySorted lt l /\
    forall i, In i l <-> i < t_imax t /\ exists r, t_get_row t i = Ok r /\ nth_error r k = Some v.
Proof.
  intros S Hk t. destruct (sane_tg _ _ _ _ S) as (E & live & rows & K & X). destruct (X eq_refl) as [XL XF].
  fold t in E, K, XL, XF. pose proof (cols_len_eq _ _ _ K) as L. rewrite E in L.
  pose proof (nth_error_Some_lt _ _ _ Hk) as Lk.
  destruct (nth_error_lt_Some (t_cols t) k) as [c Ek]; [congruence|].
  pose proof (ok_cols _ _ _ K) as CO. rewrite E in CO.
  destruct (cols_nth _ _ _ _ _ _ _ _ CO Ek Hk) as [W D].
  unfold t_find. rewrite Ek, (c_find_ok _ _ _ _ _ W). eexists. split; [reflexivity|].
  split; [apply ss_filter, seq_ss|]. intro i.
  pose proof (cols_ok_row_length _ _ _ _ _ CO) as RL. rewrite Forall_forall in RL.
  rewrite filter_In, in_seq, D, map_length, !andb_true_iff, Nat.ltb_lt, val_at_iff, nth_error_map.
  split.
  - intros (Li & (Lm & Lv) & V). split; auto. destruct (nth_error rows i) as [r|] eqn:Hr; [|discriminate].
    exists r. split.
    + apply (t_get_row_ok _ _ _ K); auto. rewrite (t_deleted_iff _ _ _ K).
      rewrite XL in Lv by lia. unfold live_of in Lv. apply negb_true_iff in Lv. auto.
    + simpl in V. inv V. apply nth_error_nth'. rewrite (RL r) by (eapply nth_error_In; eauto). auto.
  - intros (Lm & r & G & V). apply (t_get_row_inv _ _ _ K) in G. destruct G as [Hr Dl].
    pose proof (nth_error_Some_lt _ _ _ Hr) as Li. split; [lia|]. split; [split; auto|].
    + rewrite XL by auto. unfold live_of. rewrite <- (t_deleted_iff _ _ _ K), Dl. reflexivity.
    + rewrite Hr. simpl. f_equal. apply nth_error_nth. auto.
Qed.

(** ** C31 *)
Lemma append_push w r w' i live rows : t_ok (w_tab w) live rows -> t_kind (w_tab w) = Append ->
  row_ty (s_cols (t_sch (w_tab w))) r -> push_end_unchecked w r = Ok (w', i) ->
  exists live', t_ok (w_tab w') live' (rows ++ [r]) /\ t_sch (w_tab w') = t_sch (w_tab w).
Proof.
  intros K Ka T H. pose proof (push_exact w live rows r K T) as P.
  assert (F : t_free (w_tab w) = []) by (apply K; congruence). rewrite F in P.
  assert (Q : push w r = push_end_unchecked w r) by (unfold push; rewrite F; auto).
  rewrite Q, H in P. destruct (_ <=? _); [|discriminate]. destruct P as (w1 & E & K1 & _ & E1). inv E. eauto.
Qed.
Lemma append_push_all rs : forall w w' live rows, t_ok (w_tab w) live rows -> t_kind (w_tab w) = Append ->
  Forall (row_ty (s_cols (t_sch (w_tab w)))) rs -> push_all w rs = Ok w' ->
  exists live', t_ok (w_tab w') live' (rows ++ rs).
Proof.
  induction rs as [|r rs IH]; intros w w' live rows K Ka T H; unfold push_all in H; cbn [fold_res] in H.
  - inv H. rewrite app_nil_r. eauto.
  - bindn H w1 H1. bindn H1 q H2. inv H1. destruct q as [w1 i]. inv T.
    assert (Q : push w r = push_end_unchecked w r) by (unfold push; rewrite (ok_free_kind _ _ _ K) by congruence; auto).
    rewrite Q in H2. destruct (append_push _ _ _ _ _ _ K Ka H3 H2) as (l1 & K1 & E1).
    simpl in H. destruct (IH w1 w' l1 (rows ++ [r])) as (l2 & K2); auto; try (unfold t_kind in *; congruence).
    rewrite <- app_assoc in K2. eauto.
Qed.
Lemma append_push_ends rs : forall w i w' j live rows, t_ok (w_tab w) live rows -> t_kind (w_tab w) = Append ->
  Forall (row_ty (s_cols (t_sch (w_tab w)))) rs ->
  fold_res (fun s r => push_end_unchecked (fst s) r) rs (w, i) = Ok (w', j) ->
  exists live', t_ok (w_tab w') live' (rows ++ rs).
Proof.
  induction rs as [|r rs IH]; intros w i w' j live rows K Ka T H; cbn [fold_res] in H.
  - inv H. rewrite app_nil_r. eauto.
  - bindn H q H1. destruct q as [w1 i1]. inv T. cbn [fst] in H1.
    destruct (append_push _ _ _ _ _ _ K Ka H3 H1) as (l1 & K1 & E1).
    destruct (IH w1 i1 w' j l1 (rows ++ [r])) as (l2 & K2); auto; try (unfold t_kind in *; congruence).
    rewrite <- app_assoc in K2. eauto.
Qed.
Lemma plain_flush_tab pr umax srt w ev t : ev_removal ev = false -> w_flush pr umax srt w ev = Ok t -> t = w_tab w.
Proof.
  intros R H. unfold w_flush in H. destruct (sel_empty (w_changes w)); [apply drop_inv in H; tauto|].
  bindn H u H1. unfold flush_apply in H. rewrite R in H. cbn [andb bind] in H. bindn H u2 H2. apply drop_inv in H. tauto.
Qed.
Lemma plain_live_flush_tab pr umax srt w ev w' : ev_removal ev = false -> w_live_flush pr umax srt w ev = Ok w' -> w_tab w' = w_tab w.
Proof.
  intros R H. unfold w_live_flush in H. destruct (sel_empty (w_changes w)); [inv H; auto|].
  bindn H u H1. unfold flush_apply in H. rewrite R in H. cbn [andb bind] in H. bindn H u2 H2. inv H. reflexivity.
Qed.

Lemma append_write pr umax w its o w' its' live rows : t_ok (w_tab w) live rows -> t_kind (w_tab w) = Append ->
  avail Append o = true -> op_ty (s_cols (t_sch (w_tab w))) o -> may_remove o = false -> is_assign o = false ->
  write_op pr umax w its o = Ok (w', its') -> exists live' more, t_ok (w_tab w') live' (rows ++ more).
Proof.
  intros K Ka A T M S H.
  assert (RD : w_tab w' = w_tab w -> exists live' more, t_ok (w_tab w') live' (rows ++ more)).
  { intros ->. exists live, []. rewrite app_nil_r. auto. }
  assert (RD2 : (let* _ := read_op pr umax (w_tab w) o in Ok (w, its)) = Ok (w', its') -> 
     exists live' more, t_ok (w_tab w') live' (rows ++ more)).
  { intro H'. bindn H' u Hu. inv H'. auto. }
  destruct o; simpl in A, M, S; try discriminate; cbn [write_op] in *; try (apply RD2; exact H).
  - bindn H w1 H1. inv H. apply plain_live_flush_tab in H1; auto.
  - bindn H n H1. inv H. auto.
  - bindn H n H1. bindn H n1 H2. bindn H n2 H3. inv H. auto.
  - bindn H w1 H1. inv H. bindn H1 q H2. inv H1. destruct q as [w2 i].
    assert (Q : push w r = push_end_unchecked w r) by (unfold push; rewrite (ok_free_kind _ _ _ K) by congruence; auto).
    rewrite Q in H2. destruct (append_push _ _ _ _ _ _ K Ka T H2) as (l1 & K1 & _). eauto.
  - bindn H w1 H1. inv H. destruct (append_push_all _ _ _ _ _ K Ka T H1). eauto.
  - bindn H w1 H1. inv H. bindn H1 q H2. inv H1. destruct q as [w2 i]. destruct rs as [|r rs]; unfold push_array in H2.
    + inv H2. auto.
    + bindn H2 q H3. bindn H2 q2 H4. bindn H2 e H5. inv H2. destruct q as [w1 i1], q2 as [w2 i2]. inv T.
      destruct (append_push _ _ _ _ _ _ K Ka H1 H3) as (l1 & K1 & E1).
      destruct (append_push_ends rs w1 i1 w2 i2 _ _ K1) as (l2 & K2); auto; try (unfold t_kind in *; congruence).
      rewrite <- app_assoc in K2. simpl. eauto.
  - inv H. auto.
  - inv H. auto.
Qed.

Lemma assign_exact t k i v t' live rows : t_ok t live rows ->
  (forall ct, nth_error (s_cols (t_sch t)) k = Some ct -> v_ty (ct_base ct) v) ->
  t_assign t k i v = Ok t' -> exists r, nth_error rows i = Some r /\ t_ok t' live (upd rows i (upd r k v)).
Proof.
  intros K T H. unfold t_assign in H.
  destruct (nth_error (t_cols t) k) as [[b|b ix]|] eqn:Ek; try discriminate.
  assert (Hk : exists ct, nth_error (s_cols (t_sch t)) k = Some ct).
  { apply nth_error_lt_Some. rewrite <- (cols_len_eq _ _ _ K). eapply nth_error_Some_lt; eauto. }
  destruct Hk as [ct Hk].
  destruct (cols_nth _ _ _ _ _ _ _ _ (ok_cols _ _ _ K) Ek Hk) as [Wf Dt].
  destruct ct as [ct|ct]; [|simpl in Wf; tauto].
  unfold c_set in H. rewrite c_len_data, Dt, map_length in H. destruct (Nat.leb_spec (length rows) i) as [L|L]; [discriminate|].
  destruct (nth_error_lt_Some _ _ L) as [r Hr].
  destruct (cols_assign_ok _ _ _ k i _ _ r v b ct (ok_cols _ _ _ K) Ek Hk) as (c & Q & _ & C); auto.
  { apply (T _ Hk). }
  rewrite Q in H. simpl in H. inv H. exists r. split; auto.
  change (t_ok (with_cols t (upd (t_cols t) k c)) live (upd rows i (upd r k v))).
  eapply with_cols_ok; eauto; rewrite upd_length; auto. apply K.
Qed.

Lemma append_step pr umax st o st' live rows : t_ok (st_tab st) live rows -> t_kind (st_tab st) = Append ->
  op_ty (s_cols (t_sch (st_tab st))) o -> may_remove o = false ->
  step pr umax st o = Ok st' ->
  exists live' rows', t_ok (st_tab st') live' rows' /\ length rows <= length rows' /\
    (is_assign o = false -> exists more, rows' = rows ++ more).
Proof.
  intros K Ka T M H. unfold step in H. rewrite Ka in H. destruct (avail Append o) eqn:A; [|discriminate].
  assert (RD : st_tab st' = st_tab st -> exists live' rows', t_ok (st_tab st') live' rows' /\ length rows <= length rows' /\
    (is_assign o = false -> exists more, rows' = rows ++ more)).
  { intros ->. exists live, rows. split; auto. split; auto. intros _. exists []. rewrite app_nil_r. auto. }
  destruct st as [t|w its].
  - simpl in RD. destruct o; simpl in A, M; try discriminate; cbn [read_op] in H; try discriminate;
      try (bindn H u Hu; inv H; auto; fail); inv H; auto.
  - simpl in K, Ka, T, RD.
    assert (WR : (let* p := write_op pr umax w its o in Ok (Locked (fst p) (snd p))) = Ok st' ->
      exists live' rows', t_ok (st_tab st') live' rows' /\ length rows <= length rows' /\
      (is_assign o = false -> exists more, rows' = rows ++ more)).
    { intro H'. bindn H' q Hq. inv H'. destruct q as [w' its']. cbn [fst snd st_tab].
      destruct (is_assign o) eqn:Ia.
      - destruct o; try discriminate. cbn [write_op] in Hq. bindn Hq w1 H1. inv Hq. bindn H1 t' H2. inv H1.
        destruct (assign_exact _ _ _ _ _ _ _ K T H2) as (r & Hr & K'). exists live, (upd rows i (upd r k v)).
        split; [exact K'|]. rewrite upd_length. split; auto. discriminate.
      - destruct (append_write _ _ _ _ _ _ _ _ _ K Ka A T M Ia Hq) as (l' & more & K'). exists l', (rows ++ more).
        split; auto. rewrite app_length. split; [lia|]. eauto. }
    destruct its, o; simpl in A, M; try discriminate; try (exact (WR H)); clear WR; try discriminate;
      bindn H t Ht; inv H; apply RD; simpl.
    + apply drop_inv in Ht. tauto.
    + apply plain_flush_tab in Ht; auto.
Qed.

Lemma append_kept pr umax sch st ops st' : reachable pr umax sch st -> s_kind sch = Append ->
  Forall (op_ty (s_cols sch)) ops -> Forall (fun o => may_remove o = false) ops -> run pr umax st ops = Ok st' ->
  t_len (st_tab st) <= t_len (st_tab st') /\
  (Forall (fun o => is_assign o = false) ops ->
   forall i r, t_get_row (st_tab st) i = Ok r -> t_get_row (st_tab st') i = Ok r).
Proof.
  intros R Ka T M H. destruct (reachable_tg _ _ _ _ R) as (E & live & rows & K & _).
  assert (Kk : t_kind (st_tab st) = Append) by (unfold t_kind; congruence).
  assert (G : exists live' rows', t_ok (st_tab st') live' rows' /\ t_sch (st_tab st') = sch /\ length rows <= length rows' /\
    (Forall (fun o => is_assign o = false) ops -> exists more, rows' = rows ++ more)).
  { clear R. revert st live rows H E K Kk. induction ops as [|o ops IH]; intros st live rows H E K Kk.
    - inv H. exists live, rows. split; auto. split; auto. split; auto. intros _. exists []. rewrite app_nil_r. auto.
    - inv T. inv M. unfold run in H. cbn [fold_res] in H. bindn H st1 H1.
      pose proof (good_step pr umax false (t_sch (st_tab st)) st o) as G. rewrite H1 in G. simpl in G. destruct G as (E1 & _); auto.
      { split; auto. exists live, rows. split; auto. discriminate. }
      { intros _ Kb. unfold t_kind in Kk. congruence. } { discriminate. }
      destruct (append_step _ _ _ _ _ _ _ K Kk H2 H4 H1) as (l1 & r1 & K1 & L1 & P1).
      destruct (IH H3 H5 st1 l1 r1 H E1 K1) as (l2 & r2 & K2 & E2 & L2 & P2); [unfold t_kind in *; congruence|].
      exists l2, r2. split; auto. split; auto. split; [lia|]. intro FA. inv FA. destruct (P1 H7) as [m1 ->]. destruct (P2 H8) as [m2 ->].
      rewrite <- app_assoc. eauto. }
  destruct G as (live' & rows' & K' & E' & L & P).
  rewrite (t_len_ok _ _ _ K), (t_len_ok _ _ _ K'). split; auto. intros FA i r Hr.
  apply (t_get_row_inv _ _ _ K) in Hr. destruct Hr as [Hr _]. destruct (P FA) as [m ->].
  apply (t_get_row_ok _ _ _ K'); [rewrite nth_error_app1; eauto using nth_error_Some_lt|].
  rewrite (t_deleted_iff _ _ _ K'), (ok_free_kind _ _ _ K'); auto. unfold t_kind. rewrite E'. congruence.
Qed.

(** ** Statements from reachable states *)
Lemma push_reachable pr umax sch w its r : reachable pr umax sch (Locked w its) ->
  row_ty (s_cols sch) r ->
  let t := w_tab w in
  match push w r with
  | Ok (w', i) =>
      t_contains t i = false /\ t_get_row (w_tab w') i = Ok r /\ (forall j, j <> i -> same_row t (w_tab w') j) /\
      (least_deleted t i \/ (forall j, t_is_deleted t j = false) /\ i = t_len t) /\
      (t_len t <= t_imax t -> next_pushed t = Ok i)
  | Err e => (exists c, e = EPanic c) /\
      ((exists i, least_deleted t i /\ t_len t <= i) \/
       (forall j, t_is_deleted t j = false) /\ t_imax t < t_len t)
  end.
Proof.
  intros R T. destruct (reachable_tg _ _ _ _ R) as (E & live & rows & K & _). simpl in *.
  eapply push_full_spec; eauto. rewrite E. auto.
Qed.
Lemma push_sane pr umax sch w its r : sane pr umax sch (Locked w its) ->
  row_ty (s_cols sch) r -> (t_len (w_tab w) <= t_imax (w_tab w) \/ exists i, t_is_deleted (w_tab w) i = true) ->
  exists w' i, push w r = Ok (w', i).
Proof.
  intros S T C. destruct (sane_tg _ _ _ _ S) as (E & live & rows & K & X). simpl in *. destruct (X eq_refl) as [_ XF].
  pose proof (push_exact w live rows r K) as P. rewrite E in P. specialize (P T). rewrite (t_len_ok _ _ _ K) in C.
  destruct (t_free (w_tab w)) as [|o f] eqn:F.
  - destruct (Nat.leb_spec (length rows) (t_imax (w_tab w))) as [L|L].
    + destruct P as (w' & Q & _). eauto.
    + destruct C as [C|[i Hi]]; [lia|]. rewrite (t_deleted_iff _ _ _ K), F in Hi. discriminate.
  - inv XF. destruct (Nat.ltb_spec o (length rows)); [|lia]. destruct P as (w' & Q & _). eauto.
Qed.
Lemma push_array_iterable pr umax sch w its rs : reachable pr umax sch (Locked w its) ->
  Forall (row_ty (s_cols sch)) rs -> t_len (w_tab w) + length rs <= t_imax (w_tab w) ->
  exists w' r, push_array pr w rs = Ok (w', r) /\
    ((exists it, t_range (w_tab w') r = Ok it) <-> rs <> [] \/ t_len (w_tab w) = t_imax (w_tab w)).
Proof.
  intros R T L. destruct (reachable_tg _ _ _ _ R) as (E & live & rows & K & _). simpl in *.
  rewrite (t_len_ok _ _ _ K) in *. destruct rs as [|r rs].
  - eexists _, _. split; [reflexivity|]. simpl in L.
    destruct (t_range_spec _ _ _ K (rr_empty (t_imax (w_tab w)))) as [[Q Lr]|[[c Q] Lr]]; rewrite Q; simpl in Lr.
    + split; [intros _; right; lia|]. intros _. eauto.
    + split; [intros [it H]; discriminate|]. intros [N|N]; [congruence|]. specialize (Lr (le_n _)). lia.
  - destruct (push_array_exact pr w live rows (r :: rs) K) as (w' & l' & Q & K' & _); auto; [congruence|discriminate|].
    eexists _, _. split; [exact Q|]. split; [left; discriminate|]. intros _.
    destruct (t_range_spec _ _ _ K' (RR (length rows) (length rows + length (r :: rs)))) as [[Q' _]|[_ Lr]]; [eauto|].
    rewrite app_length in Lr. simpl in Lr. lia.
Qed.
