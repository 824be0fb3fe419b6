From Coq Require Import List Arith Bool Lia Sorting.Sorted Sorting.Permutation.
From Verif Require Import Base BaseFacts Column ColumnFacts Order RowRange RowRangeFacts Table Visit SortedTab BagTab TableSpec
  TableFacts VisitFacts SortedFacts BagFacts Hist HistFacts TableProps RowProps Events Cascade CascadeSpec CascadeLog.
Import ListNotations.

(** ** Selecting the dependents *)
Lemma join_drop (v : val) remove :
  join (fun l r => val_cmp l (VRow r)) v remove =
  match drop_while (fun r => match val_cmp v (VRow r) with Gt => true | _ => false end) remove with
  | [] => (JStop, [])
  | r :: rs => (match val_cmp v (VRow r) with Eq => JMatch r | _ => JNext end, r :: rs)
  end.
Proof.
  induction remove as [|r rs IH]; cbn [join drop_while]; auto. destruct (val_cmp v (VRow r)) eqn:E; auto; rewrite E; auto.
Qed.

Lemma val_le_trans a b c : val_cmp a b <> Gt -> val_cmp b c <> Gt -> val_cmp a c <> Gt.
Proof.
  intros A B. destruct (val_cmp a b) eqn:E1; [|destruct (val_cmp b c) eqn:E2; [| |congruence]|congruence].
  - apply val_cmp_eq in E1. subst. auto.
  - apply val_cmp_eq in E2. subst. congruence.
  - rewrite (val_lt_trans _ _ _ E1 E2). discriminate.
Qed.
Lemma val_cmp_row i j : val_cmp (VRow i) (VRow j) = Nat.compare i j.
Proof. reflexivity. Qed.

Definition matches (v : val) (remove : list nat) : bool := existsb (fun r => val_eqb v (VRow r)) remove.

Lemma drop_matches v v' remove : val_cmp v v' <> Gt ->
  matches v' (drop_while (fun r => match val_cmp v (VRow r) with Gt => true | _ => false end) remove) = matches v' remove.
Proof.
  intro L. induction remove as [|r rs IH]; cbn [drop_while]; auto. destruct (val_cmp v (VRow r)) eqn:E; auto.
  rewrite IH. unfold matches. cbn [existsb]. destruct (val_eqb v' (VRow r)) eqn:Q; auto.
  exfalso. unfold val_eqb in Q. destruct (val_cmp v' (VRow r)) eqn:E'; try discriminate. apply val_cmp_eq in E'. subst. congruence.
Qed.
Lemma drop_sorted (f : nat -> bool) l : StronglySorted le l -> StronglySorted le (drop_while f l).
Proof. induction 1; cbn [drop_while]; [constructor|]. destruct (f a); auto. constructor; auto. Qed.

Lemma join_rows_ok t k c f : nth_error (t_cols t) k = Some c -> forall ids remove,
  (forall i, In i ids -> c_index c i = Ok (f i)) -> StronglySorted (fun i j => val_cmp (f i) (f j) <> Gt) ids ->
  StronglySorted le remove ->
  join_rows t k ids remove = Ok (filter (fun i => matches (f i) remove) ids).
Proof.
  intro Ec. induction ids as [|i ids IH]; intros remove Hf S Sr; cbn [join_rows filter]; auto.
  rewrite Ec, (Hf i) by (left; auto). cbn [bind]. rewrite join_drop.
  apply StronglySorted_inv in S. destruct S as [S F]. rewrite Forall_forall in F.
  set (d := drop_while _ remove).
  assert (Md : forall j, In j ids -> matches (f j) d = matches (f j) remove) by (intros j Hj; apply drop_matches; auto).
  assert (Mi : matches (f i) d = matches (f i) remove) by (apply drop_matches; rewrite val_cmp_refl; discriminate).
  assert (Ef : filter (fun j => matches (f j) d) ids = filter (fun j => matches (f j) remove) ids)
    by (apply filter_ext_in; auto).
  assert (Sd : StronglySorted le d) by (apply drop_sorted; auto).
  assert (Hd : match d with [] => True | r :: _ => val_cmp (f i) (VRow r) <> Gt end).
  { unfold d. clear. induction remove as [|r rs IH]; cbn [drop_while]; auto. destruct (val_cmp (f i) (VRow r)) eqn:E; auto; congruence. }
  destruct d as [|r rs] eqn:Ed; cbn [fst snd].
  - assert (Z : forall j, matches (f j) [] = false) by reflexivity.
    rewrite <- Mi, Z, <- Ef. f_equal. clear. induction ids; auto.
  - rewrite <- Mi. assert (IH' : join_rows t k ids (r :: rs) = Ok (filter (fun j => matches (f j) remove) ids)).
    { rewrite IH; auto; [congruence|]. intros; apply Hf; right; auto. }
    destruct (val_cmp (f i) (VRow r)) eqn:E; cbn [fst snd].
    + rewrite IH'. cbn [bind]. replace (matches (f i) (r :: rs)) with true; auto. symmetry.
      unfold matches, val_eqb. cbn [existsb]. rewrite E. reflexivity.
    + rewrite IH'. replace (matches (f i) (r :: rs)) with false; auto. symmetry.
      unfold matches. apply not_true_iff_false. rewrite existsb_exists. intros (r' & Hr & Q).
      unfold val_eqb in Q. destruct (val_cmp (f i) (VRow r')) eqn:E'; try discriminate. apply val_cmp_eq in E'.
      rewrite E' in E. rewrite val_cmp_row, Nat.compare_lt_iff in E.
      apply StronglySorted_inv in Sd. destruct Sd as [_ Fd]. rewrite Forall_forall in Fd.
      destruct Hr as [->|Hr]; [lia|]. specialize (Fd _ Hr). lia.
    + congruence.
Qed.

Lemma matches_iff v remove : matches v remove = true <-> exists i, In i remove /\ v = VRow i.
Proof.
  unfold matches. rewrite existsb_exists. split; intros (i & Hi & E); exists i; split; auto.
  - unfold val_eqb in E. destruct (val_cmp v (VRow i)) eqn:Q; try discriminate. apply val_cmp_eq; auto.
  - subst. unfold val_eqb. rewrite val_cmp_refl. auto.
Qed.

(** The rows of a column. *)
Lemma col_index_row t live rows k b i r : t_ok t live rows -> nth_error (s_cols (t_sch t)) k = Some b ->
  nth_error rows i = Some r -> exists c v, nth_error (t_cols t) k = Some c /\ c_index c i = Ok v /\ nth_error r k = Some v.
Proof.
  intros K Hb Hr. pose proof (t_get_row_raw_ok _ _ _ K _ _ Hr) as G. unfold t_get_row_raw in G.
  pose proof (cols_len_eq _ _ _ K) as L. pose proof (nth_error_Some_lt _ _ _ Hb).
  destruct (nth_error_lt_Some (t_cols t) k) as [c Ec]; [lia|].
  pose proof (map_res_length _ _ _ G) as Lr. destruct (nth_error_lt_Some r k) as [v Ev]; [lia|].
  exists c, v. split; auto. split; auto. clear - G Ec Ev. revert k r G Ec Ev.
  induction (t_cols t) as [|c0 cs IH]; intros [|k] r G Ec Ev; try discriminate; simpl in G;
    bindn G a G1; bindn G m G2; inv G; simpl in Ec, Ev.
  - inv Ec. inv Ev. auto.
  - eauto.
Qed.

Lemma select_sorted_ok pr t rows k b remove : t_exact t rows -> t_kind t = Sorted -> length rows <= t_imax t ->
  nth_error (s_cols (t_sch t)) k = Some b -> ascending_column t k -> StronglySorted le remove ->
  exists l, select_sorted pr t k (SThese remove) = Ok (SThese l) /\ StronglySorted lt l /\
    forall j, In j l <-> exists r i, nth_error rows j = Some r /\ nth_error r k = Some (VRow i) /\ In i remove.
Proof.
  intros [K _] Kd L Hb A S. unfold select_sorted. rewrite (t_iter_ok _ _ _ K L). cbn [bind].
  assert (Fr : t_free t = []) by (apply (ok_free_kind _ _ _ K); congruence).
  rewrite (cons_collect_ok pr (t_imax t) (t_free t)).
  2:{ apply cons_new_inv; auto. apply K. }
  2:{ cbn [cons_new ci_rows it_end it_i]. rewrite (t_len_ok _ _ _ K). lia. }
  cbn [cons_new ci_rows it_end it_i bind]. rewrite Fr. unfold live_rows. rewrite Nat.sub_0_r.
  replace (filter (fun i => negb (mem i [])) (seq 0 (length rows))) with (seq 0 (length rows)).
  2:{ symmetry. apply forallb_filter_id || idtac. clear. induction (seq 0 (length rows)) as [|x l IH]; auto.
      cbn [filter]. unfold mem at 1. cbn. rewrite IH at 1. reflexivity. }
  destruct (nth_error_lt_Some (t_cols t) k) as [c Ec].
  { rewrite (cols_len_eq _ _ _ K). eapply nth_error_Some_lt; eauto. }
  set (f := fun i => match c_index c i with Ok v => v | _ => VRow 0 end).
  assert (Row : forall i, i < length rows -> exists r, nth_error rows i = Some r /\ c_index c i = Ok (f i) /\ nth_error r k = Some (f i)).
  { intros i Hi. destruct (nth_error_lt_Some _ _ Hi) as [r Hr]. exists r. split; auto.
    destruct (col_index_row _ _ _ _ _ _ _ K Hb Hr) as (c' & v & E1 & E2 & E3). rewrite Ec in E1. inv E1.
    unfold f. rewrite E2. auto. }
  rewrite (join_rows_ok t k c f Ec); auto.
  - cbn [bind]. eexists. split; [reflexivity|]. split; [apply ss_filter, seq_ss|]. intro j.
    rewrite filter_In, matches_iff, in_seq. split.
    + intros [Hj (i & Hi & E)]. destruct (Row j) as (r & Hr & _ & Hk); [lia|]. exists r, i. rewrite Hk, E. auto.
    + intros (r & i & Hr & Hk & Hi). pose proof (nth_error_Some_lt _ _ _ Hr). split; [lia|].
      exists i. split; auto. destruct (Row j) as (r' & Hr' & _ & Hk'); [lia|]. rewrite Hr in Hr'. inv Hr'. congruence.
  - intros i Hi. apply in_seq in Hi. destruct (Row i) as (r & _ & E & _); auto. lia.
  - assert (G : forall n m, m + n <= length rows -> StronglySorted (fun i j => val_cmp (f i) (f j) <> Gt) (seq m n)).
    { induction n as [|n IH]; intros m Hm; cbn [seq]; constructor; [apply IH; lia|].
      apply Forall_forall. intros j Hj. apply in_seq in Hj.
      destruct (Row m) as (r & Hr & _ & Hk); [lia|]. destruct (Row j) as (s & Hs & _ & Hk'); [lia|].
      assert (D : forall x, t_is_deleted t x = false) by (intro x; rewrite (t_deleted_iff _ _ _ K), Fr; auto).
      apply (A m j r s); auto; try lia; apply (t_get_row_inv _ _ _ K); auto. }
    apply G. lia.
Qed.

Lemma sane_exact pr umax t : sane pr umax (t_sch t) (Free t) -> t_kind t <> Bag -> exists rows, t_exact t rows.
Proof.
  intros S B. destruct (sane_tg _ _ _ _ S) as (E & X).
  destruct (tg_exact (t_sch t) t) as [_ R]; auto. split; auto.
Qed.

Lemma NoDup_app_disjoint {A} (l1 l2 : list A) : NoDup l1 -> NoDup l2 -> (forall x, In x l1 -> ~ In x l2) -> NoDup (l1 ++ l2).
Proof.
  induction l1 as [|x l1 IH]; intros H1 H2 D; auto. inv H1. simpl. constructor.
  - rewrite in_app_iff. intros [H|H]; [auto|]. exact (D x (or_introl eq_refl) H).
  - apply IH; auto. intros y Hy. apply D. right. auto.
Qed.

Lemma select_indexed_ok pr umax t k b ids : sane pr umax (t_sch t) (Free t) -> t_kind t <> Bag ->
  t_len t <= t_imax t -> nth_error (s_cols (t_sch t)) k = Some (Indexed b) ->
  exists l, select_indexed t k (SThese ids) = Ok (SThese l) /\ (NoDup ids -> NoDup l) /\
    forall j, In j l <-> exists r i, t_get_row t j = Ok r /\ nth_error r k = Some (VRow i) /\ In i ids.
Proof.
  intros S B L Hb. destruct (sane_exact _ _ _ S B) as [rows [K _]].
  assert (F : forall i, exists l, t_find t k (VRow i) = Ok l /\ NoDup l /\
     forall j, In j l <-> exists r, t_get_row t j = Ok r /\ nth_error r k = Some (VRow i)).
  { intro i. destruct (find_exact pr umax (t_sch t) (Free t) k b (VRow i) S Hb) as (l & E & Sl & Il).
    cbn [st_tab] in *. exists l. split; auto. split; [apply sorted_lt_NoDup; auto|]. intro j. rewrite Il.
    split; [tauto|]. intros (r & Hr & Hk). split; [|eauto]. apply (t_get_row_inv _ _ _ K) in Hr.
    destruct Hr as [Hr _]. apply nth_error_Some_lt in Hr. rewrite (t_len_ok _ _ _ K) in L. lia. }
  cbn [select_indexed]. 
  assert (G : exists ls, map_res (fun i => t_find t k (VRow i)) ids = Ok ls /\ (NoDup ids -> NoDup (concat ls)) /\
    forall j, In j (concat ls) <-> exists r i, t_get_row t j = Ok r /\ nth_error r k = Some (VRow i) /\ In i ids).
  { induction ids as [|i ids IH]; cbn [map_res].
    - exists []. split; auto. split; [constructor|]. intro j. simpl. split; [tauto|]. intros (r & i & _ & _ & []).
    - destruct IH as (ls & E & N & I). destruct (F i) as (l & El & Nl & Il). exists (l :: ls). rewrite El, E. split; auto.
      cbn [concat]. split.
      + intro H. inv H. apply NoDup_app_disjoint; auto. intros j Hj Hj'. apply Il in Hj. apply I in Hj'.
        destruct Hj as (r & Hr & Hk). destruct Hj' as (r' & i' & Hr' & Hk' & Hi'). rewrite Hr in Hr'. inv Hr'.
        rewrite Hk in Hk'. inv Hk'. auto.
      + intro j. rewrite in_app_iff, Il, I. split.
        * intros [(r & Hr & Hk)|(r & i' & Hr & Hk & Hi)]; [exists r, i|exists r, i']; simpl; auto.
        * intros (r & i' & Hr & Hk & [<-|Hi]); [left; eauto|right; exists r, i'; auto]. }
  destruct G as (ls & E & N & I). exists (concat ls). rewrite E. auto.
Qed.

(** ** Removing them *)
Lemma down_exact t t' rows R : t_ok t' (down (live_of t) R) rows -> Forall (fun i => i < length rows) (t_free t) ->
  Forall (fun i => i < length rows) R ->
  (forall j, mem j (t_free t') = mem j (t_free t) || mem j R) -> t_exact t' rows.
Proof.
  intros K F FR M. split.
  - eapply t_ok_ext; [|exact K]. intros i _. unfold live_of, down. rewrite M, negb_orb. unfold live_of. auto.
  - rewrite Forall_forall in *. intros x Hx. apply mem_In in Hx. rewrite M, orb_true_iff, !mem_In in Hx. destruct Hx; auto.
Qed.

Lemma remove_cons pr umax fc u h c t ev rows R : nth_error (u_tabs u) c = Some t -> t_exact t rows -> t_kind t = Consistent ->
  can_write h c = true -> Forall (fun i => i < length rows) R ->
  exists t', remove_rows_with pr umax fc u h c ev (SThese R) = Ok (u_put u c t') /\ t_exact t' rows /\ t_sch t' = t_sch t /\
    (forall j, mem j (t_free t') = mem j (t_free t) || mem j R) /\
    step pr umax (Free t) (ORemoveRows false ev (SThese R)) = Ok (Free t').
Proof.
  intros Et [K F] Kd W FR. unfold remove_rows_with, u_get. rewrite Et. cbn [bind]. rewrite Kd, W. cbn [lock_ok bind].
  cbv zeta. change (w_tab (w_new t)) with t. rewrite (t_len_ok _ _ _ K).
  destruct (delete_raws_exact pr umax rows R (w_new t) (live_of t)) as (w' & Q & K' & Es & Fr & Ch & _); auto.
  rewrite Q. cbn [bind]. unfold flush_with. rewrite Ch. simpl sel_empty. cbv iota. unfold w_drop. rewrite Ch. simpl.
  rewrite andb_false_r. cbn [bind]. exists (w_tab w'). split; auto.
  split; [eapply down_exact; eauto|]. split; auto. split; auto.
  unfold step. cbn [st_tab]. rewrite Kd. cbn [avail]. unfold w_remove_rows. cbn [w_new w_tab].
  rewrite (t_len_ok _ _ _ K). cbv zeta. fold (w_new t). rewrite Q. cbn [bind]. unfold w_flush. rewrite Ch. simpl sel_empty. cbv iota.
  unfold w_drop. rewrite Ch. simpl. rewrite andb_false_r. reflexivity.
Qed.

Lemma remove_srt pr umax fc u h c t ev rows R : nth_error (u_tabs u) c = Some t -> t_exact t rows -> t_kind t = Sorted ->
  can_write h c = true -> Forall (fun i => i < length rows) R -> StronglySorted lt R ->
  exists t', remove_rows_with pr umax fc u h c ev (SThese R) = Ok (u_put u c t') /\ t_exact t' (without 0 rows R) /\ t_sch t' = t_sch t /\
    step pr umax (Free t) (ORemoveRows false ev (SThese R)) = Ok (Free t').
Proof.
  intros Et [K F] Kd W FR SR. unfold remove_rows_with, u_get. rewrite Et. cbn [bind]. rewrite Kd, W. cbn [lock_ok bind].
  assert (Nk : t_kind t <> Consistent) by congruence.
  cbv zeta. destruct (sorted_remove_rows_ok (w_new t) _ rows R K Nk) as [X _]. destruct (X SR FR) as (w' & Q & Fr & K').
  rewrite Q. cbn [bind]. pose proof (frame_kind _ _ Fr) as Fk. destruct Fr as (Fs & Fc & Fx).
  unfold flush_with. rewrite Fc. cbn [sel_empty w_new w_changes]. unfold w_drop. rewrite Fc. cbn [sel_empty w_new w_changes negb].
  rewrite andb_false_r. cbn [bind]. exists (w_tab w'). split; auto.
  assert (Ef : t_free (w_tab w') = []) by (apply (ok_free_kind _ _ _ K'); rewrite Fk; exact Nk).
  split; [split|split].
  - eapply t_ok_ext; [|exact K']. intros i _. unfold live_of. rewrite Ef. auto.
  - rewrite Ef. constructor.
  - exact Fs.
  - unfold step. cbn [st_tab]. rewrite Kd. cbn [avail]. unfold sorted_table_remove_rows. cbv zeta. rewrite Q. cbn [bind].
    unfold w_flush. rewrite Fc. cbn [sel_empty w_new w_changes]. unfold w_drop. rewrite Fc. cbn [sel_empty w_new w_changes negb].
    rewrite andb_false_r. reflexivity.
Qed.

Lemma sane_remove pr umax t R ev t' : sane pr umax (t_sch t) (Free t) ->
  step pr umax (Free t) (ORemoveRows false ev (SThese R)) = Ok (Free t') -> sane pr umax (t_sch t) (Free t').
Proof. intros S E. eapply sane_step; eauto; [exact I|]. intro H. cbn in H. discriminate. Qed.

(** ** Positions *)
Lemma without_map {A B} (f : A -> B) l ids : forall i, without i (map f l) ids = map f (without i l ids).
Proof. induction l as [|x l IH]; intro i; simpl; auto. destruct (mem i ids); simpl; rewrite IH; auto. Qed.
Lemma without_seq ids n : forall m, without m (seq m n) ids = filter (fun i => negb (mem i ids)) (seq m n).
Proof. induction n as [|n IH]; intro m; simpl; auto. rewrite IH. destruct (mem m ids); auto. Qed.
Lemma rows_seq {A} (d : A) (rows : list A) : map (fun i => nth i rows d) (seq 0 (length rows)) = rows.
Proof.
  apply list_ext. intro i. destruct (Nat.ltb_spec i (length rows)) as [L|L].
  - rewrite (map_nth_error (fun i => nth i rows d) i (seq 0 (length rows)) (d := i)).
    + symmetry. apply nth_error_nth'. auto.
    + rewrite nth_error_nth' with (d := 0) by (rewrite seq_length; auto). rewrite seq_nth; auto.
  - rewrite !(proj2 (nth_error_None _ _)); auto. rewrite map_length, seq_length. auto.
Qed.
Definition surv (n : nat) (dead : list nat) : list nat := filter (fun i => negb (mem i dead)) (seq 0 n).
Lemma without_surv {A} (d : A) rows dead : without 0 rows dead = map (fun i => nth i rows d) (surv (length rows) dead).
Proof. rewrite <- (rows_seq d rows) at 1. rewrite without_map, without_seq. reflexivity. Qed.
Lemma surv_In n dead j : In j (surv n dead) <-> j < n /\ ~ In j dead.
Proof. unfold surv. rewrite filter_In, in_seq, negb_true_iff, mem_nIn. split; intros [H1 H2]; split; auto; lia. Qed.
Lemma surv_NoDup n dead : NoDup (surv n dead).
Proof. apply NoDup_filter, seq_NoDup. Qed.

Lemma surv_length n dead : length (surv n dead) <= n.
Proof.
  unfold surv. rewrite <- (seq_length n 0) at 2. induction (seq 0 n) as [|x l IH]; simpl; auto. destruct (negb _); simpl; lia.
Qed.

Lemma without_nodup R s' : forall s, NoDup (s ++ s') -> Forall (fun i => i < length (s ++ s')) R ->
  without (length s) s' R = filter (fun x => negb (mem x (map (fun j => nth j (s ++ s') 0) R))) s'.
Proof.
  induction s' as [|x s' IH]; intros s N F; simpl; auto.
  assert (E : mem (length s) R = mem x (map (fun j => nth j (s ++ x :: s') 0) R)).
  { apply eq_true_iff_eq. rewrite !mem_In, in_map_iff. rewrite Forall_forall in F. split.
    - intro H. exists (length s). split; auto. rewrite app_nth2, Nat.sub_diag; auto.
    - intros (j & Ej & Hj). replace (length s) with j; auto.
      apply (proj1 (NoDup_nth (s ++ x :: s') 0) N); auto.
      + rewrite app_length. simpl. lia.
      + rewrite Ej, app_nth2, Nat.sub_diag; auto. }
  specialize (IH (s ++ [x])). rewrite <- !app_assoc in IH. cbn [app] in IH.
  replace (length (s ++ [x])) with (Datatypes.S (length s)) in IH by (rewrite app_length; simpl; lia).
  rewrite E, IH by auto. destruct (mem x _); auto.
Qed.
Lemma without_without {A} (d : A) (rows : list A) dead R : Forall (fun i => i < length (without 0 rows dead)) R ->
  without 0 (without 0 rows dead) R = without 0 rows (dead ++ map (fun j => nth j (surv (length rows) dead) 0) R).
Proof.
  intro F. rewrite !(without_surv d rows) in *. rewrite without_map. f_equal. rewrite map_length in F.
  pose proof (without_nodup R (surv (length rows) dead) []) as W. cbn [app length] in W.
  rewrite W by (auto using surv_NoDup). clear W. set (s := surv (length rows) dead). unfold s at 2, surv.
  unfold surv.
  induction (seq 0 (length rows)) as [|x l IH]; cbn [filter]; auto.
  assert (M : mem x (dead ++ map (fun j => nth j s 0) R) = mem x dead || mem x (map (fun j => nth j s 0) R)).
  { unfold mem. apply existsb_app. }
  rewrite M. destruct (mem x dead) eqn:E; cbn [negb orb]; [auto|]. cbn [filter]. rewrite IH.
  destruct (mem x (map _ R)); auto.
Qed.
Lemma without_nth {A} (rows : list A) dead j r : nth_error (without 0 rows dead) j = Some r ->
  let i := nth j (surv (length rows) dead) 0 in nth_error rows i = Some r /\ ~ In i dead.
Proof.
  intros H i. rewrite (without_surv r) in H. pose proof (nth_error_Some_lt _ _ _ H) as L. rewrite map_length in L.
  assert (I : In i (surv (length rows) dead)) by (apply nth_In; auto). apply surv_In in I. destruct I as [I1 I2]. split; auto.
  rewrite (map_nth_error (fun i => nth i rows r) j (surv (length rows) dead) (d := i)) in H by (apply nth_error_nth'; auto).
  rewrite (nth_error_nth' rows r I1). auto.
Qed.
Lemma without_pos {A} (rows : list A) dead i r : nth_error rows i = Some r -> ~ In i dead ->
  exists j, nth_error (without 0 rows dead) j = Some r /\ nth j (surv (length rows) dead) 0 = i.
Proof.
  intros H N. pose proof (nth_error_Some_lt _ _ _ H) as L.
  assert (I : In i (surv (length rows) dead)) by (apply surv_In; auto).
  destruct (In_nth _ _ 0 I) as (j & Lj & E). exists j. split; auto. rewrite (without_surv r).
  rewrite (map_nth_error (fun i => nth i rows r) j (surv (length rows) dead) (d := i)).
  - f_equal. apply nth_error_nth. auto.
  - rewrite (nth_error_nth' _ 0 Lj). congruence.
Qed.

(** ** The cascade *)
Definition dead_of (q : nat) (D : list (nat * nat)) : list nat := map snd (filter (fun x => fst x =? q) D).
Lemma dead_of_In q D j : In j (dead_of q D) <-> In (q, j) D.
Proof.
  unfold dead_of. rewrite in_map_iff. split.
  - intros ([a b] & E & H). simpl in E. subst. apply filter_In in H. destruct H as [H1 H2]. apply Nat.eqb_eq in H2. simpl in H2. subst. auto.
  - intro H. exists (q, j). split; auto. apply filter_In. split; auto. simpl. apply Nat.eqb_refl.
Qed.
Lemma dead_of_app q D D' : dead_of q (D ++ D') = dead_of q D ++ dead_of q D'.
Proof. unfold dead_of. rewrite filter_app, map_app. auto. Qed.
Lemma dead_of_same c R : dead_of c (map (pair c) R) = R.
Proof. unfold dead_of. induction R as [|x R IH]; simpl; auto. rewrite Nat.eqb_refl. simpl. congruence. Qed.
Lemma dead_of_other q c R : q <> c -> dead_of q (map (pair c) R) = [].
Proof. intro N. unfold dead_of. induction R as [|x R IH]; simpl; auto. destruct (Nat.eqb_spec c q); [congruence|]. auto. Qed.

(** ** Rows told to one tracker *)
Lemma combine_seq_fst {A} (l : list A) : forall s, map fst (combine (seq s (length l)) l) = seq s (length l).
Proof. induction l as [|x l IH]; intro s; simpl; auto. rewrite IH. auto. Qed.
Lemma listeners_NoDup u p ev : NoDup (map fst (listeners u p ev)).
Proof.
  unfold listeners. assert (N : NoDup (map fst (combine (seq 0 (length (u_trackers u p))) (u_trackers u p)))).
  { rewrite combine_seq_fst. apply seq_NoDup. }
  revert N. generalize (combine (seq 0 (length (u_trackers u p))) (u_trackers u p)). induction l as [|x l IH]; intro N; cbn [filter]; auto.
  inv N. assert (I : incl (map fst (filter (fun x => match snd x with TAuto _ _ _ => true | TUser _ f => f ev end) l)) (map fst l)).
  { intros y Hy. apply in_map_iff in Hy. destruct Hy as (z & <- & Hz). apply filter_In in Hz. apply in_map. tauto. }
  destruct (match snd x with TAuto _ _ _ => true | TUser _ f => f ev end); auto. cbn [map]. constructor; auto.
Qed.
Lemma heard_app q m n1 n2 : heard q m (n1 ++ n2) = heard q m n1 ++ heard q m n2.
Proof. unfold heard. rewrite filter_app, flat_map_app. auto. Qed.
Lemma heard_other q m n p : n_table n = p -> p <> q -> heard q m [n] = [].
Proof. intros E N. unfold heard. cbn [filter]. destruct (Nat.eqb_spec (n_table n) q); [congruence|]. auto. Qed.
Lemma heard_about q m notes : heard q m notes = heard q m (about q notes).
Proof.
  unfold heard, about. induction notes as [|n l IH]; cbn [filter]; auto. destruct (n_table n =? q) eqn:E; cbn [andb filter]; [|auto].
  rewrite E. cbn [andb]. destruct (n_pos n =? m); cbn [flat_map]; congruence.
Qed.
Lemma heard_told u p ev ids notes m tr : Forall2 (told u p ev (SThese ids)) (listeners u p ev) (about p notes) ->
  In (m, tr) (listeners u p ev) -> Permutation ids (heard p m notes).
Proof.
  rewrite heard_about. pose proof (listeners_NoDup u p ev) as N. revert N. generalize (listeners u p ev) (about p notes).
  intros l ns N F. revert m tr. induction F as [|x n l ns T F IH]; intros m tr Hin; [destruct Hin|].
  cbn [map] in N. inv N. destruct T as (T1 & T2 & _ & T4 & _).
  change (n :: ns) with ([n] ++ ns). rewrite heard_app.
  assert (Ot : forall m', ~ In m' (map fst l) -> heard p m' ns = []).
  { clear - F. induction F as [|x n l ns T F IH]; intros m' Hm; auto. destruct T as (T1 & T2 & _).
    change (n :: ns) with ([n] ++ ns). rewrite heard_app, IH by (intro; apply Hm; right; auto).
    unfold heard. cbn [filter]. rewrite T1, Nat.eqb_refl, T2. cbn [andb].
    destruct (Nat.eqb_spec (fst x) m'); auto. exfalso. apply Hm. left. auto. }
  unfold heard at 1. cbn [filter]. rewrite T1, Nat.eqb_refl, T2. cbn [andb]. destruct Hin as [->|Hin].
  - cbn [fst]. rewrite Nat.eqb_refl. cbn [flat_map]. rewrite Ot by auto. rewrite !app_nil_r.
    destruct (n_rows n); cbn in T4; [destruct T4|auto].
  - destruct (Nat.eqb_spec (fst x) m) as [E|E]; [|cbn [flat_map app]; apply (IH H2 m tr Hin)].
    exfalso. apply H1. rewrite E. apply (in_map fst) in Hin. exact Hin.
Qed.

Section Main.
Variables (pr : profile) (umax : nat) (rank : nat -> nat) (u0 : universe) (ev : event).
Hypothesis L0 : linked pr umax rank u0.
Hypothesis PE : plain_removal ev.
Hypothesis HD : nth_error (u_hdl u0) (ev_id ev) = Some HDelete.

Definition child_view (t0 t : table) (dead : list nat) : Prop :=
  t_sch t = t_sch t0 /\ sane pr umax (t_sch t0) (Free t) /\
  exists rows, t_exact t0 rows /\
    match t_kind t0 with
    | Consistent => t_exact t rows /\ forall j, mem j (t_free t) = mem j (t_free t0) || mem j dead
    | Sorted => t_exact t (without 0 rows dead)
    | _ => False
    end.
Definition view (u : universe) (D : list (nat * nat)) : Prop :=
  u_trk u = u_trk u0 /\ u_hdl u = u_hdl u0 /\ length (u_tabs u) = length (u_tabs u0) /\
  forall q t0, nth_error (u_tabs u0) q = Some t0 -> exists t, nth_error (u_tabs u) q = Some t /\
    (t = t0 /\ dead_of q D = [] \/ child_view t0 t (dead_of q D)).

Lemma view_init : view u0 [].
Proof. split; auto. split; auto. split; auto. intros q t0 H. exists t0. auto. Qed.
Lemma view_say u D n : view u D -> view (u_say u n) D.
Proof. auto. Qed.
Lemma view_trackers u D q : view u D -> u_trackers u q = u_trackers u0 q.
Proof. intros (H & _). unfold u_trackers. congruence. Qed.

Lemma view_put u D c t0 t' R : view u D -> nth_error (u_tabs u0) c = Some t0 ->
  child_view t0 t' (dead_of c D ++ R) -> view (u_put u c t') (D ++ map (pair c) R).
Proof.
  intros (V1 & V2 & V3 & V) H C. split; auto. split; auto. split; [simpl; rewrite upd_length; auto|].
  intros q s0 Hq. destruct (V q s0 Hq) as (s & Hs & Vs). cbn [u_put u_tabs].
  destruct (Nat.eq_dec q c) as [->|N].
  - rewrite Hq in H. inv H. exists t'. split; [apply nth_error_upd_eq; eapply nth_error_Some_lt; eauto|].
    right. rewrite dead_of_app, dead_of_same. auto.
  - exists s. rewrite nth_error_upd_ne by auto. split; auto. rewrite dead_of_app, dead_of_other, app_nil_r; auto.
Qed.

Lemma view_child u D p c k key : view u D -> In (TAuto c k key) (u_trackers u0 p) ->
  exists t0 t b, nth_error (u_tabs u0) c = Some t0 /\ nth_error (u_tabs u) c = Some t /\ child_view t0 t (dead_of c D) /\
    rank c < rank p /\ t_len t0 <= t_imax t0 /\ nth_error (s_cols (t_sch t0)) k = Some b /\
    (if key then t_kind t0 = Sorted /\ ascending_column t0 k
     else (t_kind t0 = Consistent \/ t_kind t0 = Sorted) /\ exists t, b = Indexed t).
Proof.
  intros (_ & _ & _ & V) H. destruct L0 as [L _]. destruct (L _ _ _ _ H) as (Rk & t0 & b & E & S & Le & Hb & Hk).
  destruct (V _ _ E) as (t & Et & Vt). exists t0, t, b. split; auto. split; auto. split; auto.
  destruct Vt as [[-> Ed]|Vt]; auto. rewrite Ed.
  assert (Kd : t_kind t0 = Consistent \/ t_kind t0 = Sorted) by (destruct key; tauto).
  split; auto. split; auto. destruct (sane_exact _ _ _ S) as [rows X]; [destruct Kd; congruence|].
  exists rows. split; auto. destruct Kd as [Kd|Kd]; rewrite Kd.
  - split; auto. intro j. simpl. rewrite orb_false_r. auto.
  - replace (without 0 rows []) with rows; auto. clear. generalize 0. induction rows; intro i; simpl; congruence.
Qed.

Definition closed1 (D : list (nat * nat)) (tr : tracker) (i : nat) : Prop :=
  match tr with TAuto c k _ => forall j, refers u0 c k j i -> In (c, j) D | _ => True end.
Definition closed (D : list (nat * nat)) (q i : nat) : Prop :=
  forall tr, In tr (u_trackers u0 q) -> closed1 D tr i.
Lemma closed1_incl D D' tr i : incl D D' -> closed1 D tr i -> closed1 D' tr i.
Proof. intros I. destruct tr; simpl; auto. Qed.
Lemma closed_incl D D' q i : incl D D' -> closed D q i -> closed D' q i.
Proof. intros I H tr Htr. eapply closed1_incl; eauto. Qed.

(** What one call adds to [D]. *)
Definition adds (p : nat) (ids : list nat) (u : universe) (D : list (nat * nat)) (u' : universe) (D' : list (nat * nat)) : Prop :=
  view u' D' /\ incl D D' /\ (forall q, rank p <= rank q -> nth_error (u_tabs u') q = nth_error (u_tabs u) q) /\
  (forall x, In x D' -> In x D \/ (doomed u0 p ids (fst x) (snd x) /\ closed D' (fst x) (snd x))) /\
  exists N notes, D' = D ++ N /\ u_log u' = u_log u ++ notes /\ Forall (fun x => rank (fst x) < rank p) N /\
    Forall (fun n => (n_table n = p \/ rank (n_table n) < rank p) /\ n_event n = ev /\ n_rows n <> SAll) notes /\
    forall q t0, nth_error (u_tabs u0) q = Some t0 -> t_kind t0 = Consistent ->
      (forall j, In j (dead_of q N) -> ~ In j (dead_of q D) /\ exists r, t_get_row t0 j = Ok r) /\
      (NoDup ids -> NoDup (dead_of q N)) /\
      (forall m tr, rank q < rank p -> In (m, tr) (listeners u0 q ev) -> Permutation (dead_of q N) (heard q m notes)).

Lemma adds_refl p ids u D : view u D -> adds p ids u D u D.
Proof.
  intro V. split; auto. split; [apply incl_refl|]. split; auto. split; auto. exists [], []. rewrite !app_nil_r. split; auto.
  split; auto. split; [constructor|]. split; [constructor|]. intros q t0 Hq Kq. split; [intros j []|]. split; [constructor|]. intros m tr _ _. constructor.
Qed.
Lemma adds_say p ids u D u' D' n : n_table n = p -> n_event n = ev -> n_rows n <> SAll -> adds p ids (u_say u n) D u' D' -> adds p ids u D u' D'.
Proof.
  intros Hn He Hs (V & I & N & X & M & notes & E1 & E2 & Rk & Tb & H). split; auto. split; auto. split; auto. split; auto.
  exists M, (n :: notes). split; auto. split; [rewrite E2; cbn [u_say u_log]; rewrite <- app_assoc; auto|]. split; auto. split; auto.
  intros q t0 Hq Kq. destruct (H q t0 Hq Kq) as (H1 & H2 & H3). split; auto. split; auto. intros m tr Lq Hin.
  change (n :: notes) with ([n] ++ notes). rewrite heard_app, (heard_other _ _ _ _ Hn) by (intros ->; lia). eauto.
Qed.
Lemma adds_trans p ids u D u' D' u'' D'' : adds p ids u D u' D' -> adds p ids u' D' u'' D'' -> adds p ids u D u'' D''.
Proof.
  intros (V1 & I1 & N1 & X1 & M1 & n1 & E1 & G1 & R1 & Y1 & T1) (V2 & I2 & N2 & X2 & M2 & n2 & E2 & G2 & R2 & Y2 & T2).
  split; auto. split; [eapply incl_tran; eauto|].
  split; [intros q Hq; rewrite N2, N1; auto|]. split.
  - intros x Hx. destruct (X2 x Hx) as [H|H]; auto.
    destruct (X1 x H) as [H'|[H1 H2]]; auto. right. split; auto. eapply closed_incl; eauto.
  - exists (M1 ++ M2), (n1 ++ n2). split; [rewrite E2, E1, app_assoc; auto|]. split; [rewrite G2, G1, app_assoc; auto|].
    split; [apply Forall_app; auto|]. split; [apply Forall_app; auto|]. intros q t0 Hq Kq. destruct (T1 q t0 Hq Kq) as (A1 & B1 & C1). destruct (T2 q t0 Hq Kq) as (A2 & B2 & C2).
    rewrite dead_of_app. subst D'. split; [|split].
    + intros j Hj. apply in_app_or in Hj. destruct Hj as [Hj|Hj]; auto. destruct (A2 j Hj) as [Z1 Z2]. split; auto.
      intro Z. apply Z1. rewrite dead_of_app. apply in_or_app. auto.
    + intro Nd. apply NoDup_app_disjoint; auto. intros x Hx Hx2. destruct (A2 x Hx2) as [Z1 _]. apply Z1. rewrite dead_of_app.
      apply in_or_app. auto.
    + intros m tr Lq Hin. rewrite heard_app. apply Permutation_app; eauto.
Qed.
Lemma doomed_trans p ids c R q i : (forall j, In j R -> doomed u0 p ids c j) -> doomed u0 c R q i -> doomed u0 p ids q i.
Proof. intros H D. induction D; auto. eapply doomed_dependent; eauto. Qed.

(** The specification of a call of [do_flush]. *)
Definition call_ok (fc : universe -> locks -> nat -> event -> bool -> bool -> select -> res (universe * select)) (n : nat) : Prop :=
  forall p u h D ids pushed del, rank p < n -> view u D -> Forall (fun l => rank p <= rank (fst l)) h ->
    pushed && del = false -> no_repeats u0 ids ->
    exists u' sel D', fc u h p ev pushed del (SThese ids) = Ok (u', SThese sel) /\ (sel = ids \/ sel = sort_ids ids) /\
      adds p ids u D u' D' /\ (forall i, In i ids -> closed D' p i).

(** Nothing happens without trackers. *)
Definition call_idle (fc : universe -> locks -> nat -> event -> bool -> bool -> select -> res (universe * select)) (n : nat) : Prop :=
  forall p u h D sel pushed del, rank p < n -> view u D -> u_trackers u0 p = [] -> pushed && del = false ->
    fc u h p ev pushed del sel = Ok (u, sel).

Lemma refers_of t0 c k j r i : nth_error (u_tabs u0) c = Some t0 -> t_get_row t0 j = Ok r -> nth_error r k = Some (VRow i) ->
  refers u0 c k j i.
Proof. intros A B C. exists t0, r. auto. Qed.
Lemma refers_inv t0 c k j i : nth_error (u_tabs u0) c = Some t0 -> refers u0 c k j i ->
  exists r, t_get_row t0 j = Ok r /\ nth_error r k = Some (VRow i).
Proof. intros A (t & r & B & C & E). rewrite A in B. inv B. eauto. Qed.

Lemma can_write_rank h c p : rank c < rank p -> Forall (fun l => rank p <= rank (fst l)) h -> can_write h c = true /\ can_read h c = true.
Proof.
  intros R F. rewrite Forall_forall in F. unfold can_write, can_read. rewrite !forallb_forall.
  assert (X : forall x, In x h -> (fst x =? c) = false).
  { intros x Hx. apply Nat.eqb_neq. intros <-. specialize (F _ Hx). lia. }
  split; intros x Hx; rewrite (X x Hx); auto.
Qed.

Lemma asc_without t0 t rows dead k : t_exact t0 rows -> t_exact t (without 0 rows dead) -> t_kind t0 = Sorted -> t_kind t = Sorted ->
  ascending_column t0 k -> ascending_column t k.
Proof.
  intros [K0 _] [K _] Kd0 Kd A i j r s a b Lt Hi Hj Ha Hb.
  apply (t_get_row_inv _ _ _ K) in Hi, Hj. destruct Hi as [Hi _], Hj as [Hj _].
  pose proof (nth_error_Some_lt _ _ _ Hj) as Lj. rewrite (without_surv []), map_length in Lj.
  destruct (without_nth _ _ _ _ Hi) as [Hi' _]. destruct (without_nth _ _ _ _ Hj) as [Hj' _].
  assert (D : forall x, t_is_deleted t0 x = false).
  { intro x. rewrite (t_deleted_iff _ _ _ K0). rewrite (ok_free_kind _ _ _ K0); auto. congruence. }
  apply (A (nth i (surv (length rows) dead) 0) (nth j (surv (length rows) dead) 0) r s a b); auto.
  - assert (S : StronglySorted lt (surv (length rows) dead)) by (apply ss_filter, seq_ss).
    clear - Lt Lj S. revert i j Lt Lj. induction S as [|x l S IH F]; intros i j Lt Lj; simpl in Lj; [lia|].
    destruct j; [lia|]. destruct i; simpl.
    + rewrite Forall_forall in F. apply F. apply nth_In. lia.
    + apply IH; lia.
  - apply (t_get_row_inv _ _ _ K0); auto.
  - apply (t_get_row_inv _ _ _ K0); auto.
Qed.

Lemma auto_ok fc n : call_ok fc n -> call_idle fc n -> logs rank fc -> forall p u h D c k key ids,
  rank p < S n -> view u D -> Forall (fun l => rank p <= rank (fst l)) h -> In (TAuto c k key) (u_trackers u0 p) ->
  no_repeats u0 ids -> (key = true -> StronglySorted le ids) ->
  exists u' D', auto_handle pr umax fc HDelete u h c k key ev (SThese ids) = Ok u' /\
    adds p ids u D u' D' /\ (forall i, In i ids -> closed1 D' (TAuto c k key) i).
Proof.
  intros CO CI LG p u h D c k key ids Rn V Fh Htr NR Ks.
  destruct (view_child _ _ _ _ _ _ V Htr) as (t0 & t & b & E0 & Et & (Es & St & rows & X0 & X) & Rk & Le & Hb & Hk).
  destruct (can_write_rank _ _ _ Rk Fh) as [CW CR]. destruct PE as (P1 & P2 & P3).
  assert (Kt : t_kind t = t_kind t0) by (unfold t_kind; congruence).
  assert (It : t_imax t = t_imax t0) by (unfold t_imax; congruence).
  unfold auto_handle. rewrite CR. cbn [lock_ok bind]. unfold u_get. rewrite Et. cbn [bind].
  destruct X0 as [K0 F0]. rewrite (t_len_ok _ _ _ K0) in Le.
  assert (Kd : t_kind t0 = Consistent /\ key = false \/ t_kind t0 = Sorted) by (destruct key; tauto).
  destruct Kd as [[Kd ->]|Kd]; rewrite Kd in X.
  - destruct X as [[K F] Fr]. destruct Hk as [_ [bt ->]].
    assert (Sane : sane pr umax (t_sch t) (Free t)) by (rewrite Es; auto).
    destruct (select_indexed_ok pr umax t k bt ids Sane) as (R & ER & NdR & InR); [congruence| |congruence|].
    { rewrite (t_len_ok _ _ _ K), It. auto. }
    rewrite ER. cbn [bind].
    assert (FR : Forall (fun i => i < length rows) R).
    { apply Forall_forall. intros j Hj. apply InR in Hj. destruct Hj as (r & i & Hr & _). apply (t_get_row_inv _ _ _ K) in Hr.
      destruct Hr as [Hr _]. eapply nth_error_Some_lt; eauto. }
    unfold run_with, u_get. rewrite Et. cbn [bind handle_with]. rewrite Kt, Kd. cbn [kind_eqb].
    destruct (remove_cons pr umax fc u h c t ev rows R Et (conj K F)) as (t' & Er & Xt' & Es' & Fr' & Step); auto; [congruence|].
    rewrite Er. cbn [bind]. rewrite CR. cbn [lock_ok bind].
    assert (V1 : view (u_put u c t') (D ++ map (pair c) R)).
    { apply view_put with (t0 := t0); auto. split; [congruence|]. split.
      - rewrite <- Es. apply sane_remove with (R := R) (ev := ev); auto.
      - exists rows. split; [split; auto|]. rewrite Kd. split; auto. intro j. rewrite Fr', Fr.
        unfold mem. rewrite existsb_app. rewrite orb_assoc. auto. }
    destruct (CO c (u_put u c t') ((c, false) :: h) (D ++ map (pair c) R) R (ev_creation ev) (ev_removal ev))
      as (u2 & sel & D2 & E2 & _ & (V2 & I2 & N2 & X2 & M2 & n2 & EM & EG & RM & YM & TM) & C2); auto.
    { lia. }
    { constructor; auto. eapply Forall_impl; [|exact Fh]. simpl. intros. lia. }
    { rewrite P2. auto. }
    { destruct NR as [NR|NR]; [left; auto|right; auto]. }
    rewrite E2. cbn [bind fst]. exists u2, D2. split; auto.
    assert (DR : forall j, In j R -> doomed u0 p ids c j).
    { intros j Hj. apply InR in Hj. destruct Hj as (r & i & Hr & Hkr & Hi). apply doomed_dependent with (q := p) (i := i) (k := k) (key := false); auto.
      - constructor. auto.
      - eapply refers_of; [eauto| |eauto]. apply (t_get_row_inv _ _ _ K) in Hr. destruct Hr as [Hr Dr].
        apply (t_get_row_inv _ _ _ K0). split; auto. rewrite (t_deleted_iff _ _ _ K) in Dr. rewrite (t_deleted_iff _ _ _ K0).
        rewrite Fr, orb_false_iff in Dr. tauto. }
    split; [split; [auto|split; [|split; [|split]]]|].
    + intros x Hx. apply I2, in_or_app. auto.
    + intros q Hq. rewrite N2 by lia. cbn [u_put u_tabs]. apply nth_error_upd_ne. intros ->. lia.
    + intros x Hx. destruct (X2 x Hx) as [H|[H1 H2]].
      * apply in_app_or in H. destruct H as [H|H]; auto. right. apply in_map_iff in H. destruct H as (j & <- & Hj). simpl. auto.
      * right. split; auto. eapply doomed_trans; eauto.
    + assert (RC : Forall (fun x => rank (fst x) < rank p) M2) by (eapply Forall_impl; [|exact RM]; simpl; intros; lia).
      exists (map (pair c) R ++ M2), n2. split; [rewrite EM, app_assoc; auto|]. split; [rewrite EG; auto|].
      split; [apply Forall_app; split; auto; apply Forall_forall; intros x Hx; apply in_map_iff in Hx; destruct Hx as (j & <- & _); auto|].
      split; [eapply Forall_impl; [|exact YM]; simpl; intros x (Hx & He); split; auto; right; destruct Hx as [->|Hx]; lia|].
      intros q t1 Hq Kq. destruct (TM q t1 Hq Kq) as (A2 & B2 & C2'). rewrite dead_of_app. destruct (Nat.eq_dec q c) as [->|Nq].
      * rewrite E0 in Hq. inversion Hq; subst t1. rewrite dead_of_same.
        assert (Z : dead_of c M2 = []).
        { destruct (dead_of c M2) as [|x l] eqn:Ed; auto. exfalso. assert (Hx : In x (dead_of c M2)) by (rewrite Ed; left; auto).
          apply dead_of_In in Hx. rewrite Forall_forall in RM. specialize (RM _ Hx). simpl in RM. lia. }
        rewrite Z, app_nil_r. split; [|split; [auto|]].
        { intros j Hj. apply InR in Hj. destruct Hj as (r & i & Hr & _). apply (t_get_row_inv _ _ _ K) in Hr. destruct Hr as [Hr Dr].
          rewrite (t_deleted_iff _ _ _ K), Fr in Dr. apply orb_false_iff in Dr. destruct Dr as [Dr1 Dr2]. apply mem_nIn in Dr2. split; auto.
          exists r. apply (t_get_row_inv _ _ _ K0). split; auto. rewrite (t_deleted_iff _ _ _ K0). auto. }
        intros m tr _ Hin. assert (Ac : acyclic rank (u_put u c t')).
        { intros a b0 k0 key0 Ha. rewrite (view_trackers _ _ _ V1) in Ha. apply (proj1 L0 _ _ _ _ Ha). }
        destruct (LG _ _ _ _ _ _ _ _ _ Ac E2) as (_ & n3 & S3 & _ & T3). unfold since_log in S3. rewrite EG in S3. cbn [u_put u_log] in S3.
        apply app_inv_head in S3. subst n3. unfold listeners in T3, Hin. rewrite <- (view_trackers _ _ c V1) in Hin.
        exact (heard_told _ _ _ _ _ _ _ T3 Hin).
      * rewrite (dead_of_other q c R Nq). cbn [app]. split; [|split].
        { intros j Hj. destruct (A2 j Hj) as [Z1 Z2]. split; auto. intro Z. apply Z1. rewrite dead_of_app. apply in_or_app. auto. }
        { intro Nd. apply B2. auto. }
        intros m tr Lq Hin. destruct (Nat.lt_ge_cases (rank q) (rank c)) as [Lc|Lc]; [eauto|].
        assert (Z : dead_of q M2 = []).
        { destruct (dead_of q M2) as [|x l] eqn:Ed; auto. exfalso. assert (Hx : In x (dead_of q M2)) by (rewrite Ed; left; auto).
          apply dead_of_In in Hx. rewrite Forall_forall in RM. specialize (RM _ Hx). simpl in RM. lia. }
        rewrite Z. replace (heard q m n2) with (@nil nat); [constructor|].
        rewrite heard_about. replace (about q n2) with (@nil note); auto. clear - YM Lc Nq. symmetry. unfold about.
        induction YM as [|x l Hx YM IH]; auto. cbn [filter]. destruct (Nat.eqb_spec (n_table x) q) as [E|E]; auto. exfalso.
        rewrite E in Hx. destruct Hx as [[Hx|Hx] _]; [auto|lia].
    + intros i Hi j Hr. destruct (refers_inv _ _ _ _ _ E0 Hr) as (r & Hr' & Hkr).
      apply I2, in_or_app. destruct (mem j (dead_of c D)) eqn:M; [left; apply dead_of_In, mem_In; auto|right].
      apply in_map. apply InR. exists r, i. split; auto. apply (t_get_row_inv _ _ _ K0) in Hr'. destruct Hr' as [Hr' Dr].
      apply (t_get_row_inv _ _ _ K). split; auto. rewrite (t_deleted_iff _ _ _ K), Fr, M, orb_false_r, <- (t_deleted_iff _ _ _ K0). auto.
  - destruct X as [K F]. set (dead := dead_of c D) in *.
    assert (Lw : length (without 0 rows dead) <= t_imax t).
    { rewrite It. eapply Nat.le_trans; [|exact Le]. rewrite (without_surv []), map_length. apply surv_length. }
    assert (Del : forall x, t_is_deleted t x = false).
    { intro x. rewrite (t_deleted_iff _ _ _ K), (ok_free_kind _ _ _ K); auto. congruence. }
    assert (Del0 : forall x, t_is_deleted t0 x = false).
    { intro x. rewrite (t_deleted_iff _ _ _ K0), (ok_free_kind _ _ _ K0); auto. congruence. }
    assert (Sel : exists R, (if key then select_sorted pr t k (SThese ids) else select_indexed t k (SThese ids)) = Ok (SThese R) /\
        NoDup R /\ forall j, In j R <-> exists r i, nth_error (without 0 rows dead) j = Some r /\ nth_error r k = Some (VRow i) /\ In i ids).
    { destruct key.
      - destruct (select_sorted_ok pr t (without 0 rows dead) k b ids) as (R & ER & SR & IR); auto; try congruence.
        + split; auto.
        + exact (asc_without t0 t rows dead k (conj K0 F0) (conj K F) Kd (eq_trans Kt Kd) (proj2 Hk)).
        + exists R. split; auto. split; auto. apply sorted_lt_NoDup. auto.
      - destruct Hk as [_ [bt ->]]. assert (Sane : sane pr umax (t_sch t) (Free t)) by (rewrite Es; auto).
        destruct (select_indexed_ok pr umax t k bt ids Sane) as (R & ER & NdR & InR); [congruence| |congruence|].
        { rewrite (t_len_ok _ _ _ K). auto. }
        exists R. split; auto. split.
        + destruct NR as [NR|NR]; auto. exfalso. apply (NR _ _ _ _ Htr E0). auto.
        + intro j. rewrite InR. split; intros (r & i & Hr & Hx); exists r, i; split; auto; apply (t_get_row_inv _ _ _ K); auto. }
    destruct Sel as (R & ER & NdR & InR). 
    replace (if key then select_sorted pr t k (SThese ids) else select_indexed t k (SThese ids)) with (Ok (SThese R) : res select).
    cbn [bind]. unfold run_with, u_get. rewrite Et. cbn [bind handle_with]. rewrite Kt, Kd. cbn [kind_eqb sel_sort].
    pose proof (sort_ids_NoDup_lt R NdR) as SR.
    assert (FR : Forall (fun i => i < length (without 0 rows dead)) (sort_ids R)).
    { apply Forall_forall. intros j Hj. apply (proj1 (sort_ids_In _ _)) in Hj. apply InR in Hj. destruct Hj as (r & i & Hr & _).
      eapply nth_error_Some_lt; eauto. }
    destruct (remove_srt pr umax fc u h c t ev (without 0 rows dead) (sort_ids R) Et (conj K F)) as (t' & Er & Xt' & Es' & Step); auto; [congruence|].
    rewrite Er. cbn [bind]. rewrite CR. cbn [lock_ok bind].
    rewrite (without_without [] rows dead (sort_ids R) FR) in Xt'.
    set (R0 := map (fun j => nth j (surv (length rows) dead) 0) (sort_ids R)) in *.
    assert (V1 : view (u_put u c t') (D ++ map (pair c) R0)).
    { apply view_put with (t0 := t0); auto. split; [congruence|]. split.
      - rewrite <- Es. apply sane_remove with (R := sort_ids R) (ev := ev); auto. rewrite Es; auto.
      - exists rows. split; [split; auto|]. rewrite Kd. auto. }
    assert (Tr0 : u_trackers u0 c = []) by (destruct L0 as [_ L2]; apply (L2 _ _ E0); congruence).
    rewrite (CI c _ _ _ _ _ _ ltac:(lia) V1 Tr0) by (rewrite P2; auto).
    cbn [bind fst]. exists (u_put u c t'), (D ++ map (pair c) R0). split; auto.
    split; [split; [auto|split; [|split; [|split]]]|].
    + intros x Hx. apply in_or_app. auto.
    + intros q Hq. cbn [u_put u_tabs]. apply nth_error_upd_ne. intros ->. lia.
    + intros x Hx. apply in_app_or in Hx. destruct Hx as [H|H]; auto. right. apply in_map_iff in H. destruct H as (j & <- & Hj).
      cbn [fst snd]. split.
      * unfold R0 in Hj. apply in_map_iff in Hj. destruct Hj as (j0 & <- & Hj0). apply (proj1 (sort_ids_In _ _)) in Hj0. apply InR in Hj0.
        destruct Hj0 as (r & i & Hr & Hkr & Hi).
        apply doomed_dependent with (q := p) (i := i) (k := k) (key := key); auto; [constructor; auto|].
        eapply refers_of; [eauto| |eauto]. apply (t_get_row_inv _ _ _ K0). split; auto. apply without_nth in Hr. tauto.
      * intros tr Htr'. rewrite Tr0 in Htr'. destruct Htr'.
    + exists (map (pair c) R0), []. split; auto. split; [cbn [u_put u_log]; rewrite app_nil_r; auto|].
      split; [apply Forall_forall; intros x Hx; apply in_map_iff in Hx; destruct Hx as (j & <- & _); auto|]. split; [constructor|].
      intros q t1 Hq Kq. assert (Nq : q <> c) by (intros ->; rewrite E0 in Hq; inversion Hq; subst; congruence).
      rewrite (dead_of_other q c R0 Nq). split; [intros j []|]. split; [constructor|]. intros. constructor.
    + intros i Hi j Hr. destruct (refers_inv _ _ _ _ _ E0 Hr) as (r & Hr' & Hkr).
      apply in_or_app. destruct (mem j dead) eqn:M; [left; apply dead_of_In, mem_In; auto|right].
      apply in_map. apply (t_get_row_inv _ _ _ K0) in Hr'. destruct Hr' as [Hr' _]. apply mem_nIn in M.
      destruct (without_pos _ _ _ _ Hr' M) as (j' & Hj' & <-). unfold R0. 
      apply (in_map (fun j => nth j (surv (length rows) dead) 0)). apply sort_ids_In. apply InR. exists r, i. auto.
Qed.

Lemma sort_repeats ids : no_repeats u0 ids -> no_repeats u0 (sort_ids ids).
Proof. intros [H|H]; [left|right; auto]. eapply Permutation_NoDup; [apply sort_ids_perm|auto]. Qed.
Lemma doomed_ext p ids ids' q i : incl ids ids' -> doomed u0 p ids q i -> doomed u0 p ids' q i.
Proof. intros H D. induction D; [constructor; auto|eapply doomed_dependent; eauto]. Qed.
Lemma adds_ext p ids ids' u D u' D' : Permutation ids ids' -> adds p ids u D u' D' -> adds p ids' u D u' D'.
Proof.
  intros P (V & I & N & X & M & notes & E1 & E2 & Rk & Tb & H).
  assert (Hi : incl ids ids') by (intros i Hi; eapply Permutation_in; eauto).
  split; auto. split; auto. split; auto. split.
  - intros x Hx. destruct (X x Hx) as [?|[? ?]]; auto. right. split; auto. eapply doomed_ext; eauto.
  - exists M, notes. split; auto. split; auto. split; auto. split; auto. intros q t0 Hq Kq. destruct (H q t0 Hq Kq) as (H1 & H2 & H3).
    split; auto. split; auto. intro Nd. apply H2. eapply Permutation_NoDup; [apply Permutation_sym; exact P|auto].
Qed.

Lemma loop_ok fc n : call_ok fc n -> call_idle fc n -> logs rank fc -> forall p h ids, rank p < S n -> Forall (fun l => rank p <= rank (fst l)) h ->
  no_repeats u0 ids -> forall l u D b, view u D -> (forall x, In x l -> In (snd x) (u_trackers u0 p)) ->
  exists u' b' D', fold_res (tracker_turn pr umax fc HDelete h p ev) l (u, SThese (if b : bool then sort_ids ids else ids), b) =
      Ok (u', SThese (if b' : bool then sort_ids ids else ids), b') /\
    adds p ids u D u' D' /\ (forall x, In x l -> forall i, In i ids -> closed1 D' (snd x) i).
Proof.
  intros CO CI LG p h ids Rn Fh NR. induction l as [|[m tr] l IH]; intros u D b V Hl; cbn [fold_res].
  - exists u, b, D. split; auto. split; [apply adds_refl; auto|]. intros x [].
  - assert (Htr : In tr (u_trackers u0 p)) by (apply (Hl (m, tr)); left; auto).
    assert (Hl' : forall x, In x l -> In (snd x) (u_trackers u0 p)) by (intros; apply Hl; right; auto).
    unfold tracker_turn at 1. cbn [fst snd]. destruct tr as [c k key|srt cons].
    + cbn [tracker_considers]. set (now := negb b && tracker_sorts u (TAuto c k key)).
      assert (Es : (if now then sel_sort (SThese (if b then sort_ids ids else ids)) else SThese (if b then sort_ids ids else ids)) =
                   SThese (if b || now then sort_ids ids else ids)).
      { unfold now. destruct b; cbn [negb andb orb]; auto. destruct (tracker_sorts _ _); auto. }
      rewrite Es. set (b' := b || now).
      assert (NR' : no_repeats u0 (if b' then sort_ids ids else ids)) by (destruct b'; auto using sort_repeats).
      assert (In' : forall i, In i (if b' then sort_ids ids else ids) <-> In i ids) by (intro i; destruct b'; [apply sort_ids_In|tauto]).
      destruct (auto_ok fc n CO CI LG p (u_say u (Note p m ev (SThese (if b' then sort_ids ids else ids)))) h D c k key
        (if b' then sort_ids ids else ids)) as (u1 & D1 & E1 & A1 & C1); auto.
      { intros ->. replace b' with true; [apply sort_ids_sorted|]. symmetry. unfold b', now. destruct b; auto. cbn [negb andb orb].
        destruct (view_child _ _ _ _ _ _ V Htr) as (t0 & t & bb & E0 & Et & (Es' & _) & _ & _ & _ & Kd & _).
        unfold tracker_sorts. rewrite Et. unfold t_kind in *. rewrite Es', Kd. auto. }
      rewrite E1. cbn [bind].
      assert (A1' : adds p ids u D u1 D1) by (eapply adds_say; [| | |eapply adds_ext; [|exact A1]]; [reflexivity|reflexivity|discriminate|]; destruct b'; [apply Permutation_sym, sort_ids_perm|auto]).
      destruct (IH u1 D1 b') as (u2 & b2 & D2 & E2 & A2 & C2); auto; [apply A1|].
      exists u2, b2, D2. split; auto. split; [eapply adds_trans; eauto|].
      intros x [<-|Hx] i Hi; [|apply C2; auto]. cbn [snd]. eapply closed1_incl; [apply A2|]. apply C1. apply In'. auto.
    + cbn [tracker_considers]. destruct (cons ev).
      * cbn [tracker_sorts]. set (now := negb b && srt).
        assert (Es : (if now then sel_sort (SThese (if b then sort_ids ids else ids)) else SThese (if b then sort_ids ids else ids)) =
                     SThese (if b || now then sort_ids ids else ids)).
        { unfold now. destruct b; cbn [negb andb orb]; auto. destruct srt; auto. }
        rewrite Es. cbn [bind].
        destruct (IH (u_say u (Note p m ev (SThese (if b || now then sort_ids ids else ids)))) D (b || now)) as (u2 & b2 & D2 & E2 & A2 & C2); auto.
        exists u2, b2, D2. split; auto. split; [eapply adds_say; [| | |exact A2]; [reflexivity|reflexivity|discriminate]|]. intros x [<-|Hx] i Hi; [exact I|apply C2; auto].
      * cbn [bind]. destruct (IH u D b) as (u2 & b2 & D2 & E2 & A2 & C2); auto.
        exists u2, b2, D2. split; auto. split; auto. intros x [<-|Hx] i Hi; [exact I|apply C2; auto].
Qed.

Lemma do_flush_start n u D h p pushed del sel : view u D -> pushed && del = false ->
  do_flush pr umax (S n) u h p ev pushed del sel =
  (let* s := fold_res (tracker_turn pr umax (do_flush pr umax n) HDelete h p ev)
      (combine (seq 0 (length (u_trackers u0 p))) (u_trackers u0 p)) (u, sel, match sel with SAll => true | _ => false end) in Ok (fst s)).
Proof.
  intros V PD. cbn [do_flush]. destruct PE as (P1 & P2 & P3). rewrite PD, P2, andb_false_r. cbn [orb negb assert_ bind].
  unfold handlers_get. rewrite (proj1 (proj2 V)), HD. cbn [bind]. rewrite (view_trackers _ _ p V). reflexivity.
Qed.

Lemma do_flush_ok n : call_ok (do_flush pr umax n) n /\ call_idle (do_flush pr umax n) n.
Proof.
  induction n as [|n [IH1 IH2]].
  - split.
    + intros p u h D ids pushed del H. lia.
    + intros p u h D sel pushed del H. lia.
  - split.
    + intros p u h D ids pushed del Rn V Fh PD NR. rewrite (do_flush_start _ _ _ _ _ _ _ _ V PD).
      destruct (loop_ok _ n IH1 IH2 (do_flush_log pr umax rank n) p h ids Rn Fh NR (combine (seq 0 (length (u_trackers u0 p))) (u_trackers u0 p)) u D false V)
        as (u' & b' & D' & E & A & C).
      { intros [a x] Hx. apply in_combine_r in Hx. auto. }
      rewrite E. cbn [bind fst]. exists u', (if b' then sort_ids ids else ids), D'. split; auto. split; [destruct b'; auto|].
      split; auto. intros i Hi tr Htr. destruct (In_nth_error _ _ Htr) as [m Hm].
      apply (C (m, tr)); auto. pose proof (nth_error_Some_lt _ _ _ Hm) as Lm. apply nth_error_In with (n := m).
      clear - Hm. assert (G : forall (l : list tracker) s m, nth_error l m = Some tr -> nth_error (combine (seq s (length l)) l) m = Some (s + m, tr)).
      { induction l as [|x l IH]; intros s [|m'] H; try discriminate; simpl in *.
        - inv H. rewrite Nat.add_0_r. auto.
        - rewrite IH by auto. f_equal. f_equal. lia. }
      rewrite (G _ 0 m Hm). auto.
    + intros p u h D sel pushed del Rn V Tr PD. rewrite (do_flush_start _ _ _ _ _ _ _ _ V PD), Tr. reflexivity.
Qed.
End Main.
